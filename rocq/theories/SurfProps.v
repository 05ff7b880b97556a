(** C37, C38, C51, C53: frames, reflection and refraction, geometry term, warps. *)
From Coq Require Import Reals ZArith Bool Lra Lia Psatz List.
From Verif Require Import Base RBase VecBase GeoModel SurfModel SurfSpec SurfProofs SurfWarpProofs.
Import ListNotations.
Open Scope R_scope.

(** ** C37 *)
(** The two tangents and the normal are a right-handed orthonormal frame, for every unit normal and
    either sign of a zero z component. *)
Theorem C37_frame : forall neg0 n, unit n -> let '(u, v) := orthonormal_basis neg0 n in frame u v n.
Proof. intros neg0 n H. pose proof (basis_frame neg0 n H). destruct (orthonormal_basis neg0 n). exact H0. Qed.
Print Assumptions C37_frame.

(** To local coordinates and back is the identity, in both orders; the local coordinates are the
    components along the frame. *)
Theorem C37_round_trip : forall neg0 p n gn w, unit n -> let s := make_on_surface neg0 p n gn in
  mmul (to_world s) (mmul (to_local s) w) = w /\ mmul (to_local s) (mmul (to_world s) w) = w
  /\ mmul (to_local s) w = V3 (dot (su s) w) (dot (sv s) w) (dot n w) /\ frame (su s) (sv s) n.
Proof.
  intros neg0 p n gn w H s. split; [apply to_world_local; auto|]. split; [apply to_local_world; auto|].
  destruct (surface_frame neg0 p n gn H) as [F E]. fold s in F, E. pose proof (local_comp neg0 p n gn w) as L. cbn zeta in L. fold s in L. rewrite E in *. auto.
Qed.
Print Assumptions C37_round_trip.

(** The two-sided frame is right-handed, its normal is the normal or its opposite, and it faces wi. *)
Theorem C37_twosided : forall neg0 p n gn wi, unit n ->
  let '(m, u, v) := basis_twosided (make_on_surface neg0 p n gn) wi in
  frame u v m /\ 0 <= dot wi m /\ (m = n \/ m = vneg n) /\ (dot wi n <> 0 -> 0 < dot wi m).
Proof. exact twosided_ok. Qed.
Print Assumptions C37_twosided.

(** At the sign switch, and at the pole where a naive construction divides by zero. *)
Example C37_ex : unit (V3 1 0 0) /\ unit (V3 0 0 (-1))
  /\ orthonormal_basis true (V3 1 0 0) = (V3 0 0 1, V3 0 (-1) 0)
  /\ orthonormal_basis false (V3 1 0 0) = (V3 0 0 (-1), V3 0 1 0)
  /\ orthonormal_basis false (V3 0 0 (-1)) = (V3 1 0 0, V3 0 (-1) 0)
  /\ basis_twosided (make_on_surface false v0 (V3 0 0 (-1)) v0) (V3 0 0 1) = (V3 0 0 1, V3 1 0 0, V3 0 1 0).
Proof.
  assert (E0 : forall b, copysign1 b 0 = if b then -1 else 1) by (intros b; unfold copysign1; destruct (Rlt_dec 0 0); lra || reflexivity).
  assert (E1 : forall b, copysign1 b (-1) = -1) by (intros b; unfold copysign1; destruct (Rlt_dec (-1) 0); lra || reflexivity).
  assert (B : orthonormal_basis false (V3 0 0 (-1)) = (V3 1 0 0, V3 0 (-1) 0)).
  { unfold orthonormal_basis. cbn [vx vy vz]. rewrite E1. f_equal; apply vec3_eq; cbn; field. }
  split; [unfold unit, dot; cbn; lra|]. split; [unfold unit, dot; cbn; lra|].
  split; [unfold orthonormal_basis; cbn [vx vy vz]; rewrite E0; f_equal; apply vec3_eq; cbn; field|].
  split; [unfold orthonormal_basis; cbn [vx vy vz]; rewrite E0; f_equal; apply vec3_eq; cbn; field|].
  split; [exact B|]. unfold make_on_surface. rewrite B. unfold basis_twosided. cbn [sn su sv].
  destruct (Rlt_dec 0 (dot (V3 0 0 1) (V3 0 0 (-1)))) as [L|L]; [unfold dot in L; cbn in L; lra|].
  f_equal; [f_equal|]; unfold vneg; apply vec3_eq; cbn; lra.
Qed.

(** ** C38 *)
(** Reflection: an involution that keeps the length and the cosine to the normal and turns the part
    along the surface round. *)
Theorem C38_reflection : forall w n, unit n ->
  reflection (reflection w n) n = w /\ dot (reflection w n) (reflection w n) = dot w w
  /\ dot (reflection w n) n = dot w n /\ tangential (reflection w n) n = vneg (tangential w n).
Proof.
  intros w n H. split; [apply reflection_invol; auto|]. split; [apply reflection_len; auto|]. split; [apply dot_reflection; auto|apply reflection_tangential; auto].
Qed.
Print Assumptions C38_reflection.

(** Refraction returns exactly the direction of Snell's law: a unit vector behind the surface. *)
Theorem C38_refraction : forall wi n eta wt, unit wi -> unit n -> (refraction wi n eta = Some wt <-> snell wi n eta wt).
Proof. intros wi n eta wt Hi Hn. split; [apply refraction_snell|apply snell_unique]; auto. Qed.
Print Assumptions C38_refraction.

(** Total internal reflection is reported exactly when Snell's law has no solution behind the surface. *)
Theorem C38_total : forall wi n eta, unit wi -> unit n -> (refraction wi n eta = None <-> ~ exists wt, snell wi n eta wt).
Proof.
  intros wi n eta Hi Hn. split.
  - intros E (wt & S). apply snell_unique in S; auto. congruence.
  - intros H. destruct (refraction wi n eta) as [wt|] eqn:E; auto. exfalso. apply H. exists wt. apply refraction_snell; auto.
Qed.
Print Assumptions C38_total.

(** In terms of angles: the sine of the refracted direction is eta times the sine of the incident one,
    and there is total internal reflection exactly from eta sin = 1 on. *)
Theorem C38_sines : forall wi n eta, unit wi -> unit n -> 0 <= eta ->
  (forall wt, refraction wi n eta = Some wt -> vlen (tangential wt n) = eta * vlen (tangential wi n))
  /\ (refraction wi n eta = None <-> 1 <= eta * vlen (tangential wi n)).
Proof.
  intros wi n eta Hi Hn He. split.
  - intros wt E. destruct (refraction_snell _ _ _ _ Hi Hn E) as (_ & _ & T). rewrite T, vlen_scale, Rabs_Ropp, Rabs_right by lra. reflexivity.
  - pose proof (tangential_len wi n Hn) as TL. unfold unit in Hi. rewrite Hi in TL. pose proof (vlen_sq (tangential wi n)) as V. rewrite TL in V.
    pose proof (vlen_nonneg (tangential wi n)) as V0. set (l := vlen (tangential wi n)) in *. unfold refraction. cbn zeta.
    assert (Q : eta * eta * (1 - dot wi n * dot wi n) = (eta * l) * (eta * l)) by (rewrite <- V; ring). rewrite Q. assert (0 <= eta * l) by (apply Rmult_le_pos; auto).
    destruct (Rle_dec _ 0) as [L|L]; split; intros; auto; try discriminate; exfalso + idtac; nra.
Qed.
Print Assumptions C38_sines.

Example C38_ex : let wi := V3 (3/5) 0 (4/5) in let n := V3 0 0 1 in
  unit wi /\ unit n /\ refraction wi n (4/3) = Some (V3 (-4/5) 0 (-3/5)) /\ refraction wi n 2 = None.
Proof.
  cbn zeta. split; [unfold unit, dot; cbn; lra|]. split; [unfold unit, dot; cbn; lra|]. split.
  - unfold refraction, dot. cbn [vx vy vz]. cbn zeta. destruct (Rle_dec _ 0); [lra|]. rewrite safe_sqrt_sqrt.
    replace (1 - _) with ((3/5) * (3/5)) by field. rewrite sqrt_square by lra. f_equal. vcomp; field.
  - unfold refraction, dot. cbn [vx vy vz]. cbn zeta. destruct (Rle_dec _ 0); [reflexivity|lra].
Qed.

(** ** C51 *)
Theorem C51_geometry_term : forall s1 s2,
  geometry_term s1 s2 = geometry_term s2 s1
  /\ (forall g, geometry_term s1 s2 = Some g -> 0 <= g)
  /\ (geometry_term s1 s2 = None <-> (forall w, s1 <> Infinite w) /\ (forall w, s2 <> Infinite w) /\ pos_of s1 = pos_of s2).
Proof. intros s1 s2. split; [apply geometry_term_sym|]. split; [apply geometry_term_nonneg|apply geometry_term_def]. Qed.
Print Assumptions C51_geometry_term.

(** Its value for two points on surfaces, with [l] the distance and [d] the unit direction. *)
Theorem C51_geometry_value : forall x y d l, 0 < l -> unit d -> vsub (sp y) (sp x) = vscale l d ->
  geometry_term (OnSurface x) (OnSurface y) = Some (Rabs (dot (sn x) d) * Rabs (dot (sn y) d) / (l * l)).
Proof.
  intros x y d l L U E. cbn [geometry_term pos_of]. cbn zeta. rewrite E.
  assert (Q : dot (vscale l d) (vscale l d) = l * l) by (transitivity (l * l * dot d d); [clear; vring|rewrite U; ring]).
  rewrite Q, sqrt_square by lra. rewrite fdiv_ok by lra. rewrite fdiv_ok by nra.
  assert (D : vscale (1 / l) (vscale l d) = d) by (destruct d; apply vec3_eq; cbn; field; lra). rewrite D.
  rewrite cos_at_neg. cbn [cos_at]. reflexivity.
Qed.
Print Assumptions C51_geometry_value.

(** Multiplying a converted density by the cosine gives the density back; a grazing direction gets
    density zero. Points at infinity are excluded. *)
Theorem C51_convert_partial : forall pdf g d, (forall w, g <> Infinite w) -> exists q, convert_projSA pdf g d = Some q
  /\ (cos_at g d <> 0 -> q * cos_at g d = pdf) /\ (cos_at g d = 0 -> q = 0).
Proof.
  intros pdf [s|p|w] d H; [| |exfalso; eapply H; reflexivity]; cbn [convert_projSA cos_at].
  - destruct (Req_EM_T _ 0) as [E|E]; eexists; (split; [reflexivity|]); split; intros; try lra. field. lra.
  - eexists. split; [reflexivity|]. split; intros; lra.
Qed.
Print Assumptions C51_convert_partial.

(** The conversion at a point at infinity reads a normal that was never set. *)
Theorem C51_convert_refuted : ~ (forall pdf g d, exists q, convert_projSA pdf g d = Some q).
Proof. intros H. destruct (H 1 (Infinite v0) v0) as (q & E). discriminate. Qed.
Print Assumptions C51_convert_refuted.

(** The density over area is the density over projected solid angle times the geometry term. *)
Theorem C51_convert_area : forall pdf x y d l, 0 < l -> unit d -> vsub (sp y) (sp x) = vscale l d ->
  convert_to_area pdf (OnSurface x) (OnSurface y) = Some (pdf * (Rabs (dot (sn x) d) * Rabs (dot (sn y) d) / (l * l))).
Proof. intros. unfold convert_to_area. erewrite C51_geometry_value; eauto. Qed.
Print Assumptions C51_convert_area.

(** [agree] holds when the geometric and the shading normal see [w] from the same side. *)
Definition agree (n gn w : vec3) : Prop := 0 < dot w gn * dot w n.

(** The correction of light transport is that of importance transport with the two directions'
    ratio of cosines exchanged; exchanging the directions inverts it. Both vanish together. *)
Theorem C51_correction : forall neg0 p n gn wi wo, let s := make_on_surface neg0 p n gn in
  (agree n gn wi -> agree n gn wo ->
     shading_normal_correction s wi wo EL = 1 /\ 0 < shading_normal_correction s wi wo LE
     /\ shading_normal_correction s wi wo LE * (Rabs (dot wo n) * Rabs (dot wi gn)) = shading_normal_correction s wi wo EL * (Rabs (dot wi n) * Rabs (dot wo gn))
     /\ shading_normal_correction s wi wo LE * shading_normal_correction s wo wi LE = 1)
  /\ (~ (agree n gn wi /\ agree n gn wo) -> forall d, shading_normal_correction s wi wo d = 0 /\ shading_normal_correction s wo wi d = 0).
Proof.
  intros neg0 p n gn wi wo s. unfold s, agree. clear s. split; [|intros N t; revert N]; rewrite !correction_form;
    generalize (dot wi gn) (dot wi n) (dot wo gn) (dot wo n); intros a b c d.
  - intros H K. destruct (Rle_dec (a * b) 0); [lra|]. destruct (Rle_dec (c * d) 0); [lra|].
    assert (a <> 0 /\ b <> 0 /\ c <> 0 /\ d <> 0) as (A & B & C & D) by (repeat split; intros ->; lra).
    assert (N : d * a <> 0) by (apply Rmult_integral_contrapositive; auto).
    assert (P : 0 < b * c * (d * a)) by (replace (b * c * (d * a)) with ((a * b) * (c * d)) by ring; apply Rmult_lt_0_compat; auto).
    assert (Q : 0 < b * c / (d * a)).
    { replace (b * c / (d * a)) with (b * c * (d * a) / ((d * a) * (d * a))) by (field; auto). apply Rdiv_lt_0_compat; auto. destruct (Rtotal_order (d * a) 0) as [?|[?|?]]; [nra|lra|nra]. }
    split; [reflexivity|]. split; [exact Q|]. split.
    + rewrite <- !Rabs_mult, Rmult_1_l. rewrite <- (Rabs_right (b * c / (d * a))) at 1 by lra. rewrite <- Rabs_mult. f_equal. field. auto.
    + field. auto.
  - intros N. destruct (Rle_dec (a * b) 0), (Rle_dec (c * d) 0); try (split; reflexivity). exfalso. apply N. split; apply Rnot_le_lt; assumption.
Qed.
Print Assumptions C51_correction.

Example C51_ex : agree (V3 0 0 1) (V3 (3/5) 0 (4/5)) (V3 0 0 1) /\ agree (V3 0 0 1) (V3 (3/5) 0 (4/5)) (V3 (4/5) 0 (3/5))
  /\ shading_normal_correction (make_on_surface false v0 (V3 0 0 1) (V3 (3/5) 0 (4/5))) (V3 0 0 1) (V3 (4/5) 0 (3/5)) LE = 2
  /\ geometry_term (OnSurface (make_on_surface false v0 (V3 0 0 1) (V3 0 0 1))) (OnSurface (make_on_surface false (V3 0 0 2) (V3 (3/5) 0 (4/5)) (V3 0 0 1))) = Some (1/5).
Proof.
  split; [unfold agree, dot; cbn; lra|]. split; [unfold agree, dot; cbn; lra|]. split.
  - rewrite correction_form. unfold dot. cbn [vx vy vz]. destruct (Rle_dec _ 0); [lra|]. destruct (Rle_dec _ 0); [lra|]. field.
  - assert (S : forall p n gn, sp (make_on_surface false p n gn) = p /\ sn (make_on_surface false p n gn) = n) by (intros p n gn; unfold make_on_surface; destruct (orthonormal_basis false n); auto).
    rewrite (C51_geometry_value _ _ (V3 0 0 1) 2); [|lra|unfold unit, dot; cbn; lra|].
    + rewrite !(proj2 (S _ _ _)). unfold dot. cbn [vx vy vz]. f_equal. rewrite !Rabs_right by lra. field.
    + rewrite !(proj1 (S _ _ _)). vcomp; ring.
Qed.

(** ** C53 *)
(** All warped samples are in the domain. *)
Theorem C53_domains : forall u, in_square u ->
  (let p := sample_uniform_disk u in v2x p * v2x p + v2y p * v2y p <= 1)
  /\ unit (sample_cosine_weighted u) /\ 0 <= vz (sample_cosine_weighted u)
  /\ unit (sample_uniform_sphere u)
  /\ (forall a b c, in_triangle a b c (sample_triangle a b c u)).
Proof.
  intros u H. split; [pose proof (disk_in u H) as D; cbn zeta in *; rewrite D; destruct H as [[? ?] _]; auto|].
  destruct (cosine_unit u H) as (U & Z & _). split; [auto|]. split; [auto|]. split; [apply sphere_unit, H|]. intros. apply triangle_in, H.
Qed.
Print Assumptions C53_domains.

(** The warps are one-to-one from the square (up to edges) onto the domain (up to a set of measure zero)
    and scale area everywhere by the inverse of the reported density. *)
Theorem C53_disk : one_to_one_onto interior sample_uniform_disk open_disk
  /\ forall u, interior u -> plane_area_element sample_uniform_disk u (/ pdf_uniform_disk).
Proof.
  split; [exact disk_bij|]. intros u H. unfold pdf_uniform_disk. replace (/ (1 / PI)) with PI; [apply disk_area, H|]. field. apply PI_neq0.
Qed.
Print Assumptions C53_disk.

(** The density of the cosine-weighted warp is with respect to projected solid angle, that is the area
    of the projection of the hemisphere to the plane. *)
Theorem C53_hemisphere : one_to_one_onto interior sample_cosine_weighted open_hemisphere
  /\ forall u, interior u -> plane_area_element (fun u => V2 (vx (sample_cosine_weighted u)) (vy (sample_cosine_weighted u))) u (/ pdf_cosine_weighted_projSA).
Proof.
  split; [exact cosine_bij|]. intros u H. unfold pdf_cosine_weighted_projSA. replace (/ (1 / PI)) with PI; [apply (disk_area u H)|]. field. apply PI_neq0.
Qed.
Print Assumptions C53_hemisphere.

Theorem C53_sphere : one_to_one_onto interior sample_uniform_sphere open_sphere
  /\ forall u, interior u -> area_element sample_uniform_sphere u (/ pdf_uniform_sphere).
Proof.
  split; [exact sphere_bij|]. intros u H. unfold pdf_uniform_sphere. replace (/ (1 / (4 * PI))) with (4 * PI); [apply sphere_area, H|]. field. apply PI_neq0.
Qed.
Print Assumptions C53_sphere.

Theorem C53_triangle : forall a b c, cross (vsub b a) (vsub c a) <> v0 ->
  one_to_one_onto interior (sample_triangle a b c) (open_triangle a b c)
  /\ forall u, interior u -> area_element (sample_triangle a b c) u (triangle_area a b c).
Proof. intros a b c H. split; [apply triangle_bij, H|]. intros u Hu. apply triangle_area_element, Hu. Qed.
Print Assumptions C53_triangle.

(** The density of an area light after a rigid transform is the inverse of the transformed area... *)
Theorem C53_light_area_partial : forall m t ts, (forall x y, dot (mmul m x) (mmul m y) = dot x y) ->
  transformed_invA (1 / total_area ts) (jacobian m)
  = 1 / total_area (map (fun x => let '(a, b, c) := x in (apply_point m t a, apply_point m t b, apply_point m t c)) ts).
Proof.
  intros m t ts H. unfold transformed_invA. pose proof (rigid_total m t ts H) as E. unfold map_tri in E. rewrite (rigid_jacobian m H), E. unfold Rdiv. rewrite Rinv_1. ring.
Qed.
Print Assumptions C53_light_area_partial.

(** ...but not after a scaling. *)
Theorem C53_light_area_refuted : ~ (forall m t ts, 0 < jacobian m -> 0 < total_area ts ->
  transformed_invA (1 / total_area ts) (jacobian m)
  = 1 / total_area (map (fun x => let '(a, b, c) := x in (apply_point m t a, apply_point m t b, apply_point m t c)) ts)).
Proof.
  intros H. specialize (H (M3 (V3 2 0 0) (V3 0 2 0) (V3 0 0 2)) v0 [(V3 0 0 0, V3 1 0 0, V3 0 1 0)]).
  assert (J : jacobian (M3 (V3 2 0 0) (V3 0 2 0) (V3 0 0 2)) = 8) by (unfold jacobian, dot, cross; cbn; rewrite Rabs_right; lra).
  assert (A : total_area [(V3 0 0 0, V3 1 0 0, V3 0 1 0)] = 1 / 2).
  { unfold total_area, triangle_area. cbn [fold_right]. cbn zeta. rewrite safe_sqrt_sqrt. replace (dot _ _) with (1 * 1) by (vec; ring). rewrite sqrt_square by lra. lra. }
  rewrite J, A in H. unfold total_area, triangle_area in H. cbn [fold_right map] in H. cbn zeta in H. rewrite safe_sqrt_sqrt in H.
  match type of H with context [sqrt ?d] => assert (E : d = 4 * 4) by (clear; unfold apply_point, mmul; cbn [col0 col1 col2]; vec; ring) end. rewrite E in H. rewrite sqrt_square in H by lra.
  unfold transformed_invA in H. assert (Q := H ltac:(lra) ltac:(lra)). lra.
Qed.
Print Assumptions C53_light_area_refuted.

Example C53_ex : interior (V2 (1/4) 0) /\ in_square (V2 1 1) /\ sample_uniform_disk (V2 (1/4) 0) = V2 (1/2) 0
  /\ cross (vsub (V3 1 0 0) (V3 0 0 0)) (vsub (V3 0 1 0) (V3 0 0 0)) <> v0.
Proof.
  split; [split; cbn; lra|]. split; [split; cbn; lra|]. split.
  - unfold sample_uniform_disk. cbn [v2x v2y]. rewrite safe_sqrt_sqrt, Rmult_0_r, cos_0, sin_0. replace (1 / 4) with ((1/2) * (1/2)) by field. rewrite sqrt_square by lra. f_equal; ring.
  - vec. intros [=]. lra.
Qed.
