(** C73: area lights emit from the surface of their mesh as placed in the scene. *)
From Coq Require Import List Reals ZArith Bool Lra Lia.
From Verif Require Import Base RBase DistModel DistSpec DistProofs MatSpec SurfSpec VecBase GeoModel MeshModel SurfModel SurfProofs SurfWarpProofs SurfProps MatModel MatProofs CamModel CamProofs LightModel LightProofs UnitProps.
From Verif Require LightSpec.
Import ListNotations.
Open Scope R_scope.

Notation tri := (vec3 * vec3 * vec3)%type.
Definition tri_area (x : tri) : R := let '(a, b, c) := x in triangle_area a b c.
(** The triangle with its vertices moved by the matrix [m] and the translation [t] *)
Definition placed (m : mat3) (t : vec3) (x : tri) : tri := let '(a, b, c) := x in (apply_point m t a, apply_point m t b, apply_point m t c).
(** [n] is a unit normal of the triangle, [k] > 0: on the side from which its vertices are seen counterclockwise *)
Definition normal_of (x : tri) (n : vec3) (k : R) : Prop := let '(a, b, c) := x in
  unit n /\ dot n (vsub b a) = 0 /\ dot n (vsub c a) = 0 /\ 0 < k * dot n (cross (vsub b a) (vsub c a)).
Definition on_triangle (x : tri) (p : vec3) : Prop := let '(a, b, c) := x in in_triangle a b c p.
(** The random numbers that select triangle [i] *)
Definition selects_triangle (ts : list tri) (i : nat) (u : R) : Prop :=
  let ws := map tri_area ts in rsum (firstn i ws) / rsum ws <= u < rsum (firstn i ws) / rsum ws + nth i ws 0 / rsum ws.

Lemma total_rsum ts : total_area ts = rsum (map tri_area ts).
Proof. induction ts as [|[[a b] c] ts IH]; [reflexivity|]. cbn [map rsum fold_right]. change (total_area ((a, b, c) :: ts)) with (triangle_area a b c + total_area ts). rewrite IH. reflexivity. Qed.
Lemma tri_area_pos x : 0 <= tri_area x.
Proof. destruct x as [[a b] c]. cbn. unfold triangle_area. cbv zeta. rewrite safe_sqrt_sqrt. pose proof (sqrt_pos (dot (cross (vsub b a) (vsub c a)) (cross (vsub b a) (vsub c a)))). lra. Qed.
Lemma areas_nonneg ts : nonneg (map tri_area ts).
Proof. intros w H. apply in_map_iff in H as (x & <- & _). apply tri_area_pos. Qed.
Lemma area_sums_eq ts : area_sums ts = fold_left add (map Some (map tri_area ts)) empty_dist.
Proof. unfold area_sums. generalize empty_dist. induction ts as [|[[a b] c] ts IH]; intros d; [reflexivity|]. cbn [fold_left map]. apply IH. Qed.
Lemma area_dist_eq ts : area_dist ts = made_of (map tri_area ts).
Proof. unfold area_dist, made_of. now rewrite area_sums_eq. Qed.
Lemma area_inv_eq ts : 0 < total_area ts -> area_inv ts = Some (1 / total_area ts).
Proof. intros H. unfold area_inv. rewrite area_sums_eq, added, back_sums, <- total_rsum. cbn. apply fdiv_ok. lra. Qed.

(** The selection of a triangle *)
Lemma triangle_selected ts u : 0 < total_area ts -> 0 <= u < 1 -> exists i x, nth_error ts i = Some x /\ 0 < tri_area x /\ sample (area_dist ts) (Some u) = Ok (Z.of_nat i) /\ selects_triangle ts i u.
Proof.
  intros P U. rewrite total_rsum in P. rewrite area_dist_eq. destruct (sample_spec _ u (areas_nonneg ts) P U) as (i & Hi & E & H). rewrite map_length in Hi.
  destruct (nth_error ts i) as [x|] eqn:Ex; [|apply nth_error_None in Ex; lia]. exists i, x. split; [exact Ex|].
  assert (Ni : nth i (map tri_area ts) 0 = tri_area x). { apply nth_error_nth. now rewrite nth_error_map, Ex. }
  rewrite rsum_firstn_S in H by now rewrite map_length. assert (S2 : selects_triangle ts i u). { unfold selects_triangle. cbv zeta. replace (_ + _) with ((rsum (firstn i (map tri_area ts)) + nth i (map tri_area ts) 0) / rsum (map tri_area ts)) by (field; lra). exact H. }
  split; [|auto]. unfold selects_triangle in S2. cbv zeta in S2. rewrite Ni in S2. assert (Q : 0 < tri_area x / rsum (map tri_area ts)) by lra. apply (Rmult_lt_reg_r (/ rsum (map tri_area ts))); [now apply Rinv_0_lt_compat|]. unfold Rdiv in Q. lra.
Qed.
Lemma triangle_sampled ts u i x : 0 < total_area ts -> 0 <= u < 1 -> nth_error ts i = Some x -> selects_triangle ts i u -> sample (area_dist ts) (Some u) = Ok (Z.of_nat i).
Proof.
  intros P U Ex S2. rewrite total_rsum in P. rewrite area_dist_eq. assert (Hi : (i < length (map tri_area ts))%nat) by (rewrite map_length; apply nth_error_Some; congruence).
  apply (DistProps.C31_interval _ i u (areas_nonneg ts) P Hi U). exact S2.
Qed.

(** Transforms *)
Lemma normal_matrix m t T : make_transform m t = Val T -> det3 m <> 0 /\ t_lin T = m /\ t_tr T = t /\ t_J T = jacobian m /\
  (forall g x, dot (mmul (t_normal T) g) (mmul m x) = dot g x) /\ (forall a b, mmul (t_normal T) (cross a b) = vscale (/ det3 m) (cross (mmul m a) (mmul m b))).
Proof.
  unfold make_transform. intros H. fb H. unfold rdiv, fdiv in E. destruct (Req_EM_T (det3 m) 0) as [|N]; [discriminate|]. injection E as <-. injection H as <-. cbn [t_lin t_tr t_J t_normal]. repeat split; auto.
  - intros g x. assert (K : 1 / det3 m * det3 m = 1) by (field; exact N). set (k := 1 / det3 m) in *.
    transitivity (k * det3 m * dot g x); [|rewrite K; ring]. unfold det3, mmul, dot, cross, vscale, vadd. destruct m as [[] [] []], g, x. cbn. ring.
  - intros a b. replace (1 / det3 m) with (/ det3 m) by (field; exact N). generalize (/ det3 m) as k. intros k. unfold mmul, dot, cross, vscale, vadd. destruct m as [[] [] []], a, b. cbn. f_equal; ring.
Qed.
Lemma apply_sub m t p q : vsub (apply_point m t p) (apply_point m t q) = mmul m (vsub p q).
Proof. unfold apply_point, mmul, vsub, vadd, vscale. destruct m as [[] [] []], p, q, t. cbn. f_equal; ring. Qed.
Lemma place_sample m t a b c u : apply_point m t (sample_triangle a b c u) = sample_triangle (apply_point m t a) (apply_point m t b) (apply_point m t c) u.
Proof. unfold sample_triangle, mix_barycentric, apply_point, mmul, vadd, vscale. cbv zeta. destruct m as [[] [] []], a, b, c, t. cbn. f_equal; ring. Qed.
Lemma area_nonzero a b c : 0 < triangle_area a b c -> vlen (cross (vsub b a) (vsub c a)) <> 0.
Proof. unfold triangle_area. cbv zeta. rewrite safe_sqrt_sqrt. unfold vlen. intros H. lra. Qed.

Lemma dot_nonzero u w : dot u w <> 0 -> 0 < dot u u.
Proof.
  intros H. destruct (Rle_lt_or_eq_dec 0 (dot u u) (dot_self_nonneg u)) as [P|P]; [exact P|]. exfalso. apply H. pose proof (lagrange u w) as L. rewrite <- P in L.
  pose proof (dot_self_nonneg (cross u w)) as Q. rewrite L in Q. assert (dot u w * dot u w = 0) by (pose proof (Rle_0_sqr (dot u w)); unfold Rsqr in *; lra). nra.
Qed.
Lemma position_form neg0 ts m t T up upc i a b c : make_transform m t = Val T -> sample (area_dist ts) (Some upc) = Ok (Z.of_nat i) -> nth_error ts i = Some (a, b, c) -> 0 < triangle_area a b c ->
  exists n, normal_of (placed m t (a, b, c)) n (det3 m) /\ area_position neg0 ts up upc T = Val (make_on_surface neg0 (sample_triangle (apply_point m t a) (apply_point m t b) (apply_point m t c) up) n n).
Proof.
  intros HT Hs Ht Ha. destruct (normal_matrix m t T HT) as (Dz & E1 & E2 & E3 & E4 & E5). unfold area_position. rewrite Hs. cbn [of_outcome fbind]. unfold at_index. replace (Z.of_nat i <? 0)%Z with false by lia. rewrite Nat2Z.id, Ht. cbn [fbind].
  pose proof (area_nonzero a b c Ha) as Nz. unfold geometry_normal, normalize. destruct (Req_EM_T _ 0) as [|_]; [contradiction|]. assert (P : 0 < vlen (cross (vsub b a) (vsub c a))) by (unfold vlen in *; pose proof (sqrt_pos (dot (cross (vsub b a) (vsub c a)) (cross (vsub b a) (vsub c a)))); lra).
  set (L := vlen _) in *. set (g := vscale (/ L) (cross (vsub b a) (vsub c a))). assert (G : 0 < dot (mmul (t_normal T) g) (mmul m (cross (vsub b a) (vsub c a)))).
  { rewrite E4. unfold g. replace (dot _ _) with (/ L * dot (cross (vsub b a) (vsub c a)) (cross (vsub b a) (vsub c a))) by (unfold dot, vscale; cbn; ring). apply Rmult_lt_0_compat; [now apply Rinv_0_lt_compat|]. destruct (Rle_dec (dot (cross (vsub b a) (vsub c a)) (cross (vsub b a) (vsub c a))) 0) as [Q|Q]; [|lra]. exfalso. apply Nz. unfold L, vlen. pose proof (dot_self_nonneg (cross (vsub b a) (vsub c a))). replace (dot _ _) with 0 by lra. apply sqrt_0. }
  assert (Gp : 0 < dot (mmul (t_normal T) g) (mmul (t_normal T) g)) by (eapply dot_nonzero; apply Rgt_not_eq; exact G).
  pose proof (normalize_form _ Gp) as En. set (k := / sqrt _) in En. assert (Pk : 0 < k) by (apply Rinv_0_lt_compat, sqrt_lt_R0; exact Gp). rewrite En. cbn [fbind]. eexists. rewrite E1, E2, place_sample. split; [|reflexivity]. pose proof (fnormalize_unit _ _ En) as Un.
  cbn [placed normal_of]. rewrite !apply_sub. split; [exact Un|]. assert (DS : forall u v, dot (vscale k u) v = k * dot u v) by (intros; unfold dot, vscale; cbn; ring). rewrite !DS, !E4.
  split; [unfold g, dot, cross, vscale; cbn; ring|]. split; [unfold g, dot, cross, vscale; cbn; ring|].
  replace (cross (mmul m (vsub b a)) (mmul m (vsub c a))) with (vscale (det3 m * L) (mmul (t_normal T) g)).
  - set (v := mmul (t_normal T) g) in *. replace (_ * (k * _)) with (k * L * (det3 m * det3 m) * dot v v) by (unfold dot, vscale; cbn; ring).
    apply Rmult_lt_0_compat; [|exact Gp]. apply Rmult_lt_0_compat; [now apply Rmult_lt_0_compat|]. exact (Rsqr_pos_lt _ Dz).
  - replace (mmul (t_normal T) g) with (vscale (/ L) (mmul (t_normal T) (cross (vsub b a) (vsub c a)))) by (unfold g, mmul, vscale, vadd; cbn; f_equal; ring). rewrite E5.
    set (v := cross (mmul m _) _). unfold vscale. destruct v. cbn. f_equal; field; split; auto; lra.
Qed.

(** * The sampled points *)
Section Light.
  Variables (neg0 : bool) (Ke : vec3) (ts : list tri) (m : mat3) (t : vec3) (T : transform).
  Let l := area_light neg0 Ke ts.
  Hypothesis HT : make_transform m t = Val T.
  Hypothesis Ha : 0 < total_area ts.

  Lemma surf_sp p n : sp (make_on_surface neg0 p n n) = p /\ sn (make_on_surface neg0 p n n) = n.
  Proof. unfold make_on_surface. destruct (orthonormal_basis _ _). split; reflexivity. Qed.
  Lemma invA_form : area_invA ts T = Val (1 / total_area ts / jacobian m).
  Proof.
    destruct (normal_matrix m t T HT) as (Dz & E1 & E2 & E3 & E4 & E5). unfold area_invA. rewrite area_inv_eq by exact Ha. cbn [of_num fbind]. rewrite E3. apply rdiv_ok. unfold jacobian. fold (det3 m). now apply Rabs_no_R0.
  Qed.
  Lemma invA_nonzero : 1 / total_area ts / jacobian m <> 0.
  Proof.
    destruct (normal_matrix m t T HT) as (Dz & _). unfold jacobian. fold (det3 m). unfold Rdiv. pose proof (Rabs_no_R0 _ Dz). apply Rmult_integral_contrapositive_currified; [|now apply Rinv_neq_0_compat]. rewrite Rmult_1_l. apply Rinv_neq_0_compat. lra.
  Qed.
  (** Every random number selects a triangle; the point lies on the triangle as placed in the scene, with its normal. *)
  Lemma positions up upc : in_square up -> 0 <= upc < 1 -> exists i x s, nth_error ts i = Some x /\ 0 < tri_area x /\ selects_triangle ts i upc /\
    area_position neg0 ts up upc T = Val s /\ on_triangle (placed m t x) (sp s) /\ normal_of (placed m t x) (sn s) (det3 m).
  Proof.
    intros U Uc. destruct (triangle_selected ts upc Ha Uc) as (i & [[a b] c] & Ex & Px & Es & Si). exists i, (a, b, c). destruct (position_form neg0 ts m t T up upc i a b c HT Es Ex Px) as (n & Hn & E). eexists.
    split; [exact Ex|]. split; [exact Px|]. split; [exact Si|]. split; [exact E|]. destruct (surf_sp (sample_triangle (apply_point m t a) (apply_point m t b) (apply_point m t c) up) n) as (-> & ->).
    split; [|exact Hn]. cbn [placed on_triangle]. now apply triangle_in.
  Qed.
End Light.

Theorem C73_positions : forall neg0 Ke ts m t T up upc, make_transform m t = Val T -> 0 < total_area ts -> in_square up -> 0 <= upc < 1 ->
  exists f i x s w, l_sample_position (area_light neg0 Ke ts) = Some f /\ nth_error ts i = Some x /\ 0 < tri_area x /\ selects_triangle ts i upc /\
    f up upc T = Val (Some (OnSurface s, w)) /\ on_triangle (placed m t x) (sp s) /\ normal_of (placed m t x) (sn s) (det3 m).
Proof.
  intros neg0 Ke ts m t T up upc HT Ha U Uc. destruct (positions neg0 ts m t T HT Ha up upc U Uc) as (i & x & s & Ex & Px & Si & E & On & Nn). eexists _, i, x, s, _. split; [reflexivity|]. repeat (split; [assumption|]).
  split; [|auto]. cbv beta. rewrite E. cbn [fbind]. rewrite (invA_form ts m t T HT Ha). cbn [fbind]. rewrite rdiv_ok; [reflexivity|]. now apply (invA_nonzero ts m t T).
Qed.
Print Assumptions C73_positions.
(** Rays start at such points and leave on the side of the normal. *)
Theorem C73_rays : forall neg0 Ke ts m t T up upc ud r o, make_transform m t = Val T -> 0 < total_area ts -> in_square up -> 0 <= upc < 1 -> in_square ud ->
  l_sample_ray (area_light neg0 Ke ts) up upc ud T = Val (Some (r, o)) ->
  exists i x s, nth_error ts i = Some x /\ selects_triangle ts i upc /\ r_geom r = OnSurface s /\ sp s = o /\ on_triangle (placed m t x) o /\ normal_of (placed m t x) (sn s) (det3 m) /\ 0 <= dot (r_wo r) (sn s).
Proof.
  intros neg0 Ke ts m t T up upc ud r o HT Ha U Uc Ud H. destruct (positions neg0 ts m t T HT Ha up upc U Uc) as (i & x & s & Ex & Px & Si & E & On & Nn). exists i, x, s. split; [exact Ex|]. split; [exact Si|].
  cbn [l_sample_ray area_light] in H. rewrite E in H. cbn [fbind] in H. fb H. fb H. fb H. injection H as <- <-. cbn [r_geom r_wo]. repeat (split; [auto; fail|]).
  assert (Un : unit (sn s)) by (destruct x as [[? ?] ?]; apply Nn). unfold area_wo. destruct (orthonormal_basis neg0 (sn s)) as [bu bv] eqn:Eb. pose proof (basis_frame neg0 (sn s) Un) as F. rewrite Eb in F.
  cbn [fst snd] in F. destruct F as (_ & _ & _ & _ & Fu & Fv & _). destruct (cosine_unit ud Ud) as (_ & Cz & _). set (d := sample_cosine_weighted ud) in *.
  replace (dot _ _) with (vx d * dot bu (sn s) + vy d * dot bv (sn s) + vz d * dot (sn s) (sn s)) by (unfold dot, mmul, vadd, vscale; cbn; ring). rewrite Fu, Fv, Un. lra.
Qed.
Print Assumptions C73_rays.

(** * The density *)
(** Triangle [i] is selected on an interval of length [q]; there the position is the image of a uniform point of
    the square under a map that scales area by [a]. The density reported for the point is q / a. *)
Theorem C73_density_partial : forall neg0 Ke ts m t T i x u upc, make_transform m t = Val T -> rigid m -> 0 < total_area ts -> nth_error ts i = Some x -> 0 < tri_area x -> interior u -> 0 <= upc < 1 -> selects_triangle ts i upc ->
  exists f pdf pos q a, l_sample_position (area_light neg0 Ke ts) = Some f /\ l_pdf_position (area_light neg0 Ke ts) = Some pdf /\
    (forall u', in_square u' -> exists s w, f u' upc T = Val (Some (OnSurface s, w)) /\ sp s = pos u') /\ area_element pos u a /\ 0 < a /\
    (forall c, 0 <= c < 1 -> selects_triangle ts i c <-> rsum (firstn i (map tri_area ts)) / total_area ts <= c < rsum (firstn i (map tri_area ts)) / total_area ts + q) /\
    forall g, pdf g T = Val (q / a) /\ q / a = 1 / total_area (map (placed m t) ts).
Proof.
  intros neg0 Ke ts m t T i [[a b] c] u upc HT Rg Ha Ex Px Iu Uc Si. eexists _, _, (sample_triangle (apply_point m t a) (apply_point m t b) (apply_point m t c)), (triangle_area a b c / total_area ts), (triangle_area a b c). split; [reflexivity|]. split; [reflexivity|].
  assert (Es := triangle_sampled ts upc i _ Ha Uc Ex Si). pose proof (rigid_jacobian m Rg) as J1. pose proof (invA_form ts m t T HT Ha) as Iv. rewrite J1 in Iv. unfold Rdiv in Iv. rewrite Rinv_1, Rmult_1_r in Iv.
  split; [|split; [|split; [|split]]].
  - intros u' U'. destruct (position_form neg0 ts m t T u' upc i a b c HT Es Ex Px) as (n & Hn & E). rewrite E. cbn [fbind]. rewrite Iv. cbn [fbind]. rewrite rdiv_ok by (rewrite Rmult_1_l; apply Rinv_neq_0_compat; lra). eexists _, _. split; [reflexivity|]. apply surf_sp.
  - rewrite <- (rigid_area m t a b c Rg). now apply triangle_area_element.
  - exact Px.
  - intros c0 _. unfold selects_triangle. cbv zeta. rewrite <- total_rsum. replace (nth i (map tri_area ts) 0) with (triangle_area a b c); [reflexivity|]. symmetry. apply nth_error_nth. now rewrite nth_error_map, Ex.
  - intros g. cbn in Px. pose proof (rigid_total m t ts Rg) as RT. change (map_tri m t) with (placed m t) in RT. rewrite RT. split; [rewrite Iv; f_equal; field|field]; lra.
Qed.
Print Assumptions C73_density_partial.
(** Every point in the interior of a triangle of the light can be sampled. *)
Theorem C73_cover : forall neg0 Ke ts m t T i x p, make_transform m t = Val T -> 0 < total_area ts -> nth_error ts i = Some x -> 0 < tri_area x -> (let '(a, b, c) := placed m t x in open_triangle a b c p) ->
  exists f up upc s w, l_sample_position (area_light neg0 Ke ts) = Some f /\ in_square up /\ 0 <= upc < 1 /\ f up upc T = Val (Some (OnSurface s, w)) /\ sp s = p.
Proof.
  intros neg0 Ke ts m t T i [[a b] c] p HT Ha Ex Px Hp. cbn [placed] in Hp.
  destruct (normal_matrix m t T HT) as (Dz & E1 & E2 & E3 & E4 & E5).
  assert (Cn : cross (vsub (apply_point m t b) (apply_point m t a)) (vsub (apply_point m t c) (apply_point m t a)) <> v0).
  { rewrite !apply_sub. intros Z. pose proof (E5 (vsub b a) (vsub c a)) as Q. rewrite Z in Q. pose proof (E4 (cross (vsub b a) (vsub c a)) (cross (vsub b a) (vsub c a))) as R1. rewrite Q in R1. apply (area_nonzero a b c Px). unfold vlen. rewrite <- R1. replace (dot _ _) with 0 by (unfold dot, vscale; cbn; ring). apply sqrt_0. }
  destruct (triangle_bij _ _ _ Cn) as (_ & _ & B). destruct (B p Hp) as (up & Iu & Eu). pose (upc := rsum (firstn i (map tri_area ts)) / rsum (map tri_area ts)).
  assert (Ni : nth i (map tri_area ts) 0 = triangle_area a b c) by (apply nth_error_nth; now rewrite nth_error_map, Ex). assert (Hi : (i < length (map tri_area ts))%nat) by (rewrite map_length; apply nth_error_Some; congruence).
  assert (Pr : 0 < rsum (map tri_area ts)) by now rewrite <- total_rsum.
  assert (Q : 0 < triangle_area a b c / rsum (map tri_area ts)) by (apply Rmult_lt_0_compat; [exact Px|now apply Rinv_0_lt_compat]).
  destruct (DistProps.C31_interval (map tri_area ts) i 0 (areas_nonneg ts) Pr Hi ltac:(lra)) as (_ & B1 & B2). rewrite Ni in B2. fold upc in B1, B2. assert (Uc : 0 <= upc < 1) by lra.
  assert (Si : selects_triangle ts i upc) by (unfold selects_triangle; cbv zeta; rewrite Ni; fold upc; lra).
  assert (Es := triangle_sampled ts upc i _ Ha Uc Ex Si). destruct (position_form neg0 ts m t T up upc i a b c HT Es Ex Px) as (n & Hn & E).
  eexists _, up, upc, _, _. split; [reflexivity|]. split; [now apply interior_square|]. split; [exact Uc|]. cbv beta. rewrite E. cbn [fbind]. rewrite (invA_form ts m t T HT Ha). cbn [fbind]. split; [rewrite rdiv_ok; [reflexivity|]|].
  - now apply (invA_nonzero ts m t T).
  - rewrite (proj1 (surf_sp neg0 _ n)). exact Eu.
Qed.
Print Assumptions C73_cover.
(** The emitted radiance: Ke on the side of the normal, nothing behind *)
Theorem C73_value : forall neg0 Ke ts s wo delta, (0 < dot wo (sn s) -> l_eval (area_light neg0 Ke ts) (OnSurface s) wo delta = Val Ke) /\ (dot wo (sn s) <= 0 -> l_eval (area_light neg0 Ke ts) (OnSurface s) wo delta = Val v0).
Proof. intros neg0 Ke ts s wo delta. cbn [l_eval area_light]. unfold area_eval. cbn [normal fbind]. split; intros H; destruct (Rle_dec _ _); auto; lra. Qed.
Print Assumptions C73_value.
(** Lights with a position: the density of connecting to a point of the light, as seen from [g], is that of its
    position: converted to area the two agree. *)
Theorem C73_direct : forall l g gL T wo delta q pdf G, (exists Le p, l = point_light Le p) \/ (exists neg0 Ke ts, l = area_light neg0 Ke ts /\ forall n, normal gL = Val n -> 0 < dot wo n) ->
  l_pdf_direct l g gL T wo delta = Val q -> l_pdf_position l = Some pdf -> geometry_term g gL = Some G -> G <> 0 -> pdf gL T = Val (q * G).
Proof.
  intros l g gL T wo delta q pdf G [(Le & p & ->)|(neg0 & Ke & ts & -> & Fr)] Hq [= <-] HG Nz; cbn [l_pdf_direct point_light area_light] in Hq.
  - unfold point_pdf_direct in Hq. rewrite HG in Hq. cbn [of_num fbind] in Hq. destruct (Req_EM_T G 0); [contradiction|]. rewrite rdiv_ok in Hq by exact Nz. injection Hq as <-. f_equal. field. exact Nz.
  - unfold area_pdf_direct in Hq. fb Hq. specialize (Fr _ E). destruct (Rle_dec _ _); [lra|]. rewrite HG in Hq. cbn [of_num fbind] in Hq. destruct (Req_EM_T G 0); [contradiction|]. fb Hq. rewrite rdiv_ok in Hq by exact Nz. injection Hq as <-. rewrite E0. f_equal. field. exact Nz.
Qed.
Print Assumptions C73_direct.

(** Two triangles, one twice as large, turned by 90 degrees and moved *)
Definition ex_ts : list tri := [(v0, V3 1 0 0, V3 0 1 0); (V3 0 0 1, V3 2 0 1, V3 0 1 1)].
Definition ex_m : mat3 := M3 (V3 0 1 0) (V3 (-1) 0 0) (V3 0 0 1).
Lemma ex_areas : map tri_area ex_ts = [/ 2; 1].
Proof.
  cbn. unfold triangle_area. cbv zeta. rewrite !safe_sqrt_sqrt. replace (dot _ _) with (1 * 1) by (unfold dot, cross, vsub; cbn; ring). rewrite sqrt_square by lra.
  replace (dot _ _) with (2 * 2) by (unfold dot, cross, vsub; cbn; ring). rewrite sqrt_square by lra. f_equal; [field|f_equal; field].
Qed.
Example C73_example : exists T, make_transform ex_m (V3 5 0 0) = Val T /\ rigid ex_m /\ 0 < total_area ex_ts /\ exists x, nth_error ex_ts 1 = Some x /\ 0 < tri_area x /\ selects_triangle ex_ts 1 (/ 2) /\ in_square (V2 (/ 2) (/ 2)) /\ interior (V2 (/ 2) (/ 2)).
Proof.
  eexists. split; [unfold make_transform; rewrite rdiv_ok by (unfold det3, dot, cross, ex_m; cbn; lra); reflexivity|]. split; [intros x y; unfold dot, mmul, ex_m, vadd, vscale; cbn; ring|]. assert (E := ex_areas).
  split; [rewrite total_rsum, E; cbn; lra|]. eexists. split; [reflexivity|]. cbn in E. injection E as E1 E2. split; [cbn; rewrite E2; lra|]. split; [|repeat split; cbn; lra].
  unfold selects_triangle. cbv zeta. rewrite ex_areas. cbn. split; lra.
Qed.
Example C73_direct_example : let g := Degenerated (V3 0 0 1) in let gL := Degenerated v0 in exists q, l_pdf_direct (point_light (V3 1 1 1) v0) g gL (mk_tr ex_m v0 ex_m 1) v0 false = Val q /\ geometry_term g gL = Some 1.
Proof.
  cbv zeta. assert (G : geometry_term (Degenerated (V3 0 0 1)) (Degenerated v0) = Some 1).
  { unfold geometry_term. cbn [pos_of cos_at]. replace (dot _ _) with (1 * 1) by (unfold dot, vsub; cbn; ring). rewrite sqrt_square by lra. unfold fdiv. destruct (Req_EM_T 1 0); [lra|]. destruct (Req_EM_T (1 * 1) 0); [lra|]. f_equal. field. }
  exists 1. split; [|exact G]. cbn [l_pdf_direct point_light]. unfold point_pdf_direct. rewrite G. cbn. destruct (Req_EM_T 1 0); [lra|]. rewrite rdiv_ok by lra. f_equal. field.
Qed.
