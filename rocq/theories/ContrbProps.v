(** C77 (the measurement contribution of a path and its strategies). *)
From Coq Require Import List Reals ZArith Bool Lra Lia ZifyBool Psatz.
From Verif Require Import ObjModel.
From Verif Require Import Base RBase SceneModel VecBase SurfModel SurfSpec SurfProofs MatModel MatSpec MatProofs CamModel LightModel LightSpec PhaseModel PhaseProps PathModel MeshModel GeoModel VisModel VisProps BidirModel BidirSpec BidirProofs BidirProps BdptSpec ContrbSpec ContrbProofs.
Import ListNotations.
Open Scope R_scope.

(** For every strategy: the contribution is the product of what the vertices scatter and of the geometry terms. *)
Theorem C77_product : forall A p s C, (2 <= length p)%nat -> (s <= length p)%nat -> eval_measurement_contrb_bidir A p (Z.of_nat s) = ret C <->
  exists f g, (forall k, (k < length p)%nat -> scattered A p k (side (length p) s k) (joint s k) (f k)) /\ (forall k, (S k < length p)%nat -> edge p k (g k)) /\ C = measured f g (length p).
Proof. exact contribution_iff. Qed.
Print Assumptions C77_product.

(** Where the vertices scatter the same in both directions, all strategies have the same contribution. *)
Theorem C77_same : forall A p s s' C C', (2 <= length p)%nat -> (s <= length p)%nat -> (s' <= length p)%nat -> (forall k, (k < length p)%nat -> symmetric_at A p k) ->
  eval_measurement_contrb_bidir A p (Z.of_nat s) = ret C -> eval_measurement_contrb_bidir A p (Z.of_nat s') = ret C' -> C = C'.
Proof.
  intros A p s s' C C' N L L' Sy H H'. apply contribution_iff in H as (f & g & Hf & Hg & ->); [|lia|lia]. apply contribution_iff in H' as (f' & g' & Hf' & Hg' & ->); [|lia|lia].
  unfold measured. f_equal.
  - apply product_ext. intros k K. apply (edge_fun p k); [apply Hg|apply Hg']; lia.
  - apply vproduct_ext. intros k K. apply (Sy k ltac:(lia) _ _ _ _ _ _) with (3 := Hf k ltac:(lia)) (4 := Hf' k ltac:(lia)).
    + intros ->. split; reflexivity.
    + intros E. split; apply side_EL; lia.
Qed.
Print Assumptions C77_same.

Section Scene.
  Variables (tr : affine -> transform) (mat : nat -> material) (lgt : nat -> light) (cam : nat -> camera) (pha : nat -> PhaseModel.phase).
  Variables (mesh_of : nat -> bool * mesh) (neg0 : bool) (zs : vec3 -> nat -> bool) (emitter : nat -> bool) (s : scene affine) (a : accel).
  Notation A := (scene_api tr mat lgt cam pha mesh_of neg0 zs emitter s a).
  Notation plain := (plain_path mat lgt pha s).

  Lemma neighbour_unit p v o w : plain p -> In v p -> (forall y, igeom (vs_sp v) <> Infinite y) -> (o = None \/ exists u, In u p /\ o = Some u) -> o <> None -> direction (Some v) o = Val w -> unit w.
  Proof.
    intros (P1 & _) Hv Fv [->|(u & Hu & ->)] No; [congruence|]. destruct (P1 u Hu) as (_ & U). cbn [direction].
    destruct (igeom (vs_sp v)) as [g|x|x] eqn:Ev; [| |now elim (Fv x)]; destruct (igeom (vs_sp u)) as [g'|x'|x'] eqn:Eu; intros H; try (eapply fnormalize_unit; exact H);
      injection H as <-; specialize (U _ eq_refl); unfold unit in *; rewrite <- U; unfold dot, vneg; cbn; ring.
  Qed.
  Lemma light_steady l g wo b b' : light_made l -> l_specular l = false -> l_eval l g wo b = l_eval l g wo b'.
  Proof. intros [| |n Le d bd l' H| |n img rot sc bd l' H] S; try reflexivity.
    - unfold directional_light in H. destruct (fnormalize d); cbn [fbind] in H; try discriminate. injection H as <-. discriminate.
    - unfold env_light in H. repeat match type of H with fbind ?x _ = _ => destruct x; cbn [fbind] in H; try discriminate end. injection H as <-. reflexivity.
  Qed.
  (** One vertex *)
  Lemma vertex_delta p k d b b' f f' : plain p -> scattered A p k d b f -> scattered A p k d b' f' -> f = f'.
  Proof.
    intros P (v & x & y & H1 & H2 & H3 & H4) (v' & x' & y' & H1' & H2' & H3' & H4'). assert (v' = v) by congruence. subst v'. assert (x' = x) by congruence. assert (y' = y) by congruence. subst x' y'.
    destruct P as (P1 & _). destruct (P1 v (nth_error_In _ _ H1)) as ((pr & Hp & T) & _).
    assert (Q : forall u w d, a_contrb A (vs_sp v) u w (vs_comp v) d b = a_contrb A (vs_sp v) u w (vs_comp v) d b').
    { intros u w d'. cbn [scene_api a_contrb]. unfold eval_contrb_direction. rewrite Hp. cbn [obind]. destruct (it (vs_sp v)).
      - reflexivity.
      - destruct T as (l & E & M & S). rewrite E. now rewrite (light_steady _ _ _ b b' M S).
      - destruct T as (m & g & E & Re & Sp & Eg & Sg). rewrite E. cbn [deref obind]. rewrite Eg. cbn [pbind]. now rewrite (steady _ Re _ Sp g u w d' b d' b').
      - reflexivity. }
    destruct d; rewrite Q in H4; apply ret_inj; congruence.
  Qed.
  Lemma vertex_turn p k b b' f f' : plain p -> (0 < k < length p - 1)%nat -> scattered A p k EL b f -> scattered A p k LE b' f' ->
    (forall c, tilt_at p k c -> f' = vscale c f) /\ ((forall v g, nth_error p k = Some v -> igeom (vs_sp v) = OnSurface g -> sn g = sgn g) -> f' = f).
  Proof.
    intros P K (v & x & y & H1 & H2 & H3 & H4) (v' & x' & y' & H1' & H2' & H3' & H4'). assert (v' = v) by congruence. subst v'. assert (x' = x) by congruence. assert (y' = y) by congruence. subst x' y'.
    pose proof P as (P1 & _ & _ & P4). destruct (P1 v (nth_error_In _ _ H1)) as ((pr & Hp & T) & _).
    assert (Uv : forall q o w, (forall y, igeom (vs_sp v) <> Infinite y) -> nth_error p q <> None -> o = nth_error p q -> direction (Some v) o = Val w -> unit w).
    { intros q o w F Nn Eo Hd. apply (neighbour_unit p v o w P (nth_error_In _ _ H1) F); [|congruence|exact Hd]. destruct o as [u|]; [right; exists u; split; [eapply nth_error_In; eauto|reflexivity]|now left]. }
    assert (Nb : nth_error p (k - 1) <> None /\ nth_error p (S k) <> None) by (split; apply nth_error_Some; lia). destruct Nb as (Nb & Na).
    assert (Eb : before p k = nth_error p (k - 1)) by (destruct k; [lia|]; cbn [before]; f_equal; lia).
    cbn [scene_api a_contrb] in H4, H4'. unfold eval_contrb_direction in H4, H4'. rewrite Hp in H4, H4'. cbn [obind] in H4, H4'.
    destruct (P4 k v K H1) as [Ti|Ti]; rewrite Ti in T, H4, H4'.
    - destruct T as (m & g & E & Re & Sp & Eg & Sg). rewrite E in H4, H4'. cbn [deref obind] in H4, H4'. rewrite Eg, pbind_okval in H4, H4'. mstep H4. mstep H4'. apply okval in E0, E1. apply ret_inj in H4, H4'.
      assert (G : igeom (vs_sp v) = OnSurface (geo g)). { unfold spoint_of in Eg. destruct (igeom (vs_sp v)); [injection Eg as <-; reflexivity|discriminate..]. }
      assert (Fin : forall y, igeom (vs_sp v) <> Infinite y) by (intros z; congruence).
      assert (Ux : unit x) by (apply (Uv (k - 1)%nat (before p k)); auto). assert (Uy : unit y) by (apply (Uv (S k) (after p k)); auto).
      rewrite (recip_all _ _ Re g y x EL b Sg Uy Ux) in E0. rewrite (steady _ Re _ Sp g x y EL b LE b') in E0. assert (a1 = a0) by congruence. subst a1.
      destruct Sg as (n0 & q & n & gn & t & Un & ->). cbn [geo] in *. rewrite correction_form in H4, H4'. clear Un.
      assert (Sn : sn (make_on_surface n0 q n gn) = n /\ sgn (make_on_surface n0 q n gn) = gn) by (unfold make_on_surface; destruct (orthonormal_basis n0 n); split; reflexivity). destruct Sn as (Sn & Sgn).
      assert (Z0 : forall c w, vscale c (vscale 0 w) = vscale 0 w) by (intros c [? ? ?]; unfold vscale; cbn; f_equal; ring).
      split.
      + intros c (v1 & Hv1 & Hc). assert (v1 = v) by congruence. subst v1. rewrite G in Hc. destruct Hc as (x1 & y1 & Hx & Hy & ->). assert (x1 = x) by congruence. assert (y1 = y) by congruence. subst x1 y1.
        unfold tilt. rewrite Sn, Sgn. subst f f'.
        destruct (Rle_dec (dot x gn * dot x n) 0), (Rle_dec (dot y gn * dot y n) 0); try (symmetry; apply Z0). destruct a0; unfold vscale; cbn; f_equal; ring.
      + intros Fl. specialize (Fl v _ H1 G). rewrite Sn, Sgn in Fl. subst gn f f'. destruct (Rle_dec (dot x n * dot x n) 0), (Rle_dec (dot y n * dot y n) 0); try reflexivity. f_equal. field. split; intros Z; rewrite Z in *; lra.
    - destruct T as (m & z & E & Ph & Ez). rewrite E in H4, H4'. cbn [deref obind] in H4, H4'. apply okval in H4, H4'. rewrite (phase_sym _ y x Ph) in H4. assert (f' = f) by congruence. subst f'. split; [|reflexivity].
      intros c (v1 & Hv1 & Hc). assert (v1 = v) by congruence. subst v1. rewrite Ez in Hc. subst c. destruct f; unfold vscale; cbn; f_equal; ring.
  Qed.

  (** With flat surfaces (shading and geometric normals agree) the contribution of a path does not depend on the
      strategy; the normals of other surfaces enter with one factor per vertex between the two strategies. *)
  Theorem C77_flat : forall p i j C C', (2 <= length p)%nat -> (i <= length p)%nat -> (j <= length p)%nat -> plain p ->
    (forall k v g, (0 < k < length p - 1)%nat -> nth_error p k = Some v -> igeom (vs_sp v) = OnSurface g -> sn g = sgn g) ->
    eval_measurement_contrb_bidir A p (Z.of_nat i) = ret C -> eval_measurement_contrb_bidir A p (Z.of_nat j) = ret C' -> C = C'.
  Proof using.
    intros p i j C C' N Li Lj P Fl. apply C77_same; auto. intros k K d d' b b' f f' Hd Hd' S1 S2.
    destruct (Nat.eq_dec k 0) as [-> |N0]; [destruct Hd as (-> & ->); [reflexivity|]; eapply vertex_delta; eauto|].
    destruct (Nat.eq_dec (S k) (length p)) as [e|N1]; [destruct Hd' as (-> & ->); [exact e|]; eapply vertex_delta; eauto|].
    assert (Kk : (0 < k < length p - 1)%nat) by lia. assert (F : forall v g, nth_error p k = Some v -> igeom (vs_sp v) = OnSurface g -> sn g = sgn g) by (intros; eapply Fl; eauto).
    destruct d, d'; [eapply vertex_delta; eauto| | |eapply vertex_delta; eauto].
    - apply (vertex_turn p k b' b f' f P Kk S2 S1). exact F.
    - symmetry. apply (vertex_turn p k b b' f f' P Kk S1 S2). exact F.
  Qed.
  Theorem C77_tilted : forall p i j c C C', (2 <= length p)%nat -> (i <= j <= length p)%nat -> plain p ->
    (forall k, (0 < k < length p - 1)%nat -> tilt_at p k (c k)) -> (forall k, (k = 0 \/ length p <= S k)%nat -> c k = 1) ->
    eval_measurement_contrb_bidir A p (Z.of_nat i) = ret C -> eval_measurement_contrb_bidir A p (Z.of_nat j) = ret C' -> C' = vscale (product c i (j - i)) C.
  Proof using.
    intros p i j c C C' N L P T T1 H H'. apply contribution_iff in H as (f & g & Hf & Hg & ->); [|lia|lia]. apply contribution_iff in H' as (f' & g' & Hf' & Hg' & ->); [|lia|lia].
    unfold measured. rewrite (product_ext g' g); [|intros k K; apply (edge_fun p k); [apply Hg'|apply Hg]; lia].
    rewrite (vproduct_ext f' (fun k => vscale (if (i <=? k)%nat && (k <? j)%nat then c k else 1) (f k))).
    { rewrite vproduct_scale, product_window by lia. unfold vscale; cbn; f_equal; ring. }
    intros k K. assert (One : forall w, vscale 1 w = w) by (intros [? ? ?]; unfold vscale; cbn; f_equal; ring).
    specialize (Hf k ltac:(lia)). specialize (Hf' k ltac:(lia)).
    destruct (Nat.eq_dec k 0) as [-> |N0].
    { rewrite side_LE in Hf, Hf' by lia. assert (f' 0%nat = f 0%nat) by (eapply vertex_delta; eauto). destruct (_ && _)%bool; [rewrite T1 by lia|]; rewrite One; assumption. }
    destruct (Nat.eq_dec (S k) (length p)) as [e|N1].
    { rewrite side_EL in Hf, Hf' by lia. assert (f' k = f k) by (eapply vertex_delta; eauto). destruct (_ && _)%bool; [rewrite T1 by lia|]; rewrite One; assumption. }
    destruct (Nat.leb_spec i k), (Nat.ltb_spec k j); cbn [andb].
    - rewrite side_EL in Hf by lia. rewrite side_LE in Hf' by lia. apply (vertex_turn p k _ _ _ _ P ltac:(lia) Hf Hf'). apply T. lia.
    - rewrite side_EL in Hf, Hf' by lia. rewrite One. eapply vertex_delta; eauto.
    - rewrite side_LE in Hf, Hf' by lia. rewrite One. eapply vertex_delta; eauto.
    - lia.
  Qed.
End Scene.
Print Assumptions C77_flat.
Print Assumptions C77_tilted.

(** * A triangle whose three vertex normals lean towards the lamp *)
Definition z_n : vec3 := V3 (3 / 5) 0 (4 / 5).
Definition z_mesh : mesh := mk_mesh [V3 (-1) (-1) 0; V3 1 (-1) 0; V3 0 1 0] [z_n; z_n; z_n] [] [mk_findex 0 (-1) 0; mk_findex 1 (-1) 1; mk_findex 2 (-1) 2].
Definition z_api neg0 zs a : api :=
  scene_api (fun _ => mk_tr (M3 v0 v0 v0) v0 (M3 v0 v0 v0) 1) (fun _ => diffuse (grey 1) None) (fun _ => point_light (grey 1) (V3 (3 / 4) 0 1)) (fun _ => x_cam)
    (fun _ => PhaseModel.isotropic) (fun _ => (true, z_mesh)) neg0 zs (fun _ => false) (x_scene None None) a.
Definition z_surf : surf := make_on_surface false v0 z_n (V3 0 0 1).
Definition z_lamp : vert := mk_vert (endpoint LightEndpoint 3 (Degenerated (V3 (3 / 4) 0 1))) 0.
Definition z_spot : vert := mk_vert (mk_sp SurfaceInteraction 1 (OnSurface z_surf) (V2 0 0)) 0.
Definition z_path : fullpath := [z_lamp; z_spot; x_eye].
Lemma z_surf_is : sp z_surf = v0 /\ sn z_surf = z_n /\ sgn z_surf = V3 0 0 1.
Proof. unfold z_surf, make_on_surface. destruct (orthonormal_basis _ _). repeat split. Qed.
(** The spot is a point of this mesh. *)
Lemma z_on_mesh : MeshModel.surface_point true z_mesh 0 (V2 (/ 4) (/ 2)) = Ok (mk_interp (sp z_surf) (Some (sn z_surf)) (Some (sgn z_surf)) v2zero).
Proof.
  destruct z_surf_is as (-> & -> & ->). unfold MeshModel.surface_point, z_mesh, at_. cbn [m_fs m_ps m_ns m_ts]. change (Z.of_nat (3 * 0)) with 0%Z. change (Z.of_nat (3 * 0 + 1)) with 1%Z. change (Z.of_nat (3 * 0 + 2)) with 2%Z.
  change (Z.to_nat 0) with 0%nat. change (Z.to_nat 1) with 1%nat. change (Z.to_nat 2) with 2%nat. 
  cbn [nth_error obind fp ObjModel.fn ft andb Z.ltb Z.compare]. change (Z.to_nat 0) with 0%nat. change (Z.to_nat 1) with 1%nat. change (Z.to_nat 2) with 2%nat. cbn [nth_error obind].
  replace (mix_barycentric z_n z_n z_n (V2 (/ 4) (/ 2))) with z_n by (apply vec3_eq; cbn; field).
  replace (mix_barycentric (V3 (-1) (-1) 0) (V3 1 (-1) 0) (V3 0 1 0) (V2 (/ 4) (/ 2))) with v0 by (apply vec3_eq; cbn; field).
  do 2 f_equal.
  - unfold normalize, vlen. replace (dot z_n z_n) with 1 by (unfold dot, z_n; cbn; field). rewrite sqrt_1. destruct (Req_EM_T 1 0); [lra|]. f_equal. apply vec3_eq; cbn; field.
  - unfold geometry_normal, normalize, vlen. replace (dot _ _) with (4 * 4) by (unfold dot, cross; cbn; ring). rewrite sqrt_square by lra. destruct (Req_EM_T 4 0); [lra|]. f_equal. apply vec3_eq; cbn; field.
Qed.
Lemma fnorm_len v l w : dot v v = l * l -> 0 < l -> v = vscale l w -> fnormalize v = Val w.
Proof. intros D L E. unfold fnormalize, vdiv, vlen. rewrite D, sqrt_square by lra. destruct (Req_EM_T l 0); [lra|]. f_equal. rewrite E. destruct w. unfold vscale. cbn. f_equal; field; lra. Qed.
Lemma z_dirs : direction (Some z_lamp) (Some z_spot) = Val (V3 (- (3 / 5)) 0 (- (4 / 5))) /\ direction (Some z_spot) (Some z_lamp) = Val z_n /\
  direction (Some x_eye) (Some z_spot) = Val (V3 0 0 (-1)) /\ direction (Some z_spot) (Some x_eye) = Val (V3 0 0 1).
Proof.
  destruct z_surf_is as (E & _). unfold direction. cbn [z_lamp z_spot x_eye vs_sp igeom endpoint pos_of]. rewrite E. repeat split.
  1,2: apply (fnorm_len _ (5 / 4)); [unfold dot; cbn; field|lra|apply vec3_eq; cbn; field].
  1,2: apply (fnorm_len _ 1); [unfold dot; cbn; field|lra|apply vec3_eq; cbn; field].
Qed.
Lemma term_point p l c g : sp g = v0 -> dot p p = l * l -> 0 < l -> dot p (sn g) = l * c -> 0 <= c -> 
  geometry_term (Degenerated p) (OnSurface g) = Some (c / (l * l)) /\ geometry_term (OnSurface g) (Degenerated p) = Some (c / (l * l)).
Proof.
  intros E D L C P. unfold geometry_term. cbn [pos_of]. rewrite E.
  assert (D1 : dot (vsub v0 p) (vsub v0 p) = l * l) by (rewrite <- D; unfold dot; cbn; ring). assert (D2 : dot (vsub p v0) (vsub p v0) = l * l) by (rewrite <- D; unfold dot; cbn; ring).
  rewrite D1, D2, !sqrt_square by lra. unfold fdiv. destruct (Req_EM_T l 0); [lra|]. destruct (Req_EM_T (l * l) 0); [nra|]. cbn [cos_at].
  split; f_equal.
  - replace (dot (sn g) (vneg _)) with c; [rewrite (Rabs_pos_eq c P); field; lra|]. transitivity (dot p (sn g) / l); [rewrite C; field; lra|]. unfold dot, vneg, vscale, vsub, v0. cbn. field. lra.
  - replace (dot (sn g) (vscale _ _)) with c; [rewrite (Rabs_pos_eq c P); field; lra|]. transitivity (dot p (sn g) / l); [rewrite C; field; lra|]. unfold dot, vneg, vscale, vsub, v0. cbn. field. lra.
Qed.
Lemma z_terms : geometry_term (igeom (vs_sp z_lamp)) (igeom (vs_sp z_spot)) = Some (16 / 25) /\ geometry_term (igeom (vs_sp z_spot)) (igeom (vs_sp x_eye)) = Some (4 / 5) /\
  geometry_term (igeom (vs_sp x_eye)) (igeom (vs_sp z_spot)) = Some (4 / 5).
Proof.
  destruct z_surf_is as (E1 & E2 & _). cbn [z_lamp z_spot x_eye vs_sp igeom endpoint].
  destruct (term_point (V3 (3 / 4) 0 1) (5 / 4) 1 z_surf E1) as (G1 & _); [unfold dot; cbn; field|lra|rewrite E2; unfold dot, z_n; cbn; field|lra|].
  destruct (term_point (V3 0 0 1) 1 (4 / 5) z_surf E1) as (G2 & G3); [unfold dot; cbn; field|lra|rewrite E2; unfold dot, z_n; cbn; field|lra|].
  rewrite G1, G2, G3. repeat split; f_equal; field.
Qed.
Section Z.
  Variables (neg0 : bool) (zs : vec3 -> nat -> bool) (a : accel).
  Notation A := (z_api neg0 zs a).
  Lemma z_lamp_values : a_connectable A (vs_sp z_lamp) = ret true /\ a_specular A (vs_sp z_lamp) 0 = ret false /\ a_pdf_position A (vs_sp z_lamp) = ret 1 /\
    (forall c, a_pdf_component A (vs_sp z_lamp) v0 c = ret 1) /\ (forall c d b wi wo, a_contrb A (vs_sp z_lamp) wi wo c d b = ret (grey 1)) /\
    (forall c b wi wo, a_pdf_direction A (vs_sp z_lamp) wi wo c b = ret pdf_uniform_sphere).
  Proof.
    split; [reflexivity|]. split; [reflexivity|]. split; [|split; [reflexivity|split; reflexivity]].
    exact (proj1 (proj2 (proj2 (x_lamp_values neg0 zs a)))).
  Qed.
  Lemma z_eye_values : a_connectable A (vs_sp x_eye) = ret true /\ a_specular A (vs_sp x_eye) 0 = ret false /\ a_pdf_position A (vs_sp x_eye) = ret 1 /\
    (forall c, a_pdf_component A (vs_sp x_eye) v0 c = ret 1) /\ (forall c d b wi, a_contrb A (vs_sp x_eye) wi (V3 0 0 (-1)) c d b = ret (grey (/ 4))) /\
    (forall c b wi, a_pdf_direction A (vs_sp x_eye) wi (V3 0 0 (-1)) c b = ret (/ 4)).
  Proof. exact (x_eye_values neg0 zs a). Qed.
  Lemma z_spot_values : a_specular A (vs_sp z_spot) 0 = ret false /\ (forall c wi, a_pdf_component A (vs_sp z_spot) wi c = ret 1) /\
    (forall c b, a_contrb A (vs_sp z_spot) z_n (V3 0 0 1) c LE b = ret (grey (25 / 16 * / PI))) /\ (forall c b, a_contrb A (vs_sp z_spot) (V3 0 0 1) z_n c EL b = ret (grey (/ PI))).
  Proof.
    split; [reflexivity|]. split; [reflexivity|]. destruct z_surf_is as (_ & E2 & _).
    split; intros c b; unfold z_api, scene_api; cbn [a_contrb]; unfold eval_contrb_direction;
      change (prim_at (x_scene None None) (iprim (vs_sp z_spot))) with (Ok (mk_prim (Some 0%nat) (Some 0%nat) None None (Some 0%nat)));
      cbn [obind it vs_sp z_spot deref p_material spoint_of igeom itc pbind]; cbn [eval diffuse geo].
    all: replace (opposite _ _ _) with false by (unfold opposite; rewrite E2; destruct (Rle_dec _ _) as [H|]; [exfalso; unfold dot, z_n in H; cbn in H; lra|reflexivity]).
    all: cbn [pbind]; unfold ret; do 2 f_equal; unfold z_surf; rewrite correction_form.
    all: destruct (Rle_dec _ _) as [H|_]; [exfalso; unfold dot, z_n in H; cbn in H; lra|]; destruct (Rle_dec _ _) as [H|_]; [exfalso; unfold dot, z_n in H; cbn in H; lra|].
    - unfold dot, z_n, grey, vscale. cbn. pose proof PI_RGT_0. f_equal; field; lra.
    - unfold grey, vscale. cbn. f_equal; ring.
  Qed.
  Lemma z_at : vertex_at z_path 0 LE = Some z_lamp /\ vertex_at z_path 1 LE = Some z_spot /\ vertex_at z_path 2 LE = Some x_eye /\ vertex_at z_path (-1) LE = None /\
    vertex_at z_path 0 EL = Some x_eye /\ vertex_at z_path 1 EL = Some z_spot /\ vertex_at z_path 2 EL = Some z_lamp /\ vertex_at z_path (-1) EL = None.
  Proof. repeat split. Qed.
  Lemma z_densities : pdf_bidir A z_path 1 = ret (/ 5) /\ pdf_bidir A z_path 2 = ret (16 / 25 * pdf_uniform_sphere).
  Proof.
    destruct z_at as (L0 & L1 & L2 & L3 & E0 & E1 & E2 & E3), z_lamp_values as (A1 & A2 & A3 & A4 & A5 & A6), z_eye_values as (B1 & B2 & B3 & B4 & B5 & B6), z_spot_values as (C1 & C2 & C3 & C4).
    destruct z_dirs as (D1 & D2 & D3 & D4). destruct z_terms as (G1 & G2 & G3).
    split.
    - unfold pdf_bidir, is_samplable_bidir. change (num_verts z_path - 1)%Z with 2%Z. change (1 =? 0)%Z with false. change (2 =? 0)%Z with false. change (1 =? 1)%Z with true. change (2 =? 1)%Z with false.
      change (1 - 1)%Z with 0%Z. change (2 - 1)%Z with 1%Z. cbv iota. rewrite L0, E1. cbn [at_vert obind]. rewrite A1, pbind_val. cbn [negb]. rewrite pbind_val. cbn [negb].
      change (vs_comp z_lamp) with 0%Z. change (vs_comp z_spot) with 0%Z. rewrite A2, pbind_val, C1, pbind_val, pbind_val. cbn [negb].
      unfold pdf_subpath. change (1 =? 0)%Z with false. change (2 =? 0)%Z with false. cbv iota. rewrite L0, E0. cbn [at_vert]. rewrite !obind_ok, A1, B1, !pbind_val, A3, !pbind_val, A4, !pbind_val, B3, !pbind_val, B4.
      change (Z.to_nat (1 - 1)) with 0%nat. change (Z.to_nat (2 - 1)) with 1%nat. cbn [pdf_loop]. change (0 - 1)%Z with (-1)%Z. change (0 + 1)%Z with 1%Z. rewrite E0, E1, E3. cbn [at_vert]. rewrite !pbind_val, obind_ok.
      rewrite D3. change (direction (Some x_eye) None) with (@Val vec3 v0). rewrite !pbind_okval, obind_ok, C2, pbind_val, B6, pbind_val. unfold convert_to_area. rewrite G3. cbn [of_option]. rewrite pbind_okval, !pbind_val.
      unfold ret. do 2 f_equal. field.
    - unfold pdf_bidir, is_samplable_bidir. change (num_verts z_path - 2)%Z with 1%Z. change (1 =? 0)%Z with false. change (2 =? 0)%Z with false. change (1 =? 1)%Z with true. change (2 =? 1)%Z with false.
      change (1 - 1)%Z with 0%Z. change (2 - 1)%Z with 1%Z. cbv iota. rewrite L1, E0. cbn [at_vert obind]. rewrite pbind_val. cbn [negb]. rewrite B1, pbind_val. cbn [negb].
      change (vs_comp x_eye) with 0%Z. change (vs_comp z_spot) with 0%Z. rewrite C1, pbind_val, B2, pbind_val, pbind_val. cbn [negb].
      unfold pdf_subpath. change (1 =? 0)%Z with false. change (2 =? 0)%Z with false. cbv iota. rewrite L0, E0. cbn [at_vert]. rewrite !obind_ok, A1, B1, !pbind_val, A3, !pbind_val, A4, !pbind_val.
      change (Z.to_nat (1 - 1)) with 0%nat. change (Z.to_nat (2 - 1)) with 1%nat. cbn [pdf_loop]. change (0 - 1)%Z with (-1)%Z. change (0 + 1)%Z with 1%Z. rewrite L0, L1, L3. cbn [at_vert]. rewrite obind_ok.
      rewrite D1. change (direction (Some z_lamp) None) with (@Val vec3 v0). rewrite !pbind_okval, obind_ok, C2, pbind_val, A6, pbind_val. unfold convert_to_area. rewrite G1. cbn [of_option]. rewrite pbind_okval, !pbind_val, B3, pbind_val, B4, !pbind_val.
      unfold ret. do 2 f_equal. field.
  Qed.
  Lemma z_contributions : eval_measurement_contrb_bidir A z_path 1 = ret (grey (16 / 125 * / PI)) /\ eval_measurement_contrb_bidir A z_path 2 = ret (grey (/ 5 * / PI)).
  Proof.
    destruct z_lamp_values as (A1 & A2 & A3 & A4 & A5 & A6), z_eye_values as (B1 & B2 & B3 & B4 & B5 & B6), z_spot_values as (C1 & C2 & C3 & C4).
    destruct z_dirs as (D1 & D2 & D3 & D4). destruct z_terms as (G1 & G2 & G3).
    assert (Eg : forall k, (S k < 3)%nat -> edge z_path k (match k with 0%nat => 16 / 25 | _ => 4 / 5 end)).
    { intros [|[|k]] K; [| |lia]; eexists _, _; (split; [reflexivity|]); (split; [reflexivity|]); assumption. }
    split.
    - change 1%Z with (Z.of_nat 1). apply C77_product; [cbn; lia..|]. exists (fun k => match k with 0%nat => grey 1 | 1%nat => grey (/ PI) | _ => grey (/ 4) end), (fun k => match k with 0%nat => 16 / 25 | _ => 4 / 5 end).
      split; [|split; [exact Eg|]].
      + intros [|[|[|k]]] K; [..|cbn in K; lia]; eexists _, _, _; (split; [reflexivity|]); (split; [first [exact D2|exact D3|reflexivity]|]); (split; [first [exact D1|exact D4|reflexivity]|]); cbn [side Nat.eqb length z_path Nat.sub Nat.ltb Nat.leb joint orb]; auto.
      + unfold measured, grey, vscale, vmul. cbn. pose proof PI_RGT_0. f_equal; field; lra.
    - change 2%Z with (Z.of_nat 2). apply C77_product; [cbn; lia..|]. exists (fun k => match k with 0%nat => grey 1 | 1%nat => grey (25 / 16 * / PI) | _ => grey (/ 4) end), (fun k => match k with 0%nat => 16 / 25 | _ => 4 / 5 end).
      split; [|split; [exact Eg|]].
      + intros [|[|[|k]]] K; [..|cbn in K; lia]; eexists _, _, _; (split; [reflexivity|]); (split; [first [exact D2|exact D3|reflexivity]|]); (split; [first [exact D1|exact D4|reflexivity]|]); cbn [side Nat.eqb length z_path Nat.sub Nat.ltb Nat.leb joint orb]; auto.
      + unfold measured, grey, vscale, vmul. cbn. pose proof PI_RGT_0. f_equal; field; lra.
  Qed.
  Lemma z_plain : plain_path (fun _ => diffuse (grey 1) None) (fun _ => point_light (grey 1) (V3 (3 / 4) 0 1)) (fun _ => PhaseModel.isotropic) (x_scene None None) z_path.
  Proof.
    split; [|split; [|split]].
    - intros v [<-|[<-|[<-|[]]]]; (split; [|discriminate]); eexists; (split; [reflexivity|]); cbn [it vs_sp z_lamp z_spot x_eye endpoint]; try exact I.
      + eexists. split; [reflexivity|]. split; [constructor|reflexivity].
      + eexists _, _. split; [reflexivity|]. split; [apply r_diffuse; [unfold color_ok, vnonneg, grey; cbn; repeat split; lra|exact I]|]. split; [reflexivity|]. split; [reflexivity|].
        exists false, v0, z_n, (V3 0 0 1), (V2 0 0). split; [|reflexivity]. unfold unit, dot, z_n. cbn. field.
    - intros v [= <-]. reflexivity.
    - intros v [= <-]. reflexivity.
    - intros [|[|k]] v K; [lia| |cbn in K; lia]. intros [= <-]. now left.
  Qed.
End Z.

(** With interpolated normals, the contribution of a path depends on the strategy: a path of this scene that both
    strategies sample has contribution 16/125/pi with one light vertex and 1/5/pi with two. *)
Theorem C77_smooth_refuted : forall neg0 zs a, exists mat lgt pha q q' C C', z_api neg0 zs a = scene_api (fun _ => mk_tr (M3 v0 v0 v0) v0 (M3 v0 v0 v0) 1) mat lgt (fun _ => x_cam) pha (fun _ => (true, z_mesh)) neg0 zs (fun _ => false) (x_scene None None) a /\
  plain_path mat lgt pha (x_scene None None) z_path /\ pdf_bidir (z_api neg0 zs a) z_path 1 = ret q /\ 0 < q /\ pdf_bidir (z_api neg0 zs a) z_path 2 = ret q' /\ 0 < q' /\
  eval_measurement_contrb_bidir (z_api neg0 zs a) z_path 1 = ret C /\ eval_measurement_contrb_bidir (z_api neg0 zs a) z_path 2 = ret C' /\ vx C < vx C'.
Proof.
  intros neg0 zs a. destruct (z_densities neg0 zs a) as (Q1 & Q2), (z_contributions neg0 zs a) as (K1 & K2). pose proof LightProofs.sphere_pdf_pos as P.
  eexists _, _, _, _, _, _, _. split; [reflexivity|]. split; [apply z_plain|]. split; [exact Q1|]. split; [lra|]. split; [exact Q2|]. split; [lra|]. split; [exact K1|]. split; [exact K2|].
  cbn. pose proof (Rinv_0_lt_compat _ PI_RGT_0). lra.
Qed.
Print Assumptions C77_smooth_refuted.

(** * Examples *)
(** The same path fits the theorem with one factor per vertex: the spot's is 25/16. *)
Example C77_tilted_example : forall neg0 zs a, let c := fun k : nat => match k with 1%nat => 25 / 16 | _ => 1 end in
  (forall k, (0 < k < length z_path - 1)%nat -> tilt_at z_path k (c k)) /\ (forall k, (k = 0 \/ length z_path <= S k)%nat -> c k = 1) /\ product c 1 (2 - 1) = 25 / 16 /\
  (exists C, eval_measurement_contrb_bidir (z_api neg0 zs a) z_path (Z.of_nat 1) = ret C) /\ (exists C, eval_measurement_contrb_bidir (z_api neg0 zs a) z_path (Z.of_nat 2) = ret C).
Proof.
  intros neg0 zs a c. destruct (z_contributions neg0 zs a) as (K1 & K2), z_dirs as (_ & D2 & _ & D4), z_surf_is as (_ & E2 & E3). split; [|split; [|split; [|split; eauto]]].
  - intros [|[|k]] K; [lia| |cbn in K; lia]. exists z_spot. split; [reflexivity|]. exists z_n, (V3 0 0 1). split; [exact D2|]. split; [exact D4|]. unfold tilt. rewrite E2, E3. unfold dot, z_n, c. cbn. field.
  - intros [|[|k]] K; [reflexivity|cbn in K; lia|reflexivity].
  - cbn. field.
Qed.
(** The path over the flat triangle: both strategies that sample it are defined. *)
Example C77_flat_example : forall neg0 zs a, plain_path (fun _ => diffuse (grey 1) None) (fun _ => point_light (grey 1) (V3 0 0 (/ 2))) (fun _ => PhaseModel.isotropic) (x_scene None None) x_path /\
  (forall k v g, (0 < k < length x_path - 1)%nat -> nth_error x_path k = Some v -> igeom (vs_sp v) = OnSurface g -> sn g = sgn g) /\
  (exists C, eval_measurement_contrb_bidir (x_api neg0 zs a) x_path (Z.of_nat 1) = ret C) /\ (exists C, eval_measurement_contrb_bidir (x_api neg0 zs a) x_path (Z.of_nat 2) = ret C) /\
  (forall k, (k < length x_path)%nat -> symmetric_at (x_api neg0 zs a) x_path k).
Proof.
  intros neg0 zs a.
  assert (Pl : plain_path (fun _ => diffuse (grey 1) None) (fun _ => point_light (grey 1) (V3 0 0 (/ 2))) (fun _ => PhaseModel.isotropic) (x_scene None None) x_path).
  { split; [|split; [|split]].
    - intros v [<-|[<-|[<-|[]]]]; (split; [|discriminate]); eexists; (split; [reflexivity|]); cbn [it vs_sp x_lamp x_spot x_eye endpoint]; try exact I.
      + eexists. split; [reflexivity|]. split; [constructor|reflexivity].
      + eexists _, _. split; [reflexivity|]. split; [apply r_diffuse; [unfold color_ok, vnonneg, grey; cbn; repeat split; lra|exact I]|]. split; [reflexivity|]. split; [reflexivity|].
        exists false, v0, (V3 0 0 1), (V3 0 0 1), (V2 0 0). split; [|reflexivity]. unfold unit, dot. cbn. field.
    - intros v [= <-]. reflexivity.
    - intros v [= <-]. reflexivity.
    - intros [|[|k]] v K; [lia| |cbn in K; lia]. intros [= <-]. now left. }
  assert (Fl : forall k v g, (0 < k < length x_path - 1)%nat -> nth_error x_path k = Some v -> igeom (vs_sp v) = OnSurface g -> sn g = sgn g).
  { intros [|[|k]] v g K; [lia| |cbn in K; lia]. intros [= <-] [= <-]. unfold make_on_surface. destruct (orthonormal_basis _ _). reflexivity. }
  destruct (x_lamp_values neg0 zs a) as (A1 & A2 & A3 & A4 & A5 & A6), (x_eye_values neg0 zs a) as (B1 & B2 & B3 & B4 & B5 & B6), (x_spot_values neg0 zs a) as (C1 & C2 & C3).
  destruct x_dirs as (D1 & D2 & D3 & D4). destruct (x_term (/ 2) ltac:(lra)) as (G1 & G2), (x_term 1 ltac:(lra)) as (G3 & G4).
  assert (Df : forall s, (1 <= s <= 2)%nat -> exists C, eval_measurement_contrb_bidir (x_api neg0 zs a) x_path (Z.of_nat s) = ret C).
  { intros s Hs. destruct (C3 (vs_comp x_spot) (side 3 s 1) (joint s 1)) as (f & Hf).
    eexists. apply C77_product; [cbn; lia..|]. exists (fun k => match k with 0%nat => grey 1 | 1%nat => f | _ => grey (/ 4) end), (fun k => match k with 0%nat => / (/ 2 * / 2) | _ => / (1 * 1) end). split; [|split; [|reflexivity]].
    - intros [|[|[|k]]] K; [| | |cbn in K; lia]; eexists _, _, _; (split; [reflexivity|]); (split; [first [exact D2|exact D3|reflexivity]|]); (split; [first [exact D1|exact D4|reflexivity]|]).
      + cbn [side Nat.eqb]. apply A5.
      + change (length x_path) with 3%nat. destruct (side 3 s 1); exact Hf.
      + change (side (length x_path) s 2) with EL. apply B5.
    - intros [|[|k]] K; [| |cbn in K; lia]; eexists _, _; (split; [reflexivity|]); (split; [reflexivity|]); assumption. }
  split; [exact Pl|]. split; [exact Fl|]. split; [apply Df; lia|]. split; [apply Df; lia|].
  intros k K d d' b b' f f' Hd Hd' S1 S2.
  destruct (Nat.eq_dec k 0) as [-> |N0]; [destruct Hd as (-> & ->); [reflexivity|]; eapply vertex_delta; eauto|].
  destruct (Nat.eq_dec (S k) (length x_path)) as [e|N1]; [destruct Hd' as (-> & ->); [exact e|]; eapply vertex_delta; eauto|].
  assert (Kk : (0 < k < length x_path - 1)%nat) by lia. assert (F : forall v g, nth_error x_path k = Some v -> igeom (vs_sp v) = OnSurface g -> sn g = sgn g) by (intros; eapply Fl; eauto).
  destruct d, d'; [eapply vertex_delta; eauto| | |eapply vertex_delta; eauto].
  - eapply (vertex_turn _ _ _ _ _ _ _ _ _ _ _ x_path k b' b f' f Pl Kk S2 S1). exact F.
  - symmetry. eapply (vertex_turn _ _ _ _ _ _ _ _ _ _ _ x_path k b b' f f' Pl Kk S1 S2). exact F.
Qed.
