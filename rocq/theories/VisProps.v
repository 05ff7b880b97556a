(** C57 (intersection, visibility, distances and transmittance) and C69 (scene bound). *)
From Coq Require Import List Reals ZArith Bool Lra Lia ZifyBool Psatz Permutation.
From Verif Require BvhModel BvhSpec BvhQueryProofs BvhProps PathSpec CamProofs LightSpec LightProps.
From Verif Require Import Base ObjModel SceneModel SceneSpec SceneProofs SceneProps RBase VecBase MeshModel MeshSpec MeshProofs SurfModel SurfSpec SurfProofs MatModel MatProofs LightModel PathModel PathProofs GeoModel GeoSpec GeoProofs VolModel VolSpec VolMediaProofs VolProps VisModel VisSpec VisProofs VisHitProofs.
Import ListNotations.
Open Scope R_scope.

(** ** Intersection *)
(** A query of a sound scene always succeeds. If the ray meets a surface in the range, the result is the
    nearest such point, on the ray. If not, it is the environment for a range up to Inf, when there is one. *)
Theorem C57_intersect : forall mesh_of neg0 s a r tmin tmax, sound_scene mesh_of s -> built_for mesh_of s a -> shallow a ->
  exists o, intersect mesh_of neg0 s a r tmin tmax = ret o /\
    ((exists t, tmin <= t <= tmax /\ meets_scene mesh_of s r t) -> exists x, o = Some x /\ surface_hit mesh_of s r tmin tmax x) /\
    ((forall t, tmin <= t <= tmax -> ~ meets_scene mesh_of s r t) ->
      (forall e, s_env s = Some e -> Inf <= tmax -> o = Some (endpoint LightEndpoint e (Infinite (vneg (rd r))))) /\
      (s_env s = None \/ tmax < Inf -> o = None)).
Proof.
  intros mesh_of neg0 s a r tmin tmax Hs Hb Hd. destruct (intersect_spec mesh_of neg0 s a Hs Hb Hd r tmin tmax) as [(x & E & H)|(H & E)].
  - exists (Some x). split; [exact E|]. split; [eauto|]. intros N. exfalso. destruct H as (t & f & A & B & C & g & Ht & W & Mt & _). apply (N t Ht). exists (iprim x), f, A, B, C. auto.
  - eexists. split; [exact E|]. split; [intros (t & Ht & Mt); exfalso; exact (H t Ht Mt)|]. intros _. split.
    + intros e -> L. destruct (Rlt_dec tmax Inf); [lra|reflexivity].
    + intros [-> | L]; [reflexivity|]. destruct (s_env s), (Rlt_dec tmax Inf); try reflexivity. lra.
Qed.
Print Assumptions C57_intersect.

(** ** Visibility *)
Lemma position_at x p : at_position x p -> position (igeom x) = Val p /\ pos_of (igeom x) = p /\ match igeom x with Infinite _ => False | _ => True end.
Proof. unfold at_position, position, pos_of. destruct (igeom x); intros; subst; auto; contradiction. Qed.
Lemma vlen_pos p q : p <> q -> 0 < vlen (vsub q p).
Proof.
  intros N. unfold vlen. apply sqrt_lt_R0. destruct (Rle_lt_or_eq_dec 0 _ (dot_self_nonneg (vsub q p))) as [|Z0]; [assumption|]. exfalso. apply N.
  destruct p as [a b c], q as [d e f]. unfold dot, vsub in Z0; cbn in Z0.
  assert (forall x y z, 0 = x * x + y * y + z * z -> x = 0) as K by (intros; nra).
  f_equal; [pose proof (K (d - a) (e - b) (f - c))|pose proof (K (e - b) (d - a) (f - c))|pose proof (K (f - c) (d - a) (e - b))]; lra.
Qed.
Lemma normalize_dir p q : p <> q -> fnormalize (vsub q p) = Val (direction_to p q).
Proof. intros N. assert (L := vlen_pos p q N). unfold fnormalize, vdiv. destruct (Req_EM_T (vlen (vsub q p)) 0); [lra|reflexivity]. Qed.

Lemma visible_from_val mesh_of neg0 zs s a x y p q : at_position x p -> at_position y q -> p <> q ->
  visible_from mesh_of neg0 zs s a x y =
  let! h := intersect mesh_of neg0 s a (mk_ray p (direction_to p q) (zs (direction_to p q))) Eps (vlen (vsub q p) * (1 - Eps)) in ret (match h with Some _ => false | None => true end).
Proof.
  intros Hx Hy N. apply position_at in Hx as (Ex & _), Hy as (_ & Ey & Ny). unfold visible_from. rewrite Ex. cbn [pbind].
  destruct (igeom y) eqn:G; try contradiction; cbn [pos_of] in *; subst; rewrite (normalize_dir _ _ N); reflexivity.
Qed.

(** Two points see each other exactly if no surface is met between them, up to the tolerance. The environment
    does not occlude (for points less than Inf apart). *)
Theorem C57_visible : forall mesh_of neg0 zs s a x y p q, sound_scene mesh_of s -> built_for mesh_of s a -> shallow a ->
  at_position x p -> at_position y q -> p <> q -> vlen (vsub q p) * (1 - Eps) < Inf ->
  exists b, visible mesh_of neg0 zs s a x y = ret b /\
    (b = true <-> forall t, Eps <= t <= vlen (vsub q p) * (1 - Eps) -> ~ meets_scene mesh_of s (mk_ray p (direction_to p q) (zs (direction_to p q))) t).
Proof.
  intros mesh_of neg0 zs s a x y p q Hs Hb Hd Hx Hy N L. assert (V : visible mesh_of neg0 zs s a x y = visible_from mesh_of neg0 zs s a x y).
  { unfold visible. apply position_at in Hx as (_ & _ & Nx). destruct (igeom x); auto; contradiction. }
  rewrite V, (visible_from_val _ _ _ _ _ _ _ _ _ Hx Hy N).
  destruct (intersect_spec mesh_of neg0 s a Hs Hb Hd (mk_ray p (direction_to p q) (zs (direction_to p q))) Eps (vlen (vsub q p) * (1 - Eps))) as [(z & E & H)|(H & E)]; rewrite E.
  - exists false. split; [reflexivity|]. split; [discriminate|]. intros F. exfalso. destruct H as (t & f & A & B & C & g & Ht & W & Mt & _). apply (F t Ht). exists (iprim z), f, A, B, C. auto.
  - exists true. split; [|split; auto]. destruct (Rlt_dec (vlen (vsub q p) * (1 - Eps)) Inf); [|lra]. now destruct (s_env s).
Qed.
Print Assumptions C57_visible.
(** A point at infinity, in either argument: the whole ray in its direction counts. *)
Theorem C57_visible_infinite : forall mesh_of neg0 zs s a x y p w, sound_scene mesh_of s -> built_for mesh_of s a -> shallow a ->
  at_position x p -> igeom y = Infinite w ->
  exists b, visible mesh_of neg0 zs s a x y = ret b /\ visible mesh_of neg0 zs s a y x = ret b /\
    (b = true <-> forall t, Eps <= t <= Inf - 1 -> ~ meets_scene mesh_of s (mk_ray p (vneg w) (zs (vneg w))) t).
Proof.
  intros mesh_of neg0 zs s a x y p w Hs Hb Hd Hx Hy. apply position_at in Hx as (Ex & _ & Nx).
  assert (V : visible mesh_of neg0 zs s a x y = visible_from mesh_of neg0 zs s a x y) by (unfold visible; destruct (igeom x); auto; contradiction).
  assert (V' : visible mesh_of neg0 zs s a y x = visible_from mesh_of neg0 zs s a x y) by (unfold visible; now rewrite Hy).
  rewrite V, V'. unfold visible_from. rewrite Ex, Hy. cbn [pbind ret].
  destruct (intersect_spec mesh_of neg0 s a Hs Hb Hd (mk_ray p (vneg w) (zs (vneg w))) Eps (Inf - 1)) as [(z & E & H)|(H & E)]; rewrite E.
  - exists false. split; [reflexivity|]. split; [reflexivity|]. split; [discriminate|]. intros F. exfalso. destruct H as (t & f & A & B & C & g & Ht & W & Mt & _). apply (F t Ht). exists (iprim z), f, A, B, C. auto.
  - exists true. destruct (Rlt_dec (Inf - 1) Inf); [|lra]. destruct (s_env s); split; auto; split; auto; split; auto.
Qed.
Print Assumptions C57_visible_infinite.
(** Points further apart than Inf are not visible in a scene with an environment: it is taken for an occluder. *)
Theorem C57_far_points_refuted : forall mesh_of neg0 zs s a x y p q e, sound_scene mesh_of s -> built_for mesh_of s a -> shallow a ->
  at_position x p -> at_position y q -> p <> q -> Inf <= vlen (vsub q p) * (1 - Eps) -> s_env s = Some e ->
  visible mesh_of neg0 zs s a x y = ret false.
Proof.
  intros mesh_of neg0 zs s a x y p q e Hs Hb Hd Hx Hy N L He. assert (V : visible mesh_of neg0 zs s a x y = visible_from mesh_of neg0 zs s a x y).
  { unfold visible. apply position_at in Hx as (_ & _ & Nx). destruct (igeom x); auto; contradiction. }
  rewrite V, (visible_from_val _ _ _ _ _ _ _ _ _ Hx Hy N).
  destruct (intersect_spec mesh_of neg0 s a Hs Hb Hd (mk_ray p (direction_to p q) (zs (direction_to p q))) Eps (vlen (vsub q p) * (1 - Eps))) as [(z & E & H)|(H & E)]; rewrite E; [reflexivity|].
  rewrite He. destruct (Rlt_dec (vlen (vsub q p) * (1 - Eps)) Inf); [lra|reflexivity].
Qed.
Print Assumptions C57_far_points_refuted.

(** Symmetry. A surface met at [t] from one side is met at [d - t] from the other. *)
Lemma direction_back p q : p <> q -> direction_to q p = vneg (direction_to p q).
Proof.
  intros N. unfold direction_to. assert (E : vlen (vsub p q) = vlen (vsub q p)) by (unfold vlen; f_equal; destruct p, q; unfold dot, vsub; cbn; ring).
  rewrite E. destruct p, q. unfold vneg, vscale, vsub; cbn. f_equal; ring.
Qed.
Lemma meets_back mesh_of s p q z z' t : p <> q -> meets_scene mesh_of s (mk_ray p (direction_to p q) z) t -> meets_scene mesh_of s (mk_ray q (direction_to q p) z') (vlen (vsub q p) - t).
Proof.
  intros N (i & f & A & B & C & W & (u & v & S & E) & D). exists i, f, A, B, C. split; [exact W|]. assert (L := vlen_pos p q N). split.
  - exists u, v. split; [exact S|]. rewrite <- E. rewrite (direction_back p q N). unfold ray_at. cbn [ro rd].
    assert (Q : q = vadd p (vscale (vlen (vsub q p)) (direction_to p q))).
    { unfold direction_to. set (l := vlen (vsub q p)) in *. destruct p, q. unfold vadd, vscale, vsub; cbn. f_equal; field; lra. }
    set (l := vlen (vsub q p)) in *. set (w := direction_to p q) in *. rewrite Q. destruct p, w. unfold vadd, vneg, vscale; cbn. f_equal; ring.
  - cbn [rd] in *. rewrite (direction_back p q N). set (w := direction_to p q) in *.
    replace (dot (vsub B A) (cross (vneg w) (vsub C A))) with (- dot (vsub B A) (cross w (vsub C A))); [now rewrite Rabs_Ropp|].
    destruct w, A, B, C. unfold dot, cross, vneg, vsub; cbn. ring.
Qed.
(** Visibility is symmetric, unless a surface is so close to one of the points that only one of the two queries
    takes it into account: the tolerance is Eps at the first point and Eps times the distance at the second. *)
Theorem C57_symmetric_partial : forall mesh_of neg0 zs s a x y p q, sound_scene mesh_of s -> built_for mesh_of s a -> shallow a ->
  at_position x p -> at_position y q -> p <> q -> vlen (vsub q p) * (1 - Eps) < Inf ->
  (let d := vlen (vsub q p) in forall t, meets_scene mesh_of s (mk_ray p (direction_to p q) (zs (direction_to p q))) t ->
     0 <= t <= d -> Rmax Eps (d * Eps) <= t <= d - Rmax Eps (d * Eps) \/ t < Rmin Eps (d * Eps) \/ d - Rmin Eps (d * Eps) < t) ->
  exists b, visible mesh_of neg0 zs s a x y = ret b /\ visible mesh_of neg0 zs s a y x = ret b.
Proof.
  intros mesh_of neg0 zs s a x y p q Hs Hb Hd Hx Hy N L Far. cbv zeta in Far.
  assert (Sy : vlen (vsub p q) = vlen (vsub q p)) by (unfold vlen; f_equal; destruct p, q; unfold dot, vsub; cbn; ring).
  assert (N' : q <> p) by congruence. assert (Lp := vlen_pos p q N).
  destruct (C57_visible mesh_of neg0 zs s a x y p q Hs Hb Hd Hx Hy N L) as (b & E & H).
  destruct (C57_visible mesh_of neg0 zs s a y x q p Hs Hb Hd Hy Hx N' ltac:(rewrite Sy; exact L)) as (b' & E' & H').
  exists b. split; [exact E|]. rewrite E'. do 2 f_equal. rewrite Sy in H'. set (d := vlen (vsub q p)) in *.
  assert (Ep : 0 < Eps) by (unfold Eps; lra). assert (Ep1 : Eps < 1) by (unfold Eps; lra).
  assert (G : forall t, Eps <= t <= d * (1 - Eps) -> meets_scene mesh_of s (mk_ray p (direction_to p q) (zs (direction_to p q))) t -> Eps <= d - t <= d * (1 - Eps)).
  { intros t Ht Mt. destruct (Far t Mt) as [F|[F|F]]; [nra|..]; unfold Rmax, Rmin in *; destruct (Rle_dec Eps (d * Eps)); lra. }
  assert (G' : forall t, Eps <= t <= d * (1 - Eps) -> meets_scene mesh_of s (mk_ray q (direction_to q p) (zs (direction_to q p))) t -> Eps <= d - t <= d * (1 - Eps)).
  { intros t Ht Mt. apply (meets_back mesh_of s q p _ (zs (direction_to p q)) t N') in Mt. rewrite Sy in Mt. fold d in Mt.
    destruct (Far (d - t) Mt) as [F|[F|F]]; [nra|..]; unfold Rmax, Rmin in *; destruct (Rle_dec Eps (d * Eps)); lra. }
  apply eq_true_iff_eq. rewrite H, H'. split; intros K t Ht Mt.
  - apply (K (d - t)); [now apply G|]. now apply (meets_back mesh_of s p q _ (zs (direction_to q p))) in Mt.
  - apply (K (d - t)); [now apply G'|]. apply (meets_back mesh_of s q p _ (zs (direction_to p q)) t N') in Mt. now rewrite Sy in Mt.
Qed.
Print Assumptions C57_symmetric_partial.

(** ** Acceleration structures exist *)
(** A sound scene with at least one triangle (and at most 2^31-1) is flattened without errors, and its
    structure can be built by any positive number of threads. *)
Theorem C57_buildable : forall mesh_of s, sound_scene mesh_of s ->
  exists fuel calls fns trs, traverse id_affine after fuel s = (calls, Ok tt) /\ flatten mesh_of calls [] [] = ret (fns, trs) /\
    (forall i f A B C, world_triangle mesh_of s i f A B C -> trs <> []) /\
    (trs <> [] -> (Z.of_nat (length trs) <= 2147483647)%Z -> exists nds idx, built_for mesh_of s (mk_accel nds trs idx fns)).
Proof.
  intros mesh_of s (Nu & Tr & Sm). destruct (C17_terminates _ id_affine after s) as [_ F]. destruct (F Tr) as (fuel & E).
  destruct (traverse id_affine after fuel s) as [calls o] eqn:Et. cbn in E. subst o. exists fuel, calls.
  assert (CI := calls_instances s fuel calls Nu Et).
  destruct (flatten_spec mesh_of calls) with (fns := @nil flat_node) (trs := @nil tri) as (fns & trs & Ef & _ & Al).
  { intros i pr M k I Pk. destruct (proj1 (CI i k M)) as (p & Hi); [eauto|]. destruct (Sm p i k M Hi) as (D & Sd). split; [exact D|apply Sd]. }
  cbn [app] in Ef. exists fns, trs. split; [exact Et|]. split; [exact Ef|]. split.
  - intros i f A B C (p & k & M & t & Hi & Hf & _) ->. destruct (proj2 (CI i k M)) as (pr & I & Pk); [eauto|].
    destruct (Al i pr M k f t I Pk Hf) as (n & []). unfold num_triangles. destruct Hf as (f1 & f2 & f3 & (_ & _ & H3) & _).
    assert (3 * f + 2 < length (m_fs (snd (mesh_of k))))%nat by (apply nth_error_Some; congruence). apply Nat.div_le_lower_bound; lia.
  - intros Ne Hc. assert (Hi : exists st, BvhModel.init trs = Ok st).
    { unfold BvhModel.init, BvhModel.nt. destruct trs; [contradiction|]. cbn. eauto. }
    destruct Hi as (st & Hi). destruct (BvhProps.C34_completes trs (BvhProps.isort trs) 1 [] st) as (l & s' & R & Fi).
    { intros a x. apply BvhProps.C34_sort. }
    { exact Hc. }
    { now constructor. }
    exists (BvhModel.nodes s'), (BvhModel.indices s'), fuel, calls, (BvhProps.isort trs), 1%nat, ([] ++ l), s'.
    split; [exact Et|]. split; [exact Ef|]. split; [intros a x; apply BvhProps.C34_sort|]. split; [exact Hc|]. auto.
Qed.
Print Assumptions C57_buildable.
Lemma small_shallow a : (length (a_trs a) <= 99)%nat -> shallow a.
Proof. intros L d u T. apply BvhQueryProofs.tree_height in T. lia. Qed.

(** A scene with one triangle in the plane z = 0, for the examples *)
Definition x_mesh : mesh := mk_mesh [V3 (-1) (-1) 0; V3 1 (-1) 0; V3 0 1 0] [] [] [mk_findex 0 (-1) (-1); mk_findex 1 (-1) (-1); mk_findex 2 (-1) (-1)].
Definition x_meshes : nat -> bool * mesh := fun _ => (true, x_mesh).
Definition x_scene (env medium : option Z) : scene affine :=
  mk_scene None [NGroup 0 [1%Z; 2%Z; 3%Z] false None; NPrim 1 (mk_prim (Some 0%nat) (Some 0%nat) None None (Some 0%nat));
    NPrim 2 (mk_prim None None None (Some 0%nat) None); NPrim 3 (mk_prim None None (Some 0%nat) None None)] (Some 2%Z) [(id_affine, 3%Z)] [(3%Z, 0%Z)] env medium 0.
Lemma x_instances e m p i k M : instance (x_scene e m) p i k M -> i = 1%Z /\ k = 0%nat /\ M = id_affine.
Proof.
  intros H. assert (Nu : numbered (s_nodes (x_scene e m))) by (intros [|[|[|[|[|n]]]]] y; cbn; intros [= <-] || intros Q; try reflexivity; discriminate Q).
  destruct (proj2 (calls_instances (x_scene e m) 3 _ Nu eq_refl i k M)) as (pr & I & Pk); [eauto|].
  destruct I as [I|[I|[I|[I|[]]]]]; [discriminate|..]; injection I as <- <- <-; cbn in Pk; [|discriminate..]. injection Pk as <-. auto.
Qed.
Lemma x_sound e m : sound_scene x_meshes (x_scene e m).
Proof.
  split; [|split].
  - intros [|[|[|[|[|n]]]]] y; cbn; intros [= <-] || intros Q; try reflexivity; discriminate Q.
  - apply (C17_terminates _ id_affine after). exists 3%nat. reflexivity.
  - intros p i k M H. apply x_instances in H as (-> & -> & ->). split; [unfold det3, id_affine, dot, cross; cbn; lra|].
    assert (Fc : forall f, In f (m_fs x_mesh) -> fn f = (-1)%Z /\ ft f = (-1)%Z) by (intros f [<-|[<-|[<-|[]]]]; auto).
    split; [|split].
    + intros f [<-|[<-|[<-|[]]]]; eexists (mk_vertex _ v0 v2zero); (split; [split; [cbn; lia|reflexivity]|split; left; cbn; auto with zarith]); cbn; lia.
    + intros _ n f1 f2 f3 (H1 & H2 & H3). apply nth_error_In, Fc in H1, H2, H3. cbn in *. lia.
    + intros n f1 f2 f3 a b c u v (H1 & H2 & H3) _ _ _ _ [X|X]; [discriminate|]. apply nth_error_In, Fc in H1. lia.
Qed.
Lemma x_triangle e m i f A B C : world_triangle x_meshes (x_scene e m) i f A B C <-> i = 1%Z /\ f = 0%nat /\ A = V3 (-1) (-1) 0 /\ B = V3 1 (-1) 0 /\ C = V3 0 1 0.
Proof.
  assert (Im : forall p, image id_affine p = p) by (intros [x y z]; unfold image, apply_point, mmul, id_affine, vadd, vscale; cbn; f_equal; ring).
  split.
  - intros (p & k & M & t & H & (f1 & f2 & f3 & (F1 & F2 & F3) & N1 & N2 & N3) & EA & EB & EC). apply x_instances in H as (-> & -> & ->).
    rewrite Im in *. cbn [x_meshes fst snd x_mesh m_fs] in *. destruct f as [|f].
    + cbn in F1, F2, F3. injection F1 as <-. injection F2 as <-. injection F3 as <-. destruct N1 as ((_ & N1) & _), N2 as ((_ & N2) & _), N3 as ((_ & N3) & _).
      cbn in N1, N2, N3. injection N1 as N1. injection N2 as N2. injection N3 as N3. rewrite EA, EB, EC, <- N1, <- N2, <- N3. auto.
    + exfalso. assert (3 * S f < 3)%nat by (change 3%nat with (length (m_fs x_mesh)) at 2; apply nth_error_Some; cbn [m_fs x_mesh]; congruence). lia.
  - intros (-> & -> & -> & -> & ->). exists [0%nat], 0%nat, id_affine, (mk_vertex (V3 (-1) (-1) 0) v0 v2zero, mk_vertex (V3 1 (-1) 0) v0 v2zero, mk_vertex (V3 0 1 0) v0 v2zero).
    split; [|split].
    + exists [], (mk_prim (Some 0%nat) (Some 0%nat) None None (Some 0%nat)). split; [|split; [split; [lia|reflexivity]|split; reflexivity]].
      apply (path_down (s_nodes (x_scene e m)) 0 0 1 [] 1 [] 0 [1%Z; 2%Z; 3%Z] false None); [split; [lia|reflexivity]|reflexivity|]. econstructor. split; [lia|reflexivity].
    + exists (mk_findex 0 (-1) (-1)), (mk_findex 1 (-1) (-1)), (mk_findex 2 (-1) (-1)). split; [repeat split; reflexivity|].
      assert (V : forall j A, nth_error (m_ps x_mesh) (Z.to_nat j) = Some A -> (0 <= j)%Z -> names_vertex true x_mesh (mk_findex j (-1) (-1)) (mk_vertex A v0 v2zero)).
      { intros j A E J. split; [split; [exact J|exact E]|]. split; left; cbn; split; auto; split; auto; lia. }
      split; [|split]; apply V; solve [reflexivity|lia].
    + rewrite !Im. auto.
Qed.
(** Its acceleration structure *)
Lemma x_built e m : exists a, built_for x_meshes (x_scene e m) a /\ shallow a.
Proof.
  destruct (C57_buildable x_meshes _ (x_sound e m)) as (fuel & calls & fns & trs & Et & Ef & Ne & B).
  assert (L : length trs = 1%nat).
  { destruct fuel as [|[|fuel]]; [discriminate Et|discriminate Et|]. cbn in Et. injection Et as <-. cbn [flatten p_mesh] in Ef.
    assert (K : exists T, make_transform (fst id_affine) (snd id_affine) = Val T).
    { assert (Q : det3 (fst id_affine) <> 0) by (unfold det3, id_affine, dot, cross; cbn; lra). unfold make_transform. rewrite (CamProofs.rdiv_ok _ _ Q). eexists. reflexivity. }
    destruct K as (T & K). rewrite K in Ef. cbn [pbind] in Ef. change (foreach_triangle _ _) with (Ok [(0%nat, (mk_vertex (V3 (-1) (-1) 0) v0 v2zero, mk_vertex (V3 1 (-1) 0) v0 v2zero, mk_vertex (V3 0 1 0) v0 v2zero))]) in Ef.
    cbn [obind flatten app map length] in Ef. unfold ret in Ef. injection Ef as _ <-. reflexivity. }
  destruct B as (nds & idx & H); [intros ->; discriminate|rewrite L; lia|]. eexists. split; [exact H|]. apply small_shallow. cbn [a_trs]. lia.
Qed.
(** A vertical ray near the axis meets the triangle exactly at z = 0. *)
Lemma x_meets e m z w n t : w * w = 1 -> (meets_scene x_meshes (x_scene e m) (mk_ray (V3 0 0 z) (V3 0 0 w) n) t <-> z + t * w = 0).
Proof.
  intros W. split.
  - intros (i & f & A & B & C & H & (u & v & S & E) & _). apply x_triangle in H as (-> & -> & -> & -> & ->).
    unfold ray_at, bary, vadd, vscale in E. cbn in E. injection E as _ _ E. lra.
  - intros E. exists 1%Z, 0%nat, (V3 (-1) (-1) 0), (V3 1 (-1) 0), (V3 0 1 0). split; [now apply x_triangle|]. split.
    + exists (/ 4), (/ 2). split; [unfold in_simplex; lra|]. unfold ray_at, bary, vadd, vscale. cbn. f_equal; lra.
    + cbn [rd]. replace (dot _ _) with (- 4 * w) by (unfold dot, cross, vsub; cbn; ring). unfold Rabs. destruct (Rcase_abs _); nra.
Qed.
(** The hypotheses above are met, and visibility has both outcomes: the triangle occludes points on its two
    sides, and not points on the same side. *)
Example C57_example : forall neg0 zs, exists a, sound_scene x_meshes (x_scene None None) /\ built_for x_meshes (x_scene None None) a /\ shallow a /\
  (exists t, meets_scene x_meshes (x_scene None None) (mk_ray (V3 0 0 1) (V3 0 0 (-1)) (fun _ => false)) t) /\
  let P z := endpoint MediumInteraction 1 (Degenerated (V3 0 0 z)) in
  visible x_meshes neg0 zs (x_scene None None) a (P 1) (P (-1)) = ret false /\ visible x_meshes neg0 zs (x_scene None None) a (P 1) (P 2) = ret true.
Proof.
  intros neg0 zs. destruct (x_built None None) as (a & B & D). exists a. split; [apply x_sound|]. split; [exact B|]. split; [exact D|]. split.
  { exists 1. apply x_meets; lra. }
  cbv zeta. assert (EL : vlen (vsub (V3 0 0 (-1)) (V3 0 0 1)) = 2) by (unfold vlen; replace (dot _ _) with (2 * 2) by (unfold dot, vsub; cbn; ring); apply sqrt_square; lra).
  assert (EL' : vlen (vsub (V3 0 0 2) (V3 0 0 1)) = 1) by (unfold vlen; replace (dot _ _) with (1 * 1) by (unfold dot, vsub; cbn; ring); apply sqrt_square; lra). split.
  - destruct (C57_visible x_meshes neg0 zs _ a (endpoint MediumInteraction 1 (Degenerated (V3 0 0 1))) (endpoint MediumInteraction 1 (Degenerated (V3 0 0 (-1)))) (V3 0 0 1) (V3 0 0 (-1)) (x_sound None None) B D) as (b & E & H); try reflexivity.
    { intros [= Q]. lra. } { rewrite EL. unfold Eps, Inf. lra. }
    rewrite E. f_equal. destruct b; [|reflexivity]. exfalso. apply (proj1 H eq_refl 1); [rewrite EL; unfold Eps; lra|].
    replace (direction_to _ _) with (V3 0 0 (-1)) by (unfold direction_to; rewrite EL; unfold vscale, vsub; cbn; f_equal; lra). apply x_meets; lra.
  - destruct (C57_visible x_meshes neg0 zs _ a (endpoint MediumInteraction 1 (Degenerated (V3 0 0 1))) (endpoint MediumInteraction 1 (Degenerated (V3 0 0 2))) (V3 0 0 1) (V3 0 0 2) (x_sound None None) B D) as (b & E & H); try reflexivity.
    { intros [= Q]. lra. } { rewrite EL'. unfold Eps, Inf. lra. }
    rewrite E. f_equal. destruct b; [reflexivity|]. exfalso. apply diff_false_true, H. intros t Ht Mt. revert Mt.
    replace (direction_to _ _) with (V3 0 0 1) by (unfold direction_to; rewrite EL'; unfold vscale, vsub; cbn; f_equal; lra). rewrite x_meets by lra.
    unfold Eps in Ht. lra.
Qed.

(** Finding: visibility is not symmetric. The tolerance at the first point is Eps, at the second it is
    proportional to the distance. With 100 between the points, a triangle 0.05 in front of one of them occludes
    seen from there, but not seen from the other. *)
Theorem C57_symmetric_refuted : exists mesh_of s a x y, sound_scene mesh_of s /\ built_for mesh_of s a /\ shallow a /\
  forall neg0 zs, visible mesh_of neg0 zs s a x y = ret false /\ visible mesh_of neg0 zs s a y x = ret true.
Proof.
  destruct (x_built None None) as (a & B & D).
  set (x := endpoint MediumInteraction 1 (Degenerated (V3 0 0 (1 / 20)))). set (y := endpoint MediumInteraction 1 (Degenerated (V3 0 0 (1 / 20 - 100)))).
  exists x_meshes, (x_scene None None), a, x, y. split; [apply x_sound|]. split; [exact B|]. split; [exact D|]. intros neg0 zs.
  assert (EL : vlen (vsub (V3 0 0 (1 / 20 - 100)) (V3 0 0 (1 / 20))) = 100) by (unfold vlen; replace (dot _ _) with (100 * 100) by (unfold dot, vsub; cbn; field); apply sqrt_square; lra).
  assert (EL' : vlen (vsub (V3 0 0 (1 / 20)) (V3 0 0 (1 / 20 - 100))) = 100) by (unfold vlen; replace (dot _ _) with (100 * 100) by (unfold dot, vsub; cbn; field); apply sqrt_square; lra).
  split.
  - destruct (C57_visible x_meshes neg0 zs _ a x y (V3 0 0 (1 / 20)) (V3 0 0 (1 / 20 - 100)) (x_sound None None) B D) as (b & E & H); try reflexivity.
    { intros [= Q]. lra. } { rewrite EL. unfold Eps, Inf. lra. }
    rewrite E. f_equal. destruct b; [|reflexivity]. exfalso. apply (proj1 H eq_refl (1 / 20)); [rewrite EL; unfold Eps; lra|].
    replace (direction_to _ _) with (V3 0 0 (-1)) by (unfold direction_to; rewrite EL; unfold vscale, vsub; cbn; f_equal; lra). apply x_meets; lra.
  - destruct (C57_visible x_meshes neg0 zs _ a y x (V3 0 0 (1 / 20 - 100)) (V3 0 0 (1 / 20)) (x_sound None None) B D) as (b & E & H); try reflexivity.
    { intros [= Q]. lra. } { rewrite EL'. unfold Eps, Inf. lra. }
    rewrite E. f_equal. destruct b; [reflexivity|]. exfalso. apply diff_false_true, H. intros t Ht Mt. revert Mt.
    replace (direction_to _ _) with (V3 0 0 1) by (unfold direction_to; rewrite EL'; unfold vscale, vsub; cbn; f_equal; lra). rewrite x_meets by lra.
    rewrite EL' in Ht. unfold Eps in Ht. lra.
Qed.
Print Assumptions C57_symmetric_refuted.

(** ** Transmittance *)
(** In a scene without a medium it is one or zero according to visibility, and no random number is used. *)
Theorem C57_transmittance_vacuum : forall mesh_of neg0 zs med us s a x y b, s_medium s = None ->
  visible mesh_of neg0 zs s a x y = ret b ->
  eval_transmittance mesh_of neg0 zs med us s a x y = ret (if b then grey 1 else v0, us).
Proof. intros mesh_of neg0 zs med us s a x y b M V. unfold eval_transmittance. rewrite V. cbn [pbind ret]. unfold medium_node. rewrite M. now destruct b. Qed.
Print Assumptions C57_transmittance_vacuum.
(** With a medium, it is zero between points that do not see each other, and else that of the medium on the
    segment, or on the whole ray for a second point at infinity. *)
Theorem C57_transmittance_medium : forall mesh_of neg0 zs med us s a x y p i pr k b, s_medium s = Some i -> has_node (s_nodes s) i (NPrim i pr) -> p_medium pr = Some k ->
  at_position x p -> visible mesh_of neg0 zs s a x y = ret b ->
  (b = false -> eval_transmittance mesh_of neg0 zs med us s a x y = ret (v0, us)) /\
  (forall q, b = true -> at_position y q -> p <> q -> eval_transmittance mesh_of neg0 zs med us s a x y =
     md_transmittance (med k) us (mk_ray p (direction_to p q) (zs (direction_to p q))) 0 (vlen (vsub q p))) /\
  (forall w, b = true -> igeom y = Infinite w -> eval_transmittance mesh_of neg0 zs med us s a x y =
     md_transmittance (med k) us (mk_ray p (vneg w) (zs (vneg w))) 0 Inf).
Proof.
  intros mesh_of neg0 zs med us s a x y p i pr k b M Hn Pk Hx V. apply position_at in Hx as (Ex & _). unfold eval_transmittance. rewrite V. cbn [pbind ret].
  split; [intros ->; reflexivity|]. unfold medium_node. rewrite M. assert (Ei : (i =? -1)%Z = false) by (destruct Hn; lia). rewrite Ei.
  assert (Pi : prim_at s i = Ok pr). { unfold prim_at, node_at. destruct Hn as (Hi & Hn). destruct (i <? 0)%Z eqn:Q; [lia|]. now rewrite Hn. }
  split.
  - intros q -> Hy N. apply position_at in Hy as (_ & Ey & Ny). rewrite Ex. cbn [pbind negb].
    destruct (igeom y) eqn:G; try contradiction; cbn [pos_of] in Ey; subst; cbn [pos_of]; rewrite (normalize_dir _ _ N); cbn [pbind ret]; rewrite Pi; cbn [obind]; rewrite Pk; reflexivity.
  - intros w -> G. rewrite Ex, G. cbn [pbind negb ret]. rewrite Pi. cbn [obind]. now rewrite Pk.
Qed.
Print Assumptions C57_transmittance_medium.
(** Finding: although visibility accepts a point at infinity as the first argument, transmittance in a scene
    with a medium fails an assertion for it. *)
Theorem C57_transmittance_infinite_refuted : forall mesh_of neg0 zs med us s a x y i w, s_medium s = Some i -> (0 <= i)%Z ->
  igeom x = Infinite w -> visible mesh_of neg0 zs s a x y = ret true -> eval_transmittance mesh_of neg0 zs med us s a x y = Ok Undefined.
Proof.
  intros mesh_of neg0 zs med us s a x y i w M I G V. unfold eval_transmittance. rewrite V. cbn [pbind ret negb]. unfold medium_node. rewrite M.
  destruct (i =? -1)%Z eqn:Q; [lia|]. rewrite G. reflexivity.
Qed.
Print Assumptions C57_transmittance_infinite_refuted.

(** ** Distances *)
Lemma ray_dist p wo n t : unit wo -> 0 <= t -> vlen (vsub (ray_at (mk_ray p wo n) t) p) = t.
Proof.
  intros U T. unfold vlen. replace (dot _ _) with (t * t * dot wo wo) by (unfold ray_at; cbn [ro rd]; destruct p, wo; unfold dot, vsub, vadd, vscale; cbn; ring).
  unfold unit in U. rewrite U, Rmult_1_r. now apply sqrt_square.
Qed.
(** A sampled distance is an event in the medium that no surface precedes, or the nearest surface, or the
    environment; and there is none only if the ray leaves a scene without environment. *)
Theorem C57_distance : forall mesh_of neg0 zs med us us' s a x p wo i pr k o, sound_scene mesh_of s -> built_for mesh_of s a -> shallow a ->
  s_medium s = Some i -> has_node (s_nodes s) i (NPrim i pr) -> p_medium pr = Some k ->
  at_position x p -> unit wo -> Forall (fun u => 0 <= u < 1) us ->
  let r := mk_ray p wo (zs wo) in sound_medium (med k) r ->
  sample_distance mesh_of neg0 zs med us s a x wo = ret (o, us') ->
  match o with
  | Some (y, w) =>
      (exists t, 0 <= t <= Inf /\ y = endpoint MediumInteraction i (Degenerated (ray_at r t)) /\ forall t', Eps <= t' < t -> ~ meets_scene mesh_of s r t') \/
      surface_hit mesh_of s r Eps Inf y \/
      (forall t, Eps <= t <= Inf -> ~ meets_scene mesh_of s r t) /\ exists e, s_env s = Some e /\ y = endpoint LightEndpoint e (Infinite (vneg wo))
  | None => (forall t, Eps <= t <= Inf -> ~ meets_scene mesh_of s r t) /\ s_env s = None
  end.
Proof.
  intros mesh_of neg0 zs med us us' s a x p wo i pr k o Hs Hb Hd M Hn Pk Hx U D r Sm H. apply position_at in Hx as (Ex & _). unfold sample_distance in H. rewrite Ex in H. cbn [pbind] in H. fold r in H.
  assert (Pi : prim_at s (medium_node s) = Ok pr). { unfold medium_node. rewrite M. unfold prim_at, node_at. destruct Hn as (Hi & Hn). destruct (i <? 0)%Z eqn:Q; [lia|]. now rewrite Hn. }
  assert (Ei : medium_node s = i) by (unfold medium_node; now rewrite M).
  assert (I0 : 0 < Inf) by (unfold Inf; lra). assert (E0 : 0 < Eps) by (unfold Eps; lra).
  (* what the query finds, with the distance given to the medium *)
  destruct (intersect_spec mesh_of neg0 s a Hs Hb Hd r Eps Inf) as [(z & E & S)|(Nm & E)]; rewrite E in H; cbn [pbind ret] in H.
  - assert (S0 := S). destruct S as (t & f & A & B & C & g & Ht & W & Mt & Nr & _ & G & P & _). rewrite G, Pi in H. cbn [pos_of obind] in H. rewrite Pk in H. cbn [deref obind] in H.
    rewrite P in H. unfold r in H at 2. rewrite ray_dist in H by (auto; lra).
    destruct (md_sample (med k) us r 0 t) as [[[ds us2]| |]|e| |] eqn:Ms; cbn [pbind] in H; try discriminate. destruct ds as [ds|].
    + destruct (ds_medium ds) eqn:Em; unfold ret in H; injection H as <- <-; [|now right; left].
      left. destruct (Sm us 0 t ds us2 D ltac:(lra) Ms Em) as (t1 & T1 & Ep). exists t1. split; [lra|]. rewrite Ei, Ep. split; [reflexivity|].
      intros t' Ht' Mt'. assert (t <= t') by (apply Nr; [lra|exact Mt']). lra.
    + unfold ret in H; injection H as <- <-. now right; left.
  - rewrite Pi in H. cbn [obind] in H. rewrite Pk in H. cbn [deref obind] in H. destruct (Rlt_dec Inf Inf) as [Q|_]; [lra|].
    replace (match (match s_env s with Some e => Some (endpoint LightEndpoint e (Infinite (vneg (rd r)))) | None => None end) with
       | Some y => match igeom y with OnSurface s0 => vlen (vsub (pos_of (OnSurface s0)) p) | Degenerated p0 => vlen (vsub (pos_of (Degenerated p0)) p) | Infinite _ => Inf end | None => Inf end) with Inf in H by now destruct (s_env s).
    destruct (md_sample (med k) us r 0 Inf) as [[[ds us2]| |]|e| |] eqn:Ms; cbn [pbind] in H; try discriminate. destruct ds as [ds|].
    + destruct (ds_medium ds) eqn:Em.
      * unfold ret in H; injection H as <- <-. left. destruct (Sm us 0 Inf ds us2 D ltac:(lra) Ms Em) as (t1 & T1 & Ep). exists t1. split; [lra|]. rewrite Ei, Ep. split; [reflexivity|].
        intros t' Ht'. apply Nm. lra.
      * destruct (s_env s) as [e|]; unfold ret in H; injection H as <- <-; [right; right; eauto|auto].
    + destruct (s_env s) as [e|]; unfold ret in H; injection H as <- <-; [right; right; eauto|auto].
Qed.
Print Assumptions C57_distance.
(** The medium is asked about the way to the nearest surface, or to the end of the range if there is none. The
    weight of a sampled distance is the one the medium gives, and 1 if it has no event to offer. *)
Theorem C57_distance_weight : forall mesh_of neg0 zs med us us' s a x p wo i pr k y w, sound_scene mesh_of s -> built_for mesh_of s a -> shallow a ->
  s_medium s = Some i -> has_node (s_nodes s) i (NPrim i pr) -> p_medium pr = Some k -> at_position x p -> unit wo ->
  let r := mk_ray p wo (zs wo) in sample_distance mesh_of neg0 zs med us s a x wo = ret (Some (y, w), us') ->
  exists d ds, md_sample (med k) us r 0 d = ret (ds, us') /\ w = match ds with Some e => ds_weight e | None => grey 1 end /\
    ((exists z, surface_hit mesh_of s r Eps Inf z /\ pos_of (igeom z) = ray_at r d /\ (match ds with Some e => ds_medium e = false | None => True end -> y = z)) \/
     d = Inf /\ (forall t, Eps <= t <= Inf -> ~ meets_scene mesh_of s r t)) /\
    (forall e, ds = Some e -> ds_medium e = true -> y = endpoint MediumInteraction i (Degenerated (ds_p e))).
Proof.
  intros mesh_of neg0 zs med us us' s a x p wo i pr k y w Hs Hb Hd M Hn Pk Hx U r H. apply position_at in Hx as (Ex & _). unfold sample_distance in H. rewrite Ex in H. cbn [pbind] in H. fold r in H.
  assert (Pi : prim_at s (medium_node s) = Ok pr). { unfold medium_node. rewrite M. unfold prim_at, node_at. destruct Hn as (Hi & Hn). destruct (i <? 0)%Z eqn:Q; [lia|]. now rewrite Hn. }
  assert (Ei : medium_node s = i) by (unfold medium_node; now rewrite M).
  assert (I0 : 0 < Inf) by (unfold Inf; lra). assert (E0 : 0 < Eps) by (unfold Eps; lra).
  destruct (intersect_spec mesh_of neg0 s a Hs Hb Hd r Eps Inf) as [(z & E & S)|(Nm & E)]; rewrite E in H; cbn [pbind ret] in H.
  - assert (S0 := S). destruct S as (t & f & A & B & C & g & Ht & W & Mt & Nr & _ & G & P & _). rewrite G, Pi in H. cbn [pos_of obind] in H. rewrite Pk in H. cbn [deref obind] in H.
    rewrite P in H. unfold r in H at 2. rewrite ray_dist in H by (auto; lra).
    assert (Pz : pos_of (igeom z) = ray_at r t) by (rewrite G; exact P).
    destruct (md_sample (med k) us r 0 t) as [[[ds us2]| |]|e| |] eqn:Ms; cbn [pbind] in H; try discriminate. exists t, ds. destruct ds as [ds|].
    + destruct (ds_medium ds) eqn:Em; unfold ret in H; injection H as <- <- <-; (split; [exact Ms|split; [reflexivity|split; [left; exists z; split; [exact S0|split; [exact Pz|congruence]]|]]]).
      * intros e [= <-] _. now rewrite Ei.
      * intros e [= <-]. congruence.
    + unfold ret in H; injection H as <- <- <-. split; [exact Ms|split; [reflexivity|split; [left; exists z; auto|discriminate]]].
  - rewrite Pi in H. cbn [obind] in H. rewrite Pk in H. cbn [deref obind] in H. destruct (Rlt_dec Inf Inf) as [Q|_]; [lra|].
    replace (match (match s_env s with Some e => Some (endpoint LightEndpoint e (Infinite (vneg (rd r)))) | None => None end) with
       | Some y => match igeom y with OnSurface s0 => vlen (vsub (pos_of (OnSurface s0)) p) | Degenerated p0 => vlen (vsub (pos_of (Degenerated p0)) p) | Infinite _ => Inf end | None => Inf end) with Inf in H by now destruct (s_env s).
    destruct (md_sample (med k) us r 0 Inf) as [[[ds us2]| |]|e| |] eqn:Ms; cbn [pbind] in H; try discriminate. exists Inf, ds. destruct ds as [ds|].
    + destruct (ds_medium ds) eqn:Em.
      * unfold ret in H; injection H as <- <- <-. split; [exact Ms|split; [reflexivity|split; [right; auto|]]]. intros e [= <-] _. now rewrite Ei.
      * destruct (s_env s) as [e|]; unfold ret in H; [injection H as <- <- <-|discriminate].
        split; [exact Ms|split; [reflexivity|split; [right; auto|]]]. intros e' [= <-]. congruence.
    + destruct (s_env s) as [e|]; unfold ret in H; [injection H as <- <- <-|discriminate].
      split; [exact Ms|split; [reflexivity|split; [right; auto|discriminate]]].
Qed.
Print Assumptions C57_distance_weight.
(** Finding: without a medium in the scene, sampling a distance raises out_of_range. *)
Theorem C57_distance_vacuum_refuted : forall mesh_of neg0 zs med us s a x p wo, sound_scene mesh_of s -> built_for mesh_of s a -> shallow a ->
  s_medium s = None -> at_position x p -> sample_distance mesh_of neg0 zs med us s a x wo = Throw ErrOutOfRange.
Proof.
  intros mesh_of neg0 zs med us s a x p wo Hs Hb Hd M Hx. apply position_at in Hx as (Ex & _). unfold sample_distance. rewrite Ex. cbn [pbind].
  destruct (C57_intersect mesh_of neg0 s a (mk_ray p wo (zs wo)) Eps Inf Hs Hb Hd) as (h & E & _). rewrite E. cbn [pbind ret]. unfold medium_node. rewrite M. reflexivity.
Qed.
Print Assumptions C57_distance_vacuum_refuted.

(** The media of the renderer are sound, on rays that are not in a face of their box. *)
Theorem C57_sound_media : forall r,
  (forall d al lo hi, valid_box (box lo hi) -> general (box lo hi) r -> 0 < d -> sound_medium (homogeneous d al lo hi) r) /\
  (forall den al m, made den -> v_has_scalar den = true -> v_max den = ret m -> 0 < m -> valid_box (v_bound den) -> general (v_bound den) r -> sound_medium (heterogeneous den al) r).
Proof.
  intros r. split.
  - intros d al lo hi V G D us t0 t1 ds us' U L E Em. destruct us as [|u us].
    { exfalso. cbn [md_sample homogeneous] in E. change (mk_bound _ _) with (box lo hi) in E. destruct (range_part _ r t0 t1 V G) as (o & Eo & _). rewrite Eo in E. cbn [pbind] in E.
      destruct o as [[? ?]|]; discriminate E. }
    apply Forall_cons_iff in U as (U & _). destruct (C52_homogeneous_sampling d al lo hi u us r t0 t1 V G D L U) as (T & o & us2 & _ & E2 & H). rewrite E2 in E. unfold ret in E. injection E as -> ->.
    destruct ds as [p w []]; [|discriminate]. cbn [ds_p] in *. destruct H as (_ & _ & t & Ht & P & _). eauto.
  - intros den al m Md S Em Hm V G us t0 t1 ds us' U L E _. destruct (C52_delta_tracking den al us us' r t0 t1 m ds Md S Em Hm V G U E) as (t & x & c & Ht & _ & _ & _ & _ & ->). eauto.
Qed.
Print Assumptions C57_sound_media.
(** A distance towards the triangle from a point in a medium, with an event on the way *)
Example C57_distance_example : sound_medium (homogeneous 2 (grey (1 / 2)) None None) (mk_ray (V3 0 0 1) (V3 0 0 (-1)) (fun _ => true)) /\ unit (V3 0 0 (-1)) /\
  has_node (s_nodes (x_scene None (Some 1%Z))) 1 (NPrim 1 (mk_prim (Some 0%nat) (Some 0%nat) None None (Some 0%nat))) /\
  at_position (endpoint MediumInteraction 1 (Degenerated (V3 0 0 1))) (V3 0 0 1).
Proof.
  split; [|split; [unfold unit, dot; cbn; ring|split; [split; [lia|reflexivity]|reflexivity]]].
  apply (C57_sound_media (mk_ray (V3 0 0 1) (V3 0 0 (-1)) (fun _ => true))); [..|lra].
  - unfold valid_box, box, vle. cbn. unfold Inf. lra.
  - intros [|[|j]]; unfold box; cbn; [right|right|left]; unfold Inf; lra.
Qed.

(** * C69: the scene bound *)
Lemma in_box_le' b c p : box_le b c -> in_box b p -> in_box c p.
Proof. unfold box_le, in_box, vle. intuition lra. Qed.
Lemma box_le_trans' a b c : box_le a b -> box_le b c -> box_le a c.
Proof. unfold box_le, vle. intuition lra. Qed.

Lemma bound_triangles M (l : list (nat * tri3)) : forall b,
  let b' := fold_left (fun b x => let '(_, (p1, p2, p3)) := x in merge_point (merge_point (merge_point b (image M (v_p p1))) (image M (v_p p2))) (image M (v_p p3))) l b in
  box_le b b' /\ (forall f p1 p2 p3, In (f, (p1, p2, p3)) l -> in_box b' (image M (v_p p1)) /\ in_box b' (image M (v_p p2)) /\ in_box b' (image M (v_p p3))) /\
  (forall c, box_le b c -> (forall f p1 p2 p3, In (f, (p1, p2, p3)) l -> in_box c (image M (v_p p1)) /\ in_box c (image M (v_p p2)) /\ in_box c (image M (v_p p3))) -> box_le b' c).
Proof.
  induction l as [|[f [[p1 p2] p3]] l IH]; intros b; cbn [fold_left].
  - split; [unfold box_le, vle; intuition lra|]. split; [intros f p1 p2 p3 []|auto].
  - set (b1 := merge_point b _). set (b2 := merge_point b1 _). set (b3 := merge_point b2 _). specialize (IH b3). cbv zeta in IH. destruct IH as (H1 & H2 & H3). cbv zeta.
    destruct (merge_point_ub b (image M (v_p p1))) as (A1 & A2), (merge_point_ub b1 (image M (v_p p2))) as (B1 & B2), (merge_point_ub b2 (image M (v_p p3))) as (C1 & C2).
    fold b1 in A1, A2. fold b2 in B1, B2. fold b3 in C1, C2. split; [|split].
    + eapply box_le_trans'; [|exact H1]. eapply box_le_trans'; [|exact C1]. eapply box_le_trans'; eauto.
    + intros g q1 q2 q3 [[= <- <- <- <-]|I]; [|eauto]. split; [|split].
      * eapply in_box_le'; [exact H1|]. eapply in_box_le'; [exact C1|]. eapply in_box_le'; eauto.
      * eapply in_box_le'; [exact H1|]. eapply in_box_le'; eauto.
      * eapply in_box_le'; eauto.
    + intros c Hb Hc. apply H3; [|intros g q1 q2 q3 I; apply (Hc g); now right]. destruct (Hc f p1 p2 p3 (or_introl eq_refl)) as (K1 & K2 & K3).
      repeat apply merge_point_lub; auto.
Qed.
Lemma foreach_faces obj m : valid obj m -> exists l, foreach_triangle obj m = Ok l /\
  (forall f t, In (f, t) l <-> face_vertices obj m f t).
Proof.
  intros V. destruct (foreach_from_ok obj m V (num_triangles m) 0 (le_n _)) as (l & E & L1 & L2). exists l. split; [exact E|]. intros f t. split; [apply L2|].
  intros F. assert (f < num_triangles m)%nat.
  { destruct F as (f1 & f2 & f3 & (_ & _ & H3) & _). assert (3 * f + 2 < length (m_fs m))%nat by (apply nth_error_Some; congruence). unfold num_triangles. apply Nat.div_le_lower_bound; lia. }
  assert (Q : In f (map fst l)) by (rewrite L1; apply in_seq; lia). apply in_map_iff in Q as ([f' t'] & Ef & Q). cbn in Ef. subst f'.
  assert (X := triangle_at_ok _ _ _ _ (L2 f t' Q)). assert (Y := triangle_at_ok _ _ _ _ F). congruence.
Qed.
Lemma scene_bound_spec mesh_of calls : (forall i p M k, In (NPrim i p, M) calls -> p_mesh p = Some k -> valid (fst (mesh_of k)) (snd (mesh_of k))) ->
  let occurs M p := exists i pr k f t, In (NPrim i pr, M) calls /\ p_mesh pr = Some k /\ face_vertices (fst (mesh_of k)) (snd (mesh_of k)) f t /\
      (p = v_p (fst (fst t)) \/ p = v_p (snd (fst t)) \/ p = v_p (snd t)) in
  forall b, exists b', scene_bound mesh_of calls b = Ok b' /\ box_le b b' /\ (forall M p, occurs M p -> in_box b' (image M p)) /\
    (forall c, box_le b c -> (forall M p, occurs M p -> in_box c (image M p)) -> box_le b' c).
Proof.
  cbv zeta. induction calls as [|[nd M] calls IH]; intros V b.
  - exists b. split; [reflexivity|]. split; [unfold box_le, vle; intuition lra|]. split; [intros M p (i & pr & k & f & t & [] & _)|auto].
  - assert (V' : forall i p M k, In (NPrim i p, M) calls -> p_mesh p = Some k -> valid (fst (mesh_of k)) (snd (mesh_of k))) by (intros i p N k I; apply (V i p N k); now right).
    destruct nd as [i p|i ch inst loc]; [destruct (p_mesh p) as [k|] eqn:Pk|].
    2,3: destruct (IH V' b) as (b' & E & L & O & U); exists b'; split; [cbn [scene_bound]; rewrite ?Pk; exact E|]; split; [exact L|]; split;
      [intros M0 q (i0 & pr & k & f & t & [I|I] & R); [exfalso; first [discriminate I|injection I as -> -> ->; destruct R; congruence]|apply O; exists i0, pr, k, f, t; auto]
      |intros c Hb Hc; apply U; [exact Hb|]; intros M0 q (i0 & pr & k & f & t & I & R); apply Hc; exists i0, pr, k, f, t; split; [now right|exact R]].
    destruct (foreach_faces _ _ (V i p M k (or_introl eq_refl) Pk)) as (l & El & Al). destruct (bound_triangles M l b) as (H1 & H2 & H3).
    destruct (IH V' (fold_left (fun b x => let '(_, (p1, p2, p3)) := x in merge_point (merge_point (merge_point b (image M (v_p p1))) (image M (v_p p2))) (image M (v_p p3))) l b)) as (b' & E & L & O & U).
    exists b'. split; [cbn [scene_bound]; rewrite Pk, El; exact E|]. split; [eapply box_le_trans'; eassumption|]. split.
    + intros M0 q (i0 & pr & k0 & f & t & [I|I] & R); [|apply O; exists i0, pr, k0, f, t; auto]. injection I as -> -> ->. destruct R as (Pk0 & F & Q). assert (k0 = k) by congruence. subst k0.
      apply Al in F. destruct t as [[p1 p2] p3]. cbn [fst snd] in Q. destruct (H2 f p1 p2 p3 F) as (K1 & K2 & K3). eapply in_box_le'; [exact L|]. destruct Q as [-> |[-> | ->]]; assumption.
    + intros c Hb Hc. apply U.
      * apply H3; [exact Hb|]. intros f p1 p2 p3 I. apply Al in I. split; [|split]; apply Hc; exists i, p, k, f, (p1, p2, p3); (split; [now left|split; [exact Pk|split; [exact I|cbn; auto]]]).
      * intros M0 q (i0 & pr & k0 & f & t & I & R). apply Hc. exists i0, pr, k0, f, t. split; [now right|exact R].
Qed.

(** The bound given to the lights contains every corner of the scene, wherever it is instanced, and so every point
    of its surfaces; and it is the smallest such box that starts from the empty one. *)
Theorem C69_bound : forall mesh_of s fuel calls, sound_scene mesh_of s -> traverse id_affine after fuel s = (calls, Ok tt) ->
  exists b, scene_bound mesh_of calls new_bound = Ok b /\
    (forall p, corner mesh_of s p -> in_box b p) /\
    (forall i f A B C u v, world_triangle mesh_of s i f A B C -> in_simplex u v -> in_box b (bary A B C u v)) /\
    (forall lo hi, vle lo (V3 Inf Inf Inf) -> vle (V3 (- Inf) (- Inf) (- Inf)) hi -> (forall p, corner mesh_of s p -> in_box (mk_bound lo hi) p) -> vle lo (bmin b) /\ vle (bmax b) hi).
Proof.
  intros mesh_of s fuel calls (Nu & Tr & Sm) Et. assert (CI := calls_instances s fuel calls Nu Et).
  destruct (scene_bound_spec mesh_of calls) with (b := new_bound) as (b & E & _ & O & U).
  { intros i pr M k I Pk. destruct (proj1 (CI i k M)) as (p & Hi); [eauto|]. apply (Sm p i k M Hi). }
  assert (Co : forall p, corner mesh_of s p -> in_box b p).
  { intros q (i & f & A & B & C & (p & k & M & t & Hi & Hf & -> & -> & ->) & Q). destruct (proj2 (CI i k M)) as (pr & I & Pk); [eauto|].
    destruct Q as [-> |[-> | ->]]; apply O; exists i, pr, k, f, t; auto 8. }
  exists b. split; [exact E|]. split; [exact Co|]. split.
  - intros i f A B C u v W (S1 & S2 & S3). assert (IA : in_box b A) by (apply Co; exists i, f, A, B, C; auto). assert (IB : in_box b B) by (apply Co; exists i, f, A, B, C; auto). assert (IC : in_box b C) by (apply Co; exists i, f, A, B, C; auto).
    unfold in_box, vle, bary, vadd, vscale in *. cbn [vx vy vz].
    assert (Conv : forall l h x y z, l <= x <= h -> l <= y <= h -> l <= z <= h -> l <= (1 - u - v) * x + (u * y + v * z) <= h) by (intros; split; nra).
    assert (X := Conv (vx (bmin b)) (vx (bmax b)) (vx A) (vx B) (vx C)). assert (Y := Conv (vy (bmin b)) (vy (bmax b)) (vy A) (vy B) (vy C)). assert (W' := Conv (vz (bmin b)) (vz (bmax b)) (vz A) (vz B) (vz C)). lra.
  - intros lo hi Hl Hh Hc. apply (U (mk_bound lo hi)); [split; assumption|]. intros M q (i & pr & k & f & t & I & Pk & F & Q). destruct (proj1 (CI i k M)) as (p & Hi); [eauto|].
    apply Hc. exists i, f, (image M (v_p (fst (fst t)))), (image M (v_p (snd (fst t)))), (image M (v_p (snd t))). split; [exists p, k, M, t; auto|]. destruct Q as [-> |[-> | ->]]; auto.
Qed.
Print Assumptions C69_bound.
(** The rays of a light at infinity reach every point of every surface: C69 with C66. *)
Theorem C69_lights_reach : forall mesh_of s fuel calls neg0 d, sound_scene mesh_of s -> traverse id_affine after fuel s = (calls, Ok tt) -> unit d ->
  exists b, scene_bound mesh_of calls new_bound = Ok b /\
    forall i f A B C u v, world_triangle mesh_of s i f A B C -> in_simplex u v -> A <> B ->
      exists up o t, 0 <= v2x up < 1 /\ 0 <= v2y up < 1 /\ disk_origin neg0 (Some (scene_sphere (bmin b) (bmax b))) d up = Val o /\ 0 <= t /\ vadd o (vscale t d) = bary A B C u v.
Proof.
  intros mesh_of s fuel calls neg0 d Hs Et U. destruct (C69_bound mesh_of s fuel calls Hs Et) as (b & E & Co & In & _). exists b. split; [exact E|].
  intros i f A B C u v W S N. assert (I := In i f A B C u v W S). assert (IA : in_box b A) by (apply Co; exists i, f, A, B, C; auto). assert (IB : in_box b B) by (apply Co; exists i, f, A, B, C; auto).
  destruct (LightProps.C66_cover neg0 (bmin b) (bmax b) d (bary A B C u v) U) as (up & o & t & (S1 & S2) & L1 & L2 & O & T & R).
  - unfold in_box, vle in I. unfold LightSpec.in_box. tauto.
  - intros Q. apply N. unfold in_box, vle in IA, IB. rewrite Q in IA, IB. apply vec3_eq; lra.
  - exists up, o, t. split; [lra|]. split; [lra|]. split; [exact O|]. split; [exact T|exact R].
Qed.
Print Assumptions C69_lights_reach.
Example C69_example : corner x_meshes (x_scene None None) (V3 0 1 0) /\ traverse id_affine after 3 (x_scene None None) = (fst (traverse id_affine after 3 (x_scene None None)), Ok tt).
Proof. split; [|reflexivity]. exists 1%Z, 0%nat, (V3 (-1) (-1) 0), (V3 1 (-1) 0), (V3 0 1 0). split; [now apply x_triangle|auto]. Qed.
