(** C54: meshes. *)
From Coq Require Import List ZArith Reals Bool Lia Lra String.
From Verif Require Import Base LogModel ObjModel ObjSpec ObjProofs ObjLoadProofs ObjProps RBase VecBase SurfModel MeshModel MeshSpec MeshProofs.
Import ListNotations.
Local Open Scope nat_scope.

(** Iterating visits the faces 0, 1, ..., n-1 in order, n being a third of the number of indices, each with
    the vertices that its three consecutive indices name. *)
Theorem C54_foreach : forall obj m, valid obj m -> exists l, foreach_triangle obj m = Ok l
  /\ map fst l = seq 0 (num_triangles m) /\ forall i t, In (i, t) l -> MeshSpec.face_vertices obj m i t.
Proof. intros obj m Hv. exact (foreach_from_ok obj m Hv (num_triangles m) 0 (le_n _)). Qed.
Print Assumptions C54_foreach.
(** Direct access to a face gives these vertices too, so both agree. *)
Theorem C54_at : forall obj m i, valid obj m -> i < num_triangles m -> exists t, triangle_at obj m i = Ok t /\ MeshSpec.face_vertices obj m i t.
Proof. intros obj m i Hv Hi. destruct (face_exists obj m i Hv Hi) as [t Ht]. exists t. split; [apply triangle_at_ok; exact Ht|exact Ht]. Qed.
Print Assumptions C54_at.
Theorem C54_agree : forall obj m l i t, valid obj m -> foreach_triangle obj m = Ok l -> In (i, t) l -> triangle_at obj m i = Ok t.
Proof.
  intros obj m l i t Hv E Hin. destruct (foreach_from_ok obj m Hv (num_triangles m) 0 (le_n _)) as (l' & E' & _ & H).
  unfold foreach_triangle in E. unfold num_triangles in E'. rewrite E' in E. injection E as <-. apply triangle_at_ok. exact (H i t Hin).
Qed.
Print Assumptions C54_agree.
(** The number of triangles: all indices are used but the last one or two of an incomplete triple. *)
Theorem C54_number : forall m, 3 * num_triangles m <= List.length (m_fs m) < 3 * num_triangles m + 3.
Proof. intros m. unfold num_triangles. assert (D := Nat.div_mod (List.length (m_fs m)) 3 ltac:(lia)). assert (M := Nat.mod_upper_bound (List.length (m_fs m)) 3 ltac:(lia)). lia. Qed.
Print Assumptions C54_number.

(** Interpolation at a face: the barycentric combination of its vertices. The geometry normal is the unit
    vector of the cross product; without normals the shading normal is the geometry normal. *)
Theorem C54_interpolation : forall obj m i uv f1 f2 f3 a b c, face_indices m i f1 f2 f3 ->
  names_vertex obj m f1 a -> names_vertex obj m f2 b -> names_vertex obj m f3 c -> (obj = true -> uniform m i) ->
  exists sp, surface_point obj m i uv = Ok sp
    /\ ip_p sp = combine3 (v_p a) (v_p b) (v_p c) uv
    /\ unit_of (cross (vsub (v_p b) (v_p a)) (vsub (v_p c) (v_p a))) (ip_gn sp)
    /\ (obj = true -> (fn f1 < 0)%Z -> ip_n sp = ip_gn sp)
    /\ (obj = false \/ (0 <= fn f1)%Z -> unit_of (combine3 (v_n a) (v_n b) (v_n c) uv) (ip_n sp))
    /\ v2x (ip_t sp) = ((1 - v2x uv - v2y uv) * v2x (v_t a) + v2x uv * v2x (v_t b) + v2y uv * v2x (v_t c))%R
    /\ v2y (ip_t sp) = ((1 - v2x uv - v2y uv) * v2y (v_t a) + v2x uv * v2y (v_t b) + v2y uv * v2y (v_t c))%R.
Proof.
  intros obj m i uv f1 f2 f3 a b c Hf H1 H2 H3 Hu. destruct (surface_ok obj m i uv f1 f2 f3 a b c Hf H1 H2 H3 Hu) as (sp & E & Hp & Hg & Hn & Ht).
  exists sp. split; [exact E|]. split; [exact Hp|]. split; [exact Hg|]. split.
  { intros -> Hl. apply Z.ltb_lt in Hl. rewrite Hl in Hn. exact Hn. }
  split.
  { intros [->|Hl]; [exact Hn|]. apply Z.ltb_ge in Hl. rewrite Hl, andb_false_r in Hn. exact Hn. }
  rewrite Ht. unfold mix2. cbn [VecBase.v2x VecBase.v2y]. split; ring.
Qed.
Print Assumptions C54_interpolation.

(** A raw mesh is built from the flat arrays of its parameters. *)
Theorem C54_raw : forall a b c f,
  construct_raw (flat_map (fun v => [vx v; vy v; vz v]) a) (flat_map (fun v => [vx v; vy v; vz v]) b)
    (flat_map (fun v => [v2x v; v2y v]) c) (map fp f) (map ft f) (map fn f) = Ok (mk_mesh a b c f).
Proof. exact construct_raw_ok. Qed.
Print Assumptions C54_raw.

(** A mesh loaded from a well-formed OBJ file: its faces are in order the triangles that the file defines,
    and each names vertices of the file. *)
Theorem C54_obj : forall open lib content ls sts e out num, library R 0%R num open lib -> file_of ls content -> Forall short ls ->
  Forall2 (says R num) sts ls -> means R lib (start R) sts e out ->
  exists m, construct_obj open (Some content) num = Ok m /\ valid true m /\ num_triangles m = List.length out
    /\ m_ps m = map vec_of (e_ps R e) /\ m_ns m = map vec_of (e_ns R e) /\ m_ts m = map vec2_of (e_ts R e)
    /\ forall i f1 f2 f3 k, nth_error out i = Some ((f1, f2, f3), k) -> face_indices m i f1 f2 f3.
Proof.
  intros open lib content ls sts e out num L Hf Hs Hy Hm.
  destruct (construct_obj_ok open lib content ls sts e out num L Hf Hs Hy Hm) as (m & E & Ep & En & Et & Ef & El).
  exists m. split; [exact E|]. split; [exact (obj_valid m e lib sts out Hm Ep En Et Ef El)|]. split.
  { destruct El as [n Hn]. assert (H := triples_length n _ Hn). rewrite Ef, map_length in H. rewrite H. unfold num_triangles. rewrite Hn.
    rewrite Nat.mul_comm, Nat.div_mul by lia. reflexivity. }
  split; [exact Ep|]. split; [exact En|]. split; [exact Et|]. intros i f1 f2 f3 k Hi.
  apply triples_nth. apply (map_nth_error fst) in Hi. rewrite Ef. exact Hi.
Qed.
Print Assumptions C54_obj.

(** Finding: if the first vertex of a face has a normal and another has none, which the format forbids but
    nothing checks, interpolation reads outside of the normals. *)
Theorem C54_mixed_undefined : forall m i uv f1 f2 f3 a b c, face_indices m i f1 f2 f3 -> names_vertex true m f1 a -> names_vertex true m f2 b -> names_vertex true m f3 c ->
  (0 <= fn f1)%Z -> (fn f2 < 0)%Z -> surface_point true m i uv = UB.
Proof.
  intros m i uv f1 f2 f3 a b c (E1 & E2 & E3) (P1 & N1 & _) (P2 & _) (P3 & _) H1 H2. unfold surface_point.
  rewrite (at_nat _ _ _ E1), (at_nat _ _ _ E2), (at_nat _ _ _ E3). cbn [obind].
  rewrite (at_elem _ _ _ P1), (at_elem _ _ _ P2), (at_elem _ _ _ P3). cbn [obind andb].
  apply Z.ltb_ge in H1. assert (N := attribute_some _ _ _ _ _ N1 H1). rewrite H1, N. cbn [obind].
  assert (X : at_ (m_ns m) (fn f2) = UB) by (unfold at_; apply Z.ltb_lt in H2; rewrite H2; reflexivity). rewrite X. reflexivity.
Qed.
Print Assumptions C54_mixed_undefined.

Definition x_mesh : mesh := mk_mesh [V3 0 0 0; V3 1 0 0; V3 0 1 0; V3 1 1 1]%R [V3 0 0 2; V3 1 0 0]%R []
  [mk_findex 0 (-1) 0; mk_findex 1 (-1) 0; mk_findex 2 (-1) 1; mk_findex 1 (-1) (-1); mk_findex 3 (-1) (-1); mk_findex 2 (-1) (-1)].
Example C54_example : valid true x_mesh /\ num_triangles x_mesh = 2 /\ uniform x_mesh 0 /\ uniform x_mesh 1
  /\ MeshSpec.face_vertices true x_mesh 0 (mk_vertex (V3 0 0 0)%R (V3 0 0 2)%R v2zero, mk_vertex (V3 1 0 0)%R (V3 0 0 2)%R v2zero, mk_vertex (V3 0 1 0)%R (V3 1 0 0)%R v2zero).
Proof.
  split.
  { intros f Hf. cbn [x_mesh m_fs In] in Hf.
    destruct Hf as [<-|[<-|[<-|[<-|[<-|[<-|[]]]]]]];
      (eexists (mk_vertex _ _ _); split; [split; cbn; [lia|reflexivity]|split; [|left; repeat split]]); cbn [fn m_ns x_mesh v_n];
      first [right; split; [lia|split; [lia|reflexivity]]|left; repeat split]. }
  split; [reflexivity|]. split; [|split].
  - intros f1 f2 f3 (E1 & E2 & E3). cbn in E1, E2, E3. injection E1 as <-. injection E2 as <-. injection E3 as <-. cbn. lia.
  - intros f1 f2 f3 (E1 & E2 & E3). cbn in E1, E2, E3. injection E1 as <-. injection E2 as <-. injection E3 as <-. cbn. lia.
  - do 3 eexists. split; [repeat split|]. cbn [fst snd].
    split; [|split]; (split; [split; cbn; [lia|reflexivity]|split; [right; cbn; split; [lia|split; [lia|reflexivity]]|left; repeat split]]).
Qed.
(** The file of [C47_example], read with real numbers, meets the hypotheses of [C54_obj] likewise: the
    statements about it are those of [C46_example] with each number replaced by its real value. A shorter
    one: *)
Definition x_tri : list text := map str ["v 0 0 0"; "v 1 0 0"; "v 0 1 0"; "f 1 -2 3"]%string.
Definition rnum (w : text) : R := IZR (atoi w).
Example C54_obj_example : exists sts e, library R 0%R rnum (fun _ => None) (fun _ => None) /\ file_of x_tri (file x_tri) /\ Forall short x_tri
  /\ Forall2 (says R rnum) sts x_tri /\ means R (fun _ => None) (start R) sts e [((mk_findex 0 (-1) (-1), mk_findex 1 (-1) (-1), mk_findex 2 (-1) (-1)), 0)]
  /\ e_ps R e = [(0, 0, 0); (1, 0, 0); (0, 1, 0)]%R.
Proof.
  exists [SVertex R 0 0 0; SVertex R 1 0 0; SVertex R 0 1 0; SFace R [(1, None, None); (-2, None, None); (3, None, None)]%Z]%R. eexists.
  split; [intros n new H; discriminate|]. split; [split; [apply x_no_newline; reflexivity|reflexivity]|]. split; [apply x_short; reflexivity|]. split.
  - unfold x_tri. cbn [map]. repeat apply Forall2_cons; [..|apply Forall2_nil].
    + exact (says_v R rnum (join [str "0"; str "0"; str "0"]) _ 0 0 0 (cmd_line "v" _) (x_three R rnum (str "0") (str "0") (str "0") ltac:(nw) ltac:(nw) ltac:(nw)))%R.
    + exact (says_v R rnum (join [str "1"; str "0"; str "0"]) _ 1 0 0 (cmd_line "v" _) (x_three R rnum (str "1") (str "0") (str "0") ltac:(nw) ltac:(nw) ltac:(nw)))%R.
    + exact (says_v R rnum (join [str "0"; str "1"; str "0"]) _ 0 1 0 (cmd_line "v" _) (x_three R rnum (str "0") (str "1") (str "0") ltac:(nw) ltac:(nw) ltac:(nw)))%R.
    + refine (says_f R rnum (join [str "1"; str "-2"; str "3"]) _ [(1, None, None); (-2, None, None); (3, None, None)]%Z _ (cmd_line "f" _) (join_sep [str "1"; str "-2"; str "3"]) _ (or_introl eq_refl)).
      repeat apply Forall2_cons; [..|apply Forall2_nil]; apply vt_p; [apply (integer_digit 1)|apply (integer_minus 2)|apply (integer_digit 3)]; lia.
  - split.
    + do 3 apply me_v. cbn [e_ps e_ns e_ts e_mats e_cur app start].
      match goal with |- means _ _ ?e0 [SFace _ ?vs] _ _ =>
        apply (me_f R (fun _ => None) e0 vs [mk_findex 0 (-1) (-1); mk_findex 1 (-1) (-1); mk_findex 2 (-1) (-1)] [] e0 []) end; [repeat constructor; cbn; lia|apply me_nil].
    + reflexivity.
Qed.
