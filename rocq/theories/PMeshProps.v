(** C108: meshes and transformations of imported PBRT scenes. *)
From Coq Require Import List ZArith Reals Bool Lra Lia Arith.
From Verif Require Import Base ObjModel RBase VecBase SurfModel MeshModel MeshSpec MeshProofs PMeshModel PMeshSpec.
Import ListNotations.
Local Open Scope nat_scope.

Lemma elem_exists {A} (l : list A) i : (0 <= i < Z.of_nat (List.length l))%Z -> exists a, elem l i a.
Proof. intros H. destruct (nth_error l (Z.to_nat i)) as [a|] eqn:E; [exists a; split; [lia|assumption]|]. apply nth_error_None in E. lia. Qed.
Lemma given_exists {A B} (z : A) (vs : list B) l i : per_vertex vs l -> (0 <= i < Z.of_nat (List.length vs))%Z -> exists a, given_or z l i a.
Proof.
  intros [->|L] H; [exists z; left; now split|]. destruct (elem_exists l i) as [a E]; [lia|]. exists a. right. split; [|assumption]. intros ->. cbn in L. lia.
Qed.
Lemma vertex_exists m i : per_vertex (pm_vertex m) (pm_normal m) -> per_vertex (pm_vertex m) (pm_texcoord m) ->
  (0 <= i < Z.of_nat (List.length (pm_vertex m)))%Z -> exists v, is_vertex m i v.
Proof.
  intros N T H. destruct (elem_exists _ _ H) as [p P]. destruct (given_exists v0 _ _ _ N H) as [n Hn]. destruct (given_exists v2zero _ _ _ T H) as [t Ht].
  now exists (mk_vertex p n t).
Qed.
Lemma face_of m f : well_formed m -> f < pnum_triangles m -> exists t, pface m f t.
Proof.
  intros (N & T & I) H. destruct (nth_error (pm_index m) f) as [[[i j] k]|] eqn:E; [|apply nth_error_None in E; unfold pnum_triangles in H; lia].
  assert (B := I i j k (nth_error_In _ _ E)).
  destruct (vertex_exists m i N T (B i (or_introl eq_refl))) as [a Ha]. destruct (vertex_exists m j N T (B j (or_intror (or_introl eq_refl)))) as [b Hb].
  destruct (vertex_exists m k N T (B k (or_intror (or_intror (or_introl eq_refl))))) as [c Hc]. exists (a, b, c). exists i, j, k. split; [exact E|]. split; [exact Ha|]. split; [exact Hb|exact Hc].
Qed.
Lemma given_ok {A} (z : A) l i a : given_or z l i a -> (if empty l then Ok z else at_ l i) = Ok a.
Proof. intros [[-> ->]|[N E]]; [reflexivity|]. destruct l; [contradiction|]. exact (at_elem _ _ _ E). Qed.
Lemma ppoint_ok m i v : is_vertex m i v -> ppoint m i = Ok v.
Proof. intros (P & N & T). unfold ppoint. rewrite (at_elem _ _ _ P). cbn [obind]. rewrite (given_ok _ _ _ _ N). cbn [obind]. rewrite (given_ok _ _ _ _ T). now destruct v. Qed.
Lemma pat_ok m f t : pface m f t -> ptriangle_at m f = Ok t.
Proof.
  intros (i & j & k & E & A & B & C). unfold ptriangle_at. rewrite (at_nat _ _ _ E). cbn [obind]. rewrite (ppoint_ok _ _ _ A), (ppoint_ok _ _ _ B), (ppoint_ok _ _ _ C).
  cbn [obind]. now destruct t as [[a b] c].
Qed.

(** Every face of a well-formed mesh has the vertices that its indices name; the faces are enumerated in order. *)
Theorem C108_at m f : well_formed m -> f < pnum_triangles m -> exists t, ptriangle_at m f = Ok t /\ pface m f t.
Proof. intros W H. destruct (face_of m f W H) as [t T]. exists t. split; [now apply pat_ok|assumption]. Qed.
Print Assumptions C108_at.
Theorem C108_foreach m : well_formed m -> exists l, pforeach_triangle m = Ok l /\ map fst l = seq 0 (pnum_triangles m) /\
  forall f t, In (f, t) l -> pface m f t /\ ptriangle_at m f = Ok t.
Proof.
  intros W. unfold pforeach_triangle. fold (pnum_triangles m).
  assert (G : forall k f, f + k <= pnum_triangles m -> exists l, pforeach_from m f k = Ok l /\ map fst l = seq f k /\ forall g t, In (g, t) l -> pface m g t /\ ptriangle_at m g = Ok t).
  { induction k as [|k IH]; intros f H; cbn [pforeach_from seq]; [exists []; repeat split; intros; contradiction|].
    destruct (C108_at m f W) as (t & E & P); [lia|]. destruct (IH (S f)) as (l & El & M & A); [lia|].
    exists ((f, t) :: l). rewrite E. cbn [obind]. rewrite El. cbn [obind map fst]. rewrite M. split; [reflexivity|]. split; [reflexivity|].
    intros g u [[= <- <-]|I]; [now split|now apply A]. }
  apply (G _ 0). lia.
Qed.
Print Assumptions C108_foreach.
(** A point of a face: the barycentric combination of the vertices; the geometry normal is the unit vector of the cross
    product of the edges, and the normal that of the combination of normals, or the geometry normal if there are none. *)
Theorem C108_interpolation m f uv a b c : pface m f (a, b, c) -> exists sp, psurface_point m f uv = Ok sp /\
  ip_p sp = combine3 (v_p a) (v_p b) (v_p c) uv /\
  unit_of (cross (vsub (v_p b) (v_p a)) (vsub (v_p c) (v_p a))) (ip_gn sp) /\
  (pm_normal m = [] -> ip_n sp = ip_gn sp) /\
  (pm_normal m <> [] -> unit_of (combine3 (v_n a) (v_n b) (v_n c) uv) (ip_n sp)) /\
  v2x (ip_t sp) = ((1 - v2x uv - v2y uv) * v2x (v_t a) + v2x uv * v2x (v_t b) + v2y uv * v2x (v_t c))%R /\
  v2y (ip_t sp) = ((1 - v2x uv - v2y uv) * v2y (v_t a) + v2x uv * v2y (v_t b) + v2y uv * v2y (v_t c))%R.
Proof.
  intros (i & j & k & E & (Pa & Na & Ta) & (Pb & Nb & Tb) & (Pc & Nc & Tc)). cbn [fst snd] in *. unfold psurface_point. rewrite (at_nat _ _ _ E). cbn [obind].
  rewrite (at_elem _ _ _ Pa), (at_elem _ _ _ Pb), (at_elem _ _ _ Pc). cbn [obind].
  set (gn := normalize (cross (vsub (v_p b) (v_p a)) (vsub (v_p c) (v_p a)))).
  assert (HN : exists n, (if empty (pm_normal m) then Ok gn else obind (at_ (pm_normal m) i) (fun n1 => obind (at_ (pm_normal m) j) (fun n2 => obind (at_ (pm_normal m) k) (fun n3 =>
    Ok (normalize (mix_barycentric n1 n2 n3 uv)))))) = Ok n /\ (pm_normal m = [] -> n = gn) /\ (pm_normal m <> [] -> unit_of (combine3 (v_n a) (v_n b) (v_n c) uv) n)).
  { destruct (pm_normal m) as [|x l] eqn:En; [exists gn; cbn; repeat split; intros; congruence|]. cbn [empty].
    destruct Na as [[? _]|[_ Na]]; [discriminate|]. destruct Nb as [[? _]|[_ Nb]]; [discriminate|]. destruct Nc as [[? _]|[_ Nc]]; [discriminate|].
    rewrite (at_elem _ _ _ Na), (at_elem _ _ _ Nb), (at_elem _ _ _ Nc). cbn [obind]. eexists. split; [reflexivity|]. split; [discriminate|]. intros _.
    apply normalize_ok. }
  destruct HN as (n & HN & N0 & N1). rewrite HN. cbn [obind].
  assert (HT : exists t, (if empty (pm_texcoord m) then Ok v2zero else obind (at_ (pm_texcoord m) i) (fun t1 => obind (at_ (pm_texcoord m) j) (fun t2 => obind (at_ (pm_texcoord m) k) (fun t3 =>
    Ok (mix2 t1 t2 t3 uv))))) = Ok t /\ t = mix2 (v_t a) (v_t b) (v_t c) uv).
  { destruct (pm_texcoord m) as [|x l] eqn:En; cbn [empty].
    - destruct Ta as [[_ ->]|[? _]]; [|congruence]. destruct Tb as [[_ ->]|[? _]]; [|congruence]. destruct Tc as [[_ ->]|[? _]]; [|congruence].
      eexists. split; [reflexivity|]. unfold mix2, v2zero. cbn [v2x v2y]. f_equal; ring.
    - destruct Ta as [[? _]|[_ Ta]]; [discriminate|]. destruct Tb as [[? _]|[_ Tb]]; [discriminate|]. destruct Tc as [[? _]|[_ Tc]]; [discriminate|].
      rewrite (at_elem _ _ _ Ta), (at_elem _ _ _ Tb), (at_elem _ _ _ Tc). now eexists. }
  destruct HT as (t & HT & Et). rewrite HT. cbn [obind]. eexists. split; [reflexivity|]. cbn [ip_p ip_gn ip_n ip_t].
  split; [apply mix_combine|]. split; [apply normalize_ok|]. split; [assumption|]. split; [assumption|].
  rewrite Et. unfold mix2. cbn [v2x v2y]. split; ring.
Qed.
Print Assumptions C108_interpolation.
(** Each index is used as the index of all attributes: the mesh is the one of a Wavefront OBJ file with faces i/i/i. *)
Definition obj_index (m : pmesh) (i : Z) : findex := mk_findex i (if empty (pm_texcoord m) then -1 else i) (if empty (pm_normal m) then -1 else i).
Definition as_obj (m : pmesh) : mesh :=
  mk_mesh (pm_vertex m) (pm_normal m) (pm_texcoord m) (flat_map (fun '(i, j, k) => [obj_index m i; obj_index m j; obj_index m k]) (pm_index m)).
Lemma flat3_nth {A B} (g : A -> list B) (l : list A) : (forall a, List.length (g a) = 3) -> forall f r, r < 3 ->
  nth_error (flat_map g l) (3 * f + r) = match nth_error l f with Some a => nth_error (g a) r | None => None end.
Proof.
  intros G. induction l as [|a l IH]; intros f r R; cbn [flat_map]; [destruct f; cbn [nth_error]; match goal with |- nth_error [] ?k = None => now destruct k end|].
  destruct f as [|f]; cbn [nth_error].
  - rewrite nth_error_app1 by (rewrite G; lia). reflexivity.
  - rewrite nth_error_app2 by (rewrite G; lia). rewrite G. replace (3 * S f + r - 3) with (3 * f + r) by lia. now apply IH.
Qed.
Lemma obj_vertex m i : (0 <= i)%Z -> vertex_of true (as_obj m) (obj_index m i) = ppoint m i.
Proof.
  intros H. unfold vertex_of, ppoint, as_obj, obj_index. cbn [fp ft fn m_ps m_ns m_ts andb]. destruct (at_ (pm_vertex m) i); cbn [obind]; try reflexivity.
  destruct (empty (pm_normal m)), (empty (pm_texcoord m)); cbn [Z.ltb Z.compare andb]; destruct (Z.ltb_spec i 0); try lia; reflexivity.
Qed.
Lemma obj_face m f r : r < 3 -> at_ (m_fs (as_obj m)) (Z.of_nat (3 * f + r)) =
  match nth_error (pm_index m) f with Some (i, j, k) => Ok (obj_index m (match r with O => i | 1 => j | _ => k end)) | None => UB end.
Proof.
  intros R. unfold at_. destruct (Z.ltb_spec (Z.of_nat (3 * f + r)) 0); [lia|]. rewrite Nat2Z.id. unfold as_obj. cbn [m_fs]. rewrite flat3_nth; [|now intros [[? ?] ?]|assumption].
  destruct (nth_error (pm_index m) f) as [[[i j] k]|]; [|reflexivity]. destruct r as [|[|[|r]]]; [reflexivity..|lia].
Qed.
Theorem C108_same_as_obj m : well_formed m -> pnum_triangles m = num_triangles (as_obj m) /\
  (forall f, ptriangle_at m f = triangle_at true (as_obj m) f) /\ (forall f uv, psurface_point m f uv = surface_point true (as_obj m) f uv).
Proof.
  intros (_ & _ & I). split; [|split].
  - unfold pnum_triangles, num_triangles, as_obj. cbn [m_fs].
    assert (L : forall l, List.length (flat_map (fun '(i, j, k) => [obj_index m i; obj_index m j; obj_index m k]) l) = List.length l * 3).
    { induction l as [|[[i j] k] l IH]; [reflexivity|]. cbn [flat_map app List.length]. rewrite IH. lia. }
    now rewrite L, Nat.div_mul.
  - intros f. unfold ptriangle_at, triangle_at. replace (3 * f) with (3 * f + 0) at 1 by lia. rewrite !obj_face by lia. unfold at_ at 1.
    destruct (Z.ltb_spec (Z.of_nat f) 0); [lia|]. rewrite Nat2Z.id. destruct (nth_error (pm_index m) f) as [[[i j] k]|] eqn:E; [|reflexivity]. cbn [obind].
    assert (B := I i j k (nth_error_In _ _ E)). rewrite !obj_vertex; [reflexivity|apply (B k)|apply (B j)|apply (B i)]; cbn; tauto.
  - intros f uv. unfold psurface_point, surface_point. replace (3 * f) with (3 * f + 0) at 1 by lia. rewrite !obj_face by lia. unfold at_ at 1.
    destruct (Z.ltb_spec (Z.of_nat f) 0); [lia|]. rewrite Nat2Z.id. destruct (nth_error (pm_index m) f) as [[[i j] k]|] eqn:E; [|reflexivity]. cbn [obind].
    assert (B := I i j k (nth_error_In _ _ E)). assert (Bi := B i (or_introl eq_refl)).
    unfold as_obj, obj_index. cbn [fp ft fn m_ps m_ns m_ts andb].
    destruct (at_ (pm_vertex m) i); cbn [obind]; try reflexivity. destruct (at_ (pm_vertex m) j); cbn [obind]; try reflexivity. destruct (at_ (pm_vertex m) k); cbn [obind]; try reflexivity.
    unfold geometry_normal. destruct (empty (pm_normal m)), (empty (pm_texcoord m)); cbn [Z.ltb Z.compare andb]; destruct (Z.ltb_spec i 0); try lia; reflexivity.
Qed.
Print Assumptions C108_same_as_obj.

Local Open Scope R_scope.
Lemma col_eq (a b : col) : vx (fst a) = vx (fst b) -> vy (fst a) = vy (fst b) -> vz (fst a) = vz (fst b) -> snd a = snd b -> a = b.
Proof. destruct a as [[? ? ?] ?], b as [[? ? ?] ?]. cbn. congruence. Qed.
Lemma mat_eq a b : c0 a = c0 b -> c1 a = c1 b -> c2 a = c2 b -> c3 a = c3 b -> a = b.
Proof. destruct a, b. cbn. congruence. Qed.
(** The converted matrix takes points where the affine map takes them, and directions by the linear part. *)
Theorem C108_transform a x : mulv (convert_xfm a) (x, 1) = (image a x, 1) /\ mulv (convert_xfm a) (x, 0) = (vsub (image a x) (a_p a), 0).
Proof. unfold convert_xfm, mulm, mulv, vsub, image. split; apply col_eq; cbn; ring. Qed.
Print Assumptions C108_transform.
(** Matrices of compositions are products; matrices have the laws that C81 asks for. *)
Theorem C108_composition a b c x y z :
  convert_xfm aff_one = ident /\ convert_xfm (aff_mul a b) = mulm (convert_xfm a) (convert_xfm b) /\
  image (aff_mul a b) c = image a (image b c) /\
  mulm ident x = x /\ mulm x ident = x /\ mulm x (mulm y z) = mulm (mulm x y) z.
Proof.
  unfold convert_xfm, mulm, mulv, image, aff_mul, aff_one, aff_apply_l. split; [|split; [|split; [|split; [|split]]]].
  - apply mat_eq; apply col_eq; cbn; ring.
  - apply mat_eq; apply col_eq; cbn; ring.
  - apply vec3_eq; cbn; ring.
  - apply mat_eq; apply col_eq; cbn; ring.
  - apply mat_eq; apply col_eq; cbn; ring.
  - apply mat_eq; apply col_eq; cbn; ring.
Qed.
Print Assumptions C108_composition.

(** A mesh of four vertices and two faces with normals *)
Definition c108_mesh : pmesh :=
  mk_pmesh [V3 0 0 0; V3 1 0 0; V3 0 1 0; V3 1 1 0] [V3 0 0 1; V3 0 0 1; V3 0 0 1; V3 0 0 2] [] [(0, 1, 2); (1, 3, 2)]%Z.
Example C108_example : well_formed c108_mesh /\ exists a b c, pface c108_mesh 1 (a, b, c) /\ v_p b = V3 1 1 0 /\ v_n b = V3 0 0 2 /\ v_t b = v2zero.
Proof.
  split.
  - split; [right; reflexivity|]. split; [left; reflexivity|]. intros i j k I x Hx. cbn [pm_index c108_mesh In] in I, Hx. cbn. destruct I as [I|[I|[]]]; injection I as <- <- <-; lia.
  - exists (mk_vertex (V3 1 0 0) (V3 0 0 1) v2zero), (mk_vertex (V3 1 1 0) (V3 0 0 2) v2zero), (mk_vertex (V3 0 1 0) (V3 0 0 1) v2zero).
    split; [|now repeat split]. exists 1%Z, 3%Z, 2%Z. split; [reflexivity|].
    repeat split; cbn [fst snd v_p v_n v_t]; try lia; try reflexivity; first [left; now split | right; split; [discriminate|split; [lia|reflexivity]]].
Qed.
