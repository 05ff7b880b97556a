(** Proofs about meshes. *)
From Coq Require Import List ZArith Reals Bool Lia Lra Psatz.
From Verif Require Import Base LogModel ObjModel ObjSpec ObjProofs ObjLoadProofs RBase VecBase SurfModel MeshModel MeshSpec.
Import ListNotations.
Local Open Scope nat_scope.

Lemma at_elem {A} (l : list A) i a : elem l i a -> at_ l i = Ok a.
Proof. intros [H E]. unfold at_. destruct (Z.ltb_spec i 0); [lia|]. rewrite E. reflexivity. Qed.
Lemma at_nat {A} (l : list A) k a : nth_error l k = Some a -> at_ l (Z.of_nat k) = Ok a.
Proof. intros E. apply at_elem. split; [lia|]. rewrite Nat2Z.id. exact E. Qed.

Lemma attribute_ok {A} obj (z : A) l i a : attribute obj z l i a -> (if obj && (i <? 0)%Z then Ok z else at_ l i) = Ok a.
Proof.
  intros [(-> & H & ->)|(H & E)].
  - destruct (Z.ltb_spec i 0); [reflexivity|lia].
  - destruct obj; cbn [andb]; [|apply at_elem; exact E]. specialize (H eq_refl). destruct (Z.ltb_spec i 0); [lia|]. apply at_elem. exact E.
Qed.

Lemma vertex_of_ok obj m f v : names_vertex obj m f v -> vertex_of obj m f = Ok v.
Proof.
  intros (Hp & Hn & Ht). unfold vertex_of. rewrite (at_elem _ _ _ Hp). cbn [obind]. rewrite (attribute_ok _ _ _ _ _ Hn). cbn [obind].
  rewrite (attribute_ok _ _ _ _ _ Ht). cbn [obind]. destruct v. reflexivity.
Qed.

Lemma triangle_at_ok obj m i t : face_vertices obj m i t -> triangle_at obj m i = Ok t.
Proof.
  intros (f1 & f2 & f3 & (E1 & E2 & E3) & H1 & H2 & H3). unfold triangle_at.
  rewrite (at_nat _ _ _ E1), (at_nat _ _ _ E2), (at_nat _ _ _ E3). cbn [obind].
  rewrite (vertex_of_ok _ _ _ _ H1), (vertex_of_ok _ _ _ _ H2), (vertex_of_ok _ _ _ _ H3). destruct t as [[a b] c]. reflexivity.
Qed.

Lemma face_exists obj m i : valid obj m -> i < num_triangles m -> exists t, face_vertices obj m i t.
Proof.
  intros Hv Hi. unfold num_triangles in Hi.
  assert (H3 : 3 * i + 2 < length (m_fs m)).
  { assert (D := Nat.div_mod (length (m_fs m)) 3 ltac:(lia)). lia. }
  assert (N : forall k, k <= 3 * i + 2 -> exists f v, nth_error (m_fs m) k = Some f /\ names_vertex obj m f v).
  { intros k Hk. destruct (nth_error (m_fs m) k) as [f|] eqn:E; [|apply nth_error_None in E; lia].
    destruct (Hv f (nth_error_In _ _ E)) as [v H]. exists f, v. auto. }
  destruct (N (3 * i)) as (f1 & v1 & E1 & H1); [lia|]. destruct (N (3 * i + 1)) as (f2 & v2 & E2 & H2); [lia|]. destruct (N (3 * i + 2)) as (f3 & v3 & E3 & H3'); [lia|].
  exists (v1, v2, v3), f1, f2, f3. split; [repeat split; assumption|auto].
Qed.

Lemma foreach_from_ok obj m : valid obj m -> forall k fi, fi + k <= num_triangles m ->
  exists l, foreach_from obj m fi k = Ok l /\ map fst l = seq fi k /\ forall i t, In (i, t) l -> face_vertices obj m i t.
Proof.
  intros Hv. induction k as [|k IH]; intros fi Hk; [exists []; split; [reflexivity|split; [reflexivity|intros i t []]]|].
  destruct (face_exists obj m fi Hv) as [t Ht]; [lia|]. destruct (IH (S fi)) as (l & E & Ef & Ei); [lia|].
  exists ((fi, t) :: l). cbn [foreach_from]. rewrite (triangle_at_ok _ _ _ _ Ht). cbn [obind]. rewrite E. cbn [obind].
  split; [reflexivity|]. split; [cbn [map fst seq]; f_equal; exact Ef|]. intros i t' [H|H]; [injection H as <- <-; exact Ht|exact (Ei i t' H)].
Qed.

Lemma mix_combine a b c u : mix_barycentric a b c u = combine3 a b c u.
Proof. unfold mix_barycentric, combine3. destruct u as [x y]. cbn [VecBase.v2x VecBase.v2y]. vring. Qed.

Lemma vlen_scale_pos k v : (0 <= k)%R -> vlen (vscale k v) = (k * vlen v)%R.
Proof.
  intros Hk. unfold vlen. replace (dot (vscale k v) (vscale k v)) with ((k * k) * dot v v)%R by vring.
  rewrite sqrt_mult_alt by nra. rewrite sqrt_square by exact Hk. reflexivity.
Qed.

Lemma normalize_ok v : unit_of v (normalize v).
Proof.
  unfold normalize. assert (Hn := vlen_nonneg v). destruct (Req_EM_T (vlen v) 0) as [E|E]; cbn [unit_of].
  - assert (D : dot v v = 0%R) by (rewrite <- vlen_sq, E; ring). destruct v as [x y z]. unfold dot in D. cbn in D.
    assert (x = 0 /\ y = 0 /\ z = 0)%R as (-> & -> & ->); [|reflexivity]. split; [|split]; nra.
  - assert (0 < vlen v)%R by lra. split.
    + rewrite vlen_scale_pos by (left; apply Rinv_0_lt_compat; assumption). field. lra.
    + exists (vlen v). split; [assumption|]. generalize dependent (vlen v). intros k Hn E H. vec. apply vec3_eq; cbn; field; lra.
Qed.

(** ** From the file *)
Lemma triples_concat {A} : forall l : list (list A), (forall x, In x l -> exists n, length x = 3 * n) ->
  triples (List.concat l) = List.concat (map triples l).
Proof.
  induction l as [|x l IH]; intros H; [reflexivity|]. cbn [List.concat map]. destruct (H x) as [n En]; [left; reflexivity|].
  rewrite (triples_app n x _ En), IH; [reflexivity|]. intros y Hy. apply H. right. exact Hy.
Qed.

Lemma triples_nth {A} : forall (l : list A) i a b c, nth_error (triples l) i = Some (a, b, c) <->
  nth_error l (3 * i) = Some a /\ nth_error l (3 * i + 1) = Some b /\ nth_error l (3 * i + 2) = Some c.
Proof.
  intros l. assert (G : forall n (l : list A), length l < n -> forall i a b c, nth_error (triples l) i = Some (a, b, c) <->
    nth_error l (3 * i) = Some a /\ nth_error l (3 * i + 1) = Some b /\ nth_error l (3 * i + 2) = Some c).
  { induction n as [|n IH]; intros l0 Hl i a b c; [lia|].
    destruct l0 as [|x [|y [|z l0]]]; cbn [triples].
    - split; [destruct i; discriminate|]. intros (H & _). destruct (3 * i); discriminate.
    - split; [destruct i; discriminate|]. intros (_ & H & _). replace (3 * i + 1) with (S (3 * i)) in H by lia. cbn in H. destruct (i + (i + (i + 0))); discriminate.
    - split; [destruct i; discriminate|]. intros (_ & _ & H). replace (3 * i + 2) with (S (S (3 * i))) in H by lia. cbn in H. destruct (i + (i + (i + 0))); discriminate.
    - destruct i as [|i].
      + cbn. split; [intros E; injection E as <- <- <-; auto|intros (E1 & E2 & E3); congruence].
      + replace (3 * S i) with (3 + 3 * i) by lia. cbn [nth_error Nat.add]. replace (3 * i + 1) with (3 * i + 1) by lia. apply IH. cbn in Hl. lia. }
  exact (G (S (length l)) l ltac:(lia)).
Qed.

Lemma attribute_some {A} obj (z : A) l i a : attribute obj z l i a -> obj && (i <? 0)%Z = false -> at_ l i = Ok a.
Proof. intros H E. apply attribute_ok in H. rewrite E in H. exact H. Qed.
Lemma attribute_none {A} (z : A) l i a : attribute true z l i a -> (i < 0)%Z -> a = z.
Proof. intros [(_ & _ & H)|(H & _)] Hi; [exact H|]. specialize (H eq_refl). lia. Qed.

Lemma surface_ok obj m i uv f1 f2 f3 a b c : face_indices m i f1 f2 f3 -> names_vertex obj m f1 a -> names_vertex obj m f2 b -> names_vertex obj m f3 c ->
  (obj = true -> uniform m i) ->
  exists sp, surface_point obj m i uv = Ok sp
    /\ ip_p sp = combine3 (v_p a) (v_p b) (v_p c) uv
    /\ unit_of (cross (vsub (v_p b) (v_p a)) (vsub (v_p c) (v_p a))) (ip_gn sp)
    /\ (if obj && (fn f1 <? 0)%Z then ip_n sp = ip_gn sp else unit_of (combine3 (v_n a) (v_n b) (v_n c) uv) (ip_n sp))
    /\ ip_t sp = mix2 (v_t a) (v_t b) (v_t c) uv.
Proof.
  intros F1 H1 H2 H3 Hu. assert (Hf := F1). destruct F1 as (E1 & E2 & E3).
  destruct H1 as (P1 & N1 & T1), H2 as (P2 & N2 & T2), H3 as (P3 & N3 & T3).
  unfold surface_point. rewrite (at_nat _ _ _ E1), (at_nat _ _ _ E2), (at_nat _ _ _ E3). cbn [obind].
  rewrite (at_elem _ _ _ P1), (at_elem _ _ _ P2), (at_elem _ _ _ P3). cbn [obind].
  assert (Un : obj = true -> ((fn f1 < 0)%Z <-> (fn f2 < 0)%Z) /\ ((fn f1 < 0)%Z <-> (fn f3 < 0)%Z)
    /\ ((ft f1 < 0)%Z <-> (ft f2 < 0)%Z) /\ ((ft f1 < 0)%Z <-> (ft f3 < 0)%Z)) by (intros H; exact (Hu H _ _ _ Hf)).
  assert (EN : exists n, (if obj && (fn f1 <? 0)%Z then Ok (geometry_normal (v_p a) (v_p b) (v_p c)) else
         obind (at_ (m_ns m) (fn f1)) (fun n1 => obind (at_ (m_ns m) (fn f2)) (fun n2 => obind (at_ (m_ns m) (fn f3)) (fun n3 =>
         Ok (normalize (mix_barycentric n1 n2 n3 uv)))))) = Ok n /\
         if obj && (fn f1 <? 0)%Z then n = geometry_normal (v_p a) (v_p b) (v_p c) else unit_of (combine3 (v_n a) (v_n b) (v_n c) uv) n).
  { destruct (obj && (fn f1 <? 0)%Z) eqn:E; [eexists; split; reflexivity|].
    assert (E' : obj && (fn f2 <? 0)%Z = false /\ obj && (fn f3 <? 0)%Z = false).
    { destruct obj; cbn [andb] in *; [|auto]. apply Z.ltb_ge in E. destruct (Un eq_refl) as (A & B & _). split; apply Z.ltb_ge; lia. }
    rewrite (attribute_some _ _ _ _ _ N1 E), (attribute_some _ _ _ _ _ N2 (proj1 E')), (attribute_some _ _ _ _ _ N3 (proj2 E')). cbn [obind].
    eexists. split; [reflexivity|]. apply (normalize_ok (mix_barycentric (v_n a) (v_n b) (v_n c) uv)). }
  destruct EN as (n & -> & Hn). cbn [obind].
  assert (ET : (if obj && (ft f1 <? 0)%Z then Ok v2zero else
         obind (at_ (m_ts m) (ft f1)) (fun t1 => obind (at_ (m_ts m) (ft f2)) (fun t2 => obind (at_ (m_ts m) (ft f3)) (fun t3 =>
         Ok (mix2 t1 t2 t3 uv))))) = Ok (mix2 (v_t a) (v_t b) (v_t c) uv)).
  { destruct (obj && (ft f1 <? 0)%Z) eqn:E.
    - apply andb_true_iff in E. destruct E as [-> E]. apply Z.ltb_lt in E. destruct (Un eq_refl) as (_ & _ & A & B).
      rewrite (attribute_none _ _ _ _ T1 E), (attribute_none _ _ _ _ T2), (attribute_none _ _ _ _ T3) by lia.
      f_equal. unfold mix2, v2zero. cbn [VecBase.v2x VecBase.v2y]. f_equal; ring.
    - assert (E' : obj && (ft f2 <? 0)%Z = false /\ obj && (ft f3 <? 0)%Z = false).
      { destruct obj; cbn [andb] in *; [|auto]. apply Z.ltb_ge in E. destruct (Un eq_refl) as (_ & _ & A & B). split; apply Z.ltb_ge; lia. }
      rewrite (attribute_some _ _ _ _ _ T1 E), (attribute_some _ _ _ _ _ T2 (proj1 E')), (attribute_some _ _ _ _ _ T3 (proj2 E')). reflexivity. }
  rewrite ET. cbn [obind]. eexists. split; [reflexivity|]. cbn [ip_p ip_n ip_gn ip_t].
  split; [apply mix_combine|]. split; [apply normalize_ok|]. split; [exact Hn|reflexivity].
Qed.

Definition flat3 (l : list vec3) : list R := flat_map (fun v => [vx v; vy v; vz v]) l.
Definition flat2 (l : list vec2) : list R := flat_map (fun v => [VecBase.v2x v; VecBase.v2y v]) l.
Lemma group3_ok l : group3 (flat3 l) = Ok l.
Proof. induction l as [|[x y z] l IH]; [reflexivity|]. cbn [flat3 flat_map app group3 vx vy vz]. fold (flat3 l). rewrite IH. reflexivity. Qed.
Lemma group2_ok l : group2 (flat2 l) = Ok l.
Proof. induction l as [|[x y] l IH]; [reflexivity|]. cbn [flat2 flat_map app group2 VecBase.v2x VecBase.v2y]. fold (flat2 l). rewrite IH. reflexivity. Qed.
Lemma group_fs_ok l : group_fs (map fp l) (map ft l) (map fn l) = Ok l.
Proof. induction l as [|[p t n] l IH]; [reflexivity|]. cbn [map group_fs fp ft fn]. rewrite IH. reflexivity. Qed.
Lemma construct_raw_ok a b c f : construct_raw (flat3 a) (flat3 b) (flat2 c) (map fp f) (map ft f) (map fn f) = Ok (mk_mesh a b c f).
Proof. unfold construct_raw. rewrite !group3_ok, group2_ok, group_fs_ok. reflexivity. Qed.

Lemma mesh_tris_fst l : map fst (List.concat (map (mesh_tris R) l)) = List.concat (map (fun m => triples (fst m)) l).
Proof.
  induction l as [|m l IH]; [reflexivity|]. cbn [map List.concat]. rewrite map_app, IH. f_equal.
  unfold mesh_tris. rewrite map_map. cbn [fst]. apply map_id.
Qed.

Lemma construct_obj_ok open lib content ls sts e out num : library R 0%R num open lib -> file_of ls content -> Forall short ls ->
  Forall2 (says R num) sts ls -> means R lib (start R) sts e out ->
  exists m, construct_obj open (Some content) num = Ok m
    /\ m_ps m = map vec_of (e_ps R e) /\ m_ns m = map vec_of (e_ns R e) /\ m_ts m = map vec2_of (e_ts R e)
    /\ triples (m_fs m) = map fst out /\ exists n, length (m_fs m) = 3 * n.
Proof.
  intros L Hf Hs Hy Hm. destruct (load_ok R 0%R 1%R num open lib content ls sts e out L Hf Hs Hy Hm) as (geo & meshes & E & Ep & En & Et & Em & El).
  unfold construct_obj. rewrite E. cbn [obind]. eexists. split; [reflexivity|]. cbn [m_ps m_ns m_ts m_fs]. rewrite Ep, En, Et.
  split; [reflexivity|]. split; [reflexivity|]. split; [reflexivity|].
  assert (Ef : mesh_faces R meshes = List.concat (map fst meshes)) by (unfold mesh_faces; rewrite ?flat_map_concat_map; reflexivity).
  rewrite Ef. split.
  - rewrite triples_concat.
    + rewrite map_map, <- mesh_tris_fst. apply (f_equal (map fst)) in Em. rewrite !map_map in Em. cbn [fst] in Em. exact Em.
    + intros x Hx. apply in_map_iff in Hx. destruct Hx as (mm & <- & Hin). exact (El mm Hin).
  - clear - El. induction meshes as [|mm l IH]; [exists 0; reflexivity|]. destruct IH as [k Hk]; [intros x Hx; apply El; right; exact Hx|].
    destruct (El mm) as [n Hn]; [left; reflexivity|]. exists (n + k). cbn [map List.concat]. rewrite app_length, Hn, Hk. lia.
Qed.

Lemma triples_length {A} n : forall l : list A, length l = 3 * n -> length (triples l) = n.
Proof.
  induction n as [|n IH]; intros l H; [destruct l; [reflexivity|discriminate]|].
  destruct l as [|x [|y [|z l]]]; try (cbn in H; lia). cbn [triples length]. f_equal. apply IH. cbn in H. lia.
Qed.

Lemma elem_map {A B} (f : A -> B) l i : (0 <= i < zlen l)%Z -> exists a, elem (map f l) i a.
Proof.
  intros [H1 H2]. unfold zlen in H2. destruct (nth_error l (Z.to_nat i)) as [a|] eqn:E.
  - exists (f a). split; [exact H1|]. apply map_nth_error. exact E.
  - apply nth_error_None in E. lia.
Qed.
Lemma attr_map {A B} (f : A -> B) z l i : (i = -1 \/ 0 <= i < zlen l)%Z -> exists a, attribute true z (map f l) i a.
Proof.
  intros [->|H]; [exists z; left; split; [reflexivity|split; [lia|reflexivity]]|]. destruct (elem_map f l i H) as [a Ha]. exists a. right. split; [lia|exact Ha].
Qed.

Lemma obj_valid m e lib sts out : means R lib (start R) sts e out -> m_ps m = map vec_of (e_ps R e) -> m_ns m = map vec_of (e_ns R e) ->
  m_ts m = map vec2_of (e_ts R e) -> triples (m_fs m) = map fst out -> (exists n, length (m_fs m) = 3 * n) -> valid true m.
Proof.
  intros Hm Ep En Et Ef [n Hn] f Hin. apply In_nth_error in Hin. destruct Hin as [k Hk].
  assert (Hlt : k < length (m_fs m)) by (apply nth_error_Some; congruence).
  assert (D := Nat.div_mod k 3 ltac:(lia)). assert (M := Nat.mod_upper_bound k 3 ltac:(lia)). set (i := k / 3) in *.
  assert (Hi : i < length (triples (m_fs m))). { rewrite (triples_length n) by exact Hn. lia. }
  destruct (nth_error (triples (m_fs m)) i) as [[[a b] c]|] eqn:E; [|apply nth_error_None in E; lia].
  assert (E' := proj1 (triples_nth _ _ _ _ _) E). destruct E' as (E1 & E2 & E3).
  assert (Hout : exists mt, In (a, b, c, mt) out).
  { apply nth_error_In in E. rewrite Ef in E. apply in_map_iff in E. destruct E as ([t mt] & Et' & Hin). cbn in Et'. subst t. exists mt. exact Hin. }
  destruct Hout as [mt Hout]. destruct (means_in R lib (start R) sts e out Hm a b c mt Hout) as (Ia & Ib & Ic).
  assert (Hf : in_lists R e f).
  { assert (K : k = 3 * i \/ k = 3 * i + 1 \/ k = 3 * i + 2) by lia. destruct K as [K|[K|K]]; rewrite K in Hk; congruence. }
  destruct Hf as (Hp & Ht & Hnn).
  destruct (elem_map vec_of (e_ps R e) (fp f)) as (p0 & Hp'); [exact Hp|].
  destruct (attr_map vec_of v0 (e_ns R e) (fn f)) as (n0 & Hn'); [exact Hnn|].
  destruct (attr_map vec2_of v2zero (e_ts R e) (ft f)) as (t0 & Ht'); [exact Ht|].
  exists (mk_vertex p0 n0 t0). split; cbn [v_p v_n v_t]; [rewrite Ep; exact Hp'|]. rewrite En, Et. split; assumption.
Qed.
