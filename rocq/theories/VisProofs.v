From Coq Require Import List Reals ZArith Bool Lra Lia ZifyBool Psatz Permutation.
From Verif Require BvhModel BvhSpec BvhQueryProofs BvhProps.
From Verif Require Import Base ObjModel SceneModel SceneSpec SceneProofs SceneProps RBase VecBase MeshModel MeshSpec MeshProofs SurfModel SurfProofs MatModel MatProofs LightModel PathModel PathProofs GeoModel GeoSpec GeoProofs VolModel VisModel VisSpec.
Import ListNotations.
Open Scope R_scope.

Lemma image_bary M A B C u v : image M (bary A B C u v) = bary (image M A) (image M B) (image M C) u v.
Proof. destruct M as [[[a1 a2 a3] [b1 b2 b3] [c1 c2 c3]] [d1 d2 d3]], A, B, C. unfold image, apply_point, bary, mmul, vadd, vscale; cbn. f_equal; ring. Qed.
Lemma image_after M N p : image (after M N) p = image M (image N p).
Proof. destruct M as [[[? ? ?] [? ? ?] [? ? ?]] [? ? ?]], N as [[[? ? ?] [? ? ?] [? ? ?]] [? ? ?]], p. unfold image, after, image, apply_point, mmul, vadd, vscale; cbn. f_equal; ring. Qed.

(** A hit of a triangle is a point where the ray meets it. *)
Lemma isect_meets p1 p2 p3 fn f r tl th h : tri_isect (new_tri p1 p2 p3 fn f) r tl th = Some h ->
  tl <= ht h <= th /\ meets r (ht h) p1 p2 p3 /\ in_simplex (hu h) (hv h) /\ ray_at r (ht h) = bary p1 p2 p3 (hu h) (hv h).
Proof.
  intros E. destruct (tri_isect_sound _ _ _ _ _ E) as (Ht & Hu & Hv & Huv & Hp).
  assert (S : in_simplex (hu h) (hv h)) by (unfold in_simplex; lra).
  assert (P : ray_at r (ht h) = bary p1 p2 p3 (hu h) (hv h)).
  { rewrite Hp. cbn [tp1 te1 te2 new_tri]. unfold bary. destruct p1, p2, p3. unfold vadd, vscale, vsub; cbn. f_equal; ring. }
  split; [exact Ht|]. split; [|split; assumption]. split; [eauto|].
  unfold tri_isect in E. cbn [tp1 te1 te2 new_tri] in E. destruct (Rlt_dec (Rabs (dot (vsub p2 p1) (cross (rd r) (vsub p3 p1)))) tri_eps) as [|N]; [discriminate|].
  unfold tri_eps in N. lra.
Qed.
Lemma meets_isect p1 p2 p3 fn f r tl th t : tl <= t <= th -> meets r t p1 p2 p3 -> exists h, tri_isect (new_tri p1 p2 p3 fn f) r tl th = Some h /\ ht h = t.
Proof.
  intros Ht ((u & v & S & P) & D). exists (mk_hit t u v). split; [|reflexivity]. apply tri_isect_complete; [exact D|exact Ht|exact S|].
  rewrite P. cbn [tp1 te1 te2 new_tri]. unfold bary. destruct p1, p2, p3. unfold vadd, vscale, vsub; cbn. f_equal; ring.
Qed.

Lemma Forall2_length' {A B} (P : A -> B -> Prop) l m : Forall2 P l m -> length l = length m.
Proof. induction 1; cbn; congruence. Qed.
Lemma Forall2_nth {A B} (P : A -> B -> Prop) l m n a b : Forall2 P l m -> nth_error l n = Some a -> nth_error m n = Some b -> P a b.
Proof. intros F. revert n. induction F; intros [|n]; cbn; try discriminate; [intros [= ->] [= ->]; assumption|apply IHF]. Qed.
Lemma path_fun {M} (ns : list (node M)) i p j Ls : path ns i p j Ls -> forall j' Ls', path ns i p j' Ls' -> j = j' /\ Ls = Ls'.
Proof.
  induction 1 as [i n Hn|i k c p j Ls x ch inst loc Hn Hk P IH]; intros j' Ls' Q; inversion Q as [|? ? c' ? ? Ls2 x' ch' inst' loc' Hn' Hk' P']; subst; [auto|].
  destruct Hn as (_ & Hn), Hn' as (_ & Hn'). rewrite Hn in Hn'. injection Hn' as <- <- <- <-. rewrite Hk in Hk'. injection Hk' as <-. destruct (IH _ _ P') as (-> & ->). auto.
Qed.

Section V.
  Variable mesh_of : nat -> bool * mesh.

  (** What flattening records *)
  Definition recorded (calls : list (node affine * affine)) (fns : list flat_node) (k : tri) : Prop :=
    exists i p M m n T f t, In (NPrim i p, M) calls /\ p_mesh p = Some m /\ nth_error fns n = Some (T, i) /\ make_transform (fst M) (snd M) = Val T /\
      face_vertices (fst (mesh_of m)) (snd (mesh_of m)) f t /\ (f < num_triangles (snd (mesh_of m)))%nat /\
      k = new_tri (image M (v_p (fst (fst t)))) (image M (v_p (snd (fst t)))) (image M (v_p (snd t))) (Z.of_nat n) (Z.of_nat f).
  Lemma recorded_mono c c' x y k : (forall z, In z c -> In z c') -> recorded c x k -> recorded c' (x ++ y) k.
  Proof.
    intros S (i & p & M & m & n & T & f & t & A1 & A2 & A3 & A). exists i, p, M, m, n, T, f, t. split; [auto|]. split; [exact A2|]. split; [|exact A].
    rewrite nth_error_app1; [exact A3|]. apply nth_error_Some. congruence.
  Qed.
  Lemma flatten_spec calls : (forall i p M m, In (NPrim i p, M) calls -> p_mesh p = Some m -> det3 (fst M) <> 0 /\ valid (fst (mesh_of m)) (snd (mesh_of m))) ->
    forall fns trs, exists fns' trs', flatten mesh_of calls fns trs = ret (fns ++ fns', trs ++ trs') /\
      (forall k, In k trs' -> recorded calls (fns ++ fns') k) /\
      (forall i p M m f t, In (NPrim i p, M) calls -> p_mesh p = Some m -> face_vertices (fst (mesh_of m)) (snd (mesh_of m)) f t -> (f < num_triangles (snd (mesh_of m)))%nat ->
         exists n, In (new_tri (image M (v_p (fst (fst t)))) (image M (v_p (snd (fst t)))) (image M (v_p (snd t))) (Z.of_nat n) (Z.of_nat f)) trs').
  Proof.
    induction calls as [|[nd M] calls IH]; intros H fns trs.
    - exists [], []. rewrite !app_nil_r. split; [reflexivity|]. split; [intros k []|intros i p M m f t []].
    - assert (H' : forall i p M m, In (NPrim i p, M) calls -> p_mesh p = Some m -> det3 (fst M) <> 0 /\ valid (fst (mesh_of m)) (snd (mesh_of m))) by (intros i p N m I; apply (H i p N m); now right).
      assert (Skip : (forall i p m, nd = NPrim i p -> p_mesh p <> Some m) -> flatten mesh_of ((nd, M) :: calls) fns trs = flatten mesh_of calls fns trs ->
        exists fns' trs', flatten mesh_of ((nd, M) :: calls) fns trs = ret (fns ++ fns', trs ++ trs') /\
        (forall k, In k trs' -> recorded ((nd, M) :: calls) (fns ++ fns') k) /\
        (forall i p M0 m f t, In (NPrim i p, M0) ((nd, M) :: calls) -> p_mesh p = Some m -> face_vertices (fst (mesh_of m)) (snd (mesh_of m)) f t -> (f < num_triangles (snd (mesh_of m)))%nat ->
         exists n, In (new_tri (image M0 (v_p (fst (fst t)))) (image M0 (v_p (snd (fst t)))) (image M0 (v_p (snd t))) (Z.of_nat n) (Z.of_nat f)) trs')).
      { intros He E. destruct (IH H' fns trs) as (a & b & E1 & R1 & R2). exists a, b. rewrite E. split; [exact E1|]. split.
        - intros k K. rewrite <- (app_nil_r (fns ++ a)). apply (recorded_mono calls); [intros z Iz; now right|auto].
        - intros i p M0 m f t [A|A] P F L; [|eapply R2; eassumption]. exfalso. injection A as -> ->. now apply (He i p m). }
      destruct nd as [i p|i ch inst loc].
      2: { apply Skip; [discriminate|reflexivity]. }
      destruct (p_mesh p) as [m|] eqn:Pm.
      2: { apply Skip; [intros i0 p0 m0 [= <- <-]; congruence|]. cbn [flatten]. now rewrite Pm. }
      destruct (H i p M m (or_introl eq_refl) Pm) as (D & V).
      assert (T : exists T, make_transform (fst M) (snd M) = Val T). { unfold make_transform, rdiv, fdiv. destruct (Req_EM_T (det3 (fst M)) 0); [contradiction|]. cbn [fbind]. eauto. }
      destruct T as (T & ET). destruct (foreach_from_ok (fst (mesh_of m)) (snd (mesh_of m)) V (num_triangles (snd (mesh_of m))) 0 (le_n _)) as (l & El & L1 & L2).
      set (new := map (fun x => let '(f, (a, b, c)) := x in new_tri (image M (v_p a)) (image M (v_p b)) (image M (v_p c)) (Z.of_nat (length fns)) (Z.of_nat f)) l).
      destruct (IH H' (fns ++ [(T, i)]) (trs ++ new)) as (a & b & E1 & R1 & R2). exists ((T, i) :: a), (new ++ b). rewrite <- app_assoc in E1. cbn [app] in E1.
      split; [|split].
      + cbn [flatten]. rewrite Pm, ET. cbn [pbind]. unfold foreach_triangle. change (length (m_fs (snd (mesh_of m))) / 3)%nat with (num_triangles (snd (mesh_of m))). rewrite El. cbn [obind]. fold new. rewrite E1. now rewrite <- app_assoc.
      + intros k K. apply in_app_or in K as [K|K].
        * unfold new in K. apply in_map_iff in K as ([f [[va vb] vc]] & <- & K). exists i, p, M, m, (length fns), T, f, (va, vb, vc).
          split; [now left|]. split; [exact Pm|]. split; [rewrite nth_error_app2, Nat.sub_diag by lia; reflexivity|]. split; [exact ET|]. split; [now apply L2|]. split; [|reflexivity].
          assert (Q : In f (map fst l)) by (apply in_map_iff; exists (f, (va, vb, vc)); auto). rewrite L1 in Q. apply in_seq in Q. lia.
        * specialize (R1 k K). rewrite <- app_assoc in R1. cbn [app] in R1. rewrite <- (app_nil_r (fns ++ (T, i) :: a)). apply (recorded_mono calls); [intros z Iz; now right|exact R1].
      + intros i0 p0 M0 m0 f t [A|A] P F L.
        * injection A as -> -> ->. assert (m0 = m) by congruence. subst m0. exists (length fns). apply in_or_app. left. unfold new.
          assert (Q : In f (map fst l)) by (rewrite L1; apply in_seq; lia). apply in_map_iff in Q as ([f' t'] & Ef & Q). cbn in Ef. subst f'.
          assert (t' = t). { assert (X := triangle_at_ok _ _ _ _ (L2 f t' Q)). assert (Y := triangle_at_ok _ _ _ _ F). congruence. } subst t'.
          apply in_map_iff. exists (f, t). split; [|exact Q]. destruct t as [[va vb] vc]. reflexivity.
        * destruct (R2 i0 p0 M0 m0 f t A P F L) as (n & Q). exists n. apply in_or_app. now right.
  Qed.

  (** Calls of the traversal are the instances. *)
  Lemma calls_instances s fuel calls : numbered (s_nodes s) -> traverse id_affine after fuel s = (calls, Ok tt) ->
    forall i k M, (exists pr, In (NPrim i pr, M) calls /\ p_mesh pr = Some k) <-> exists p, instance s p i k M.
  Proof.
    intros Nu E i k M. destruct (C17_each_path_once _ id_affine after fuel s calls E) as (paths & _ & Ip & Fp). split.
    - intros (pr & I & Pm). apply In_nth_error in I as (n & I). assert (X : exists p, nth_error paths n = Some p).
      { destruct (nth_error paths n) eqn:Q; eauto. apply nth_error_None in Q. assert (n < length calls)%nat by (apply nth_error_Some; congruence). assert (length paths = length calls) by (eapply Forall2_length'; eauto). lia. }
      destruct X as (p & Q). exists p. destruct (Forall2_nth _ _ _ _ _ _ Fp Q I) as (j & Ls & P & Hn & EM). cbn [fst snd] in *. exists Ls, pr.
      assert (j = i). { destruct Hn as (Hj & Hn). assert (Z0 := Nu _ _ Hn). cbn in Z0. lia. } subst j. auto.
    - intros (p & Ls & pr & P & Hn & Pm & EM). assert (I : In p paths) by (apply Ip; eauto). apply In_nth_error in I as (n & Q).
      assert (X : exists c, nth_error calls n = Some c). { destruct (nth_error calls n) eqn:Q'; eauto. apply nth_error_None in Q'. assert (n < length paths)%nat by (apply nth_error_Some; congruence). assert (length paths = length calls) by (eapply Forall2_length'; eauto). lia. }
      destruct X as ([nd M'] & I). destruct (Forall2_nth _ _ _ _ _ _ Fp Q I) as (j & Ls' & P' & Hn' & EM'). cbn [fst snd] in *.
      destruct (path_fun _ _ _ _ _ P _ _ P') as (<- & <-). destruct Hn as (_ & Hn), Hn' as (_ & Hn'). assert (nd = NPrim i pr) by congruence. subst nd M'. exists pr. split; [|exact Pm]. rewrite EM. eapply nth_error_In; eauto.
  Qed.
End V.
