From Coq Require Import List Reals ZArith Bool Lra Lia ZifyBool Psatz Permutation.
From Verif Require BvhModel BvhSpec BvhQueryProofs BvhProps PathSpec.
From Verif Require Import Base ObjModel SceneModel SceneSpec SceneProofs SceneProps RBase VecBase MeshModel MeshSpec MeshProofs MeshProps SurfModel SurfSpec SurfProofs MatModel MatProofs LightModel PathModel PathProofs GeoModel GeoSpec GeoProofs VolModel VisModel VisSpec VisProofs.
Import ListNotations.
Open Scope R_scope.

(** ** Transforms *)
Lemma transform_parts M T : make_transform (fst M) (snd M) = Val T -> det3 (fst M) <> 0 /\ t_lin T = fst M /\ t_tr T = snd M.
Proof. unfold make_transform, rdiv, fdiv. destruct (Req_EM_T (det3 (fst M)) 0); [discriminate|]. cbn [fbind]. intros [= <-]. auto. Qed.
Lemma transform_image M T p : make_transform (fst M) (snd M) = Val T -> apply_point (t_lin T) (t_tr T) p = image M p.
Proof. intros E. destruct (transform_parts M T E) as (_ & -> & ->). reflexivity. Qed.
Lemma image_diff M A B : vsub (image M B) (image M A) = mmul (fst M) (vsub B A).
Proof. destruct M as [[[? ? ?] [? ? ?] [? ? ?]] [? ? ?]], A, B. unfold image, apply_point, mmul, vadd, vsub, vscale; cbn. f_equal; ring. Qed.
(** The matrix of normals is the transposed inverse. *)
Lemma normal_dot M T n e : make_transform (fst M) (snd M) = Val T -> dot (mmul (t_normal T) n) (mmul (fst M) e) = dot n e.
Proof.
  unfold make_transform, rdiv, fdiv. destruct (Req_EM_T (det3 (fst M)) 0) as [|D]; [discriminate|]. cbn [fbind]. intros [= <-]. cbn [t_normal].
  destruct M as [[[a1 a2 a3] [b1 b2 b3] [c1 c2 c3]] d], n as [n1 n2 n3], e as [e1 e2 e3]. cbn [fst snd] in *. unfold det3, mmul, dot, cross, vadd, vscale in *; cbn in *. field. exact D.
Qed.
Lemma normal_nonzero M T n : make_transform (fst M) (snd M) = Val T -> n <> v0 -> 0 < dot (mmul (t_normal T) n) (mmul (t_normal T) n).
Proof.
  intros E N. destruct (Rle_lt_or_eq_dec 0 _ (dot_self_nonneg (mmul (t_normal T) n))) as [|Z0]; [assumption|]. exfalso. apply N.
  assert (Z1 : mmul (t_normal T) n = v0).
  { destruct (mmul (t_normal T) n) as [a b c]. unfold dot in Z0; cbn in Z0. unfold v0. f_equal; nra. }
  assert (H := normal_dot M T n n E). rewrite Z1 in H. destruct n as [a b c]. unfold dot, v0 in *; cbn in *. f_equal; nra.
Qed.
Lemma cross_image M T a b : make_transform (fst M) (snd M) = Val T -> cross (mmul (fst M) a) (mmul (fst M) b) = vscale (det3 (fst M)) (mmul (t_normal T) (cross a b)).
Proof.
  unfold make_transform, rdiv, fdiv. destruct (Req_EM_T (det3 (fst M)) 0) as [|D]; [discriminate|]. cbn [fbind]. intros [= <-]. cbn [t_normal].
  destruct M as [[[a1 a2 a3] [b1 b2 b3] [c1 c2 c3]] d], a as [n1 n2 n3], b as [e1 e2 e3]. cbn [fst snd] in *. unfold det3, mmul, dot, cross, vadd, vscale in *; cbn in *. f_equal; field; exact D.
Qed.
Lemma mmul_v0 m : mmul m v0 = v0.
Proof. destruct m as [[? ? ?] [? ? ?] [? ? ?]]. unfold mmul, v0, vadd, vscale; cbn. f_equal; ring. Qed.
Lemma unit_of_some v n : unit_of v n -> v <> v0 -> exists w k, n = Some w /\ 0 < k /\ v = vscale k w /\ w <> v0.
Proof.
  destruct n as [w|]; cbn; [|congruence]. intros (L & k & Hk & E) _. exists w, k. repeat split; auto. intros ->. unfold vlen, dot, v0 in L; cbn in L. rewrite !Rmult_0_l, !Rplus_0_l, sqrt_0 in L. lra.
Qed.

Section V.
  Variable mesh_of : nat -> bool * mesh.
  Variable neg0 : bool.
  Variables (s : scene affine) (a : accel).
  Hypothesis Hs : sound_scene mesh_of s.
  Hypothesis Hb : built_for mesh_of s a.
  Hypothesis Hd : shallow a.

  Lemma face_number obj m f t : face_vertices obj m f t -> (f < num_triangles m)%nat.
  Proof.
    intros (f1 & f2 & f3 & (_ & _ & F) & _). unfold num_triangles. assert (3 * f + 2 < length (m_fs m))%nat by (apply nth_error_Some; congruence).
    apply Nat.div_le_lower_bound; lia.
  Qed.
  (** The triangles are those of the scene. *)
  Lemma triangles : exists calls, 
    (forall k, In k (a_trs a) -> recorded mesh_of calls (a_flat a) k) /\
    (forall i f A B C, world_triangle mesh_of s i f A B C -> exists n, In (new_tri A B C (Z.of_nat n) (Z.of_nat f)) (a_trs a)) /\
    (forall i k M, (exists pr, In (NPrim i pr, M) calls /\ p_mesh pr = Some k) <-> exists p, instance s p i k M).
  Proof.
    destruct Hb as (fuel & calls & sort & T & l & st & Et & Ef & _). destruct Hs as (Nu & _ & Hi).
    assert (CI := calls_instances s fuel calls Nu Et). exists calls.
    destruct (flatten_spec mesh_of calls) with (fns := @nil flat_node) (trs := @nil tri) as (fns & trs & E & R1 & R2).
    { intros i p M m I Pm. destruct (proj1 (CI i m M)) as (q & Q); [eauto|]. destruct (Hi q i m M Q) as (D & V & _). split; assumption. }
    cbn [app] in *. rewrite E in Ef. unfold ret in Ef. injection Ef as -> ->. split; [exact R1|]. split; [|exact CI].
    intros i f A B C (p & k & M & t & I & F & -> & -> & ->). destruct (proj2 (CI i k M)) as (pr & Q & Pm); [eauto|].
    apply (R2 i pr M k f t Q Pm F). eapply face_number; eauto.
  Qed.

  (** A hit on the structure: nothing met, or the nearest point met. *)
  Lemma query_spec r tmin tmax :
    (accel_intersect a r tmin tmax = Ok None /\ forall t, tmin <= t <= tmax -> ~ meets_scene mesh_of s r t) \/
    (exists t u v T i f p k M x, accel_intersect a r tmin tmax = Ok (Some (t, V2 u v, T, i, Z.of_nat f)) /\ tmin <= t <= tmax /\
       instance s p i k M /\ make_transform (fst M) (snd M) = Val T /\ face_vertices (fst (mesh_of k)) (snd (mesh_of k)) f x /\ in_simplex u v /\
       let A := image M (v_p (fst (fst x))) in let B := image M (v_p (snd (fst x))) in let C := image M (v_p (snd x)) in
       meets r t A B C /\ ray_at r t = bary A B C u v /\ forall t', tmin <= t' <= tmax -> meets_scene mesh_of s r t' -> t <= t').
  Proof.
    destruct triangles as (calls & R1 & R2 & CI).
    assert (Q : exists res, BvhModel.query (a_trs a) (a_nodes a) (2 * length (a_trs a) - 1) (a_indices a) r tmin (2 * length (a_trs a)) tmax = Ok res /\ BvhProps.nearest (a_trs a) r tmin tmax res).
    { destruct Hb as (fuel & c & sort & T & l & st & _ & _ & Hp & Hc & Hr & HT & Hf & En & Ei).
      destruct (BvhProps.C35_nearest_partial (a_trs a) sort T l st Hp Hc) as (d & u & Tr & Q); auto.
      - apply Forall_forall. intros k K. destruct (R1 k K) as (i & p & M & m & n & T' & f & t & _ & _ & _ & _ & _ & _ & ->). unfold BvhQueryProofs.made. eauto 6.
      - rewrite En, Ei. apply Q; [|lia]. rewrite <- En, <- Ei in Tr. exact (Hd d u Tr). }
    destruct Q as (res & Eq & Nr). unfold accel_intersect. rewrite Eq. cbn [obind]. destruct res as [[[[t [u v]] fl] fc]|]; cbn [BvhProps.nearest] in Nr.
    - right. destruct Nr as (k & K & Ek & -> & -> & Min). destruct (R1 k K) as (i & pr & M & m & n & T & f & x & Q1 & Q2 & Q3 & Q4 & Q5 & Q6 & ->).
      destruct (proj1 (CI i m M)) as (p & Ip); [eauto|]. destruct (isect_meets _ _ _ _ _ _ _ _ _ Ek) as (B1 & B2 & B3 & B4). cbn [ht hu hv] in *.
      cbn [tflat tface new_tri]. destruct (Z.ltb_spec (Z.of_nat n) 0); [lia|]. rewrite Nat2Z.id, Q3.
      exists t, u, v, T, i, f, p, m, M, x. split; [reflexivity|]. split; [exact B1|]. split; [exact Ip|]. split; [exact Q4|]. split; [exact Q5|]. split; [exact B3|]. cbv zeta. split; [exact B2|]. split; [exact B4|].
      intros t' Ht' (i' & f' & A & B & C & W & Mt). destruct (R2 i' f' A B C W) as (n' & I'). destruct (meets_isect A B C (Z.of_nat n') (Z.of_nat f') r tmin tmax t' Ht' Mt) as (h & Eh & <-). exact (Min _ _ I' Eh).
    - left. split; [reflexivity|]. intros t Ht (i' & f' & A & B & C & W & Mt). destruct (R2 i' f' A B C W) as (n' & I'). destruct (meets_isect A B C (Z.of_nat n') (Z.of_nat f') r tmin tmax t Ht Mt) as (h & Eh & _). rewrite (Nr _ I') in Eh. discriminate.
  Qed.

  Lemma intersect_spec r tmin tmax :
    (exists x, intersect mesh_of neg0 s a r tmin tmax = ret (Some x) /\ surface_hit mesh_of s r tmin tmax x) \/
    ((forall t, tmin <= t <= tmax -> ~ meets_scene mesh_of s r t) /\
     intersect mesh_of neg0 s a r tmin tmax = ret (match s_env s with Some e => if Rlt_dec tmax Inf then None else Some (endpoint LightEndpoint e (Infinite (vneg (rd r)))) | None => None end)).
  Proof.
    destruct (query_spec r tmin tmax) as [(E & H)|(t & u & v & T & i & f & p & k & M & x & E & Ht & Ip & ET & Fx & Si & Mt & Pt & Min)].
    - right. split; [exact H|]. unfold intersect. rewrite E. cbn [obind]. destruct (Rlt_dec tmax Inf), (s_env s); reflexivity.
    - left. unfold intersect. rewrite E. cbn [obind]. assert (Ip' := Ip). destruct Ip as (Ls & pr & Hp & Hn & Pm & EM).
      destruct Hs as (Nu & _ & Hi). destruct (Hi p i k M Ip') as (D & Vm & Un & Nz).
      destruct (prim_carries s i p_mesh k) as (pr' & Ep & Em). { exists i, pr. split; assumption. }
      rewrite Ep. cbn [obind]. rewrite Em. cbn [deref obind]. rewrite Nat2Z.id.
      destruct x as [[va vb] vc]. cbn [fst snd] in *. assert (Fx' := Fx). destruct Fx as (f1 & f2 & f3 & Fi & N1 & N2 & N3). cbn [fst snd] in *.
      destruct (C54_interpolation _ _ f (V2 u v) f1 f2 f3 va vb vc Fi N1 N2 N3 (fun e => Un e f)) as (q & Eq & Qp & Qg & Qn1 & Qn2 & _).
      rewrite Eq. cbn [obind].
      assert (Cr : cross (vsub (v_p vb) (v_p va)) (vsub (v_p vc) (v_p va)) <> v0).
      { intros Z0. destruct Mt as (_ & Dt). rewrite !image_diff in Dt.
        assert (X : forall e1 e2 d, dot e1 (cross d e2) = - dot d (cross e1 e2)) by (intros [? ? ?] [? ? ?] [? ? ?]; unfold dot, cross; cbn; ring).
        rewrite X, (cross_image M T _ _ ET), Z0, mmul_v0 in Dt. unfold dot, vscale, v0 in Dt; cbn in Dt. rewrite !Rmult_0_r, !Rplus_0_r, Ropp_0, Rabs_R0 in Dt. lra. }
      destruct (unit_of_some _ _ Qg Cr) as (gn & kg & Egn & Hkg & Ecr & Gn0).
      assert (Sn : exists n, ip_n q = Some n /\ n <> v0).
      { destruct (Z.ltb_spec (fn f1) 0) as [L|L].
        - destruct (fst (mesh_of k)) eqn:Eo; [rewrite Qn1 by (auto; lia); eauto|].
          assert (Q2 := Qn2 (or_introl eq_refl)). destruct (unit_of_some _ _ Q2) as (w & kk & Ew & _ & _ & W0); [|eauto]. apply (Nz f f1 f2 f3 va vb vc u v); auto.
        - assert (Q2 := Qn2 (or_intror L)). destruct (unit_of_some _ _ Q2) as (w & kk & Ew & _ & _ & W0); [|eauto]. apply (Nz f f1 f2 f3 va vb vc u v); auto. }
      destruct Sn as (n & En & N0). rewrite En, Egn.
      destruct (fnormalize_ok (mmul (t_normal T) n) (normal_nonzero M T n ET N0)) as (kn & Hkn & Fn & Un1).
      destruct (fnormalize_ok (mmul (t_normal T) gn) (normal_nonzero M T gn ET Gn0)) as (kgn & Hkgn & Fgn & Ug1).
      rewrite Fn. cbn [pbind]. rewrite Fgn. cbn [pbind]. eexists. split; [reflexivity|].
      assert (Wt : world_triangle mesh_of s i f (image M (v_p va)) (image M (v_p vb)) (image M (v_p vc))) by (exists p, k, M, (va, vb, vc); auto).
      cbv zeta in Mt. exists t, f, (image M (v_p va)), (image M (v_p vb)), (image M (v_p vc)). eexists. cbn [iprim it igeom].
      split; [exact Ht|]. split; [exact Wt|]. split; [exact Mt|]. split; [exact Min|]. split; [reflexivity|]. split; [reflexivity|].
      unfold make_on_surface. destruct (orthonormal_basis neg0 (vscale kn (mmul (t_normal T) n))) as [tu tv]. cbn [sp sn sgn].
      split. { rewrite (transform_image M T _ ET), Qp, Pt, <- image_bary. f_equal. unfold combine3, bary. cbn [v2x v2y]. destruct (v_p va), (v_p vb), (v_p vc). unfold vadd, vscale; cbn. f_equal; ring. }
      split; [exact Un1|]. split; [exact Ug1|]. rewrite !image_diff.
      assert (O : forall e, dot gn e = 0 -> dot (vscale kgn (mmul (t_normal T) gn)) (mmul (fst M) e) = 0).
      { intros e Oe. assert (Y : forall c x y, dot (vscale c x) y = c * dot x y) by (intros c [? ? ?] [? ? ?]; unfold dot, vscale; cbn; ring). rewrite Y, (normal_dot M T gn e ET), Oe. ring. }
      assert (Oc : forall e, dot (cross (vsub (v_p vb) (v_p va)) (vsub (v_p vc) (v_p va))) e = kg * dot gn e).
      { intros e. rewrite Ecr. destruct gn, e. unfold dot, vscale; cbn. ring. }
      split; apply O.
      + assert (Z0 := Oc (vsub (v_p vb) (v_p va))). assert (Z1 : dot (cross (vsub (v_p vb) (v_p va)) (vsub (v_p vc) (v_p va))) (vsub (v_p vb) (v_p va)) = 0) by (destruct (vsub (v_p vb) (v_p va)), (vsub (v_p vc) (v_p va)); unfold dot, cross; cbn; ring). nra.
      + assert (Z0 := Oc (vsub (v_p vc) (v_p va))). assert (Z1 : dot (cross (vsub (v_p vb) (v_p va)) (vsub (v_p vc) (v_p va))) (vsub (v_p vc) (v_p va)) = 0) by (destruct (vsub (v_p vb) (v_p va)), (vsub (v_p vc) (v_p va)); unfold dot, cross; cbn; ring). nra.
  Qed.
End V.
