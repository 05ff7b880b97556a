From Coq Require Import List Reals ZArith Bool Lra Lia ZifyBool.
From Verif Require Import Base RBase SceneModel VecBase SurfModel MatModel CamModel LightModel PathModel VisModel BidirModel BidirSpec BidirProofs BidirProps BdptModel BdptSampleProps PathRendModel PathRendSpec.
Import ListNotations.
Open Scope R_scope.

Lemma strategy_splats A mis pL pE s t l : path_strategy A mis pL pE s t = ret l -> (2 <= s + t)%nat ->
  splat_for A (if mis then shared A else alone) pL pE s t l.
Proof.
  intros H N. unfold path_strategy in H. mstep H. exists a. split; [exact E|]. destruct a as [p|]; [|now apply ret_inj in H].
  destruct (C40_vertices _ _ _ _ _ _ E) as (_ & _ & J). rewrite !Nat2Z.id in J. assert (L : length p = (s + t)%nat) by apply J.
  intros q f Hq Nq Hf. destruct (weight_is_ratio A p (Z.of_nat s) q f) as (C & EC & ->); [unfold num_verts; lia|unfold num_verts; lia|exact Hq|exact Nq|exact Hf|].
  rewrite EC, pbind_val in H. destruct (is_zero C) eqn:Z0.
  - apply is_zero_true in Z0. subst C. apply ret_inj in H. split; [congruence|]. intros X. elim X. unfold vscale, v0. cbn. f_equal; ring.
  - split.
    { intros X. exfalso. assert (C = v0).
      { destruct C as [x y z]. unfold vscale, v0 in *. cbn in X. injection X as X1 X2 X3. f_equal; [apply (Rmult_eq_reg_l q)|apply (Rmult_eq_reg_l q)|apply (Rmult_eq_reg_l q)]; lra. }
      subst C. unfold is_zero, v0 in Z0. cbn in Z0. destruct (Req_EM_T 0 0); [discriminate|lra]. }
    intros _. mstep H. mstep H. apply ret_inj in H. subst l. exists a0, (if mis then vscale a C else C), a. split; [reflexivity|]. split; [exact E1|]. destruct mis.
    + split; [|unfold vscale; cbn; f_equal; ring]. intros Q HQ. destruct (HQ s ltac:(lia)) as [Eq Pq]. rewrite Hq in Eq. apply ret_inj in Eq. subst q.
      assert (P : 0 < Q s) by lra. destruct (C39_power A p Q HQ) as (w & _ & W); [exists s; split; [lia|exact P]|].
      destruct (W s ltac:(lia)) as (W1 & _). destruct (W1 P) as (Ew & _ & Ws). rewrite E0 in Ew. apply ret_inj in Ew. now subst a.
    + apply ret_inj in E0. subst a. split; [reflexivity|]. unfold vscale; cbn; f_equal; ring.
Qed.

(** Sums of vectors *)
Lemma vadd_v0 v : vadd v v0 = v. Proof. destruct v. unfold vadd, v0. cbn. f_equal; ring. Qed.
Lemma vtotal_ext n f g : (forall i, (i < n)%nat -> f i = g i) -> vtotal n f = vtotal n g.
Proof. induction n as [|n IH]; intros H; cbn; [reflexivity|]. rewrite IH by (intros; apply H; lia). now rewrite H by lia. Qed.
Lemma vtotal_scale n w f : vtotal n (fun i => vscale (w i) f) = vscale (total n w) f.
Proof.
  induction n as [|n IH]; cbn; [unfold vscale, v0; cbn; f_equal; ring|]. rewrite IH. unfold vadd, vscale. cbn. f_equal; ring.
Qed.

Lemma shares_total A p (q : nat -> R) f (l : nat -> list (vec2 * vec3)) : let n := length p in (2 <= n)%nat ->
  (forall s, (s <= n)%nat -> pdf_bidir A p (Z.of_nat s) = ret (q s) /\ 0 <= q s) -> (exists s, (s <= n)%nat /\ 0 < q s) ->
  (forall s, (s <= n)%nat -> 0 < q s -> eval_measurement_contrb_bidir A p (Z.of_nat s) = ret f) ->
  (forall s, (s <= n)%nat -> 0 < q s -> exists pL pE, connect_subpaths A pL pE (Z.of_nat s) (Z.of_nat (n - s)) = ret (Some p) /\ splat_for A (shared A) pL pE s (n - s) (l s)) ->
  vtotal (S n) (fun s => vscale (q s) (vsum (l s))) = f.
Proof.
  intros n N Q P F S. destruct (C39_power A p q Q P) as (w & Tw & W). fold n in Tw, W.
  rewrite (vtotal_ext (Datatypes.S n) _ (fun s => vscale (w s) f)).
  - rewrite vtotal_scale, Tw. destruct f. unfold vscale. cbn. f_equal; ring.
  - intros s Ls. destruct (W s ltac:(lia)) as (W1 & W0). destruct (Q s ltac:(lia)) as (Qs & Ps).
    destruct (Req_EM_T (q s) 0) as [Z|Nz].
    { rewrite Z, (W0 Z). unfold vscale. cbn. f_equal; ring. }
    assert (Pq : 0 < q s) by lra. destruct (S s ltac:(lia) Pq) as (pL & pE & Ec & o & Eo & So). rewrite Ec in Eo. apply ret_inj in Eo. subst o.
    destruct (So (q s) f Qs Nz (F s ltac:(lia) Pq)) as (S0 & S1).
    destruct (W1 Pq) as (_ & _ & Ew).
    assert (Dec : f = v0 \/ f <> v0). { destruct f as [x y z]. destruct (Req_EM_T x 0) as [->|X]; [|right; unfold v0; congruence]. destruct (Req_EM_T y 0) as [->|X]; [|right; unfold v0; congruence]. destruct (Req_EM_T z 0) as [->|X]; [now left|right; unfold v0; congruence]. }
    destruct Dec as [Z|Nf].
    + rewrite (S0 Z), Z. unfold vscale, v0. cbn. f_equal; ring.
    + destruct (S1 Nf) as (rp & v & w' & -> & _ & Sh & V). cbn [vsum fold_right snd]. rewrite vadd_v0, V. f_equal.
      specialize (Sh q Q). fold n in Sh. 
      assert (T0 : 0 < total (Datatypes.S n) (fun i => q i ^ 2)).
      { destruct P as (s0 & L0 & P0). pose proof (total_pos (Datatypes.S n) (fun i => q i ^ 2) s0 (fun i _ => pow2_ge_0 (q i)) ltac:(lia)) as T. cbv beta in T.
        assert (0 < q s0 ^ 2) by now apply pow_lt. lra. }
      apply (Rmult_eq_reg_r (total (Datatypes.S n) (fun i => q i ^ 2))); lra.
Qed.

(** Lists of splats *)
Lemma each_inv {X} (f : X -> pm (list (vec2 * vec3))) l r : each l f = ret r -> exists g, (forall x, In x l -> f x = ret (g x)) /\ r = flat_map g l.
Proof. apply each_map. Qed.
