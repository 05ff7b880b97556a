(** Expected values of walks with Russian roulette. *)
From Coq Require Import List Reals ZArith Bool Lra Lia ZifyBool.
From Coquelicot Require Import Coquelicot.
From Verif Require Import Base RBase VecBase SurfModel MatModel LightModel PathModel BidirModel RenderModel ExpSpec.
Import ListNotations.
Open Scope R_scope.

Lemma step_integral (q a b : R) : 0 <= q <= 1 -> is_RInt (V := R_NormedModule) (fun v => if Rlt_dec v q then a else b) 0 1 (q * a + (1 - q) * b).
Proof.
  intros Q. apply (is_RInt_Chasles (V := R_NormedModule) _ 0 q 1 (q * a) ((1 - q) * b)).
  - apply (is_RInt_ext (V := R_NormedModule) (fun _ => a)).
    + intros v. rewrite Rmin_left, Rmax_right by lra. intros V. destruct (Rlt_dec v q); [reflexivity|lra].
    + replace (q * a) with (scal (V := R_NormedModule) (q - 0) a) by (cbn; unfold mult; cbn; ring). apply is_RInt_const.
  - apply (is_RInt_ext (V := R_NormedModule) (fun _ => b)).
    + intros v. rewrite Rmin_left, Rmax_right by lra. intros V. destruct (Rlt_dec v q); [lra|reflexivity].
    + replace ((1 - q) * b) with (scal (V := R_NormedModule) (1 - q) b) by (cbn; unfold mult; cbn; ring). apply is_RInt_const.
Qed.
Lemma const_integral (c : R) : is_RInt (V := R_NormedModule) (fun _ => c) 0 1 c.
Proof. assert (H := is_RInt_const (V := R_NormedModule) 0 1 c). match type of H with is_RInt _ _ _ ?x => replace x with c in H; [exact H|change (c = (1 - 0) * c); ring] end. Qed.
Lemma open01 (f g : R -> R) : (forall v, 0 < v < 1 -> f v = g v) -> forall v, Rmin 0 1 < v < Rmax 0 1 -> f v = g v.
Proof. intros H v. rewrite Rmin_left, Rmax_right by lra. apply H. Qed.

Section Generic.
  Variables (good : round -> Prop) (E : (round -> R) -> R) (r0 : round).
  Hypothesis HE : average good E.
  Hypothesis H0 : exists r v, good r /\ 0 < v < 1 /\ r0 = set_rr r v.
  Definition stream (rng : nat -> round) : Prop := forall j, exists r v, good r /\ 0 < v < 1 /\ rng j = set_rr r v.
  Lemma stream_first r v rng : good r -> 0 < v < 1 -> stream rng -> stream (first (set_rr r v) rng).
  Proof. intros Hr Hv Hs [|j]; cbn; [exists r, v; auto|apply Hs]. Qed.

  Fixpoint integ (k : nat) (F : (nat -> round) -> R) : Prop :=
    match k with
    | O => True
    | S k => forall r, good r -> (forall v, 0 < v < 1 -> integ k (fun rng => F (first (set_rr r v) rng)))
                                 /\ ex_RInt (V := R_NormedModule) (fun v => expect E r0 k (fun rng => F (first (set_rr r v) rng))) 0 1
    end.
  Lemma expect_ext k : forall F G, (forall rng, stream rng -> F rng = G rng) -> expect E r0 k F = expect E r0 k G.
  Proof using HE H0.
    induction k as [|k IH]; intros F G H; cbn [expect].
    - apply H. intros j. exact H0.
    - apply (av_ext _ _ HE). intros r Hr. apply RInt_ext. apply open01. intros v Hv. apply IH. intros rng Hs. apply H. now apply stream_first.
  Qed.
  Lemma integ_ext k : forall F G, (forall rng, stream rng -> F rng = G rng) -> integ k F -> integ k G.
  Proof using HE H0.
    induction k as [|k IH]; intros F G H I; cbn [integ] in *; [exact I|]. intros r Hr. destruct (I r Hr) as [I1 I2]. split.
    - intros v Hv. apply (IH (fun rng => F (first (set_rr r v) rng))); [|now apply I1]. intros rng Hs. apply H. now apply stream_first.
    - apply (ex_RInt_ext (V := R_NormedModule) (fun v => expect E r0 k (fun rng => F (first (set_rr r v) rng)))); [|exact I2].
      apply open01. intros v Hv. apply expect_ext. intros rng Hs. apply H. now apply stream_first.
  Qed.
  Lemma av_const c : E (fun _ => c) = c.
  Proof using HE. transitivity (c * E (fun _ => 1)); [|rewrite (av_one _ _ HE); ring]. rewrite <- (av_scale _ _ HE). apply (av_ext _ _ HE). intros; ring. Qed.
  Lemma expect_const k c : integ k (fun _ => c) /\ expect E r0 k (fun _ => c) = c.
  Proof using HE.
    induction k as [|k [I X]]; cbn [integ expect]; [auto|]. split.
    - intros r Hr. split; [auto|]. rewrite X. exists c. apply const_integral.
    - rewrite X. transitivity (E (fun _ => c)); [|apply av_const]. apply (av_ext _ _ HE). intros r _. apply (is_RInt_unique (V := R_CompleteNormedModule)). apply const_integral.
  Qed.
  Lemma expect_shift k c : forall F, integ k F -> integ k (fun rng => c + F rng) /\ expect E r0 k (fun rng => c + F rng) = c + expect E r0 k F.
  Proof using HE.
    induction k as [|k IH]; intros F I; cbn [integ expect] in *; [auto|].
    assert (Hi : forall r, good r -> is_RInt (V := R_NormedModule) (fun v => expect E r0 k (fun rng => c + F (first (set_rr r v) rng))) 0 1
              (c + RInt (fun v => expect E r0 k (fun rng => F (first (set_rr r v) rng))) 0 1)).
    { intros r Hr. destruct (I r Hr) as [I1 I2]. apply (is_RInt_ext (V := R_NormedModule) (fun v => c + expect E r0 k (fun rng => F (first (set_rr r v) rng)))).
      - apply open01. intros v Hv. symmetry. now apply IH, I1.
      - apply (is_RInt_plus (V := R_NormedModule) (fun _ => c)); [apply const_integral|]. now apply (RInt_correct (V := R_CompleteNormedModule)). }
    split.
    - intros r Hr. split; [intros v Hv; now apply IH, I|]. eexists. now apply Hi.
    - match goal with |- _ = c + ?x => transitivity (E (fun _ => c) + x); [|now rewrite av_const] end. rewrite <- (av_add _ _ HE). apply (av_ext _ _ HE). intros r Hr. apply (is_RInt_unique (V := R_CompleteNormedModule)). now apply Hi.
  Qed.

  (** A walk over states [S]: [W] is its result, [now] what a round brings, [next] how it goes on. *)
  Context {S : Type}.
  Variables (i : nat) (floor : R).
  Variable (W : nat -> Z -> (nat -> round) -> S -> vec3 -> R) (now : Z -> round -> S -> R) (next : Z -> round -> S -> option (vec3 * R * S)) (P : Z -> S -> Prop).
  Hypothesis Hf : 0 <= floor < 1.
  Hypothesis W0 : forall nv rng st thr, W 0 nv rng st thr = 0.
  Hypothesis WS : forall k nv r v rng st thr, P nv st -> good r -> 0 < v < 1 -> stream rng -> (forall j, 0 <= comp thr j) ->
    W (Datatypes.S k) nv (first (set_rr r v) rng) st thr =
      comp thr i * now nv r st + match next nv r st with
                                 | None => 0
                                 | Some (w, wc, st') => match roulette nv floor v (vmul thr w) with Val (Some t) => W k (nv + 1)%Z rng st' (vscale wc t) | _ => 0 end
                                 end.
  Hypothesis HP : forall nv r st w wc st', P nv st -> good r -> next nv r st = Some (w, wc, st') -> (forall j, 0 <= comp w j) /\ 0 <= wc /\ P (nv + 1)%Z st'.
  Fixpoint reaches (k : nat) (nv : Z) (st : S) : R :=
    match k with
    | O => 0
    | Datatypes.S k => E (fun r => now nv r st + match next nv r st with None => 0 | Some (w, wc, st') => comp w i * wc * reaches k (nv + 1)%Z st' end)
    end.

  Lemma comp_vmul a b j : comp (vmul a b) j = comp a j * comp b j.
  Proof. destruct j as [|[|j]]; reflexivity. Qed.
  Lemma comp_vscale a b j : comp (vscale a b) j = a * comp b j.
  Proof. destruct j as [|[|j]]; reflexivity. Qed.
  Lemma comp_max_bound v j : comp v j <= comp_max v.
  Proof. unfold comp_max. destruct j as [|[|j]]; cbn; eauto using Rle_trans, Rmax_l, Rmax_r. Qed.

  (** Roulette keeps the expected value of what follows. *)
  Lemma roulette_integral nv thr (K : R) (B : vec3 -> R) : (forall j, 0 <= comp thr j) -> (forall t, (forall j, 0 <= comp t j) -> B t = comp t i * K) ->
    is_RInt (V := R_NormedModule) (fun v => match roulette nv floor v thr with Val (Some t) => B t | _ => 0 end) 0 1 (comp thr i * K).
  Proof using Hf.
    intros T HB. unfold roulette. destruct (5 <? nv)%Z.
    - set (q := Rmax floor (1 - comp_max thr)). assert (M : 0 <= comp_max thr) by (eapply Rle_trans; [apply (T O)|apply comp_max_bound]).
      assert (Q : 0 <= q <= 1). { unfold q. split; [eapply Rle_trans; [apply Hf|apply Rmax_l]|]. apply Rmax_lub; lra. }
      destruct (Req_EM_T q 1) as [Q1|Q1].
      + assert (Z : comp thr i = 0). { assert (comp_max thr <= 0) by (unfold q in Q1; destruct (Rle_dec (1 - comp_max thr) floor) as [C|C]; [rewrite Rmax_left in Q1 by exact C; lra|rewrite Rmax_right in Q1; lra]). assert (C := comp_max_bound thr i). specialize (T i). lra. }
        rewrite Z, Rmult_0_l. apply (is_RInt_ext (V := R_NormedModule) (fun _ => 0)); [|apply const_integral]. apply open01. intros v Hv. destruct (Rlt_dec v q); [reflexivity|lra].
      + replace (comp thr i * K) with (q * 0 + (1 - q) * (comp (vscale (/ (1 - q)) thr) i * K)) by (rewrite comp_vscale; field; lra).
        apply (is_RInt_ext (V := R_NormedModule) (fun v => if Rlt_dec v q then 0 else comp (vscale (/ (1 - q)) thr) i * K)); [|now apply step_integral].
        apply open01. intros v Hv. destruct (Rlt_dec v q); [reflexivity|]. assert (X : vdiv thr (1 - q) = Val (vscale (/ (1 - q)) thr)) by (unfold vdiv; destruct (Req_EM_T (1 - q) 0); [lra|reflexivity]). rewrite X. cbn [fbind]. symmetry. apply HB.
        intros j. rewrite comp_vscale. apply Rmult_le_pos; [|apply T]. left. apply Rinv_0_lt_compat. lra.
    - rewrite (HB thr T). apply const_integral.
  Qed.

  Theorem walk_expect k : forall nv st thr, P nv st -> (forall j, 0 <= comp thr j) ->
    integ k (fun rng => W k nv rng st thr) /\ expect E r0 k (fun rng => W k nv rng st thr) = comp thr i * reaches k nv st.
  Proof using HE H0 Hf W0 WS HP.
    induction k as [|k IH]; intros nv st thr Hst T; cbn [integ expect reaches].
    - rewrite W0. split; [exact I|ring].
    - assert (X : forall r, good r -> let G v := fun rng => W (Datatypes.S k) nv (first (set_rr r v) rng) st thr in
          (forall v, 0 < v < 1 -> integ k (G v)) /\ is_RInt (V := R_NormedModule) (fun v => expect E r0 k (G v)) 0 1
            (comp thr i * (now nv r st + match next nv r st with None => 0 | Some (w, wc, st') => comp w i * wc * reaches k (nv + 1)%Z st' end))).
      { intros r Hr G. set (c := comp thr i * now nv r st).
        destruct (next nv r st) as [[[w wc] st']|] eqn:En.
        - destruct (HP nv r st w wc st' Hst Hr En) as (Hw & Hwc & Hst').
          assert (Tw : forall j, 0 <= comp (vmul thr w) j) by (intros j; rewrite comp_vmul; now apply Rmult_le_pos).
          assert (N : forall t, (forall j, 0 <= comp t j) -> forall j, 0 <= comp (vscale wc t) j) by (intros t Ht j; rewrite comp_vscale; now apply Rmult_le_pos).
          (* the rest of the walk, given the number for roulette *)
          set (Rest v := fun rng => match roulette nv floor v (vmul thr w) with Val (Some t) => W k (nv + 1)%Z rng st' (vscale wc t) | _ => 0 end).
          set (B t := expect E r0 k (fun rng => W k (nv + 1)%Z rng st' (vscale wc t))).
          assert (HB : forall t, (forall j, 0 <= comp t j) -> B t = comp t i * (wc * reaches k (nv + 1)%Z st')).
          { intros t Ht. unfold B. rewrite (proj2 (IH (nv + 1)%Z st' _ Hst' (N t Ht))), comp_vscale. ring. }
          assert (Tr : forall v t, roulette nv floor v (vmul thr w) = Val (Some t) -> forall j, 0 <= comp t j).
          { intros v t. unfold roulette. destruct (5 <? nv)%Z; [|intros [= <-]; exact Tw]. destruct (Rlt_dec v _) as [|Q]; [discriminate|]. set (q := Rmax _ _) in *. unfold vdiv. destruct (Req_EM_T (1 - q) 0) as [|Q0]; [discriminate|]. cbn. intros [= <-] j.
            assert (q <= 1). { unfold q. apply Rmax_lub; [lra|]. assert (0 <= comp_max (vmul thr w)) by (eapply Rle_trans; [apply (Tw O)|apply comp_max_bound]). lra. }
            assert (D : forall x, 0 <= x -> 0 <= x / (1 - q)) by (intros x Hx; unfold Rdiv; apply Rmult_le_pos; [exact Hx|]; left; apply Rinv_0_lt_compat; lra).
            rewrite comp_vscale, Rmult_comm. now apply D. }
          assert (HR : forall v, integ k (Rest v) /\ expect E r0 k (Rest v) = match roulette nv floor v (vmul thr w) with Val (Some t) => B t | _ => 0 end).
          { intros v. unfold Rest. destruct (roulette nv floor v (vmul thr w)) as [[t|]| |] eqn:Er; try apply expect_const. split; [|reflexivity]. apply IH; [exact Hst'|]. apply N, (Tr v _ Er). }
          assert (HG : forall v, 0 < v < 1 -> forall rng, stream rng -> c + Rest v rng = G v rng) by (intros v Hv rng Hs; unfold G, Rest, c; rewrite (WS k nv r v rng st thr Hst Hr Hv Hs T), En; reflexivity).
          split.
          + intros v Hv. apply (integ_ext k (fun rng => c + Rest v rng)); [now apply HG|]. apply expect_shift, HR.
          + apply (is_RInt_ext (V := R_NormedModule) (fun v => c + match roulette nv floor v (vmul thr w) with Val (Some t) => B t | _ => 0 end)).
            * apply open01. intros v Hv. rewrite <- (proj2 (HR v)), <- (proj2 (expect_shift k c _ (proj1 (HR v)))). apply expect_ext. now apply HG.
            * replace (comp thr i * _) with (c + comp (vmul thr w) i * (wc * reaches k (nv + 1)%Z st')) by (unfold c; rewrite comp_vmul; ring).
              apply (is_RInt_plus (V := R_NormedModule) (fun _ => c)); [apply const_integral|]. now apply roulette_integral.
        - assert (HG : forall v, 0 < v < 1 -> forall rng, stream rng -> c = G v rng) by (intros v Hv rng Hs; unfold G, c; rewrite (WS k nv r v rng st thr Hst Hr Hv Hs T), En; ring).
          split.
          + intros v Hv. apply (integ_ext k (fun _ => c)); [now apply HG|apply expect_const].
          + replace (comp thr i * _) with c by (unfold c; ring). apply (is_RInt_ext (V := R_NormedModule) (fun _ => c)); [|apply const_integral].
            apply open01. intros v Hv. rewrite <- (proj2 (expect_const k c)) at 1. apply expect_ext. now apply HG. }
      split.
      + intros r Hr. destruct (X r Hr) as [X1 X2]. split; [exact X1|]. eexists. exact X2.
      + rewrite <- (av_scale _ _ HE). apply (av_ext _ _ HE). intros r Hr. apply (is_RInt_unique (V := R_CompleteNormedModule)). apply (X r Hr).
  Qed.
End Generic.
