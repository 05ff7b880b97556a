From Coq Require Import List ZArith NArith Bool Reals Lra Lia.
From Flocq Require Import Core.Core IEEE754.BinarySingleNaN.
From Verif Require Import RngModel.
Import ListNotations.
Local Open Scope R_scope.

Local Existing Instance prec32. Local Existing Instance prec64. Local Existing Instance emax32. Local Existing Instance emax64.
Notation fmt32 := (SpecFloat.fexp 24 128).
Notation fmt64 := (SpecFloat.fexp 53 1024).
Notation val := B2R.
Local Instance fexp32_valid : Valid_exp fmt32.
Proof. apply fexp_correct. exact prec32. Qed.
Local Instance fexp64_valid : Valid_exp fmt64.
Proof. apply fexp_correct. exact prec64. Qed.

Lemma one32 : generic_format radix2 fmt32 1.
Proof. change 1 with (bpow radix2 0). apply generic_format_bpow. cbn. lia. Qed.
Lemma one64 : generic_format radix2 fmt64 1.
Proof. change 1 with (bpow radix2 0). apply generic_format_bpow. cbn. lia. Qed.

Lemma round_unit fexp {V : Valid_exp fexp} x : generic_format radix2 fexp 1 -> 0 <= x <= 1 -> 0 <= round radix2 fexp ZnearestE x <= 1.
Proof.
  intros F [A B]. split.
  - apply round_ge_generic; auto with typeclass_instances. apply generic_format_0.
  - apply round_le_generic; auto with typeclass_instances.
Qed.
Lemma to_f32_val x : is_finite x = true -> 0 <= val x <= 1 ->
  is_finite (to_f32 x) = true /\ val (to_f32 x) = round radix2 fmt32 ZnearestE (val x).
Proof.
  intros F B. destruct x as [s|s| |s m e H]; try discriminate F; cbn [to_f32].
  - split; [easy|]. cbn [B2R]. now rewrite round_0 by auto with typeclass_instances.
  - pose proof (binary_normalize_correct 24 128 prec32 emax32 mode_NE (cond_Zopp s (Zpos m)) e s) as C. cbv zeta in C.
    rewrite Rlt_bool_true in C.
    + now destruct C as [C1 [C2 _]].
    + cbn [B2R] in B. cbn [round_mode]. pose proof (round_unit fmt32 _ one32 B) as Q.
      rewrite Rabs_pos_eq by apply Q. eapply Rle_lt_trans; [apply Q|].
      change 1 with (bpow radix2 0). apply bpow_lt. lia.
Qed.
Lemma format_32_64 x : generic_format radix2 fmt32 x -> generic_format radix2 fmt64 x.
Proof.
  apply generic_inclusion_mag. intros _. unfold SpecFloat.fexp, SpecFloat.emin. lia.
Qed.
Lemma to_f64_val x : is_finite x = true -> 0 <= val x <= 1 ->
  is_finite (to_f64 x) = true /\ val (to_f64 x) = val x.
Proof.
  intros F B. assert (G : generic_format radix2 fmt64 (val x)) by (apply format_32_64, generic_format_B2R).
  destruct x as [s|s| |s m e H]; try discriminate F; cbn [to_f64]; [easy|].
  pose proof (binary_normalize_correct 53 1024 prec64 emax64 mode_NE (cond_Zopp s (Zpos m)) e s) as C. cbv zeta in C.
  cbn [B2R] in B, G. cbn [round_mode] in C. rewrite round_generic in C by auto with typeclass_instances.
  rewrite Rlt_bool_true in C; [now destruct C as [C1 [C2 _]]|].
  rewrite Rabs_pos_eq by apply B. eapply Rle_lt_trans; [apply B|].
  change 1 with (bpow radix2 0). apply bpow_lt. lia.
Qed.

(** The number is the one rounded downwards. *)
Lemma float_u_down x : is_finite x = true -> 0 <= val x < 1 ->
  is_finite (float_u x) = true /\ val (float_u x) = round radix2 fmt32 Zfloor (val x).
Proof.
  intros F B. destruct (to_f32_val x F) as [F1 E1]; [lra|].
  pose proof (round_unit fmt32 (val x) one32 ltac:(lra)) as U. rewrite <- E1 in U.
  destruct (to_f64_val (to_f32 x) F1 U) as [F2 E2].
  unfold float_u, gt64. rewrite Bcompare_correct by easy. rewrite E2.
  destruct (Rcompare_spec (val (to_f32 x)) (val x)) as [L|L|L].
  - split; [easy|]. rewrite E1. destruct (round_DN_or_UP radix2 fmt32 ZnearestE (val x)) as [Q|Q]; [easy|].
    exfalso. pose proof (round_UP_pt radix2 fmt32 (val x)) as [_ [W _]]. rewrite <- Q, <- E1 in W. lra.
  - split; [easy|]. rewrite E1. destruct (round_DN_or_UP radix2 fmt32 ZnearestE (val x)) as [Q|Q]; [easy|].
    rewrite <- E1, L. symmetry. apply round_generic; auto with typeclass_instances. rewrite <- L. apply generic_format_B2R.
  - assert (P : 0 < val (to_f32 x)) by lra.
    pose proof (Bpred_correct 24 128 _ _ (to_f32 x) F1) as C. rewrite Rlt_bool_true in C.
    + destruct C as [C1 [C2 _]]. unfold next_below. split; [easy|]. rewrite C1, E1.
      destruct (round_DN_or_UP radix2 fmt32 ZnearestE (val x)) as [Q|Q].
      * exfalso. pose proof (round_DN_pt radix2 fmt32 (val x)) as [_ [W _]]. rewrite <- Q, <- E1 in W. lra.
      * rewrite Q. apply pred_UP_eq_DN; auto with typeclass_instances.
        intros G. rewrite E1, round_generic in L by auto with typeclass_instances. lra.
    + eapply Rlt_le_trans with 0; [pose proof (bpow_gt_0 radix2 128); lra|].
      apply pred_ge_0; auto with typeclass_instances. apply generic_format_B2R.
Qed.

Lemma float_u_spec x : is_finite x = true -> 0 <= val x < 1 ->
  is_finite (float_u x) = true /\ 0 <= val (float_u x) < 1 /\ val (float_u x) <= val x /\
  forall y : f32, is_finite y = true -> val y <= val x -> val y <= val (float_u x).
Proof.
  intros F B. destruct (float_u_down x F B) as [F1 E1].
  pose proof (round_DN_pt radix2 fmt32 (val x)) as [_ [W1 W2]]. rewrite <- E1 in W1, W2.
  split; [easy|]. split; [split|split; [easy|]].
  - apply W2; [apply generic_format_0|lra].
  - lra.
  - intros y Fy L. apply W2; [|easy]. apply generic_format_B2R.
Qed.

(** ** Generators *)
Lemma set_local_same m l t g : set_local m l t g l t = Some g.
Proof. unfold set_local. now rewrite !Nat.eqb_refl. Qed.
Lemma set_local_other m l t g l' t' : (l', t') <> (l, t) -> set_local m l t g l' t' = m l' t'.
Proof.
  intros N. unfold set_local. destruct (Nat.eqb_spec l' l), (Nat.eqb_spec t' t); cbn; subst; easy.
Qed.
From Verif Require Import RngSpec.
Section Render.
  Variable result : Type.
  Variable body : Z -> list N -> result * list N.
  Lemma render_threads seed dev l calls : forall m t,
    own t calls (fst (rng_render body seed dev l m calls)) = alone body (local_rng seed dev m l t) (samples_of t calls).
  Proof.
    induction calls as [|[t' i] r IH]; intros m t; [easy|].
    unfold samples_of. cbn [rng_render rng_call fst snd map own]. unfold rng_call. cbn [fst snd].
    destruct (body i (local_rng seed dev m l t')) as [x g] eqn:E.
    specialize (IH (set_local m l t' g) t).
    destruct (rng_render body seed dev l (set_local m l t' g) r) as [xs m'] eqn:Er. cbn [fst own] in *.
    unfold samples_of in IH. destruct (Nat.eqb_spec t' t) as [<-|N].
    - cbn [alone]. rewrite E. f_equal. rewrite IH. unfold local_rng at 1. now rewrite set_local_same.
    - rewrite IH. unfold local_rng. rewrite set_local_other; [easy|]. intros [= Q]. now apply N.
  Qed.
  Lemma render_length seed dev l calls : forall m, length (fst (rng_render body seed dev l m calls)) = length calls.
  Proof.
    induction calls as [|c r IH]; intros m; [easy|]. cbn [rng_render]. destruct (rng_call body seed dev l m c) as [x m'].
    specialize (IH m'). destruct (rng_render body seed dev l m' r). cbn in *. now rewrite IH.
  Qed.
  Lemma render_locals seed seed' dev dev' l calls : forall m,
    (forall t, In t (map fst calls) -> m l t <> None) ->
    rng_render body seed dev l m calls = rng_render body seed' dev' l m calls.
  Proof.
    induction calls as [|[t i] r IH]; intros m H; [easy|]. cbn [rng_render]. unfold rng_call. cbn [fst snd].
    assert (Q : local_rng seed dev m l t = local_rng seed' dev' m l t).
    { unfold local_rng. specialize (H t (or_introl eq_refl)). now destruct (m l t). }
    rewrite Q. destruct (body i (local_rng seed' dev' m l t)) as [x g]. rewrite (IH (set_local m l t g)); [easy|].
    intros t' I. unfold set_local. destruct (Nat.eqb l l && Nat.eqb t' t)%bool; [easy|]. apply H. now right.
  Qed.
  Lemma render_used seed dev l calls : forall m t, In t (map fst calls) \/ m l t <> None ->
    snd (rng_render body seed dev l m calls) l t <> None.
  Proof.
    induction calls as [|[t' i] r IH]; intros m t H; cbn [rng_render].
    - now destruct H.
    - unfold rng_call. cbn [fst snd]. destruct (body i (local_rng seed dev m l t')) as [x g].
      specialize (IH (set_local m l t' g) t). destruct (rng_render body seed dev l (set_local m l t' g) r). cbn in *. apply IH.
      destruct H as [[<-|H]|H]; [right|now left|right].
      + now rewrite set_local_same.
      + unfold set_local. now destruct (Nat.eqb l l && Nat.eqb t t')%bool.
  Qed.
  Lemma own_all samples : forall xs, length xs = length samples -> own 0 (map (pair 0%nat) samples) xs = xs :> list result.
  Proof. induction samples as [|i r IH]; intros [|x xs]; cbn; try easy. intros [= Q]. now rewrite IH. Qed.
End Render.
