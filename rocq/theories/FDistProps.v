(** C97: the discrete distribution computed with Float. *)
From Coq Require Import List Reals ZArith Bool Lra Lia.
From Flocq Require Import Core.Core IEEE754.BinarySingleNaN.
From Verif Require Import Base RBase RngModel FltModel FltProofs FDistModel FDistSpec FDistProofs.
Import ListNotations.
Local Open Scope R_scope.

(** In spite of rounding, no number below 1 selects an entry of weight zero, or one whose reported probability is
    zero, or not a number: an estimator can always divide by it. *)
Theorem C97_sample (ws : list flt) (u : flt) :
  weights ws -> summable ws -> finite u = true -> 0 <= val u < 1 ->
  exists i w, nth_error ws i = Some w /\ fsample (fmade_of ws) u = Ok (Z.of_nat i) /\ 0 < val w /\
    finite (fpmf (fmade_of ws) (Z.of_nat i)) = true /\ 0 < val (fpmf (fmade_of ws) (Z.of_nat i)) <= 1.
Proof.
  intros W Sm F U. destruct (fsample_spec ws W Sm u (conj F U)) as (i & L & E & I).
  destruct (nth_error ws i) as [w|] eqn:N; [|apply nth_error_None in N; lia].
  exists i, w. split; [assumption|]. split; [assumption|]. split; [apply (quot_strict ws W Sm i w N); lra|].
  destruct (pmf_ok ws W Sm i L) as [P Q]. split; [assumption|]. rewrite Q. split; [apply rnd_minus_pos; lra|].
  apply rnd_unit. assert (A := quot_unit ws W Sm i). assert (B := quot_unit ws W Sm (S i)). lra.
Qed.
Print Assumptions C97_sample.

(** The entries divide the interval from 0 to 1 among them, without gap or overlap, and the probability reported
    for an entry is the length of its part up to the rounding of one operation. *)
Theorem C97_interval (ws : list flt) : weights ws -> summable ws ->
  exists edge : nat -> R, edge O = 0 /\ edge (length ws) = 1 /\ (forall i, edge i <= edge (S i)) /\
    forall i, (i < length ws)%nat ->
      (forall u, finite u = true -> 0 <= val u < 1 -> (fsample (fmade_of ws) u = Ok (Z.of_nat i) <-> edge i <= val u < edge (S i))) /\
      Rabs (val (fpmf (fmade_of ws) (Z.of_nat i)) - (edge (S i) - edge i)) <= eps * (edge (S i) - edge i).
Proof.
  intros W Sm. exists (fun k => val (quot ws k)). split; [exact (quot_0 ws W Sm)|]. split; [apply (quot_n ws W Sm); lia|].
  split; [intros i; apply (quot_mono ws W Sm); lia|]. intros i L. split.
  - intros u F U. destruct (fsample_spec ws W Sm u (conj F U)) as (j & Lj & E & I). rewrite E. split; intros H.
    + injection H as H. apply Nat2Z.inj in H. now subst j.
    + f_equal. f_equal. destruct (Nat.lt_trichotomy i j) as [K|[K|K]]; [exfalso|congruence|exfalso].
      * assert (M := quot_mono ws W Sm (S i) j ltac:(lia)). lra.
      * assert (M := quot_mono ws W Sm (S j) i ltac:(lia)). lra.
  - rewrite (proj2 (pmf_ok ws W Sm i L)). destruct (minus_error (quot ws (S i)) (quot ws i)) as (d & D & ->).
    assert (M := quot_mono ws W Sm i (S i) ltac:(lia)).
    replace ((val (quot ws (S i)) - val (quot ws i)) * (1 + d) - (val (quot ws (S i)) - val (quot ws i)))
      with (d * (val (quot ws (S i)) - val (quot ws i))) by ring.
    rewrite Rabs_mult, (Rabs_pos_eq (val (quot ws (S i)) - val (quot ws i))) by lra. apply Rmult_le_compat_r; lra.
Qed.
Print Assumptions C97_interval.

(** The probability reported is the weight over the total of the weights, up to an error that grows with the
    number of entries. *)
Theorem C97_error (ws : list flt) i w : weights ws -> summable ws -> 6 * INR (length ws) * eps <= 1 -> nth_error ws i = Some w ->
  Rabs (val (fpmf (fmade_of ws) (Z.of_nat i)) - val w / exact_total ws) <= (12 * INR (length ws) + 3) * eps.
Proof. intros W Sm B E. exact (pmf_error ws W Sm B i w E). Qed.
Print Assumptions C97_error.

(** Outside of the table the probability is zero. *)
Theorem C97_outside (ws : list flt) i : (i < 0 \/ Z.of_nat (length ws) <= i)%Z -> val (fpmf (fmade_of ws) i) = 0.
Proof.
  intros H. unfold fpmf. rewrite fmade_of_length. destruct (Z.ltb_spec i 0); [reflexivity|].
  destruct (Z.leb_spec (Z.of_nat (S (length ws))) (i + 1)); [reflexivity|lia].
Qed.
Print Assumptions C97_outside.

(** The weights 1, 0 and 3 *)
Definition c97_ws : list flt := [fone; fzero; fmake 3 0].
Ltac num x := let H := fresh "V" in assert (H := val_sf x _ _ ltac:(vm_compute; reflexivity)); destruct H as [? H].
Lemma pow2_53 : bpow radix2 (-53) = / 9007199254740992.
Proof. reflexivity. Qed.
Lemma c97_weights : weights c97_ws.
Proof.
  intros w [<-|[<-|[<-|[]]]].
  - split; [apply fone_finite|]. rewrite fone_val. lra.
  - split; [reflexivity|]. unfold val, fzero. cbn [B2R]. lra.
  - num (fmake 3 0). split; [assumption|]. rewrite V. apply Rmult_le_pos; [apply IZR_le; lia|apply bpow_ge_0].
Qed.
Lemma c97_summable : summable c97_ws.
Proof.
  num (ftotal c97_ws). split; [assumption|]. rewrite V. apply Rmult_lt_0_compat; [apply IZR_lt; lia|apply bpow_gt_0].
Qed.
Example C97_example : weights c97_ws /\ summable c97_ws /\ fsample (fmade_of c97_ws) (fmake 1 (-2)) = Ok 2%Z /\
  fsample (fmade_of c97_ws) (fmake 1 (-3)) = Ok 0%Z /\ B2SF (fpmf (fmade_of c97_ws) 2) = B2SF (fmake 3 (-2)) /\ 6 * INR (length c97_ws) * eps <= 1.
Proof.
  split; [exact c97_weights|]. split; [exact c97_summable|]. split; [vm_compute; reflexivity|]. split; [vm_compute; reflexivity|]. split; [vm_compute; reflexivity|].
  assert (A := eps_small). assert (B := eps_pos). cbn [length c97_ws INR]. lra.
Qed.

(** A weight that is small against the sum of those before it is lost: the entry is never selected. *)
Definition c97_lost : list flt := [fone; fmake 1 (-60)].
Theorem C97_every_entry_refuted : ~ forall ws i w, weights ws -> summable ws -> nth_error ws i = Some w -> 0 < val w ->
  0 < val (fpmf (fmade_of ws) (Z.of_nat i)) /\ exists u, finite u = true /\ 0 <= val u < 1 /\ fsample (fmade_of ws) u = Ok (Z.of_nat i).
Proof.
  assert (P : finite (fmake 1 (-60)) = true /\ 0 < val (fmake 1 (-60))).
  { num (fmake 1 (-60)). split; [assumption|]. rewrite V. apply Rmult_lt_0_compat; [apply IZR_lt; lia|apply bpow_gt_0]. }
  intros H. destruct (H c97_lost 1%nat (fmake 1 (-60))) as [Q _]; [| |reflexivity|apply P|].
  - intros w [<-|[<-|[]]]; [split; [apply fone_finite|rewrite fone_val; lra]|]. split; [apply P|lra].
  - num (ftotal c97_lost). split; [assumption|]. rewrite V. apply Rmult_lt_0_compat; [apply IZR_lt; lia|apply bpow_gt_0].
  - num (fpmf (fmade_of c97_lost) (Z.of_nat 1)). rewrite V in Q. lra.
Qed.
Print Assumptions C97_every_entry_refuted.

(** Weights whose sum overflows: an entry is selected whose probability is not a number. *)
Definition c97_huge : list flt := [fmake 1 1023; fmake 1 1023].
Theorem C97_overflow_refuted : ~ forall ws u, weights ws -> 0 < exact_total ws -> finite u = true -> 0 <= val u < 1 ->
  exists i, fsample (fmade_of ws) u = Ok (Z.of_nat i) /\ finite (fpmf (fmade_of ws) (Z.of_nat i)) = true.
Proof.
  assert (P : finite (fmake 1 1023) = true /\ 0 < val (fmake 1 1023)).
  { num (fmake 1 1023). split; [assumption|]. rewrite V. apply Rmult_lt_0_compat; [apply IZR_lt; lia|apply bpow_gt_0]. }
  intros H. num (fmake 1 (-1)). rewrite pow2_53 in V. destruct (H c97_huge (fmake 1 (-1))) as (i & E & F).
  - intros w [<-|[<-|[]]]; (split; [apply P|lra]).
  - unfold exact_total, c97_huge. cbn [fold_right]. lra.
  - assumption.
  - rewrite V. lra.
  - assert (S1 : fsample (fmade_of c97_huge) (fmake 1 (-1)) = Ok 1%Z) by (vm_compute; reflexivity).
    rewrite S1 in E. injection E as E. rewrite <- E in F. 
    assert (N : finite (fpmf (fmade_of c97_huge) 1) = false) by (vm_compute; reflexivity). rewrite N in F. discriminate F.
Qed.
Print Assumptions C97_overflow_refuted.
