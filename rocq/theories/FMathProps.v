(** C103: the weights of multiple importance sampling, C104: refraction, computed with Float as it is. *)
From Coq Require Import List Reals ZArith Bool Lra Lia Psatz.
From Flocq Require Import Core.Core IEEE754.BinarySingleNaN.
From Verif Require Import RngModel FltModel FltProofs FDistSpec FDistProofs FBoundModel FBoundSpec FBoundProofs FFilmProofs FBvhSpec FBvhProofs FDirModel FDirSpec FDirProofs FMathModel FMathProofs FBoundProps FDirProps.
Local Open Scope R_scope.

(** ** C103 *)
(** For any two densities the weight is a number between 0 and 1: no division by zero, no NaN. *)
Theorem C103_range p q : finite p = true -> finite q = true -> 0 <= val p -> 0 <= val q -> finite (fbalance p q) = true /\ 0 <= val (fbalance p q) <= 1.
Proof. apply balance_range. Qed.
Print Assumptions C103_range.

(** The weight is the share of the density up to three roundings. *)
Theorem C103_value p q : finite p = true -> finite q = true -> 0 <= val p -> 0 <= val q -> 0 < val p + val q <= 2 ^ 1022 ->
  Rabs (val (fbalance p q) - val p / (val p + val q)) <= 3 * eps.
Proof. apply balance_value. Qed.
Print Assumptions C103_value.

(** So the weights of the two strategies add up to 1 up to six roundings. *)
Theorem C103_sum_partial p q : finite p = true -> finite q = true -> 0 <= val p -> 0 <= val q -> 0 < val p + val q <= 2 ^ 1022 ->
  Rabs (val (fbalance p q) + val (fbalance q p) - 1) <= 6 * eps.
Proof.
  intros Fp Fq Pp Pq [S B]. assert (H1 := balance_value p q Fp Fq Pp Pq (conj S B)). assert (H2 := balance_value q p Fq Fp Pq Pp ltac:(lra)).
  clear B. assert (Z : val p / (val p + val q) + val q / (val q + val p) = 1) by (field; lra). apply Rabs_le_inv in H1, H2. apply Rabs_le. lra.
Qed.
Print Assumptions C103_sum_partial.

(** A strategy that cannot make the path has weight 0 and the only one that can has weight 1, exactly. *)
Theorem C103_exclusive p q : finite p = true -> finite q = true -> 0 < val p -> val q = 0 -> val (fbalance p q) = 1 /\ val (fbalance q p) = 0.
Proof. intros Fp Fq Pp Zq. split; [apply balance_only|apply balance_zero]; try assumption; lra. Qed.
Print Assumptions C103_exclusive.

(** Two densities of 2^1023 get the weights 0 and 0. *)
Theorem C103_overflow_refuted : exists p q, finite p = true /\ finite q = true /\ 0 < val p /\ 0 < val q /\ val (fbalance p q) = 0 /\ val (fbalance q p) = 0.
Proof.
  exists (fmake 1 1023), (fmake 1 1023). destruct (val_sf (fmake 1 1023) (2 ^ 52) 971 ltac:(vm_compute; reflexivity)) as [F V].
  destruct (val_sf (fbalance (fmake 1 1023) (fmake 1 1023)) 0 0 ltac:(vm_compute; reflexivity)) as [_ W].
  rewrite W. assert (P : 0 < val (fmake 1 1023)) by (rewrite V; apply Rmult_lt_0_compat; [apply IZR_lt; lia|apply bpow_gt_0]). repeat split; try assumption; lra.
Qed.
Print Assumptions C103_overflow_refuted.

Lemma big8 : 8 <= 2 ^ 1022. Proof. replace 8 with (2 ^ 3) by ring; apply Rle_pow; [lra|lia]. Qed.
Example C103_example : finite (fz_ 1) = true /\ finite (fz_ 3) = true /\ finite (fz_ 0) = true /\ 0 < val (fz_ 1) + val (fz_ 3) <= 2 ^ 1022 /\ val (fz_ 0) = 0 /\
  val (fbalance (fz_ 1) (fz_ 3)) = / 4.
Proof.
  small 1%Z. small 3%Z. small 0%Z. destruct K as [F1 V1], K0 as [F3 V3], K1 as [F0 V0]. rewrite V1, V3. assert (B := big8).
  destruct (val_sf (fbalance (fz_ 1) (fz_ 3)) (2 ^ 52) (-54) ltac:(vm_compute; reflexivity)) as [_ W].
  repeat split; try assumption; [lra|revert B; generalize (2 ^ 1022); intros; lra|]. rewrite W. change (IZR (2 ^ 52)) with (bpow radix2 52). rewrite <- bpow_plus. reflexivity.
Qed.

(** ** C104 *)
(** Total reflection is reported only if the sine after refraction, eta sin(theta), is at least 1 up to 400 roundings. *)
Theorem C104_total w n eta : near_unit w -> near_unit n -> finite eta = true -> 0 <= val eta <= 3 -> frefraction w n eta = None ->
  1 - val eta * val eta * (1 - rdot3 w n * rdot3 w n) <= 400 * eps.
Proof. apply refraction_total. Qed.
Print Assumptions C104_total.

(** And it is reported where the sine after refraction is greater than 1 by more than that. *)
Theorem C104_reported w n eta : near_unit w -> near_unit n -> finite eta = true -> 0 <= val eta <= 3 ->
  1 - val eta * val eta * (1 - rdot3 w n * rdot3 w n) < - (408 * eps) -> frefraction w n eta = None.
Proof.
  intros W N F B L. destruct (frefraction w n eta) as [d|] eqn:E; [|reflexivity]. exfalso.
  destruct (root2 w n eta W N F B d E) as (_ & Bs & Qs). apply Rabs_le_inv in Qs. revert Bs Qs. match goal with |- context [val (fsafe_sqrt ?t)] => generalize (val (fsafe_sqrt t)) end.
  intros s Bs Qs. nra.
Qed.
Print Assumptions C104_reported.

(** Otherwise the direction is that of the law of refraction: for some s, which is the cosine after refraction up to
    rounding of its square, the direction is eta times the reversed tangential part of the incident one, less s times the normal, and
    has length 1 up to rounding. *)
Theorem C104_refraction_partial w n eta d : near_unit w -> near_unit n -> finite eta = true -> 0 <= val eta <= 3 -> frefraction w n eta = Some d ->
  (exists s, 0 <= s /\ Rabs (s * s - (1 - val eta * val eta * (1 - rdot3 w n * rdot3 w n))) <= 408 * eps /\
    forall i, finite (fcomp d i) = true /\ Rabs (val (fcomp d i) - (val eta * (rdot3 w n * val (fcomp n i) - val (fcomp w i)) - s * val (fcomp n i))) <= 90 * eps) /\
  Rabs (length2 d - 1) <= 2048 * eps.
Proof.
  intros W N F B H. split; [|exact (refr_length w n eta W N F B d H)].
  destruct (root2 w n eta W N F B d H) as (_ & Bs & Qs). eexists. split; [exact (proj1 Bs)|]. split; [exact Qs|].
  intros i. exact (refr_close w n eta W N F B d H i).
Qed.
Print Assumptions C104_refraction_partial.

(** Light that leaves glass straight downwards: the vertical component is less than -1. *)
Theorem C104_component_refuted : exists v w d, usual_vec v /\ usual_vec w /\ frefraction (fnormalize w) (fnormalize v) (fmake 3 (-1)) = Some d /\
  finite (fy d) = true /\ val (fy d) < -1.
Proof.
  exists (fv 3 2 0), (fv 5 12 0).
  assert (U : usual_vec (fv 3 2 0) /\ usual_vec (fv 5 12 0)).
  { small 3%Z. small 2%Z. small 5%Z. small 12%Z. small 0%Z.
    split; apply ints_usual; try lia; intros k; cbn [In]; intros H; repeat (destruct H as [H|H]; [subst k; repeat split; (tauto || lia)|]); destruct H. }
  destruct (frefraction (fnormalize (fv 5 12 0)) (fnormalize (fv 3 2 0)) (fmake 3 (-1))) as [d|] eqn:E.
  - exists d. split; [tauto|]. split; [tauto|]. split; [reflexivity|].
    assert (S : option_map (fun d => sf_num (B2SF (fy d))) (frefraction (fnormalize (fv 5 12 0)) (fnormalize (fv 3 2 0)) (fmake 3 (-1))) = Some (Some (- (2 ^ 52 + 1), -52)%Z)) by (vm_compute; reflexivity).
    rewrite E in S. cbn [option_map] in S. injection S as S. destruct (val_sf _ _ _ S) as [F V]. split; [assumption|].
    match type of V with _ = IZR ?m * _ => change m with (- (2 ^ 52 + 1))%Z in V end. rewrite V.
    rewrite opp_IZR, plus_IZR. change (IZR (2 ^ 52)) with (bpow radix2 52).
    replace (- (bpow radix2 52 + 1) * bpow radix2 (-52)) with (- (bpow radix2 52 * bpow radix2 (-52)) - bpow radix2 (-52)) by ring. rewrite <- bpow_plus. change (bpow radix2 (52 + -52)) with 1.
    assert (0 < bpow radix2 (-52)) by apply bpow_gt_0. lra.
  - exfalso. assert (S : match frefraction (fnormalize (fv 5 12 0)) (fnormalize (fv 3 2 0)) (fmake 3 (-1)) with Some _ => true | None => false end = true) by (vm_compute; reflexivity).
    rewrite E in S. discriminate.
Qed.
Print Assumptions C104_component_refuted.

(** The hypotheses are met, with both outcomes: light that leaves glass through a face it meets steeply, and at 70 degrees. *)
Definition c104_steep := frefraction (fnormalize c102_w) (fnormalize c102_n) (fmake 3 (-1)).
Definition c104_grazing := frefraction (fnormalize (fv 10 3 0)) (fnormalize (fv 1 24 0)) (fmake 3 (-1)).
Definition isSome {A} (o : option A) : bool := match o with Some _ => true | None => false end.
Lemma is_some {A} (o : option A) : isSome o = true -> o <> None. Proof. now destruct o. Qed.
Lemma is_none {A} (o : option A) : isSome o = false -> o = None. Proof. now destruct o. Qed.
Example C104_example : near_unit (fnormalize c102_w) /\ near_unit (fnormalize c102_n) /\ finite (fmake 3 (-1)) = true /\ 0 <= val (fmake 3 (-1)) <= 3 /\
  c104_steep <> None /\ c104_grazing = None.
Proof.
  split; [apply C102_normalize, c102_usual|]. split; [apply C102_normalize, c102_usual|].
  destruct (val_sf (fmake 3 (-1)) (3 * 2 ^ 51) (-52) ltac:(vm_compute; reflexivity)) as [F V]. split; [assumption|]. split.
  - rewrite V, mult_IZR. change (IZR (2 ^ 51)) with (bpow radix2 51). rewrite Rmult_assoc, <- bpow_plus. change (bpow radix2 (51 + -52)) with (/ 2). lra.
  - split; [apply is_some|apply is_none]; vm_compute; reflexivity.
Qed.
