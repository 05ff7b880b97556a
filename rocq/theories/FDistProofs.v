From Coq Require Import List Reals ZArith Bool Lra Lia Psatz.
From Flocq Require Import Core.Core IEEE754.BinarySingleNaN Plus_error Relative.
From Verif Require Import Base RBase RngModel FltModel FltProofs FDistModel FDistSpec.
Import ListNotations.
Local Open Scope R_scope.

Lemma fplus_finite_inv x y : finite (fplus x y) = true -> finite x = true /\ finite y = true.
Proof.
  unfold finite, fplus, Bplus. intros H.
  destruct x as [s|s| |s m e B], y as [t|t| |t n f C]; try (split; reflexivity); try discriminate H.
  destruct (Bool.eqb s t); discriminate H.
Qed.

Lemma ftotal_app ws k : ftotal (firstn (S k) ws) = match nth_error ws k with Some w => fplus (ftotal (firstn k ws)) w | None => ftotal ws end.
Proof.
  unfold ftotal. destruct (nth_error ws k) as [w|] eqn:E.
  - replace (firstn (S k) ws) with (firstn k ws ++ [w]); [apply fold_left_app|].
    revert k E. induction ws as [|x ws IH]; intros [|k] E; try discriminate; cbn in *; [now injection E as ->|]. now rewrite IH.
  - apply nth_error_None in E. now rewrite firstn_all2 by lia.
Qed.

Lemma fold_fadd ws : forall c, c <> [] ->
  fold_left fadd ws c = c ++ map (fun k => fold_left fplus (firstn (S k) ws) (fback c)) (seq 0 (length ws)).
Proof.
  induction ws as [|w ws IH]; intros c N; [cbn; now rewrite app_nil_r|].
  cbn [fold_left length]. rewrite IH by (unfold fadd; now destruct c). unfold fadd at 1. rewrite <- app_assoc. f_equal.
  cbn [app seq map]. f_equal. rewrite <- seq_shift, map_map. apply map_ext. intros k. unfold fadd, fback. rewrite last_last. reflexivity.
Qed.

Lemma sums_eq ws : fold_left fadd ws fempty = map (fun k => ftotal (firstn k ws)) (seq 0 (S (length ws))).
Proof.
  rewrite fold_fadd by discriminate. unfold fempty, fback. cbn [last]. cbn [seq map app]. f_equal. rewrite <- seq_shift, map_map. reflexivity.
Qed.

Lemma fmade_of_eq ws : fmade_of ws = map (fun k => fdivide (ftotal (firstn k ws)) (ftotal ws)) (seq 0 (S (length ws))).
Proof.
  unfold fmade_of, fnorm. rewrite sums_eq.
  replace (fback (map _ _)) with (ftotal ws); [now rewrite map_map|].
  unfold fback. rewrite seq_S, map_app. cbn [map]. rewrite last_last, Nat.add_0_l. now rewrite firstn_all.
Qed.
Lemma fmade_of_length ws : length (fmade_of ws) = S (length ws).
Proof. now rewrite fmade_of_eq, map_length, seq_length. Qed.
Definition quot ws k := fdivide (ftotal (firstn k ws)) (ftotal ws).
Lemma fmade_of_nth ws k : (k <= length ws)%nat -> nth k (fmade_of ws) fzero = quot ws k.
Proof.
  intros H. rewrite fmade_of_eq. rewrite (nth_indep _ fzero (quot ws 0)) by (rewrite map_length, seq_length; lia).
  unfold quot. rewrite (map_nth (fun k => fdivide (ftotal (firstn k ws)) (ftotal ws))). now rewrite seq_nth by lia.
Qed.

(** ** Partial sums *)
Section Weights.
Variable ws : list flt.
Hypothesis W : weights ws.
Hypothesis Sm : summable ws.
Let s k := ftotal (firstn k ws).

Lemma partial_finite k : finite (s k) = true.
Proof.
  destruct (Nat.le_gt_cases (length ws) k) as [L|L]; [unfold s; rewrite firstn_all2 by lia; apply Sm|].
  remember (length ws - k)%nat as d eqn:D. revert k L D. induction d as [|d IH]; intros k L D; [lia|].
  assert (F : finite (s (S k)) = true).
  { destruct (Nat.eq_dec (S k) (length ws)) as [E|E]; [unfold s; rewrite E, firstn_all; apply Sm|apply IH; lia]. }
  unfold s in F. rewrite ftotal_app in F. destruct (nth_error ws k) as [w|] eqn:E; [|apply nth_error_None in E; lia].
  now apply fplus_finite_inv in F.
Qed.
Lemma partial_step k w : nth_error ws k = Some w -> val (s (S k)) = rnd (val (s k) + val w).
Proof.
  intros E. assert (F := partial_finite (S k)). unfold s in F |- *. rewrite ftotal_app, E in F |- *. fold (s k) in *.
  destruct (fplus_key (s k) w) as [N K]; [apply partial_finite|apply W; now apply nth_error_In with k|]. now apply finite_result.
Qed.
Lemma nth_nonneg k w : nth_error ws k = Some w -> 0 <= val w.
Proof. intros E. apply W. now apply nth_error_In with k. Qed.
Lemma partial_le_S k : val (s k) <= val (s (S k)).
Proof.
  destruct (nth_error ws k) as [w|] eqn:E.
  - rewrite (partial_step k w E). rewrite <- (rnd_val (s k)) at 1. apply rnd_mono. assert (P := nth_nonneg k w E). lra.
  - apply nth_error_None in E. unfold s. rewrite !firstn_all2 by lia. lra.
Qed.
Lemma partial_mono i j : (i <= j)%nat -> val (s i) <= val (s j).
Proof. intros H. induction H as [|j H IH]; [lra|]. assert (P := partial_le_S j). lra. Qed.
Lemma partial_0 : val (s 0) = 0. Proof. reflexivity. Qed.
Lemma partial_n k : (length ws <= k)%nat -> s k = ftotal ws.
Proof. intros H. unfold s. now rewrite firstn_all2. Qed.
Lemma partial_total k : val (s k) <= val (ftotal ws).
Proof. rewrite <- (partial_n (k + length ws)) by lia. apply partial_mono. lia. Qed.

(** ** Normalized *)
Let q k := quot ws k.
Lemma ratio_bounds k : 0 <= val (s k) / val (ftotal ws) <= 1.
Proof.
  destruct Sm as [_ P]. assert (A := partial_mono 0 k ltac:(lia)). rewrite partial_0 in A. assert (B := partial_total k).
  split; [apply Rmult_le_pos; [lra|left; now apply Rinv_0_lt_compat]|]. apply Rmult_le_reg_r with (val (ftotal ws)); [lra|].
  unfold Rdiv. rewrite Rmult_assoc, Rinv_l; lra.
Qed.
Lemma rnd_unit x : 0 <= x <= 1 -> 0 <= rnd x <= 1.
Proof. intros H. split; [now apply rnd_pos|]. rewrite <- rnd_1. apply rnd_mono. lra. Qed.
Lemma quot_ok k : finite (q k) = true /\ val (q k) = rnd (val (s k) / val (ftotal ws)).
Proof.
  destruct Sm as [F P]. destruct (fdivide_key (s k) (ftotal ws)) as [N K]; [apply partial_finite|assumption|lra|].
  apply (result_finite (q k) _ N K). assert (B := rnd_unit _ (ratio_bounds k)). assert (L := one_lt_big). rewrite Rabs_pos_eq; lra.
Qed.
Lemma quot_unit k : 0 <= val (q k) <= 1.
Proof. rewrite (proj2 (quot_ok k)). apply rnd_unit, ratio_bounds. Qed.
Lemma quot_mono i j : (i <= j)%nat -> val (q i) <= val (q j).
Proof.
  intros H. rewrite !(proj2 (quot_ok _)). apply rnd_mono. apply Rmult_le_compat_r; [left; apply Rinv_0_lt_compat, Sm|now apply partial_mono].
Qed.
Lemma quot_0 : val (q 0) = 0.
Proof. rewrite (proj2 (quot_ok 0)), partial_0. unfold Rdiv. now rewrite Rmult_0_l, rnd_0. Qed.
Lemma quot_n k : (length ws <= k)%nat -> val (q k) = 1.
Proof. intros H. rewrite (proj2 (quot_ok k)), partial_n by assumption. unfold Rdiv. rewrite Rinv_r; [apply rnd_1|]. destruct Sm. lra. Qed.
Lemma quot_strict i w : nth_error ws i = Some w -> val (q i) < val (q (S i)) -> 0 < val w.
Proof.
  intros E L. assert (P := nth_nonneg i w E). destruct (Req_dec (val w) 0) as [Z|]; [|lra]. exfalso.
  rewrite !(proj2 (quot_ok _)), (partial_step i w E), Z, Rplus_0_r, rnd_val in L. lra.
Qed.

Lemma pmf_ok i : (i < length ws)%nat -> finite (fpmf (fmade_of ws) (Z.of_nat i)) = true /\
  val (fpmf (fmade_of ws) (Z.of_nat i)) = rnd (val (q (S i)) - val (q i)).
Proof.
  intros H. unfold fpmf. rewrite fmade_of_length.
  destruct (Z.ltb_spec (Z.of_nat i) 0); [lia|]. destruct (Z.leb_spec (Z.of_nat (S (length ws))) (Z.of_nat i + 1)); [lia|]. cbn [orb].
  replace (Z.to_nat (Z.of_nat i + 1)) with (S i) by lia. rewrite Nat2Z.id, !fmade_of_nth by lia. fold (q i) (q (S i)).
  destruct (fminus_key (q (S i)) (q i)) as [N K]; [apply quot_ok|apply quot_ok|]. apply (result_finite _ _ N K).
  assert (A := quot_unit i). assert (B := quot_unit (S i)). assert (C := quot_mono i (S i) ltac:(lia)).
  assert (D := rnd_unit (val (q (S i)) - val (q i)) ltac:(lra)). assert (L := one_lt_big). rewrite Rabs_pos_eq; lra.
Qed.

(** ** Sampling *)
Lemma fupper_bound_spec c u : forall fuel first len, (len <= fuel)%nat ->
  (forall i, (i < first)%nat -> flt_ltb u (nth i c fzero) = false) ->
  (forall i j, (i <= j < first + len)%nat -> flt_ltb u (nth i c fzero) = true -> flt_ltb u (nth j c fzero) = true) ->
  let k := fupper_bound fuel c u first len in
  (first <= k <= first + len)%nat /\ (forall i, (i < k)%nat -> flt_ltb u (nth i c fzero) = false)
  /\ (k < first + len -> flt_ltb u (nth k c fzero) = true)%nat.
Proof.
  induction fuel as [|fuel IH]; intros first len Hl Lo Mono; cbn zeta.
  - replace len with 0%nat by lia. cbn. split; [lia|]. split; [assumption|lia].
  - cbn [fupper_bound]. destruct len as [|len']; [split; [lia|]; split; [assumption|lia]|]. remember (S len') as len.
    assert (Hh : (Nat.div2 len < len)%nat) by (apply Nat.lt_div2; lia). set (half := Nat.div2 len) in *.
    destruct (flt_ltb u (nth (first + half) c fzero)) eqn:E.
    + destruct (IH first half) as (A & B & C); [lia|assumption|intros i j Hij; apply Mono; lia|]. split; [lia|]. split; [assumption|].
      intros _. set (k := fupper_bound fuel c u first half) in *. destruct (Nat.eq_dec k (first + half)) as [->|]; [assumption|]. apply C. lia.
    + destruct (IH (first + half + 1)%nat (len - half - 1)%nat) as (A & B & C); [lia| |intros i j Hij; apply Mono; lia|].
      * intros i Hi. destruct (Nat.le_gt_cases i (first + half)) as [Hle|]; [|lia].
        destruct (flt_ltb u (nth i c fzero)) eqn:E2; [|reflexivity]. rewrite <- E. symmetry. apply (Mono i); [lia|assumption].
      * split; [lia|]. split; [assumption|]. intros H. apply C. lia.
Qed.

Variable u : flt.
Hypothesis U : finite u = true /\ 0 <= val u < 1.
Lemma below k : (k <= length ws)%nat -> flt_ltb u (nth k (fmade_of ws) fzero) = Rlt_bool (val u) (val (q k)).
Proof. intros H. rewrite fmade_of_nth by assumption. destruct (quot_ok k) as [F _]. apply Bltb_correct; [apply U|assumption]. Qed.

Lemma fsample_spec : exists i, (i < length ws)%nat /\ fsample (fmade_of ws) u = Ok (Z.of_nat i) /\ val (q i) <= val u < val (q (S i)).
Proof.
  unfold fsample. rewrite fmade_of_length.
  destruct (fupper_bound_spec (fmade_of ws) u (S (length ws)) 0 (S (length ws))) as (A & B & C); [lia|intros; lia| |].
  { intros i j Hij. rewrite !below by lia. destruct (Rlt_bool_spec (val u) (val (q i))) as [H|]; [|discriminate]. intros _.
    apply Rlt_bool_true. assert (M := quot_mono i j ltac:(lia)). lra. }
  set (k := fupper_bound (S (length ws)) (fmade_of ws) u 0 (S (length ws))) in *. cbn [Nat.add] in *.
  assert (K0 : (0 < k)%nat).
  { destruct (Nat.eq_dec k 0) as [E|]; [|lia]. specialize (C ltac:(lia)). rewrite E, below, quot_0 in C by lia.
    rewrite Rlt_bool_false in C by apply U. discriminate C. }
  assert (K1 : (k <= length ws)%nat).
  { destruct (Nat.le_gt_cases k (length ws)) as [|E]; [assumption|]. specialize (B (length ws) E). rewrite below, quot_n in B by lia.
    rewrite Rlt_bool_true in B by apply U. discriminate B. }
  exists (k - 1)%nat. split; [lia|]. split.
  - destruct (Z.ltb_spec (Z.of_nat (S (length ws)) - 2) 0); [lia|]. rewrite zclamp_id by lia. f_equal. lia.
  - split.
    + specialize (B (k - 1)%nat ltac:(lia)). rewrite below in B by lia. destruct (Rlt_bool_spec (val u) (val (q (k - 1)))); [discriminate|assumption].
    + specialize (C ltac:(lia)). rewrite below in C by lia. replace (S (k - 1)) with k by lia. destruct (Rlt_bool_spec (val u) (val (q k))); [assumption|discriminate].
Qed.
End Weights.

(** ** Errors *)
Lemma eps_bpow : eps = bpow radix2 (-53).
Proof. unfold eps. transitivity (/ bpow radix2 53); [|symmetry; apply (bpow_opp radix2 53)]. f_equal. rewrite <- (IZR_Zpower radix2 53) by lia. rewrite (pow_IZR 2 53). reflexivity. Qed.
Lemma eps_pos : 0 < eps. Proof. rewrite eps_bpow. apply bpow_gt_0. Qed.
Lemma eps_small : eps <= / 1024.
Proof.
  rewrite eps_bpow. replace (/ 1024) with (bpow radix2 (-10)) by (transitivity (/ bpow radix2 10); [apply (bpow_opp radix2 10)|rewrite <- (IZR_Zpower radix2 10) by lia; reflexivity]). apply bpow_le. lia.
Qed.
Lemma u_ro_eps : u_ro radix2 53 = eps.
Proof. rewrite eps_bpow. unfold u_ro. rewrite Rmult_comm. change (/ 2) with (bpow radix2 (-1)). rewrite <- bpow_plus. reflexivity. Qed.

Lemma plus_error x y : exists d, Rabs d <= eps /\ rnd (val x + val y) = (val x + val y) * (1 + d).
Proof.
  destruct (FLT_plus_error_N_ex radix2 (3 - 1024 - 53) 53 (prec_gt_0_ := prec64) (fun z => negb (Z.even z)) (val x) (val y)) as (d & B & E);
    [apply val_format|apply val_format|]. exists d. split; [|exact E]. rewrite u_ro_eps in B. assert (P := eps_pos).
  apply Rle_trans with (1 := B). apply Rmult_le_reg_r with (1 + eps); [lra|]. unfold Rdiv. rewrite Rmult_assoc, Rinv_l by lra. nra.
Qed.
Lemma minus_error x y : exists d, Rabs d <= eps /\ rnd (val x - val y) = (val x - val y) * (1 + d).
Proof.
  destruct (plus_error x (Bopp y)) as (d & B & E). exists d. split; [assumption|]. unfold val in *. rewrite B2R_Bopp in E. exact E.
Qed.

(** A result between 0 and 1 is off by at most eps. *)
Lemma unit_error x : 0 <= x <= 1 -> Rabs (rnd x - x) <= eps.
Proof.
  intros H. assert (A := error_le_half_ulp radix2 fexp64 (fun z => negb (Z.even z)) x). fold (rnd x) in A.
  apply Rle_trans with (1 := A). replace eps with (/ 2 * ulp radix2 fexp64 1).
  - apply Rmult_le_compat_l; [lra|]. apply ulp_le; auto with typeclass_instances. rewrite !Rabs_pos_eq; lra.
  - change 1 with (bpow radix2 0). rewrite ulp_bpow. change (fexp64 (0 + 1)) with (-52)%Z. rewrite eps_bpow.
    change (/ 2) with (bpow radix2 (-1)). rewrite <- bpow_plus. reflexivity.
Qed.

Lemma exact_total_firstn ws k w : nth_error ws k = Some w -> exact_total (firstn (S k) ws) = exact_total (firstn k ws) + val w.
Proof.
  revert k. induction ws as [|x ws IH]; intros [|k] E; try discriminate; [injection E as ->; cbn [firstn exact_total fold_right]; ring|]. cbn [nth_error] in E. change (val x + exact_total (firstn (S k) ws) = val x + exact_total (firstn k ws) + val w). rewrite (IH k E). ring.
Qed.
Lemma exact_total_mono ws : weights ws -> forall k, 0 <= exact_total (firstn k ws) <= exact_total ws.
Proof.
  induction ws as [|x ws IH]; intros W k; [destruct k; unfold exact_total; cbn [firstn fold_right]; lra|].
  assert (P := W x (or_introl eq_refl)). assert (W' : weights ws) by (intros w H; apply W; now right).
  change (exact_total (x :: ws)) with (val x + exact_total ws). destruct k as [|k].
  - specialize (IH W' 0%nat). change (exact_total (firstn 0 ws)) with 0 in IH. change (exact_total (firstn 0 (x :: ws))) with 0. lra.
  - specialize (IH W' k). change (exact_total (firstn (S k) (x :: ws))) with (val x + exact_total (firstn k ws)). lra.
Qed.
Lemma pow_ge_1 x n : 0 <= x -> 1 <= (1 + x) ^ n.
Proof. intros H. apply pow_R1_Rle. lra. Qed.
Lemma pow_le_1 x n : 0 <= x <= 1 -> 0 <= (1 - x) ^ n <= 1.
Proof. intros H. induction n; cbn [pow]; [lra|]. split; [apply Rmult_le_pos; lra|]. apply Rle_trans with (1 * 1); [|lra]. apply Rmult_le_compat; lra. Qed.
Lemma pow_linear x n : 0 <= x -> 2 * INR n * x <= 1 -> (1 + x) ^ n <= 1 + 2 * INR n * x.
Proof.
  intros X. induction n as [|n IH]; intros H; [cbn; lra|]. rewrite S_INR in *. cbn [pow]. assert (P := pos_INR n).
  assert (A : 2 * INR n * x <= 1) by nra. specialize (IH A).
  apply Rle_trans with ((1 + x) * (1 + 2 * INR n * x)); [apply Rmult_le_compat_l; lra|]. nra.
Qed.

Section Error.
Variable ws : list flt.
Hypothesis W : weights ws.
Hypothesis Sm : summable ws.
Let s k := ftotal (firstn k ws).
Let ex k := exact_total (firstn k ws).

Lemma partial_error k : (k <= length ws)%nat -> ex k * (1 - eps) ^ k <= val (s k) <= ex k * (1 + eps) ^ k.
Proof.
  assert (P := eps_pos). assert (Q := eps_small). induction k as [|k IH]; intros H.
  - unfold ex, s. cbn. lra.
  - destruct (nth_error ws k) as [w|] eqn:E; [|apply nth_error_None in E; lia]. specialize (IH ltac:(lia)).
    unfold ex in *. rewrite (exact_total_firstn ws k w E). set (x := exact_total (firstn k ws)) in *.
    assert (X : 0 <= x) by apply (exact_total_mono ws W k). assert (Wp := nth_nonneg ws W k w E).
    assert (V : val (s (S k)) = rnd (val (s k) + val w)) by exact (partial_step ws W Sm k w E).
    rewrite V. destruct (plus_error (s k) w) as (d & D & ->).
    apply Rabs_le_inv in D. assert (A := pow_ge_1 eps k ltac:(lra)). assert (B := pow_le_1 eps k ltac:(lra)). cbn [pow].
    set (a := (1 + eps) ^ k) in *. set (b := (1 - eps) ^ k) in *.
    split.
    + apply Rle_trans with ((x * b + val w * b) * (1 - eps)); [right; ring|].
      apply Rmult_le_compat; [|lra| |lra].
      * apply Rplus_le_le_0_compat; apply Rmult_le_pos; lra.
      * apply Rplus_le_compat; [lra|]. rewrite <- (Rmult_1_r (val w)) at 2. apply Rmult_le_compat_l; lra.
    + apply Rle_trans with ((x * a + val w * a) * (1 + eps)); [|right; ring].
      apply Rmult_le_compat; [|lra| |lra].
      * assert (0 <= val (s k)); [|lra]. apply Rle_trans with (x * b); [apply Rmult_le_pos; lra|lra].
      * apply Rplus_le_compat; [lra|]. rewrite <- (Rmult_1_r (val w)) at 1. apply Rmult_le_compat_l; lra.
Qed.

Let n := length ws.
Hypothesis small : 6 * INR n * eps <= 1.

Lemma total_pos : 0 < exact_total ws.
Proof.
  destruct Sm as [_ P]. assert (E := partial_error n ltac:(unfold n; lia)). unfold ex, s, n in E. rewrite firstn_all in E.
  assert (A := exact_total_mono ws W 0). cbn in A. destruct (Req_dec (exact_total ws) 0) as [Z|]; [|lra].
  rewrite Z in E. lra.
Qed.

Lemma powers : (1 + eps) ^ n <= (1 + 6 * INR n * eps) * (1 - eps) ^ n.
Proof.
  assert (P := eps_pos). assert (Q := eps_small).
  apply Rle_trans with ((1 + 3 * eps) ^ n * (1 - eps) ^ n).
  - rewrite <- Rpow_mult_distr. apply pow_incr. nra.
  - apply Rmult_le_compat_r; [apply pow_le_1; lra|]. replace (6 * INR n * eps) with (2 * INR n * (3 * eps)) by ring. apply pow_linear; lra.
Qed.
Lemma pow_up k : (k <= n)%nat -> (1 + eps) ^ k <= (1 + eps) ^ n.
Proof. intros H. apply Rle_pow; [assert (P := eps_pos); lra|assumption]. Qed.
Lemma pow_down k : (k <= n)%nat -> (1 - eps) ^ n <= (1 - eps) ^ k.
Proof.
  intros H. replace n with (k + (n - k))%nat by lia. rewrite pow_add. assert (P := eps_pos). assert (Q := eps_small).
  rewrite <- (Rmult_1_r ((1 - eps) ^ k)) at 2. apply Rmult_le_compat_l; apply pow_le_1; lra.
Qed.

Lemma ratio_error k : (k <= n)%nat -> Rabs (val (s k) / val (ftotal ws) - ex k / exact_total ws) <= 6 * INR n * eps.
Proof.
  intros H. assert (P := eps_pos). assert (Q := eps_small). assert (T := total_pos). destruct Sm as [_ F].
  assert (K := partial_error k H). assert (N := partial_error n ltac:(unfold n; lia)). unfold ex, s in N. replace (firstn n ws) with ws in N by (symmetry; apply firstn_all).
  assert (A := pow_ge_1 eps n ltac:(lra)). assert (B := pow_le_1 eps n ltac:(lra)). assert (G := powers).
  assert (Ku := pow_up k H). assert (Kd := pow_down k H).
  assert (E : 0 <= ex k <= exact_total ws) by apply (exact_total_mono ws W k). assert (I := pos_INR n).
  set (a := (1 + eps) ^ n) in *. set (b := (1 - eps) ^ n) in *. set (g := 6 * INR n * eps) in *. assert (G0 : 0 <= g) by (unfold g; nra).
  assert (Lo : ex k * b <= val (s k)) by (apply Rle_trans with (2 := proj1 K); apply Rmult_le_compat_l; lra).
  assert (Hi : val (s k) <= ex k * a) by (apply Rle_trans with (1 := proj2 K); apply Rmult_le_compat_l; lra).
  set (tt := exact_total ws) in *. set (ft := val (ftotal ws)) in *. set (x := ex k) in *. set (y := val (s k)) in *.
  assert (D1 : ft * tt * (y / ft - x / tt) = y * tt - x * ft) by (field; lra).
  apply Rabs_le.
  assert (Pos : 0 < ft * tt) by (apply Rmult_lt_0_compat; lra).
  (* y tt <= x a tt ; x ft >= x tt b ; a <= (1+g) b *)
  assert (U1 : y * tt - x * ft <= g * (ft * tt)).
  { assert (y * tt <= x * a * tt) by (apply Rmult_le_compat_r; lra).
    assert (x * a * tt <= x * ((1 + g) * b) * tt) by (apply Rmult_le_compat_r; [lra|]; apply Rmult_le_compat_l; lra).
    assert (x * (1 + g) * (tt * b) <= x * (1 + g) * ft) by (apply Rmult_le_compat_l; [apply Rmult_le_pos; lra|lra]).
    assert (x * ft * g <= tt * ft * g) by (apply Rmult_le_compat_r; [lra|]; apply Rmult_le_compat_r; lra). nra. }
  assert (U2 : x * ft - y * tt <= g * (ft * tt)).
  { assert (X1 : x * b * tt <= y * tt) by (apply Rmult_le_compat_r; lra).
    assert (X2 : x * ft <= x * ((1 + g) * b * tt)).
    { apply Rmult_le_compat_l; [lra|]. apply Rle_trans with (tt * a); [lra|]. rewrite Rmult_comm. apply Rmult_le_compat_r; lra. }
    assert (X3 : x * (tt * b) * g <= x * ft * g) by (apply Rmult_le_compat_r; [lra|]; apply Rmult_le_compat_l; lra).
    assert (X4 : x * ft * g <= tt * ft * g) by (apply Rmult_le_compat_r; [lra|]; apply Rmult_le_compat_r; lra).
    nra. }
  split; apply Rmult_le_reg_l with (ft * tt); try assumption; rewrite D1; nra.
Qed.

Lemma pmf_error i w : nth_error ws i = Some w ->
  Rabs (val (fpmf (fmade_of ws) (Z.of_nat i)) - val w / exact_total ws) <= (12 * INR n + 3) * eps.
Proof.
  intros E. assert (H : (i < n)%nat) by (apply nth_error_Some; congruence).
  rewrite (proj2 (pmf_ok ws W Sm i H)).
  assert (A := quot_unit ws W Sm i). assert (B := quot_unit ws W Sm (S i)). assert (C := quot_mono ws W Sm i (S i) ltac:(lia)).
  assert (X0 := unit_error (val (quot ws (S i)) - val (quot ws i)) ltac:(lra)).
  assert (X : forall k, Rabs (val (quot ws k) - val (s k) / val (ftotal ws)) <= eps).
  { intros k. assert (E1 : val (quot ws k) = rnd (val (s k) / val (ftotal ws))) by exact (proj2 (quot_ok ws W Sm k)).
    rewrite E1. exact (unit_error _ (ratio_bounds ws W Sm k)). }
  assert (X1 := X i). assert (X2 := X (S i)).
  assert (Y1 := ratio_error i ltac:(lia)). assert (Y2 := ratio_error (S i) ltac:(lia)).
  assert (Ex : ex (S i) / exact_total ws = ex i / exact_total ws + val w / exact_total ws).
  { unfold ex. rewrite (exact_total_firstn ws i w E). field. apply Rgt_not_eq, total_pos. }
  apply Rabs_le_inv in X0, X1, X2, Y1, Y2. rewrite Ex in Y2. clear - X0 X1 X2 Y1 Y2. apply Rabs_le. lra.
Qed.
End Error.
