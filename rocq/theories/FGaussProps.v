(** * C124: densities of Gaussian volumes in binary64 *)
From Coq Require Import Reals ZArith Bool Lra Lia Psatz.
From Flocq Require Import Core.Core IEEE754.BinarySingleNaN.
From Verif Require Import RngModel FltModel FltProofs FBoundModel FBoundProofs FGtermProofs FGaussModel FGaussSpec.
Local Open Scope R_scope.

(** ** Signs, infinities included *)
Definition nn (x : flt) : Prop := is_nan x = false /\ 0 <= key x.
Lemma clamp_nn x : 0 <= x -> 0 <= clamp x.
Proof. intros H. assert (B := big_pos). rewrite <- (clamp_in 0) by lra. now apply clamp_mono. Qed.
Lemma clamp_np x : x <= 0 -> clamp x <= 0.
Proof. intros H. assert (B := big_pos). rewrite <- (clamp_in 0) by lra. now apply clamp_mono. Qed.
Lemma nn_cases x : nn x -> x = B754_infinity false \/ (finite x = true /\ 0 <= val x).
Proof.
  intros [N K]. destruct x as [s|[]| |s m e H]; try discriminate; auto.
  - cbn in K. assert (B := big_pos). lra.
Qed.
Lemma np_cases x : is_nan x = false -> key x <= 0 -> x = B754_infinity true \/ (finite x = true /\ val x <= 0).
Proof.
  intros N K. destruct x as [s|[]| |s m e H]; try discriminate; auto.
  cbn in K. assert (B := big_pos). lra.
Qed.
Lemma nn_inf : nn (B754_infinity false). Proof. split; [reflexivity|]. cbn. assert (B := big_pos). lra. Qed.
Lemma sq_nn q : is_nan q = false -> nn (fmult q q).
Proof.
  intros N. destruct (finite q) eqn:F.
  - destruct (fmult_key q q F F) as [M K]. split; [exact M|]. rewrite K. apply clamp_nn, rnd_pos, Rle_0_sqr.
  - destruct q as [s|[]| |s m e H]; try discriminate; exact nn_inf.
Qed.
Lemma div_nn x d : nn x -> finite d = true -> 0 < val d -> nn (fdivide x d).
Proof.
  intros Hx F P. destruct (nn_cases x Hx) as [->|[Fx Px]].
  - destruct d as [s| | |s m e H]; try discriminate; [cbn in P; lra|]. destruct s; [|exact nn_inf]. exfalso. assert (Q := sign_val (B754_finite true m e H) F). cbn [Bsign] in Q. lra.
  - destruct (fdivide_key x d Fx F ltac:(lra)) as [M K]. split; [exact M|]. rewrite K. apply clamp_nn, rnd_pos. unfold Rdiv. apply Rmult_le_pos; [exact Px|]. left. now apply Rinv_0_lt_compat.
Qed.
Lemma plus_nn x y : nn x -> nn y -> nn (fplus x y).
Proof.
  intros Hx Hy. destruct (nn_cases x Hx) as [->|[Fx Px]], (nn_cases y Hy) as [->|[Fy Py]].
  - exact nn_inf.
  - destruct y; try discriminate; exact nn_inf.
  - destruct x; try discriminate; exact nn_inf.
  - destruct (fplus_key x y Fx Fy) as [M K]. split; [exact M|]. rewrite K. apply clamp_nn, rnd_pos. lra.
Qed.
Lemma mhalf_ok : finite fmhalf = true /\ val fmhalf = - / 2.
Proof.
  destruct (val_sf fmhalf (- 2 ^ 52) (-53)) as [F V]; [vm_compute; reflexivity|]. split; [exact F|]. rewrite V. change (-53)%Z with (- (53))%Z. rewrite bpow_opp. change (bpow radix2 53) with (IZR (2 ^ 53)). rewrite opp_IZR. change (IZR (2 ^ 53)) with (IZR (2 * 2 ^ 52)). rewrite mult_IZR. field. apply not_0_IZR. lia.
Qed.
Lemma half_np x : nn x -> is_nan (fmult fmhalf x) = false /\ key (fmult fmhalf x) <= 0.
Proof.
  intros Hx. destruct mhalf_ok as [F V]. destruct (nn_cases x Hx) as [->|[Fx Px]].
  - assert (E : fmult fmhalf (B754_infinity false) = B754_infinity true) by (vm_compute; reflexivity). rewrite E. split; [reflexivity|]. cbn. assert (B := big_pos). lra.
  - destruct (fmult_key fmhalf x F Fx) as [M K]. split; [exact M|]. rewrite K, V. apply clamp_np. rewrite <- rnd_0. apply rnd_mono. lra.
Qed.

(** ** Ranges and relative errors *)
Definition within (k : nat) (a x : R) : Prop := 0 <= a /\ a * (1 - 2 * e53) ^ k <= x <= a * (1 + 2 * e53) ^ k.
Definition rng (j : Z) (x : R) : Prop := x = 0 \/ bpow radix2 (- j) <= x <= bpow radix2 j.
Lemma rnd_bpow j : (-1000 <= j <= 1000)%Z -> rnd (bpow radix2 j) = bpow radix2 j.
Proof. intros H. unfold rnd. apply round_generic; [typeclasses eauto|]. apply generic_format_bpow. unfold fexp64, SpecFloat.fexp, SpecFloat.emin. lia. Qed.
Lemma rng_rnd j x : (0 <= j <= 1000)%Z -> rng j x -> rng j (rnd x) /\ Rabs (rnd x) < big.
Proof.
  intros J [->|[A B]]; [rewrite rnd_0, Rabs_R0; split; [now left|apply big_pos]|]. assert (C : bpow radix2 (- j) <= rnd x) by (rewrite <- rnd_bpow by lia; now apply rnd_mono). assert (D : rnd x <= bpow radix2 j) by (rewrite <- (rnd_bpow j) by lia; now apply rnd_mono). split; [now right|].
  assert (P := bpow_gt_0 radix2 (- j)). rewrite Rabs_pos_eq by lra. apply Rle_lt_trans with (1 := D). unfold big. apply bpow_lt. lia.
Qed.
Lemma rng_pos j x : rng j x -> 0 <= x.
Proof. intros [->|[A _]]; [lra|]. assert (P := bpow_gt_0 radix2 (- j)). lra. Qed.
Lemma rel_rng j x : (0 <= j <= 1000)%Z -> rng j x -> exists d, Rabs d <= e53 /\ rnd x = x * (1 + d).
Proof.
  intros J [->|[A B]]; [exists 0; rewrite Rabs_R0, rnd_0; assert (E := e53_small); split; lra|]. apply rnd_rel. assert (P := bpow_gt_0 radix2 (- j)). rewrite Rabs_pos_eq by lra. apply Rle_trans with (2 := A). rewrite inv_pow_bpow. apply bpow_le. lia.
Qed.
Lemma pow_low k : 0 < (1 - 2 * e53) ^ k. Proof. apply pow_lt. assert (E := e53_small). lra. Qed.
Lemma pow_high k : 0 < (1 + 2 * e53) ^ k. Proof. apply pow_lt. assert (E := e53_small). lra. Qed.
Lemma within_pos k a x : within k a x -> 0 <= x.
Proof. intros (P & A & _). assert (Q := pow_low k). nra. Qed.
Lemma within_scale k a x c : within k a x -> 1 - 2 * e53 <= c <= 1 + 2 * e53 -> within (S k) a (x * c).
Proof.
  intros W C. assert (X := within_pos _ _ _ W). destruct W as (P & A & B). assert (E := e53_small). split; [exact P|]. set (l := 1 - 2 * e53) in *. set (h := 1 + 2 * e53) in *. assert (L : 0 < l) by (unfold l; lra). assert (H : 0 < h) by (unfold h; lra). clearbody l h. clear E. cbn [pow]. split.
  - apply Rle_trans with (x * l); [|apply Rmult_le_compat_l; lra]. replace (a * (l * l ^ k)) with (a * l ^ k * l) by ring. apply Rmult_le_compat_r; lra.
  - apply Rle_trans with (x * h); [apply Rmult_le_compat_l; lra|]. replace (a * (h * h ^ k)) with (a * h ^ k * h) by ring. apply Rmult_le_compat_r; lra.
Qed.
Lemma within_rnd j k a x : (0 <= j <= 1000)%Z -> rng j x -> within k a x -> within (S k) a (rnd x).
Proof.
  intros J R W. destruct (rel_rng j x J R) as (d & D & ->). apply within_scale; [exact W|]. apply Rabs_le_inv in D. assert (E := e53_small). lra.
Qed.
Lemma within_plus k a b x y : within k a x -> within k b y -> within k (a + b) (x + y).
Proof. intros (P & A & B) (Q & C & D). split; lra. Qed.
Lemma within_up k a x : within k a x -> within (S k) a x.
Proof. intros W. rewrite <- (Rmult_1_r x). apply within_scale; [exact W|]. assert (E := e53_small). lra. Qed.
Lemma within_mul k a x c : 0 <= c -> within k a x -> within k (a * c) (x * c).
Proof. intros C (P & A & B). split; [nra|]. split; [replace (a * c * (1 - 2 * e53) ^ k) with (a * (1 - 2 * e53) ^ k * c) by ring|replace (a * c * (1 + 2 * e53) ^ k) with (a * (1 + 2 * e53) ^ k * c) by ring]; apply Rmult_le_compat_r; lra. Qed.
Lemma within_refl a : 0 <= a -> within 0 a a. Proof. intros H. split; [exact H|]. rewrite !pow_O. lra. Qed.
Definition ok (j : Z) (k : nat) (a : R) (x : flt) : Prop := finite x = true /\ rng j (val x) /\ within k a (val x).
Lemma ok_result j k a z x : (0 <= j <= 1000)%Z -> is_nan z = false -> key z = clamp (rnd x) -> rng j x -> within k a x -> ok j (S k) a z.
Proof.
  intros J N K R W. destruct (rng_rnd j x J R) as [Q L]. destruct (result_finite z x N K L) as [F V]. split; [exact F|]. rewrite V. split; [exact Q|]. eapply within_rnd; eassumption.
Qed.
Lemma rng_abs_sq j x : bpow radix2 (- j) <= Rabs x <= bpow radix2 j -> bpow radix2 (- (j + j)) <= x * x <= bpow radix2 (j + j).
Proof.
  intros [A B]. replace (x * x) with (Rabs x * Rabs x) by (rewrite <- Rabs_mult; apply Rabs_pos_eq, Rle_0_sqr). replace (- (j + j))%Z with (- j + - j)%Z by lia. rewrite !bpow_plus. assert (P := bpow_gt_0 radix2 (- j)). split; apply Rmult_le_compat; lra.
Qed.
Lemma sigma_sq s : usual_sigma s -> finite (fmult s s) = true /\ bpow radix2 (-400) <= val (fmult s s) <= bpow radix2 400 /\ exists d, Rabs d <= e53 /\ val (fmult s s) = val s * val s * (1 + d).
Proof.
  intros [F B]. apply (rng_abs_sq 200) in B. change (- (200 + 200))%Z with (-400)%Z in B. change (200 + 200)%Z with 400%Z in B. assert (P := bpow_gt_0 radix2 (-400)). destruct (fmult_key s s F F) as [N K]. assert (R : rng 400 (val s * val s)) by (right; exact B). destruct (rng_rnd 400 _ ltac:(lia) R) as [Q L]. destruct (result_finite _ _ N K L) as [G V]. split; [exact G|]. rewrite V. split; [|now apply (rel_rng 400)].
  destruct Q as [Z|Q]; [|exact Q]. exfalso. assert (X : bpow radix2 (-400) <= rnd (val s * val s)) by (rewrite <- rnd_bpow by lia; apply rnd_mono; lra). lra.
Qed.
Lemma gap_sq a b : finite a = true -> finite b = true -> usual_gap a b -> ok 400 3 ((val a - val b) ^ 2) (fmult (fminus a b) (fminus a b)).
Proof.
  intros Fa Fb G. unfold usual_gap in G. destruct (fminus_key a b Fa Fb) as [N K]. set (D := val a - val b) in *. assert (E := e53_small).
  assert (X : finite (fminus a b) = true /\ (exists d, Rabs d <= e53 /\ val (fminus a b) = D * (1 + d)) /\ rng 400 (val (fminus a b) * val (fminus a b))).
  { destruct G as [Z|B].
    - destruct (result_finite _ _ N K) as [F V]; [rewrite Z, rnd_0, Rabs_R0; apply big_pos|]. rewrite V, Z, rnd_0. split; [exact F|]. split; [exists 0; rewrite Rabs_R0; split; lra|]. left. lra.
    - assert (A : Rabs (rnd D) = rnd (Rabs D)) by (symmetry; unfold rnd; apply round_NE_abs; typeclasses eauto). destruct (rng_rnd 200 (Rabs D) ltac:(lia)) as [Q L]; [right; exact B|]. rewrite <- A in Q, L. rewrite Rabs_Rabsolu in L.
      destruct (result_finite _ _ N K L) as [F V]. rewrite V. split; [exact F|]. split.
      + apply rnd_rel. apply Rle_trans with (2 := proj1 B). rewrite inv_pow_bpow. apply bpow_le. lia.
      + destruct Q as [Z|Q]; [left; destruct (Req_dec (rnd D) 0) as [->|H]; [ring|]; apply Rabs_pos_lt in H; lra|]. right. exact (rng_abs_sq 200 _ Q). }
  destruct X as (F & (d & Hd & V) & R). destruct (fmult_key _ _ F F) as [N2 K2]. apply (ok_result 400 2 _ _ _ ltac:(lia) N2 K2 R). rewrite V. replace (D * (1 + d) * (D * (1 + d))) with (D ^ 2 * (1 + d) * (1 + d)) by ring. apply Rabs_le_inv in Hd. apply within_scale; [apply within_scale; [apply within_refl, pow2_ge_0|lra]|lra].
Qed.
Lemma term_ok a b s : finite a = true -> finite b = true -> usual_gap a b -> usual_sigma s -> ok 800 5 (((val a - val b) / val s) ^ 2) (fgauss_term (fminus a b) s).
Proof.
  intros Fa Fb G S. destruct (gap_sq a b Fa Fb G) as (F & R & W). destruct (sigma_sq s S) as (Fs & B & d & Hd & Vs). unfold fgauss_term. set (x := fmult (fminus a b) (fminus a b)) in *. set (y := fmult s s) in *. assert (P := bpow_gt_0 radix2 (-400)). assert (E := e53_small). apply Rabs_le_inv in Hd.
  assert (S0 : val s <> 0) by (intros Z; rewrite Z in Vs; lra). destruct (fdivide_key x y F Fs ltac:(lra)) as [N K]. apply (ok_result 800 4 _ _ _ ltac:(lia) N K).
  - destruct R as [->|R]; [left; unfold Rdiv; ring|right]. assert (I : bpow radix2 (-400) <= / val y <= bpow radix2 400).
    { change (-400)%Z with (- (400))%Z. rewrite bpow_opp. replace (bpow radix2 400) with (/ bpow radix2 (-400)) at 2 by (rewrite <- bpow_opp; reflexivity). split; apply Rinv_le; lra. }
    unfold Rdiv. change (- (800))%Z with (-400 + -400)%Z. change 800%Z with (400 + 400)%Z. rewrite !bpow_plus. change (- (400))%Z with (-400)%Z in R. split; apply Rmult_le_compat; lra.
  - replace (val x / val y) with (val x * / (val s * val s) * / (1 + d)) by (rewrite Vs; field; split; lra). replace (((val a - val b) / val s) ^ 2) with ((val a - val b) ^ 2 * / (val s * val s)) by (field; exact S0). apply within_scale.
    + apply within_mul; [|exact W]. left. apply Rinv_0_lt_compat. apply Rsqr_pos_lt in S0. exact S0.
    + split.
      * apply Rmult_le_reg_r with (1 + d); [lra|]. rewrite Rinv_l by lra. nra.
      * apply Rmult_le_reg_r with (1 + d); [lra|]. rewrite Rinv_l by lra. nra.
Qed.
Lemma rng_plus j x y : rng j x -> rng j y -> rng (j + 1) (x + y).
Proof.
  intros X Y. assert (U : forall z, rng j z -> rng (j + 1) z). { intros z [->|[A B]]; [now left|right]. split; [apply Rle_trans with (2 := A)|apply Rle_trans with (1 := B)]; apply bpow_le; lia. }
  assert (Py := rng_pos _ _ Y). destruct X as [->|[A B]]; [rewrite Rplus_0_l; now apply U|]. assert (Px : y <= bpow radix2 j) by (destruct Y as [->|[_ C]]; [apply bpow_ge_0|exact C]). right. split.
  - apply Rle_trans with (bpow radix2 (- j)); [apply bpow_le; lia|lra].
  - rewrite bpow_plus. change (bpow radix2 1) with 2. lra.
Qed.
Lemma plus_ok j k a b x y : (0 <= j <= 900)%Z -> ok j k a x -> ok j k b y -> ok (j + 1) (S k) (a + b) (fplus x y).
Proof.
  intros J (Fx & Rx & Wx) (Fy & Ry & Wy). destruct (fplus_key x y Fx Fy) as [N K]. apply (ok_result (j + 1) k _ _ _ ltac:(lia) N K); [now apply rng_plus|now apply within_plus].
Qed.
Lemma ok_up j k a x : (0 <= j)%Z -> ok j k a x -> ok (j + 1) (S k) a x.
Proof. intros J (F & R & W). split; [exact F|]. split; [|now apply within_up]. destruct R as [->|[A B]]; [now left|right]. split; [apply Rle_trans with (2 := A)|apply Rle_trans with (1 := B)]; apply bpow_le; lia. Qed.
Lemma rnd_neg x : rnd (- x) = - rnd x.
Proof. unfold rnd. apply round_NE_opp. Qed.

(** The argument that exp is given has the value of the exponent up to eight roundings. *)
Theorem C124_exponent pos sigma p : vfinite pos -> vfinite p -> usual_gaps pos p -> usual_sigmas sigma ->
  exists a, (forall exp m, fgauss exp pos sigma m p = fmult m (exp a)) /\ finite a = true /\
    exponent pos sigma p * (1 - 2 * e53) ^ 8 <= - val a <= exponent pos sigma p * (1 + 2 * e53) ^ 8.
Proof.
  intros (F1 & F2 & F3) (P1 & P2 & P3) (G1 & G2 & G3) (S1 & S2 & S3). exists (fgauss_arg (fvsub pos p) sigma). split; [reflexivity|]. unfold fgauss_arg. cbn [fvsub fx fy fz].
  assert (T1 := term_ok _ _ _ F1 P1 G1 S1). assert (T2 := term_ok _ _ _ F2 P2 G2 S2). assert (T3 := term_ok _ _ _ F3 P3 G3 S3).
  assert (S := plus_ok 801 6 _ _ _ _ ltac:(lia) (plus_ok 800 5 _ _ _ _ ltac:(lia) T1 T2) (ok_up 800 5 _ _ ltac:(lia) T3)). cbn in S. set (z := fplus (fplus _ _) _) in *. destruct S as (Fz & Rz & Wz). destruct mhalf_ok as [Fm Vm]. destruct (fmult_key fmhalf z Fm Fz) as [N K].
  assert (Rh : rng 803 (val z * / 2)).
  { destruct Rz as [->|[A B]]; [left; ring|right]. change (/ 2) with (bpow radix2 (-1)). split.
    - change (- (803))%Z with (-802 + -1)%Z. rewrite bpow_plus. apply Rmult_le_compat_r; [apply bpow_ge_0|exact A].
    - apply Rle_trans with (bpow radix2 802 * 1); [|rewrite Rmult_1_r; apply bpow_le; lia]. apply Rmult_le_compat; [|apply bpow_ge_0|exact B|]. { assert (Q := bpow_gt_0 radix2 (- (802))). lra. } change 1 with (bpow radix2 0). apply bpow_le. lia. }
  destruct (rng_rnd 803 _ ltac:(lia) Rh) as [_ L]. assert (Wh := within_rnd 803 7 _ _ ltac:(lia) Rh (within_mul _ _ _ (/ 2) ltac:(lra) Wz)).
  rewrite Vm in K. replace (- / 2 * val z) with (- (val z * / 2)) in K by ring. destruct (result_finite _ _ N K) as [F V]; [rewrite rnd_neg, Rabs_Ropp; exact L|]. split; [exact F|]. rewrite V, rnd_neg, Ropp_involutive. destruct Wh as (_ & W). unfold exponent. exact W.
Qed.
Print Assumptions C124_exponent.

(** The density is a number between zero and the maximum, wherever the point is. *)
Theorem C124_bounded exp pos sigma m p : exp_ok exp -> vfinite pos -> vfinite p -> usual_sigmas sigma -> finite m = true -> 0 <= val m ->
  finite (fgauss exp pos sigma m p) = true /\ 0 <= val (fgauss exp pos sigma m p) <= val m.
Proof.
  intros (E & _) (F1 & F2 & F3) (P1 & P2 & P3) (S1 & S2 & S3) Fm Pm. unfold fgauss.
  assert (T : forall a b s, finite a = true -> finite b = true -> usual_sigma s -> nn (fgauss_term (fminus a b) s)).
  { intros a b s Fa Fb Hs. destruct (sigma_sq s Hs) as (G & B & _). assert (P := bpow_gt_0 radix2 (-400)). apply div_nn; [apply sq_nn, (fminus_key a b Fa Fb)|exact G|lra]. }
  destruct (half_np _ (plus_nn _ _ (plus_nn _ _ (T _ _ _ F1 P1 S1) (T _ _ _ F2 P2 S2)) (T _ _ _ F3 P3 S3))) as [N K].
  destruct (E _ (np_cases _ N K)) as [G V]. change (fmult fmhalf _) with (fgauss_arg (fvsub pos p) sigma) in G, V. set (e := exp _) in *. destruct (fmult_key m e Fm G) as [N2 K2].
  assert (A : 0 <= val m * val e <= val m) by nra. assert (B : 0 <= rnd (val m * val e) <= val m) by (split; [now apply rnd_pos|rewrite <- (rnd_val m) at 2; now apply rnd_mono]). assert (Q := val_big m Fm). rewrite Rabs_pos_eq in Q by exact Pm.
  destruct (result_finite _ _ N2 K2) as [F W]; [rewrite Rabs_pos_eq; lra|]. split; [exact F|]. now rewrite W.
Qed.
Print Assumptions C124_bounded.
(** In the centre it is the maximum. *)
Theorem C124_centre exp pos sigma m : exp_ok exp -> vfinite pos -> usual_sigmas sigma -> finite m = true -> finite (fgauss exp pos sigma m pos) = true /\ val (fgauss exp pos sigma m pos) = val m.
Proof.
  intros (_ & E & _) Fp S Fm. assert (G : forall a, usual_gap a a) by (intros a; left; ring). destruct (C124_exponent pos sigma pos Fp Fp (conj (G _) (conj (G _) (G _))) S) as (a & H & Fa & B). rewrite H.
  assert (Z : exponent pos sigma pos = 0) by (unfold exponent; rewrite !Rminus_eq_0; unfold Rdiv; ring). rewrite Z in B. rewrite E by (assumption || lra). destruct (fmult_key m fone Fm fone_finite) as [N K]. rewrite fone_val, Rmult_1_r in K. assert (Q := val_big m Fm). destruct (result_finite _ _ N K) as [F V]; [now rewrite rnd_val|]. split; [exact F|]. now rewrite V, rnd_val.
Qed.
Print Assumptions C124_centre.
(** For a tiny standard deviation its square is zero, and the density in the centre is not a number. *)
Theorem C124_bounded_refuted exp : exp_ok exp -> ~ forall pos sigma m p, vfinite pos -> vfinite p -> vfinite sigma -> 0 < val (fx sigma) -> 0 < val (fy sigma) -> 0 < val (fz sigma) -> finite m = true -> 0 <= val m -> finite (fgauss exp pos sigma m p) = true.
Proof.
  intros (_ & _ & E) H. set (t := fmake 1 (-600)). assert (T : finite t = true /\ val t = IZR (2 ^ 52) * bpow radix2 (-652)) by (apply val_sf; vm_compute; reflexivity). destruct T as [Ft Vt]. assert (P : 0 < val t) by (rewrite Vt; apply Rmult_lt_0_compat; [apply IZR_lt; reflexivity|apply bpow_gt_0]).
  set (o := FV fzero fzero fzero). assert (Fo : vfinite o) by now repeat split. specialize (H o (FV t t t) fone o Fo Fo (conj Ft (conj Ft Ft)) P P P fone_finite ltac:(rewrite fone_val; lra)). unfold fgauss in H.
  assert (N : is_nan (fgauss_arg (fvsub o o) (FV t t t)) = true) by (vm_compute; reflexivity). apply E in N. destruct (exp _); discriminate.
Qed.
Print Assumptions C124_bounded_refuted.

(** Exchanging the centre and the point changes nothing: bit for bit, for all Floats. *)
Theorem C124_symmetric exp pos sigma m p : fgauss exp pos sigma m p = fgauss exp p sigma m pos.
Proof.
  unfold fgauss, fgauss_arg, fgauss_term. destruct (vneg_sub pos p) as (A & B & C). now rewrite (neg_square _ _ A), (neg_square _ _ B), (neg_square _ _ C).
Qed.
Print Assumptions C124_symmetric.

(** ** Farther away the density is not larger *)
Lemma top x y : is_nan x = false -> y = B754_infinity false -> key x <= key y.
Proof. intros N ->. cbn. apply key_bounds. Qed.
Lemma below_finite x y : nn x -> finite y = true -> key x <= key y -> finite x = true /\ 0 <= val x <= val y.
Proof.
  intros Hx Fy L. destruct (nn_cases x Hx) as [->|[F P]].
  - exfalso. change (big <= key y) in L. rewrite (key_finite y Fy) in L. assert (B := val_big' y). lra.
  - split; [exact F|]. rewrite !key_finite in L by assumption. lra.
Qed.
Lemma sq_mono a b a' : finite a = true -> finite b = true -> finite a' = true -> Rabs (val a - val b) <= Rabs (val a - val a') -> key (fmult (fminus a b) (fminus a b)) <= key (fmult (fminus a a') (fminus a a')).
Proof.
  intros Fa Fb Fc L. destruct (fminus_key a b Fa Fb) as [N K]. destruct (fminus_key a a' Fa Fc) as [N' K']. assert (S : nn (fmult (fminus a b) (fminus a b))) by now apply sq_nn. set (q := fminus a b) in *. set (q' := fminus a a') in *.
  assert (A : forall x, Rabs (clamp (rnd x)) = clamp (rnd (Rabs x))).
  { intros x. assert (B := big_pos). replace (rnd (Rabs x)) with (Rabs (rnd x)) by (unfold rnd; rewrite round_NE_abs; [reflexivity|typeclasses eauto]). set (r := rnd x). unfold clamp, Rmax, Rmin. destruct (Rle_dec big r), (Rle_dec big (Rabs r)); repeat (destruct (Rle_dec _ _)); unfold Rabs in *; repeat destruct (Rcase_abs _); lra. }
  assert (M : Rabs (key q) <= Rabs (key q')) by (rewrite K, K', !A; now apply clamp_mono, rnd_mono).
  destruct (finite q') eqn:F'.
  - assert (F : finite q = true). { apply finite_key; [exact N|]. assert (F2 := F'). apply (finite_key q' N') in F2. assert (X : Rabs (key q) < big) by (apply Rle_lt_trans with (1 := M); apply Rabs_def1; lra). apply Rabs_def2 in X. lra. }
    rewrite !key_finite in M by assumption. destruct (fmult_key q q F F) as [_ ->]. destruct (fmult_key q' q' F' F') as [_ ->]. apply clamp_mono, rnd_mono. apply Rsqr_le_abs_1 in M. exact M.
  - apply top; [apply S|]. destruct q' as [|[]| |]; try discriminate; reflexivity.
Qed.
Lemma div_mono x y d : nn x -> nn y -> finite d = true -> 0 < val d -> key x <= key y -> key (fdivide x d) <= key (fdivide y d).
Proof.
  intros Hx Hy F P L. destruct (nn_cases y Hy) as [->|[Fy Py]].
  - apply top; [now apply div_nn|]. destruct d as [s| | |s m e H]; try discriminate; [cbn in P; lra|]. destruct s; [|reflexivity]. exfalso. assert (Q := sign_val (B754_finite true m e H) F). cbn [Bsign] in Q. lra.
  - destruct (below_finite x y Hx Fy L) as [Fx B]. destruct (fdivide_key x d Fx F ltac:(lra)) as [_ ->]. destruct (fdivide_key y d Fy F ltac:(lra)) as [_ ->]. apply clamp_mono, rnd_mono. unfold Rdiv. apply Rmult_le_compat_r; [left; now apply Rinv_0_lt_compat|lra].
Qed.
Lemma plus_mono x y x' y' : nn x -> nn y -> nn x' -> nn y' -> key x <= key x' -> key y <= key y' -> key (fplus x y) <= key (fplus x' y').
Proof.
  intros Hx Hy Hx' Hy' A B. assert (N := proj1 (plus_nn x y Hx Hy)). destruct (nn_cases x' Hx') as [->|[Fx Px]].
  - apply top; [exact N|]. destruct (nn_cases y' Hy') as [->|[Fy Py]]; [reflexivity|]. destruct y'; try discriminate; reflexivity.
  - destruct (nn_cases y' Hy') as [->|[Fy Py]]; [apply top; [exact N|]; destruct x'; try discriminate; reflexivity|].
    destruct (below_finite x x' Hx Fx A) as [F1 B1]. destruct (below_finite y y' Hy Fy B) as [F2 B2]. destruct (fplus_key x y F1 F2) as [_ ->]. destruct (fplus_key x' y' Fx Fy) as [_ ->]. apply clamp_mono, rnd_mono. lra.
Qed.
Lemma half_mono x y : nn x -> nn y -> key x <= key y -> key (fmult fmhalf y) <= key (fmult fmhalf x).
Proof.
  intros Hx Hy L. destruct mhalf_ok as [F V]. destruct (nn_cases y Hy) as [->|[Fy Py]].
  - assert (E : fmult fmhalf (B754_infinity false) = B754_infinity true) by (vm_compute; reflexivity). rewrite E. cbn. apply key_bounds.
  - destruct (below_finite x y Hx Fy L) as [Fx B]. destruct (fmult_key fmhalf x F Fx) as [_ ->]. destruct (fmult_key fmhalf y F Fy) as [_ ->]. rewrite V. apply clamp_mono, rnd_mono. lra.
Qed.
Theorem C124_monotone exp pos sigma m p q : exp_ok exp -> exp_monotone exp -> vfinite pos -> vfinite p -> vfinite q -> usual_sigmas sigma -> finite m = true -> 0 <= val m -> nearer pos p q ->
  val (fgauss exp pos sigma m q) <= val (fgauss exp pos sigma m p).
Proof.
  intros E Mo Hpos Hp Hq Hs Fm Pm (L1 & L2 & L3). destruct (C124_bounded exp pos sigma m p E Hpos Hp Hs Fm Pm) as [Gp _]. destruct (C124_bounded exp pos sigma m q E Hpos Hq Hs Fm Pm) as [Gq _].
  destruct Hpos as (F1 & F2 & F3), Hp as (P1 & P2 & P3), Hq as (Q1 & Q2 & Q3), Hs as (S1 & S2 & S3).
  assert (T : forall a b s, finite a = true -> finite b = true -> usual_sigma s -> nn (fgauss_term (fminus a b) s)).
  { intros a b s Fa Fb Hs. destruct (sigma_sq s Hs) as (G & B & _). assert (P := bpow_gt_0 radix2 (-400)). apply div_nn; [apply sq_nn, (fminus_key a b Fa Fb)|exact G|lra]. }
  assert (D : forall a b c s, finite a = true -> finite b = true -> finite c = true -> usual_sigma s -> Rabs (val a - val b) <= Rabs (val a - val c) -> key (fgauss_term (fminus a b) s) <= key (fgauss_term (fminus a c) s)).
  { intros a b c s Fa Fb Fc Hs L. destruct (sigma_sq s Hs) as (G & B & _). assert (P := bpow_gt_0 radix2 (-400)). apply div_mono; [apply sq_nn, (fminus_key a b Fa Fb)|apply sq_nn, (fminus_key a c Fa Fc)|exact G|lra|now apply sq_mono]. }
  assert (Np := plus_nn _ _ (plus_nn _ _ (T _ _ _ F1 P1 S1) (T _ _ _ F2 P2 S2)) (T _ _ _ F3 P3 S3)). assert (Nq := plus_nn _ _ (plus_nn _ _ (T _ _ _ F1 Q1 S1) (T _ _ _ F2 Q2 S2)) (T _ _ _ F3 Q3 S3)).
  assert (K : key (fgauss_arg (fvsub pos q) sigma) <= key (fgauss_arg (fvsub pos p) sigma)).
  { apply half_mono; [exact Np|exact Nq|]. apply plus_mono; try (apply plus_nn); try (now apply T); try (now apply D). apply plus_mono; try (now apply T); now apply D. }
  destruct (half_np _ Np) as [Ap Bp]. destruct (half_np _ Nq) as [Aq Bq]. change (fmult fmhalf _) with (fgauss_arg (fvsub pos p) sigma) in Ap, Bp. change (fmult fmhalf _) with (fgauss_arg (fvsub pos q) sigma) in Aq, Bq.
  assert (X : val (exp (fgauss_arg (fvsub pos q) sigma)) <= val (exp (fgauss_arg (fvsub pos p) sigma))).
  { apply Mo; [exact Aq|exact Ap| |]; rewrite ltb_key by (assumption || reflexivity); apply Rlt_bool_false; [exact K|]. exact Bp. }
  destruct E as (E & _). destruct (E _ (np_cases _ Ap Bp)) as [Ep _]. destruct (E _ (np_cases _ Aq Bq)) as [Eq _]. unfold fgauss in *.
  destruct (fmult_key _ _ Fm Ep) as [N1 K1]. destruct (fmult_key _ _ Fm Eq) as [N2 K2]. rewrite (finite_result _ _ N1 K1 Gp), (finite_result _ _ N2 K2 Gq). apply rnd_mono. now apply Rmult_le_compat_l.
Qed.
Print Assumptions C124_monotone.

(** ** The hypotheses are met *)
(** A coarse exp: zero for negative numbers, one for the others *)
Definition example_exp (x : flt) : flt := match x with B754_zero _ => fone | B754_nan => B754_nan | B754_infinity true => fzero | B754_infinity false => B754_infinity false | B754_finite true _ _ _ => fzero | _ => fone end.
Example C124_instance_exp : exp_ok example_exp.
Proof.
  split; [|split].
  - intros x [->|[N K]]; [split; [reflexivity|cbn; lra]|]. assert (Z : finite fzero = true /\ 0 <= val fzero <= 1) by (split; [reflexivity|cbn; lra]). assert (O : finite fone = true /\ 0 <= val fone <= 1) by (rewrite fone_val; split; [apply fone_finite|lra]). destruct x as [s|[]| |[] m e H]; try discriminate; cbn [example_exp]; assumption.
  - intros x F V. destruct x as [s| | |s m e H]; try discriminate; [reflexivity|]. exfalso. cbn in V. apply eq_0_F2R in V. destruct s; discriminate V.
  - intros x N. destruct x; try discriminate. reflexivity.
Qed.
Example C124_instance : usual_sigmas (FV fone fone fone) /\ vfinite (FV fzero fone fzero) /\ usual_gaps (FV fzero fone fzero) (FV fzero fzero fone).
Proof.
  assert (B : bpow radix2 (-200) <= 1 <= bpow radix2 200) by (change 1 with (bpow radix2 0); split; apply bpow_le; lia). assert (U : usual_sigma fone) by (split; [apply fone_finite|now rewrite fone_val, Rabs_R1]). repeat split; try apply U; try reflexivity.
  - left. cbn. lra.
  - right. cbn [fy]. rewrite fone_val. change (val fzero) with 0. now rewrite Rminus_0_r, Rabs_R1.
  - right. cbn [fz]. rewrite fone_val. change (val fzero) with 0. now rewrite Rminus_0_l, Rabs_Ropp, Rabs_R1.
Qed.
Example C124_instance_monotone : exp_monotone example_exp.
Proof.
  intros x y Nx Ny L Z. rewrite ltb_key in L, Z by (assumption || reflexivity). assert (B := big_pos).
  assert (L' : key x <= key y) by (destruct (Rle_or_lt (key x) (key y)) as [H|H]; [exact H|]; rewrite Rlt_bool_true in L by exact H; discriminate).
  assert (Z' : key y <= 0) by (destruct (Rle_or_lt (key y) 0) as [H|H]; [exact H|]; rewrite Rlt_bool_true in Z by exact H; discriminate).
  assert (U : val (example_exp x) <= 1) by (destruct x as [s|[]| |[] mx ex Hx]; cbn [example_exp]; rewrite ?fone_val; cbn [val B2R fzero]; lra).
  assert (W : key y < 0 -> val (example_exp x) = 0).
  { intros H. assert (K : key x < 0) by lra. destruct x as [s|[]| |[] mx ex Hx]; try reflexivity; cbn in K; try lra. exfalso. assert (Q := sign_val (B754_finite false mx ex Hx) eq_refl). cbn in Q. cbn in K. lra. }
  destruct y as [s|[]| |[] my ey Hy]; try discriminate; cbn [example_exp]; rewrite ?fone_val; try lra.
  - rewrite W by (cbn; lra). apply Rle_refl.
  - cbn in Z'. lra.
  - rewrite W; [apply Rle_refl|]. cbn. apply F2R_lt_0. reflexivity.
Qed.
Example C124_instance_nearer : nearer (FV fzero fzero fzero) (FV fzero fone fzero) (FV fone fone fzero).
Proof. unfold nearer. cbn [fx fy fz]. rewrite fone_val. change (val fzero) with 0. rewrite Rminus_0_r, Rabs_R0, Rminus_0_l, Rabs_Ropp, Rabs_R1. lra. Qed.
