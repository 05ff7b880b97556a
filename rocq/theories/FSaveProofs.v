From Coq Require Import Reals ZArith Bool Lra Lia Psatz.
From Flocq Require Import Core.Core IEEE754.BinarySingleNaN Relative.
From Verif Require Import Base RBase RngModel FltModel FltProofs FBoundModel FBoundSpec FBoundProofs FRasterModel FRasterProofs FSaveModel FSaveSpec.
Local Open Scope R_scope.

(** ** The exponent *)
Lemma gamma_val : finite fgamma = true /\ val fgamma = IZR 8188362958855447 * bpow radix2 (- 54).
Proof. apply val_sf. vm_compute. reflexivity. Qed.
Lemma gamma_eq : val fgamma = 8188362958855447 / 18014398509481984.
Proof. rewrite (proj2 gamma_val). change (bpow radix2 (- 54)) with (/ 18014398509481984). unfold Rdiv. reflexivity. Qed.
Lemma gamma_near : 0 < val fgamma < 1 /\ Rabs (val fgamma - 1 / (22 / 10)) <= / 2 ^ 54.
Proof.
  rewrite gamma_eq. replace (2 ^ 54) with 18014398509481984 by (simpl; ring). split; [lra|]. apply Rabs_le. lra.
Qed.
Lemma gamma_not_int z : val fgamma <> IZR z.
Proof.
  destruct gamma_near as [B _]. intros E. rewrite E in B. destruct B as [A B]. apply lt_IZR in A. apply lt_IZR in B. lia.
Qed.

(** ** Powers *)
Lemma exp_near x : Rabs x <= / 2 -> Rabs (exp x - 1) <= 2 * Rabs x.
Proof.
  intros H. assert (E : 1 + x <= exp x) by apply exp_ineq1_le. assert (E' : 1 + - x <= exp (- x)) by apply exp_ineq1_le.
  assert (P := exp_pos x). assert (I : exp x * exp (- x) = 1) by (rewrite <- exp_plus, Rplus_opp_r; apply exp_0).
  apply Rabs_le_inv in H. assert (U : exp x * (1 - x) <= 1) by (rewrite <- I; apply Rmult_le_compat_l; lra).
  apply Rabs_le. destruct (Rle_dec 0 x) as [N|N]; [rewrite Rabs_pos_eq by lra|rewrite Rabs_left by lra].
  - split; [lra|]. nra.
  - split; [lra|]. nra.
Qed.
Lemma ln2_bounds : 0 < ln 2 <= 1.
Proof.
  split; [rewrite <- ln_1; apply ln_increasing; lra|]. assert (H := exp_ineq1_le 1). apply Rnot_lt_le. intros L. apply exp_increasing in L. rewrite exp_ln in L by lra. lra.
Qed.
Lemma ln_pow2 n : ln (2 ^ n) = INR n * ln 2.
Proof. rewrite <- (Rpower_pow n 2) by lra. unfold Rpower. now rewrite ln_exp. Qed.
(** The smallest positive Float *)
Lemma val_least x : 0 < val x -> / 2 ^ 1074 <= val x.
Proof.
  intros P. destruct x as [s|s| |s m e B]; try (cbn in P; lra). unfold val in *. cbn [B2R] in *. destruct s.
  - exfalso. assert (H : F2R (Float radix2 (cond_Zopp true (Zpos m)) e) < 0) by (now apply F2R_lt_0). lra.
  - assert (Hb : (-1074 <= e)%Z).
    { unfold SpecFloat.bounded in B. apply andb_prop in B. destruct B as [B _]. unfold SpecFloat.canonical_mantissa in B. apply Zeq_bool_eq in B. rewrite <- B. unfold SpecFloat.fexp, SpecFloat.emin. lia. }
    rewrite inv_pow_bpow. change (- Z.of_nat 1074)%Z with (-1074)%Z. apply Rle_trans with (bpow radix2 e); [now apply bpow_le|].
    unfold F2R. cbn [Fnum Fexp cond_Zopp]. rewrite <- (Rmult_1_l (bpow radix2 e)) at 1. apply Rmult_le_compat_r; [apply bpow_ge_0|]. apply IZR_le. lia.
Qed.
Definition P (v : R) : R := Rpower v (1 / (22 / 10)).
Lemma P_pos v : 0 < P v. Proof. apply exp_pos. Qed.
Section Value.
Variable t : flt.
Hypothesis Ft : finite t = true.
Hypothesis Pt : 0 < val t.
Let v := val t.
Lemma ln_range : - 1074 <= ln v /\ (forall n : nat, v <= 2 ^ n -> ln v <= INR n).
Proof.
  assert (L := val_least t Pt). fold v in L. destruct ln2_bounds as [A B]. split.
  - assert (H : ln (/ 2 ^ 1074) <= ln v).
    { destruct L as [L|L]; [|rewrite <- L; apply Rle_refl]. left. apply ln_increasing; [apply Rinv_0_lt_compat, pow_lt; lra|exact L]. }
    rewrite ln_Rinv in H by (apply pow_lt; lra). rewrite ln_pow2 in H. replace (INR 1074) with 1074 in H by (rewrite INR_IZR_INZ; reflexivity). nra.
  - intros n H. assert (K : ln v <= ln (2 ^ n)). { destruct H as [H|H]; [left; apply ln_increasing; [exact Pt|exact H]|rewrite H; apply Rle_refl]. }
    rewrite ln_pow2 in K. assert (N := pos_INR n). nra.
Qed.
(** The power with the computed exponent *)
Lemma power_near : v <= 2 ^ 1024 -> Rabs (Rpower v (val fgamma) - P v) <= / 2 ^ 42 * P v.
Proof.
  intros U. destruct gamma_near as [_ G]. destruct ln_range as [L1 L2]. specialize (L2 _ U). replace (INR 1024) with 1024 in L2 by (rewrite INR_IZR_INZ; reflexivity).
  set (d := (val fgamma - 1 / (22 / 10)) * ln v). assert (E : Rpower v (val fgamma) = P v * exp d).
  { unfold P, Rpower, d. rewrite <- exp_plus. f_equal. ring. }
  assert (D : Rabs d <= / 2 ^ 43).
  { unfold d. rewrite Rabs_mult. assert (A : Rabs (ln v) <= 1074) by (apply Rabs_le; lra). apply Rle_trans with (/ 2 ^ 54 * 1074); [apply Rmult_le_compat; auto using Rabs_pos|].
    replace (2 ^ 54) with 18014398509481984 by (simpl; ring). replace (2 ^ 43) with 8796093022208 by (simpl; ring). lra. }
  assert (S : Rabs (exp d - 1) <= / 2 ^ 42).
  { eapply Rle_trans; [apply exp_near|]; [eapply Rle_trans; [exact D|]|]; replace (2 ^ 43) with 8796093022208 in * by (simpl; ring); replace (2 ^ 42) with 4398046511104 by (simpl; ring); lra. }
  rewrite E. replace (P v * exp d - P v) with ((exp d - 1) * P v) by ring. rewrite Rabs_mult, (Rabs_pos_eq (P v)) by (left; apply P_pos). apply Rmult_le_compat_r; [left; apply P_pos|exact S].
Qed.
Lemma P_le n m : v <= 2 ^ n -> INR n * 5 <= INR m * 11 -> P v <= 2 ^ m.
Proof.
  intros U I. rewrite <- (Rpower_pow m 2) by lra. unfold P, Rpower. apply Raux.exp_le. assert (K : ln v <= INR n * ln 2).
  { rewrite <- ln_pow2. destruct U as [H|H]; [left; apply ln_increasing; [exact Pt|exact H]|rewrite H; apply Rle_refl]. }
  destruct ln2_bounds. nra.
Qed.
Lemma P_ge n m : 2 ^ n <= v -> INR m * 11 <= INR n * 5 -> 2 ^ m <= P v.
Proof.
  intros U I. rewrite <- (Rpower_pow m 2) by lra. unfold P, Rpower. apply Raux.exp_le. assert (K : INR n * ln 2 <= ln v).
  { rewrite <- ln_pow2. destruct U as [H|H]; [left; apply ln_increasing; [apply pow_lt; lra|exact H]|rewrite H; apply Rle_refl]. }
  destruct ln2_bounds. nra.
Qed.
Lemma P_tiny n m : v <= / 2 ^ n -> INR m * 11 <= INR n * 5 -> P v <= / 2 ^ m.
Proof.
  intros U I. rewrite <- (Rpower_pow m 2) by lra. rewrite <- Rpower_Ropp. unfold P, Rpower. apply Raux.exp_le. assert (K : ln v <= - (INR n * ln 2)).
  { rewrite <- ln_pow2. rewrite <- ln_Rinv by (apply pow_lt; lra). destruct U as [H|H]; [left; apply ln_increasing; [exact Pt|exact H]|rewrite H; apply Rle_refl]. }
  destruct ln2_bounds. nra.
Qed.
Lemma P_least : / 2 ^ 489 <= P v.
Proof.
  rewrite <- (Rpower_pow 489 2) by lra. rewrite <- Rpower_Ropp. unfold P, Rpower. apply Raux.exp_le. assert (L := val_least t Pt). fold v in L.
  assert (K : - (INR 1074 * ln 2) <= ln v).
  { rewrite <- ln_pow2. rewrite <- ln_Rinv by (apply pow_lt; lra). destruct L as [H|H]; [left; apply ln_increasing; [apply Rinv_0_lt_compat, pow_lt; lra|exact H]|rewrite H; apply Rle_refl]. }
  destruct ln2_bounds. rewrite !INR_IZR_INZ in *. cbn [Z.of_nat Pos.of_succ_nat Pos.succ] in *. nra.
Qed.
End Value.

(** ** The scaled power *)
Section Byte.
Variable pow : flt -> flt -> flt.
Hypothesis Hp : pow_spec pow.
Lemma near : pow_near pow. Proof. exact (proj1 Hp). Qed.
Definition scaled (t : flt) : flt := fmult (fofint 256) (pow t fgamma).
Lemma c256 : finite (fofint 256) = true /\ val (fofint 256) = 256.
Proof. apply fofint_ok. lia. Qed.
Lemma pow_bounds (t : flt) : 0 < val t -> val t <= 2 ^ 1024 -> / 2 ^ 1000 <= Rpower (val t) (val fgamma) <= 2 ^ 1000 /\ Rpower (val t) (val fgamma) <= 2 * P (val t).
Proof.
  intros Pt U. assert (N := power_near t Pt U). apply Rabs_le_inv in N. assert (L := P_least t Pt). assert (Q := P_pos (val t)). replace (2 ^ 42) with 4398046511104 in N by (simpl; ring).
  assert (H : P (val t) <= 2 ^ 466) by (apply (P_le t Pt 1024); [exact U|]; rewrite !INR_IZR_INZ; apply Rminus_le; cbn [Z.of_nat Pos.of_succ_nat Pos.succ]; lra).
  assert (A : / 2 ^ 1000 <= / 2 ^ 490) by (apply Rinv_le; [apply pow_lt; lra|apply Rle_pow; [lra|lia]]).
  assert (B : 2 ^ 467 <= 2 ^ 1000) by (apply Rle_pow; [lra|lia]).
  assert (C : / 2 ^ 490 * 2 = / 2 ^ 489) by (rewrite <- (tech_pow_Rmult 2 489); field; apply pow_nonzero; lra).
  assert (D : 2 ^ 467 = 2 * 2 ^ 466) by now rewrite <- (tech_pow_Rmult 2 466).
  split; [split|]; nra.
Qed.
Lemma power_ok (t : flt) : finite t = true -> 0 < val t -> val t <= 2 ^ 1024 ->
  finite (pow t fgamma) = true /\ Rabs (val (pow t fgamma) - P (val t)) <= / 2 ^ 41 * P (val t).
Proof.
  intros F Pt U. destruct (pow_bounds t Pt U) as [B B2]. destruct (near t fgamma F (proj1 gamma_val) Pt B) as [Fp Ep]. split; [exact Fp|].
  assert (N := power_near t Pt U). assert (Q := P_pos (val t)). apply Rabs_le_inv in N. apply Rabs_le_inv in Ep. replace (2 ^ 42) with 4398046511104 in N by (simpl; ring). replace (2 ^ 52) with 4503599627370496 in Ep by (simpl; ring). replace (2 ^ 41) with 2199023255552 by (simpl; ring).
  apply Rabs_le. lra.
Qed.
Lemma scaled_key (t : flt) : finite t = true -> 0 < val t -> is_nan (scaled t) = false /\ key (scaled t) = clamp (rnd (256 * val (pow t fgamma))).
Proof.
  intros F Pt. assert (U : val t <= 2 ^ 1024) by (rewrite <- big_pow; assert (B := val_big' t); lra). destruct (power_ok t F Pt U) as [Fp _]. destruct c256 as [A B]. unfold scaled. rewrite <- B. now apply fmult_key.
Qed.
Lemma scaled_ok (t : flt) : finite t = true -> 0 < val t -> val t <= 2 ^ 48 ->
  finite (scaled t) = true /\ Rabs (val (scaled t) - 256 * P (val t)) <= / 2 ^ 40 * (256 * P (val t)).
Proof.
  intros F Pt U. assert (U' : val t <= 2 ^ 1024) by (eapply Rle_trans; [exact U|apply Rle_pow; [lra|lia]]). destruct (power_ok t F Pt U') as [Fp Ep]. assert (Q := P_pos (val t)). apply Rabs_le_inv in Ep. destruct c256 as [A B].
  assert (H : P (val t) <= 2 ^ 22) by (apply (P_le t Pt 48); [exact U|]; rewrite !INR_IZR_INZ; cbn [Z.of_nat Pos.of_succ_nat Pos.succ]; lra). replace (2 ^ 22) with 4194304 in H by (simpl; ring). replace (2 ^ 41) with 2199023255552 in Ep by (simpl; ring).
  destruct (mult_at (fofint 256) (pow t fgamma) A Fp) as [Fs Vs]; [rewrite B; lra|]. rewrite B in Vs. split; [exact Fs|]. unfold scaled. rewrite Vs.
  assert (L := P_least t Pt). assert (Z : / 2 ^ 1022 <= / 2 ^ 489) by (apply Rinv_le; [apply pow_lt; lra|apply Rle_pow; [lra|lia]]).
  destruct (rnd_rel (256 * val (pow t fgamma))) as (d & D & E); [rewrite Rabs_pos_eq by lra; lra|]. rewrite E. apply Rabs_le_inv in D. replace (2 ^ 53) with 9007199254740992 in D by (simpl; ring). replace (2 ^ 40) with 1099511627776 by (simpl; ring).
  apply Rabs_le. nra.
Qed.
Lemma byte_of (t : flt) : finite (scaled t) = true -> 0 <= val (scaled t) < 2147483648 -> fbyte pow t = Ok (quantised (val (scaled t))).
Proof.
  intros F B. unfold fbyte. fold (scaled t). assert (Z0 : (0 <= Zfloor (val (scaled t)))%Z) by (apply Zfloor_lub; lra). assert (Z1 : (Zfloor (val (scaled t)) < 2 ^ 31)%Z) by (apply lt_IZR; eapply Rle_lt_trans; [apply Zfloor_lb|lra]).
  rewrite (fint_ok (scaled t) (Zfloor (val (scaled t))) F (Ztrunc_floor _ (proj1 B))) by lia. cbn [obind]. f_equal. unfold quantised, zclamp. lia.
Qed.
Lemma zero_scaled (t : flt) : finite t = true -> val t = 0 -> finite (scaled t) = true /\ val (scaled t) = 0.
Proof.
  intros F Z. destruct (Hp : pow_spec pow) as (_ & Zp & _). destruct (Zp t fgamma F (proj1 gamma_val) Z (proj1 (proj1 gamma_near))) as [Fp Vp]. destruct c256 as [A B].
  destruct (mult_at (fofint 256) (pow t fgamma) A Fp) as [Fs Vs]; [rewrite Vp; lra|]. split; [exact Fs|]. unfold scaled. rewrite Vs, Vp, Rmult_0_r. apply rnd_0.
Qed.
Lemma small_ok (t : flt) : finite t = true -> 0 <= val t <= 2 ^ 48 ->
  finite (scaled t) = true /\ Rabs (val (scaled t) - encoded (val t)) <= / 2 ^ 40 * encoded (val t) /\ 0 <= val (scaled t) < 2147483648.
Proof.
  intros F [L U]. unfold encoded. destruct (Req_EM_T (val t) 0) as [Z|N].
  - destruct (zero_scaled t F Z) as [Fs Vs]. rewrite Vs, Rminus_0_r, Rabs_R0, Rmult_0_r. repeat split; (assumption || lra).
  - assert (Pt : 0 < val t) by lra. destruct (scaled_ok t F Pt U) as [Fs E]. split; [exact Fs|]. split; [exact E|]. assert (Q := P_pos (val t)). apply Rabs_le_inv in E. replace (2 ^ 40) with 1099511627776 in E by (simpl; ring).
    assert (H : P (val t) <= 2 ^ 22) by (apply (P_le t Pt 48); [exact U|]; rewrite !INR_IZR_INZ; cbn [Z.of_nat Pos.of_succ_nat Pos.succ]; lra). replace (2 ^ 22) with 4194304 in H by (simpl; ring). lra.
Qed.
Lemma large_ub (t : flt) : finite t = true -> 2 ^ 53 <= val t -> fbyte pow t = UB.
Proof.
  intros F G. assert (Pt : 0 < val t) by (assert (0 < 2 ^ 53) by (apply pow_lt; lra); lra). assert (U : val t <= 2 ^ 1024) by (rewrite <- big_pow; assert (B := val_big' t); lra).
  destruct (power_ok t F Pt U) as [Fp Ep]. destruct (scaled_key t F Pt) as [Nn K]. unfold fbyte. fold (scaled t). unfold fint. destruct (is_finite (scaled t)) eqn:Fs; [|reflexivity]. cbn [negb].
  assert (V := finite_result _ _ Nn K Fs). rewrite btrunc_val, V. apply Rabs_le_inv in Ep. replace (2 ^ 41) with 2199023255552 in Ep by (simpl; ring).
  assert (H : 2 ^ 24 <= P (val t)) by (apply (P_ge t 53); [exact G|]; rewrite !INR_IZR_INZ; cbn [Z.of_nat Pos.of_succ_nat Pos.succ]; lra). replace (2 ^ 24) with 16777216 in H by (simpl; ring).
  assert (M : 2147483648 <= rnd (256 * val (pow t fgamma))).
  { destruct (fofint_ok (2 ^ 31) ltac:(lia)) as [_ W]. change (IZR (2 ^ 31)) with 2147483648 in W. rewrite <- W, <- rnd_val. apply rnd_mono. rewrite W. lra. }
  assert (T : (2 ^ 31 <= Ztrunc (rnd (256 * val (pow t fgamma))))%Z) by (rewrite Ztrunc_floor by lra; apply Zfloor_lub; exact M).
  destruct (Z.leb_spec (- 2 ^ 31) (Ztrunc (rnd (256 * val (pow t fgamma))))); [|reflexivity]. destruct (Z.ltb_spec (Ztrunc (rnd (256 * val (pow t fgamma)))) (2 ^ 31)); [lia|reflexivity].
Qed.
Lemma negative_ub (t : flt) : finite t = true -> val t < 0 -> fbyte pow t = UB.
Proof.
  intros F N. destruct (Hp : pow_spec pow) as (_ & _ & Ng & _). assert (H := Ng t fgamma F (proj1 gamma_val) N gamma_not_int). unfold fbyte. destruct (pow t fgamma); try discriminate. destruct (fofint 256); reflexivity.
Qed.
Lemma special_ub (t : flt) : finite t = false -> fbyte pow t = UB.
Proof.
  intros F. destruct (Hp : pow_spec pow) as (_ & _ & _ & S). assert (H := S t fgamma F (proj1 gamma_val) (proj1 (proj1 gamma_near))). unfold fbyte. destruct c256 as [A B].
  destruct (pow t fgamma) as [s|s| |s m e Bd]; try discriminate; [|destruct (fofint 256); reflexivity]. rewrite mult_inf_r by (exact A || (rewrite B; lra)). reflexivity.
Qed.
End Byte.

(** ** Single precision *)
Notation fmt32 := (SpecFloat.fexp 24 128).
Lemma round32_near x : Rabs (round radix2 fmt32 ZnearestE x - x) <= / 2 ^ 24 * Rabs x + / 2 ^ 150.
Proof.
  destruct (relative_error_N_FLT'_ex radix2 (-149) 24 prec32 (fun n => negb (Z.even n)) x) as (e & h & E & H & _ & R). change (FLT_exp (-149) 24) with fmt32 in R. rewrite R.
  replace (x * (1 + e) + h - x) with (x * e + h) by ring. eapply Rle_trans; [apply Rabs_triang|]. rewrite Rabs_mult.
  assert (E' : Rabs e <= / 2 ^ 24).
  { eapply Rle_trans; [exact E|]. apply Rle_trans with (u_ro radix2 24).
    - assert (U := u_ro_pos radix2 24). unfold Rdiv. rewrite <- (Rmult_1_r (u_ro radix2 24)) at 3. apply Rmult_le_compat_l; [exact U|]. rewrite <- Rinv_1. apply Rinv_le; lra.
    - unfold u_ro. rewrite inv_pow_bpow. change (/ 2) with (bpow radix2 (-1)). rewrite <- bpow_plus. apply Rle_refl. }
  assert (H' : Rabs h <= / 2 ^ 150) by (eapply Rle_trans; [exact H|]; rewrite inv_pow_bpow; change (/ 2) with (bpow radix2 (-1)); rewrite <- bpow_plus; apply Rle_refl).
  assert (A := Rabs_pos x). nra.
Qed.
Lemma bpow_format32 k : (-149 <= k <= 127)%Z -> generic_format radix2 fmt32 (bpow radix2 k).
Proof. intros H. apply generic_format_bpow. unfold SpecFloat.fexp, SpecFloat.emin. lia. Qed.
Lemma single_val (x : flt) : finite x = true -> Rabs (val x) <= bpow radix2 127 -> is_finite (to_f32 x) = true /\ B2R (to_f32 x) = round radix2 fmt32 ZnearestE (val x).
Proof.
  intros F B. destruct x as [s|s| |s m e H]; try discriminate F; cbn [to_f32].
  - split; [easy|]. unfold val. cbn [B2R]. now rewrite round_0 by auto with typeclass_instances.
  - pose proof (binary_normalize_correct 24 128 prec32 emax32 mode_NE (cond_Zopp s (Zpos m)) e s) as C. cbv zeta in C. rewrite Rlt_bool_true in C.
    + now destruct C as [C1 [C2 _]].
    + unfold val in B. cbn [B2R] in B. cbn [round_mode]. apply Rle_lt_trans with (bpow radix2 127); [|apply bpow_lt; reflexivity].
      apply abs_round_le_generic; [apply (fexp_correct 24 128 prec32)|auto with typeclass_instances|apply bpow_format32; lia|exact B].
Qed.
Lemma single_large (x : flt) : finite x = true -> bpow radix2 128 <= Rabs (val x) -> is_finite (to_f32 x) = false /\ is_nan (to_f32 x) = false.
Proof.
  intros F B. destruct x as [s|s| |s m e H]; try discriminate F; cbn [to_f32].
  - unfold val in B. cbn [B2R] in B. rewrite Rabs_R0 in B. assert (P := bpow_gt_0 radix2 128). lra.
  - pose proof (binary_normalize_correct 24 128 prec32 emax32 mode_NE (cond_Zopp s (Zpos m)) e s) as C. cbv zeta in C. rewrite Rlt_bool_false in C.
    + destruct (binary_normalize 24 128 prec32 emax32 mode_NE (cond_Zopp s (Zpos m)) e s); (discriminate C || easy).
    + unfold val in B. cbn [B2R] in B. cbn [round_mode]. apply abs_round_ge_generic; [apply (fexp_correct 24 128 prec32)|auto with typeclass_instances|apply generic_format_bpow; unfold SpecFloat.fexp, SpecFloat.emin; lia|exact B].
Qed.

(** ** A power function as assumed: the exact power rounded *)
Definition of_real (r : R) : flt := fmake (Ztrunc (scaled_mantissa radix2 fexp64 (rnd r))) (cexp radix2 fexp64 (rnd r)).
Lemma of_real_ok r : Rabs (rnd r) < big -> finite (of_real r) = true /\ val (of_real r) = rnd r.
Proof.
  intros B. unfold of_real, fmake. pose proof (binary_normalize_correct 53 1024 prec64 emax64 mode_NE (Ztrunc (scaled_mantissa radix2 fexp64 (rnd r))) (cexp radix2 fexp64 (rnd r)) false) as C. cbv zeta in C.
  assert (G : generic_format radix2 fexp64 (rnd r)) by (apply generic_format_round; auto with typeclass_instances).
  assert (E : F2R (Float radix2 (Ztrunc (scaled_mantissa radix2 fexp64 (rnd r))) (cexp radix2 fexp64 (rnd r))) = rnd r) by (symmetry; exact G).
  rewrite E in C. cbn [round_mode] in C. change (SpecFloat.fexp 53 1024) with fexp64 in C. rewrite round_generic in C by auto with typeclass_instances. rewrite Rlt_bool_true in C by exact B. now destruct C as [C1 [C2 _]].
Qed.
Definition example_pow (x y : flt) : flt :=
  if finite x then (if Rlt_dec 0 (val x) then of_real (Rpower (val x) (val y)) else if Req_EM_T (val x) 0 then fzero else B754_nan) else B754_nan.
Lemma example_near x y : finite x = true -> 0 < val x -> / 2 ^ 1000 <= Rpower (val x) (val y) <= 2 ^ 1000 -> finite (example_pow x y) = true /\ val (example_pow x y) = rnd (Rpower (val x) (val y)).
Proof.
  intros F P0 B. unfold example_pow. rewrite F. destruct (Rlt_dec 0 (val x)); [|contradiction]. apply of_real_ok.
  assert (N := rnd_any (Rpower (val x) (val y))). assert (Q : 0 < Rpower (val x) (val y)) by apply exp_pos. rewrite (Rabs_pos_eq (Rpower _ _)) in N by lra. apply Rabs_le_inv in N.
  assert (T : / 2 ^ 1074 <= 1) by (rewrite <- Rinv_1; apply Rinv_le; [lra|apply pow_R1_Rle; lra]). assert (E := e53_small). rewrite big_pow.
  assert (W : 1 <= 2 ^ 1000) by (apply pow_R1_Rle; lra). assert (X : 2 ^ 1024 = 2 ^ 1000 * 16777216) by (change 1024%nat with (1000 + 24)%nat; rewrite pow_add; f_equal; simpl; ring). rewrite X. apply Rabs_lt. nra.
Qed.
Lemma example_spec : pow_spec example_pow.
Proof.
  repeat split.
  - now apply example_near.
  - destruct (example_near x y H H1 H2) as [_ ->]. destruct (rnd_rel (Rpower (val x) (val y))) as (d & D & E).
    { rewrite Rabs_pos_eq by (left; apply exp_pos). eapply Rle_trans; [|apply H2]. apply Rinv_le; [apply pow_lt; lra|apply Rle_pow; [lra|lia]]. }
    rewrite E. assert (Q : 0 < Rpower (val x) (val y)) by apply exp_pos. apply Rabs_le_inv in D. replace (2 ^ 53) with 9007199254740992 in D by (simpl; ring). replace (2 ^ 52) with 4503599627370496 by (simpl; ring). apply Rabs_le. nra.
  - unfold example_pow. rewrite H. destruct (Rlt_dec 0 (val x)); [lra|]. destruct (Req_EM_T (val x) 0); [reflexivity|contradiction].
  - unfold example_pow. rewrite H. destruct (Rlt_dec 0 (val x)); [lra|]. destruct (Req_EM_T (val x) 0); [reflexivity|contradiction].
  - intros x y F _ N _. unfold example_pow. rewrite F. destruct (Rlt_dec 0 (val x)); [lra|]. destruct (Req_EM_T (val x) 0); [lra|reflexivity].
  - intros x y F _ _. unfold example_pow. now rewrite F.
Qed.
