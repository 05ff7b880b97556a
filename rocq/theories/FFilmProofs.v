From Coq Require Import List Reals ZArith Bool Lra Lia Psatz Permutation.
From Coq Require Import Floats.SpecFloat.
From Flocq Require Import Core.Core IEEE754.BinarySingleNaN Plus_error Relative.
From Verif Require Import RngModel FltModel FltProofs FDistSpec FDistProofs FBoundModel FBoundProofs FFilmModel FFilmSpec FBoundSpec.
Import ListNotations.
Local Open Scope R_scope.

Lemma bits_eq_ok x y : bits_eq x y = true -> x = y.
Proof.
  intros H. apply B2SF_inj. unfold bits_eq in H. destruct (B2SF x) as [s|s| |s m e], (B2SF y) as [t|t| |t n f]; try discriminate; try reflexivity.
  - apply eqb_prop in H. now subst.
  - apply eqb_prop in H. now subst.
  - apply andb_true_iff in H as [H E]. apply andb_true_iff in H as [H M]. apply eqb_prop in H. apply Pos.eqb_eq in M. apply Z.eqb_eq in E. now subst.
Qed.
Lemma fvec_eq_ok a b : fvec_eq a b = true -> a = b.
Proof.
  intros H. unfold fvec_eq in H. apply andb_true_iff in H as [H Z]. apply andb_true_iff in H as [X Y].
  destruct a, b. cbn in *. f_equal; now apply bits_eq_ok.
Qed.
Lemma fcomp_add a b i : fcomp (fvadd a b) i = fplus (fcomp a i) (fcomp b i).
Proof. now destruct i as [|[|i]]. Qed.
Lemma fcomp_fold i vs : forall a, fcomp (fold_left fvadd vs a) i = fold_left (fun x v => fplus x (fcomp v i)) vs (fcomp a i).
Proof. induction vs as [|v vs IH]; intros a; cbn [fold_left]; [reflexivity|]. now rewrite IH, fcomp_add. Qed.

Lemma sum_app i l v : sum_of i (l ++ [v]) = sum_of i l + val (fcomp v i).
Proof. unfold sum_of. induction l as [|x l IH]; cbn [app fold_right]; [ring|]. rewrite IH. ring. Qed.
Lemma abs_app i l v : abs_sum i (l ++ [v]) = abs_sum i l + Rabs (val (fcomp v i)).
Proof. unfold abs_sum. induction l as [|x l IH]; cbn [app fold_right]; [ring|]. rewrite IH. ring. Qed.
Lemma abs_pos i l : 0 <= abs_sum i l.
Proof. unfold abs_sum. induction l as [|x l IH]; cbn [fold_right]; [lra|]. assert (P := Rabs_pos (val (fcomp x i))). lra. Qed.
Lemma sum_abs i l : Rabs (sum_of i l) <= abs_sum i l.
Proof.
  unfold sum_of, abs_sum. induction l as [|x l IH]; cbn [fold_right]; [rewrite Rabs_R0; lra|].
  assert (T := Rabs_triang (val (fcomp x i)) (fold_right (fun v r => val (fcomp v i) + r) 0 l)). lra.
Qed.
Lemma sum_perm i l l' : Permutation l l' -> sum_of i l = sum_of i l' /\ abs_sum i l = abs_sum i l'.
Proof.
  unfold sum_of, abs_sum. induction 1 as [|x l l' _ [A B]|x y l|l l' l'' _ [A B] _ [C D]]; cbn [fold_right]; [easy| | |split; congruence].
  - now rewrite A, B.
  - split; ring.
Qed.

Lemma big_1024 : big = 4 * 2 ^ 1022.
Proof.
  unfold big. rewrite (pow_bpow 1022). change 1024%Z with (2 + Z.of_nat 1022)%Z. rewrite bpow_plus. reflexivity.
Qed.

(** Sums in Float: finite, and off by little *)
Lemma fold_sum i a : finite (fcomp a i) = true -> forall vs, all_finite i vs ->
  2 * INR (length vs) * eps <= 1 -> Rabs (val (fcomp a i)) + abs_sum i vs <= 2 ^ 1022 ->
  let r := fcomp (fold_left fvadd vs a) i in
  finite r = true /\
  Rabs (val r - (val (fcomp a i) + sum_of i vs)) <= ((1 + eps) ^ length vs - 1) * (Rabs (val (fcomp a i)) + abs_sum i vs).
Proof.
  intros Fa vs. cbv zeta. assert (P := eps_pos). assert (Q := eps_small).
  induction vs as [|v vs IH] using rev_ind; intros A N B.
  - cbn [fold_left length pow]. split; [assumption|]. unfold sum_of, abs_sum. cbn [fold_right]. replace (val (fcomp a i) - (val (fcomp a i) + 0)) with 0 by ring. rewrite Rabs_R0. lra.
  - rewrite app_length, plus_INR in N. cbn [length INR] in N. rewrite abs_app in *. assert (Pv := Rabs_pos (val (fcomp v i))).
    destruct IH as [F E]; [intros x X; apply A; apply in_or_app; now left|nra|lra|].
    assert (Fv : finite (fcomp v i) = true) by (apply A; apply in_or_app; right; now left).
    rewrite fold_left_app. cbn [fold_left]. rewrite fcomp_add, sum_app, app_length. cbn [length]. replace (length vs + 1)%nat with (S (length vs)) by lia.
    set (s := fcomp (fold_left fvadd vs a) i) in *. set (t := val (fcomp a i) + sum_of i vs) in *. set (w := val (fcomp v i)) in *.
    set (b := Rabs (val (fcomp a i)) + abs_sum i vs) in *.
    assert (T : Rabs t <= b).
    { unfold t, b. assert (X := Rabs_triang (val (fcomp a i)) (sum_of i vs)). assert (Y := sum_abs i vs). lra. }
    assert (G := pow_linear eps (length vs) ltac:(lra) ltac:(nra)). assert (G1 := pow_ge_1 eps (length vs) ltac:(lra)).
    set (g := (1 + eps) ^ length vs) in *. assert (B0 : 0 <= b) by (apply Rle_trans with (2 := T); apply Rabs_pos).
    assert (Sb : Rabs (val s + w) <= 2 * (b + Rabs w)).
    { assert (X := Rabs_triang (val s - t) (t + w)). replace (val s - t + (t + w)) with (val s + w) in X by ring.
      assert (Y := Rabs_triang t w). assert ((g - 1) * b <= 1 * b) by (apply Rmult_le_compat_r; nra). lra. }
    destruct (fplus_key s (fcomp v i) F Fv) as [Nn K]. fold w in K.
    destruct (plus_error s (fcomp v i)) as (d & D & Ed). fold w in Ed.
    destruct (result_finite _ _ Nn K) as [Fr Er].
    { rewrite Ed, Rabs_mult. apply Rabs_le_inv in D. assert (Rabs (1 + d) <= 3 / 2) by (apply Rabs_le; lra).
      assert (Rabs (val s + w) * Rabs (1 + d) <= (2 * (b + Rabs w)) * (3 / 2)) by (apply Rmult_le_compat; try apply Rabs_pos; lra).
      rewrite big_1024. assert (M0 : 0 < 2 ^ 1022) by (apply pow_lt; lra). assert (B' : b + Rabs w <= 2 ^ 1022) by (unfold b; lra).
      revert M0 B'. generalize (2 ^ 1022). intros. lra. }
    split; [assumption|]. rewrite Er, Ed.
    replace ((val s + w) * (1 + d) - (val (fcomp a i) + (sum_of i vs + w))) with ((val s - t) * (1 + d) + d * (t + w)) by (unfold t; ring).
    assert (T2 := Rabs_triang ((val s - t) * (1 + d)) (d * (t + w))). rewrite !Rabs_mult in T2.
    assert (D2 : Rabs (1 + d) <= 1 + eps) by (apply Rabs_le_inv in D; apply Rabs_le; lra).
    assert (X1 : Rabs (val s - t) * Rabs (1 + d) <= ((g - 1) * b) * (1 + eps)) by (apply Rmult_le_compat; try apply Rabs_pos; assumption).
    assert (X2 : Rabs d * Rabs (t + w) <= eps * (b + Rabs w)).
    { apply Rmult_le_compat; try apply Rabs_pos; [assumption|]. assert (Y := Rabs_triang t w). lra. }
    apply Rle_trans with (1 := T2). cbn [pow]. fold g.
    assert (X3 : 0 <= ((1 + eps) * g - 1 - eps) * Rabs w) by (apply Rmult_le_pos; [nra|assumption]).
    replace (Rabs (val (fcomp a i)) + (abs_sum i vs + Rabs w)) with (b + Rabs w) by (unfold b; ring). nra.
Qed.

(** ** The running average *)
Lemma fcomp_ave k v c i : fcomp (fave_step k v c) i = fave1 k (fcomp v i) (fcomp c i).
Proof. now destruct i as [|[|i]]. Qed.
Fixpoint fave_c (k : Z) (xs : list flt) (c : flt) : flt := match xs with [] => c | x :: r => fave_c (k + 1) r (fave1 k x c) end.
Lemma fcomp_fave i vs : forall k c, fcomp (fave k vs c) i = fave_c k (map (fun v => fcomp v i) vs) (fcomp c i).
Proof. induction vs as [|v vs IH]; intros k c; cbn [fave fave_c map]; [reflexivity|]. now rewrite IH, fcomp_ave. Qed.

Lemma rnd_opp x : rnd (- x) = - rnd x. Proof. apply round_NE_opp. Qed.
Lemma rnd_int z : (Z.abs z <= 2 ^ 53)%Z -> rnd (IZR z) = IZR z.
Proof.
  intros H. apply round_generic; auto with typeclass_instances. apply generic_format_FLT with (emin := (3 - 1024 - 53)%Z) (prec := 53%Z).
  destruct (Z.eq_dec (Z.abs z) (2 ^ 53)) as [E|E].
  - exists (Float radix2 (z / 2) 1); cbn [Fnum Fexp].
    + unfold F2R. cbn [Fnum Fexp]. change (bpow radix2 1) with (IZR 2). rewrite <- mult_IZR. f_equal.
      assert (C : (z = 2 ^ 53 \/ z = - 2 ^ 53)%Z) by lia. destruct C as [->| ->]; reflexivity.
    + assert (C : (z = 2 ^ 53 \/ z = - 2 ^ 53)%Z) by lia. destruct C as [->| ->]; reflexivity.
    + lia.
  - exists (Float radix2 z 0); cbn [Fnum Fexp]; [unfold F2R; cbn [Fnum Fexp bpow]; ring|change (radix2 ^ 53)%Z with (2 ^ 53)%Z; lia|lia].
Qed.
Lemma fmake_int z : (Z.abs z <= 2 ^ 53)%Z -> finite (fmake z 0) = true /\ val (fmake z 0) = IZR z.
Proof.
  intros H. assert (C := binary_normalize_correct 53 1024 prec64 emax64 mode_NE z 0 false).
  assert (E : F2R (Float radix2 z 0) = IZR z) by (unfold F2R; cbn [Fnum Fexp bpow]; ring).
  cbn [round_mode] in C. rewrite E in C. fold (rnd (IZR z)) in C. rewrite (rnd_int z H) in C.
  rewrite Rlt_bool_true in C.
  - destruct C as (V & F & _). split; [exact F|exact V].
  - rewrite <- abs_IZR. apply Rle_lt_trans with (IZR (2 ^ 53)); [now apply IZR_le|].
    change (2 ^ 53)%Z with (radix2 ^ 53)%Z. rewrite (IZR_Zpower radix2 53) by lia. apply bpow_lt. reflexivity.
Qed.

(** The quotient of the difference by 2 or more is at most the difference, as it is. *)
Lemma quotient_le v c n : val c <= val v -> 2 <= n -> 0 <= rnd (rnd (val v - val c) / n) <= val v - val c.
Proof.
  intros L N. set (x := val v - val c) in *. assert (X : 0 <= x) by (unfold x; lra). assert (D := rnd_pos x X). set (dd := rnd x) in *.
  assert (Q0 : 0 <= dd / n) by (apply Rmult_le_pos; [assumption|left; apply Rinv_0_lt_compat; lra]).
  split; [now apply rnd_pos|]. assert (P := eps_pos). assert (Q := eps_small).
  assert (Half : dd / n <= dd / 2) by (apply Rmult_le_compat_l; [assumption|]; apply Rinv_le; lra).
  destruct (minus_error v c) as (d & De & E). fold x dd in E. apply Rabs_le_inv in De.
  assert (DX : dd <= x * (1 + eps)) by (rewrite E; apply Rmult_le_compat_l; lra).
  destruct (Rle_or_lt x (bpow radix2 (-1021))) as [S|S].
  - (* the difference is exact *)
    assert (Ex : dd = x).
    { unfold dd, rnd. apply round_generic; auto with typeclass_instances. unfold x, Rminus.
      apply (FLT_format_plus_small radix2 (3 - 1024 - 53) 53 (prec_gt_0_ := prec64)); [apply val_format|apply generic_format_opp, val_format|].
      fold (Rminus (val v) (val c)). fold x. now rewrite Rabs_pos_eq. }
    rewrite <- Ex. apply Rle_trans with (rnd dd); [apply rnd_mono; lra|]. right. unfold dd, rnd. apply round_generic; auto with typeclass_instances.
    apply generic_format_round; auto with typeclass_instances.
  - destruct (Rle_or_lt (/ 2 ^ 1022) (dd / n)) as [B|B].
    + destruct (rnd_rel (dd / n)) as (f & F & ->); [now rewrite Rabs_pos_eq|]. apply Rabs_le_inv in F. change e53 with eps in F.
      apply Rle_trans with (dd / n * (1 + eps)); [apply Rmult_le_compat_l; lra|].
      apply Rle_trans with (x * (1 + eps) / 2 * (1 + eps)); [apply Rmult_le_compat_r; lra|]. nra.
    + apply Rle_trans with (bpow radix2 (-1022)).
      * assert (G : rnd (bpow radix2 (-1022)) = bpow radix2 (-1022)) by (apply round_generic; auto with typeclass_instances; apply generic_format_bpow; vm_compute; discriminate).
        rewrite <- G. apply rnd_mono. rewrite inv_pow_bpow in B. change (- Z.of_nat 1022)%Z with (-1022)%Z in B. lra.
      * apply Rle_trans with (bpow radix2 (-1021)); [apply bpow_le; lia|lra].
Qed.

(** One step with index at least 1 stays between the old value and the sample. *)
Lemma fave1_between k v c : (1 <= k < 2 ^ 53)%Z -> finite v = true -> finite c = true -> Rabs (val v) <= 2 ^ 1022 -> Rabs (val c) <= 2 ^ 1022 ->
  finite (fave1 k v c) = true /\ Rmin (val c) (val v) <= val (fave1 k v c) <= Rmax (val c) (val v).
Proof.
  intros K Fv Fc Bv Bc. unfold fave1. destruct (fmake_int (k + 1) ltac:(lia)) as [Fn Vn].
  assert (N2 : 2 <= IZR (k + 1)) by (apply IZR_le; lia).
  destruct (moderate_diff v c (conj Fv Bv) (conj Fc Bc)) as [Fd _].
  destruct (fminus_key v c Fv Fc) as [Nd Kd]. assert (Vd := finite_result _ _ Nd Kd Fd).
  destruct (fdivide_key (fminus v c) (fmake (k + 1) 0) Fd Fn ltac:(lra)) as [Nq Kq]. rewrite Vd, Vn in Kq.
  set (q := rnd (rnd (val v - val c) / IZR (k + 1))) in *.
  assert (Q : val c <= val v -> 0 <= q <= val v - val c) by (intros L; now apply quotient_le).
  assert (Q' : val v <= val c -> val v - val c <= q <= 0).
  { intros L. assert (X := quotient_le c v (IZR (k + 1)) L N2).
    replace (val c - val v) with (- (val v - val c)) in X by ring. rewrite rnd_opp in X.
    replace (- rnd (val v - val c) / IZR (k + 1)) with (- (rnd (val v - val c) / IZR (k + 1))) in X by (field; lra). rewrite rnd_opp in X. fold q in X. lra. }
  assert (M0 : 0 < 2 ^ 1022) by (apply pow_lt; lra). assert (Bg := big_1024). apply Rabs_le_inv in Bv, Bc.
  assert (Qb : Rabs q <= 2 * 2 ^ 1022).
  { revert M0 Bv Bc. generalize (2 ^ 1022). intros m M0 Bv Bc. apply Rabs_le. destruct (Rle_or_lt (val c) (val v)) as [L|L]; [specialize (Q L)|specialize (Q' ltac:(lra))]; lra. }
  destruct (result_finite _ _ Nq Kq) as [Fq Vq]; [fold q; rewrite Bg; revert M0 Qb; generalize (2 ^ 1022); intros; lra|]. fold q in Vq.
  destruct (fplus_key c (fdivide (fminus v c) (fmake (k + 1) 0)) Fc Fq) as [Ns Ks]. rewrite Vq in Ks.
  assert (S : Rmin (val c) (val v) <= rnd (val c + q) <= Rmax (val c) (val v)).
  { destruct (Rle_or_lt (val c) (val v)) as [L|L].
    - rewrite Rmin_left, Rmax_right by assumption. specialize (Q L). split; [rewrite <- (rnd_val c) at 1|rewrite <- (rnd_val v)]; apply rnd_mono; lra.
    - rewrite Rmin_right, Rmax_left by lra. specialize (Q' ltac:(lra)). split; [rewrite <- (rnd_val v)|rewrite <- (rnd_val c) at 2]; apply rnd_mono; lra. }
  destruct (result_finite _ _ Ns Ks) as [Fs Vs].
  { assert (Cb : - (2 * 2 ^ 1022) <= rnd (val c + q) <= 2 * 2 ^ 1022).
    { revert M0 Bv Bc. generalize (2 ^ 1022). intros m M0 Bv Bc. unfold Rmin, Rmax in S. destruct (Rle_dec (val c) (val v)); lra. }
    rewrite Bg. revert M0 Cb. generalize (2 ^ 1022). intros. apply Rle_lt_trans with (2 * r); [apply Rabs_le; lra|lra]. }
  split; [assumption|]. now rewrite Vs.
Qed.

(** The first sample replaces zero exactly. *)
Lemma fave1_first v c : finite v = true -> finite c = true -> val c = 0 -> finite (fave1 0 v c) = true /\ val (fave1 0 v c) = val v.
Proof.
  intros Fv Fc Z. unfold fave1. destruct (fmake_int (0 + 1) ltac:(lia)) as [Fn Vn].
  destruct (fminus_key v c Fv Fc) as [Nd Kd]. rewrite Z, Rminus_0_r, rnd_val in Kd.
  assert (B := val_big' v). rewrite clamp_in in Kd by lra. assert (Fd : finite (fminus v c) = true) by (apply (finite_key _ Nd); lra).
  assert (Vd : val (fminus v c) = val v) by now rewrite <- key_finite.
  destruct (fdivide_key (fminus v c) (fmake (0 + 1) 0) Fd Fn) as [Nq Kq]; [rewrite Vn; cbn; lra|]. rewrite Vd, Vn in Kq. change (IZR (0 + 1)) with 1 in Kq.
  unfold Rdiv in Kq. rewrite Rinv_1, Rmult_1_r, rnd_val, clamp_in in Kq by lra.
  assert (Fq : finite (fdivide (fminus v c) (fmake (0 + 1) 0)) = true) by (apply (finite_key _ Nq); lra).
  assert (Vq : val (fdivide (fminus v c) (fmake (0 + 1) 0)) = val v) by now rewrite <- key_finite.
  destruct (fplus_key c _ Fc Fq) as [Ns Ks]. rewrite Z, Vq, Rplus_0_l, rnd_val, clamp_in in Ks by lra.
  assert (Fs : finite (fplus c (fdivide (fminus v c) (fmake (0 + 1) 0))) = true) by (apply (finite_key _ Ns); lra).
  split; [assumption|]. now rewrite <- key_finite.
Qed.

Lemma fave_c_range lo hi xs : - 2 ^ 1022 <= lo -> hi <= 2 ^ 1022 -> (forall x, In x xs -> finite x = true /\ lo <= val x <= hi) ->
  forall k c, (1 <= k)%Z -> (k + Z.of_nat (length xs) <= 2 ^ 53)%Z -> finite c = true -> lo <= val c <= hi ->
  finite (fave_c k xs c) = true /\ lo <= val (fave_c k xs c) <= hi.
Proof.
  intros Hl Hh. induction xs as [|x xs IH]; intros A k c K N Fc Bc; cbn [fave_c]; [easy|]. cbn [length] in N.
  destruct (A x (or_introl eq_refl)) as [Fx Bx].
  destruct (fave1_between k x c) as [F B]; try assumption; [lia|apply Rabs_le; lra|apply Rabs_le; lra|].
  apply IH; [intros y Y; apply A; now right|lia|lia|assumption|].
  unfold Rmin, Rmax in B. destruct (Rle_dec (val c) (val x)); lra.
Qed.

Lemma fave1_error k v c m : (1 <= k < 2 ^ 53)%Z -> finite v = true -> finite c = true -> m <= 2 ^ 1022 -> Rabs (val v) <= m -> Rabs (val c) <= m ->
  Rabs (val (fave1 k v c) - (val c + (val v - val c) / IZR (k + 1))) <= 4 * eps * m + / 2 ^ 1074.
Proof.
  intros K Fv Fc Bm Bv Bc. destruct (fave1_between k v c K Fv Fc ltac:(lra) ltac:(lra)) as [F B]. unfold fave1 in *.
  destruct (fmake_int (k + 1) ltac:(lia)) as [Fn Vn]. assert (N2 : 2 <= IZR (k + 1)) by (apply IZR_le; lia).
  assert (Mv : moderate v) by (split; [assumption|lra]). assert (Mc : moderate c) by (split; [assumption|lra]).
  destruct (moderate_diff v c Mv Mc) as [Fd (d1 & D1 & E1)]. change e53 with eps in D1.
  destruct (fdivide_key (fminus v c) (fmake (k + 1) 0) Fd Fn ltac:(lra)) as [Nq Kq]. rewrite E1, Vn in Kq.
  destruct (fplus_finite_inv _ _ F) as [_ Fq]. assert (Vq := finite_result _ _ Nq Kq Fq).
  destruct (fplus_key c _ Fc Fq) as [Ns Ks]. assert (Vs := finite_result _ _ Ns Ks F).
  assert (R := rnd_any ((val v - val c) * (1 + d1) / IZR (k + 1))). rewrite <- Vq in R. change e53 with eps in R.
  set (q := val (fdivide (fminus v c) (fmake (k + 1) 0))) in *. set (x := val v - val c) in *. set (n := IZR (k + 1)) in *.
  destruct (plus_error c (fdivide (fminus v c) (fmake (k + 1) 0))) as (d3 & D3 & E3). fold q in E3. rewrite Vs in *. rewrite E3 in *.
  assert (P := eps_pos). assert (Q := eps_small). assert (Eta : 0 < / 2 ^ 1074) by (apply Rinv_0_lt_compat, pow_lt; lra).
  assert (M0 : 0 <= m) by (apply Rle_trans with (2 := Bv); apply Rabs_pos).
  apply Rabs_le_inv in Bv, Bc, D1, D3. set (eta := / 2 ^ 1074) in *.
  assert (Nb : 0 < / n <= / 2) by (split; [apply Rinv_0_lt_compat; lra|apply Rinv_le; lra]).
  assert (Xb : Rabs (x / n) <= m).
  { unfold Rdiv. rewrite Rabs_mult, (Rabs_pos_eq (/ n)) by lra. apply Rle_trans with (2 * m * / 2); [|lra].
    apply Rmult_le_compat; [apply Rabs_pos|lra|apply Rabs_le; unfold x; lra|lra]. }
  set (y := x / n) in *. replace (x * (1 + d1) / n) with (y * (1 + d1)) in R by (unfold y, Rdiv; ring).
  assert (R1 : Rabs (y * (1 + d1)) <= m * (1 + eps)).
  { rewrite Rabs_mult. apply Rmult_le_compat; try apply Rabs_pos; [assumption|apply Rabs_le; lra]. }
  assert (R2 : Rabs (q - y) <= (2 * eps + eps * eps) * m + eta).
  { assert (T := Rabs_triang (q - y * (1 + d1)) (y * d1)). replace (q - y * (1 + d1) + y * d1) with (q - y) in T by ring.
    rewrite (Rabs_mult y d1) in T. assert (Rabs y * Rabs d1 <= m * eps) by (apply Rmult_le_compat; try apply Rabs_pos; [assumption|apply Rabs_le; lra]).
    assert (eps * Rabs (y * (1 + d1)) <= eps * (m * (1 + eps))) by (apply Rmult_le_compat_l; lra). nra. }
  (* what is rounded is small *)
  assert (R3 : Rabs ((val c + q) * (1 + d3) - (val c + q)) <= eps * (m + (m + ((2 * eps + eps * eps) * m + eta))) ).
  { replace ((val c + q) * (1 + d3) - (val c + q)) with (d3 * (val c + q)) by ring. rewrite Rabs_mult. apply Rmult_le_compat; try apply Rabs_pos; [apply Rabs_le; lra|].
    apply Rabs_le_inv in R2, Xb. apply Rabs_le. lra. }
  (* better: between c and v *)
  assert (R4 : Rabs ((val c + q) * (1 + d3)) <= m).
  { apply Rabs_le. unfold Rmin, Rmax in B. destruct (Rle_dec (val c) (val v)); lra. }
  assert (R5 : Rabs (val c + q) <= m * (1 + 2 * eps)).
  { rewrite Rabs_mult in R4. assert (L : 1 - eps <= Rabs (1 + d3)) by (rewrite Rabs_pos_eq; lra).
    assert (Z := Rabs_pos (val c + q)). assert (Y : Rabs (val c + q) * (1 - eps) <= m) by (apply Rle_trans with (2 := R4); apply Rmult_le_compat_l; lra).
    apply Rmult_le_reg_r with (1 - eps); [lra|]. apply Rle_trans with (1 := Y).
    replace (m * (1 + 2 * eps) * (1 - eps)) with (m + m * (eps - 2 * eps * eps)) by ring.
    assert (0 <= m * (eps - 2 * eps * eps)) by (apply Rmult_le_pos; nra). lra. }
  assert (R6 : Rabs ((val c + q) * (1 + d3) - (val c + q)) <= eps * (m * (1 + 2 * eps))).
  { replace ((val c + q) * (1 + d3) - (val c + q)) with (d3 * (val c + q)) by ring. rewrite Rabs_mult. apply Rmult_le_compat; try apply Rabs_pos; [apply Rabs_le; lra|assumption]. }
  assert (T := Rabs_triang ((val c + q) * (1 + d3) - (val c + q)) (q - y)).
  replace ((val c + q) * (1 + d3) - (val c + q) + (q - y)) with ((val c + q) * (1 + d3) - (val c + y)) in T by ring.
  assert (Fin : (3 * eps + 3 * (eps * eps)) * m <= 4 * eps * m) by (apply Rmult_le_compat_r; [assumption|nra]). nra.
Qed.

Definition fsum (xs : list flt) : R := fold_right (fun x r => val x + r) 0 xs.
Lemma fave_c_error m xs : m <= 2 ^ 1022 -> (forall x, In x xs -> finite x = true /\ Rabs (val x) <= m) ->
  forall k c a, (1 <= k)%Z -> (k + Z.of_nat (length xs) <= 2 ^ 53)%Z -> finite c = true -> Rabs (val c) <= m ->
  IZR k * Rabs (val c - a) <= IZR k * IZR k * (4 * eps * m + / 2 ^ 1074) ->
  let n := (k + Z.of_nat (length xs))%Z in
  IZR n * Rabs (val (fave_c k xs c) - (IZR k * a + fsum xs) / IZR n) <= IZR n * IZR n * (4 * eps * m + / 2 ^ 1074).
Proof.
  intros Hm. induction xs as [|x xs IH]; intros A k c a K N Fc Bc E; cbv zeta; cbn [fave_c length] in *.
  - rewrite Z.add_0_r. unfold fsum. cbn [fold_right]. replace ((IZR k * a + 0) / IZR k) with a; [assumption|]. field. apply not_0_IZR. lia.
  - destruct (A x (or_introl eq_refl)) as [Fx Bx].
    destruct (fave1_between k x c) as [F B]; try assumption; try lra; [lia|].
    assert (S := fave1_error k x c m ltac:(lia) Fx Fc Hm Bx Bc).
    set (l := 4 * eps * m + / 2 ^ 1074) in *.
    replace (k + Z.of_nat (Datatypes.S (length xs)))%Z with (k + 1 + Z.of_nat (length xs))%Z by lia.
    assert (K1 : 1 <= IZR k) by (apply IZR_le; lia). assert (K2 : IZR (k + 1) = IZR k + 1) by apply plus_IZR.
    set (a' := (IZR k * a + val x) / IZR (k + 1)).
    replace (IZR k * a + fsum (x :: xs)) with (IZR (k + 1) * a' + fsum xs).
    2: { unfold a', fsum. cbn [fold_right]. field. rewrite K2. lra. }
    apply IH; [intros y Y; apply A; now right|lia|lia|assumption| |].
    + apply Rabs_le_inv in Bx, Bc. apply Rabs_le. unfold Rmin, Rmax in B. destruct (Rle_dec (val c) (val x)); lra.
    + set (r := val (fave1 k x c)) in *.
      assert (T := Rabs_triang (r - (val c + (val x - val c) / IZR (k + 1))) (val c + (val x - val c) / IZR (k + 1) - a')).
      replace (r - (val c + (val x - val c) / IZR (k + 1)) + (val c + (val x - val c) / IZR (k + 1) - a')) with (r - a') in T by ring.
      replace (val c + (val x - val c) / IZR (k + 1) - a') with (IZR k * / IZR (k + 1) * (val c - a)) in T by (unfold a'; rewrite K2; field; lra).
      rewrite (Rabs_mult (IZR k * / IZR (k + 1))), (Rabs_pos_eq (IZR k * / IZR (k + 1))) in T
        by (apply Rmult_le_pos; [lra|left; apply Rinv_0_lt_compat; rewrite K2; lra]).
      assert (L0 : 0 <= l).
      { unfold l. assert (P := eps_pos). assert (0 < / 2 ^ 1074) by (apply Rinv_0_lt_compat, pow_lt; lra).
        assert (0 <= m) by (apply Rle_trans with (2 := Bc); apply Rabs_pos). nra. }
      assert (U : IZR (k + 1) * (IZR k * / IZR (k + 1) * Rabs (val c - a)) = IZR k * Rabs (val c - a)) by (field; rewrite K2; lra).
      apply Rle_trans with (IZR (k + 1) * (l + IZR k * / IZR (k + 1) * Rabs (val c - a))).
      * apply Rmult_le_compat_l; [rewrite K2; lra|]. lra.
      * rewrite Rmult_plus_distr_l, U, K2. nra.
Qed.
