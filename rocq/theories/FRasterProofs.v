From Coq Require Import List Reals ZArith Bool Lra Lia Psatz Arith.
From Flocq Require Import Core.Core IEEE754.BinarySingleNaN.
From Verif Require Import Base RBase RngModel FltModel FltProofs FDistModel FDistSpec FDistProofs FBoundModel FBoundSpec FBoundProofs FFilmProofs FBvhModel FBvhSpec FBvhProofs FRasterModel FRasterSpec.
Import ListNotations.
Local Open Scope R_scope.

(** ** Conversion to int *)
Lemma btrunc_val x : Btrunc x = Ztrunc (val x).
Proof.
  apply eq_IZR. assert (H := Btrunc_correct 53 1024 emax64 x). rewrite H.
  unfold round, F2R, scaled_mantissa, cexp, FIX_exp. cbn [Fnum Fexp bpow Z.opp]. now rewrite !Rmult_1_r.
Qed.
Lemma fint_ok x z : finite x = true -> Ztrunc (val x) = z -> (- 2 ^ 31 <= z < 2 ^ 31)%Z -> fint x = Ok z.
Proof.
  intros F E B. unfold fint. unfold finite in F. rewrite F, btrunc_val, E. cbn [negb].
  destruct (Z.leb_spec (- 2 ^ 31) z); [|lia]. destruct (Z.ltb_spec z (2 ^ 31)); [reflexivity|lia].
Qed.
Lemma trunc_at x z : (0 <= z)%Z -> IZR z <= x < IZR z + 1 -> Ztrunc x = z.
Proof.
  intros Z0 H. assert (P : 0 <= IZR z) by now apply IZR_le. rewrite Ztrunc_floor by lra. apply Zfloor_imp. rewrite plus_IZR. lra.
Qed.

(** ** Rounding numbers that are at most 2^31 or so *)
Lemma eta_small : 0 < / 2 ^ 1074 <= / 2 ^ 120.
Proof.
  split; [apply Rinv_0_lt_compat, pow_lt; lra|]. apply Rinv_le; [apply pow_lt; lra|]. apply Rle_pow; [lra|lia].
Qed.
Definition e : R := / 2 ^ 53.
Definition t : R := / 2 ^ 120.
Lemma rnd_near x : Rabs (rnd x - x) <= e * Rabs x + t.
Proof. assert (H := rnd_any x). assert (T := eta_small). fold t in T. unfold e. lra. Qed.
Lemma rnd_pos_near x : 0 <= x -> x - (e * x + t) <= rnd x <= x + (e * x + t).
Proof. intros P. assert (H := rnd_near x). rewrite (Rabs_pos_eq x P) in H. apply Rabs_le_inv in H. lra. Qed.
Lemma e_val : e = / 9007199254740992.
Proof. unfold e. f_equal. simpl. ring. Qed.
Lemma t_val : 0 < t /\ t * 2147483648 <= e / 1000000.
Proof.
  assert (T : 0 < t) by (apply Rinv_0_lt_compat, pow_lt; lra). split; [assumption|].
  assert (E : t = e * / 2 ^ 67) by (unfold t, e; rewrite <- Rinv_mult, <- pow_add; reflexivity). rewrite E.
  replace (/ 2 ^ 67) with (/ 147573952589676412928) by (f_equal; simpl; ring). rewrite e_val. lra.
Qed.

Definition bound40 x : 0 <= x <= 1099511627776 -> Rabs x <= bpow radix2 40.
Proof. intros H. rewrite Rabs_pos_eq by lra. change (bpow radix2 40) with (IZR 1099511627776). lra. Qed.
Lemma fofint_ok z : (0 <= z <= 2 ^ 31)%Z -> finite (fofint z) = true /\ val (fofint z) = IZR z.
Proof. intros H. apply fmake_int. lia. Qed.
Lemma plus_at x y : finite x = true -> finite y = true -> 0 <= val x + val y <= 1099511627776 ->
  finite (fplus x y) = true /\ val (fplus x y) = rnd (val x + val y).
Proof. intros Fx Fy B. destruct (of_key _ _ 40 ltac:(lia) (fplus_key x y Fx Fy) (bound40 _ B)) as [[F _] V]. now split. Qed.
Lemma mult_at x y : finite x = true -> finite y = true -> 0 <= val x * val y <= 1099511627776 ->
  finite (fmult x y) = true /\ val (fmult x y) = rnd (val x * val y).
Proof. intros Fx Fy B. destruct (of_key _ _ 40 ltac:(lia) (fmult_key x y Fx Fy) (bound40 _ B)) as [[F _] V]. now split. Qed.
Lemma divide_at x y : finite x = true -> finite y = true -> val y <> 0 -> 0 <= val x / val y <= 1099511627776 ->
  finite (fdivide x y) = true /\ val (fdivide x y) = rnd (val x / val y).
Proof. intros Fx Fy N B. destruct (of_key _ _ 40 ltac:(lia) (fdivide_key x y Fx Fy N) (bound40 _ B)) as [[F _] V]. now split. Qed.

Section At.
Variables (x w : Z) (u : flt).
Hypothesis Hw : size w.
Hypothesis Hx : (0 <= x < w)%Z.
Hypothesis Hu : unit_number u.
Let W := IZR w.
Let X := IZR x.
Let U := val u.
Lemma W_range : 1 <= W <= 2147483648.
Proof. destruct Hw as [A B]. split; apply IZR_le; lia. Qed.
Lemma X_range : 0 <= X <= W - 1.
Proof. unfold X, W. rewrite <- (minus_IZR w 1). split; apply IZR_le; lia. Qed.
Lemma U_range : 0 <= U <= 1.
Proof. apply Hu. Qed.
Lemma w_ok : finite (fofint w) = true /\ val (fofint w) = W.
Proof. apply fofint_ok. destruct Hw. lia. Qed.
Lemma x_ok : finite (fofint x) = true /\ val (fofint x) = X.
Proof. apply fofint_ok. destruct Hw. lia. Qed.

(** The position (x + u) / w is in [0,1]; scaled back it is x + u up to 2^-19. *)
Lemma cell_position : finite (fcell x u w) = true /\ 0 <= val (fcell x u w) <= 1 /\ Rabs (val (fcell x u w) * W - (X + U)) <= / 2000000.
Proof.
  assert (Wr := W_range). assert (Xr := X_range). assert (Ur := U_range). destruct w_ok as [Fw Vw]. destruct x_ok as [Fx Vx]. destruct Hu as [Fu _].
  assert (S : 0 <= X + U <= W) by lra.
  destruct (plus_at (fofint x) u Fx Fu) as [Fa Va]; [rewrite Vx; fold U; lra|]. rewrite Vx in Va. fold U in Va.
  assert (A := rnd_pos_near (X + U) (proj1 S)). set (a := rnd (X + U)) in *.
  assert (Ab : 0 <= a <= W).
  { split; [now apply rnd_pos|]. unfold a, W. rewrite <- (rnd_int w) by (destruct Hw; lia). apply rnd_mono. exact (proj2 S). }
  assert (Q1 : 0 <= a / W <= 1).
  { split; [apply Rmult_le_pos; [lra|left; apply Rinv_0_lt_compat; lra]|]. apply Rmult_le_reg_r with W; [lra|]. unfold Rdiv. rewrite Rmult_assoc, Rinv_l by lra. lra. }
  destruct (divide_at (fplus (fofint x) u) (fofint w) Fa Fw) as [Fq Vq]; [rewrite Vw; lra|rewrite Va, Vw; lra|]. rewrite Va, Vw in Vq.
  unfold fcell. rewrite Vq. split; [assumption|]. split.
  { split; [apply rnd_pos; lra|]. rewrite <- rnd_1. apply rnd_mono. lra. }
  assert (Q := rnd_pos_near (a / W) (proj1 Q1)). set (q := rnd (a / W)) in *.
  assert (E : a / W * W = a) by (field; lra). assert (Q2 : a - (e * a + t * W) <= q * W <= a + (e * a + t * W)).
  { rewrite <- E at 1 2 3 4. clear - Q Wr. set (b := a / W) in *.
    split; [replace (b * W - (e * (b * W) + t * W)) with ((b - (e * b + t)) * W) by ring|replace (b * W + (e * (b * W) + t * W)) with ((b + (e * b + t)) * W) by ring];
      apply Rmult_le_compat_r; lra. }
  destruct t_val as [T0 T1]. assert (E0 := e_val).
  assert (eW : e * W <= / 4000000) by (rewrite E0; lra). assert (ea : e * a <= e * W) by (apply Rmult_le_compat_l; [rewrite E0; lra|lra]).
  assert (es : e * (X + U) <= e * W) by (apply Rmult_le_compat_l; [rewrite E0; lra|lra]). assert (tW : t * W <= e / 1000000) by (apply Rle_trans with (t * 2147483648); [apply Rmult_le_compat_l; lra|lra]).
  assert (tt : t <= e / 1000000) by (apply Rle_trans with (t * W); [|lra]; rewrite <- (Rmult_1_r t) at 1; apply Rmult_le_compat_l; lra).
  apply Rabs_le. rewrite E0 in *. lra.
Qed.

(** The same for a position in a window. *)
Lemma window_position : finite (fwindow x u w) = true /\ 0 <= val (fwindow x u w) <= 1 + / 1000000 /\ Rabs (val (fwindow x u w) * W - (X + U)) <= / 900000.
Proof.
  assert (Wr := W_range). assert (Xr := X_range). assert (Ur := U_range). destruct w_ok as [Fw Vw]. destruct x_ok as [Fx Vx]. destruct Hu as [Fu _].
  destruct t_val as [T0 T1]. assert (E0 := e_val). assert (P0 : 0 < e) by (rewrite E0; lra). assert (P1 : e <= / 1000000) by (rewrite E0; lra).
  assert (tW : 0 <= t * W <= e / 1000000) by (split; [apply Rmult_le_pos; lra|]; apply Rle_trans with (t * 2147483648); [apply Rmult_le_compat_l; lra|lra]).
  assert (eW : 0 <= e * W <= / 4000000) by (split; [apply Rmult_le_pos; lra|]; rewrite E0; lra).
  assert (I : 0 < / W <= 1) by (split; [apply Rinv_0_lt_compat; lra|]; rewrite <- Rinv_1; apply Rinv_le; lra).
  assert (IW : / W * W = 1) by (apply Rinv_l; lra).
  destruct (divide_at fone (fofint w) fone_finite Fw) as [Fd Vd]; [rewrite Vw; lra|rewrite fone_val, Vw; unfold Rdiv; lra|].
  rewrite fone_val, Vw in Vd. replace (1 / W) with (/ W) in Vd by (field; lra).
  assert (D := rnd_pos_near (/ W) ltac:(lra)). assert (D0 := rnd_pos (/ W) ltac:(lra)).
  set (d := fdivide fone (fofint w)) in *. rewrite <- Vd in D, D0. set (r := val d) in *.
  assert (rW : 1 - 2 * e <= r * W <= 1 + 2 * e).
  { split; [apply Rle_trans with ((/ W - (e * / W + t)) * W)|apply Rle_trans with ((/ W + (e * / W + t)) * W)]; try (apply Rmult_le_compat_r; lra).
    - replace ((/ W - (e * / W + t)) * W) with (/ W * W - e * (/ W * W) - t * W) by ring. rewrite IW. lra.
    - replace ((/ W + (e * / W + t)) * W) with (/ W * W + e * (/ W * W) + t * W) by ring. rewrite IW. lra. }
  assert (r2 : r <= 2). { apply Rle_trans with (r * W); [|lra]. rewrite <- (Rmult_1_r r) at 1. apply Rmult_le_compat_l; lra. }
  assert (rX : 0 <= r * X <= 1 + 2 * e). { split; [apply Rmult_le_pos; lra|]. apply Rle_trans with (r * W); [apply Rmult_le_compat_l; lra|lra]. }
  assert (rU : 0 <= r * U <= 2). { split; [apply Rmult_le_pos; lra|]. apply Rle_trans with (r * 1); [apply Rmult_le_compat_l; lra|lra]. }
  destruct (mult_at d (fofint x) Fd Fx) as [F1 V1]; [rewrite Vx; fold r; lra|]. rewrite Vx in V1. fold r in V1.
  destruct (mult_at d u Fd Fu) as [F2 V2]; [fold r U; lra|]. fold r U in V2.
  assert (M1 := rnd_pos_near (r * X) ltac:(lra)). assert (M10 := rnd_pos (r * X) ltac:(lra)). rewrite <- V1 in M1, M10. set (m1 := val (fmult d (fofint x))) in *.
  assert (M2 := rnd_pos_near (r * U) ltac:(lra)). assert (M20 := rnd_pos (r * U) ltac:(lra)). rewrite <- V2 in M2, M20. set (m2 := val (fmult d u)) in *.
  assert (eX : e * (r * X) <= 2 * e) by (replace (2 * e) with (e * 2) by ring; apply Rmult_le_compat_l; lra).
  assert (eU : e * (r * U) <= 2 * e) by (replace (2 * e) with (e * 2) by ring; apply Rmult_le_compat_l; lra).
  assert (tt : t <= e / 1000000) by (apply Rle_trans with (t * W); [|lra]; rewrite <- (Rmult_1_r t) at 1; apply Rmult_le_compat_l; lra).
  destruct (plus_at (fmult d (fofint x)) (fmult d u) F1 F2) as [Fp Vp]; [fold m1 m2; lra|]. fold m1 m2 in Vp.
  assert (R := rnd_pos_near (m1 + m2) ltac:(lra)). assert (R0 := rnd_pos (m1 + m2) ltac:(lra)).
  unfold fwindow. fold d. rewrite <- Vp in R, R0. set (p := val (fplus (fmult d (fofint x)) (fmult d u))) in *.
  (* everything times W *)
  set (s := X + U). assert (S : 0 <= s <= W) by (unfold s; lra).
  assert (rs : (1 - 2 * e) * s <= (r * X + r * U) * W <= (1 + 2 * e) * s).
  { replace ((r * X + r * U) * W) with (r * W * s) by (unfold s; ring). split; apply Rmult_le_compat_r; lra. }
  assert (es : 0 <= e * s <= e * W) by (split; [apply Rmult_le_pos; lra|apply Rmult_le_compat_l; lra]).
  set (v := (r * X + r * U) * W) in *.
  assert (ev : 0 <= e * v <= 2 * (e * W)).
  { assert (v <= 2 * W) by (apply Rle_trans with ((1 + 2 * e) * s); [lra|]; apply Rle_trans with (2 * s); [apply Rmult_le_compat_r; lra|lra]).
    assert (0 <= v) by (unfold v; apply Rmult_le_pos; lra). split; [apply Rmult_le_pos; lra|]. replace (2 * (e * W)) with (e * (2 * W)) by ring. apply Rmult_le_compat_l; lra. }
  assert (ev' : e * v <= 101 / 100 * (e * W)).
  { assert (v <= 101 / 100 * W) by (apply Rle_trans with ((1 + 2 * e) * s); [lra|]; apply Rle_trans with (101 / 100 * s); [apply Rmult_le_compat_r; lra|lra]).
    replace (101 / 100 * (e * W)) with (e * (101 / 100 * W)) by ring. apply Rmult_le_compat_l; lra. }
  assert (MM : v - (e * v + 2 * (t * W)) <= (m1 + m2) * W <= v + (e * v + 2 * (t * W))).
  { replace (v - (e * v + 2 * (t * W))) with (((r * X - (e * (r * X) + t)) + (r * U - (e * (r * U) + t))) * W) by (unfold v; ring).
    replace (v + (e * v + 2 * (t * W))) with (((r * X + (e * (r * X) + t)) + (r * U + (e * (r * U) + t))) * W) by (unfold v; ring).
    split; apply Rmult_le_compat_r; lra. }
  set (k := (m1 + m2) * W) in *.
  assert (ek : e * k <= 102 / 100 * (e * W)).
  { assert (k <= 102 / 100 * W). { assert (v <= 101 / 100 * W) by (apply Rle_trans with ((1 + 2 * e) * s); [lra|]; apply Rle_trans with (101 / 100 * s); [apply Rmult_le_compat_r; lra|lra]). lra. }
    replace (102 / 100 * (e * W)) with (e * (102 / 100 * W)) by ring. apply Rmult_le_compat_l; lra. }
  assert (PW : k - (e * k + t * W) <= p * W <= k + (e * k + t * W)).
  { replace (k - (e * k + t * W)) with (((m1 + m2) - (e * (m1 + m2) + t)) * W) by (unfold k; ring).
    replace (k + (e * k + t * W)) with (((m1 + m2) + (e * (m1 + m2) + t)) * W) by (unfold k; ring).
    split; apply Rmult_le_compat_r; lra. }
  split; [assumption|]. split; [|apply Rabs_le; clear - rs es ev ev' MM ek PW tW eW P0 P1 T0; lra].
  split; [assumption|]. apply Rmult_le_reg_r with W; [lra|].
  apply Rle_trans with (W + / 1000000 * W); [|lra].
  assert (Y : e * W * 5 <= / 2000000 * W). { replace (e * W * 5) with (5 * e * W) by ring. apply Rmult_le_compat_r; [lra|]. rewrite E0. lra. }
  assert (Y2 : e <= / 2000000 * W * / 100) by (rewrite E0; lra). clear - rs es ev ev' MM ek PW tW eW P0 P1 T0 S Y Y2. lra.
Qed.

(** What the product with the size is then *)
Lemma scaled p D : finite p = true -> 0 <= val p <= 2 -> D <= / 900000 -> Rabs (val p * W - (X + U)) <= D ->
  finite (fmult p (fofint w)) = true /\ 0 <= val (fmult p (fofint w)) /\ Rabs (val (fmult p (fofint w)) - (X + U)) <= D + / 3900000.
Proof.
  intros Fp B Ds H. assert (Wr := W_range). assert (Xr := X_range). assert (Ur := U_range). destruct w_ok as [Fw Vw].
  assert (PW : 0 <= val p * W <= 4294967296). { split; [apply Rmult_le_pos; lra|]. apply Rle_trans with (2 * W); [apply Rmult_le_compat_r; lra|lra]. }
  destruct (mult_at p (fofint w) Fp Fw) as [F V]; [rewrite Vw; lra|]. rewrite V, Vw. split; [assumption|]. split; [now apply rnd_pos|].
  apply Rabs_le_inv in H. assert (R := rnd_pos_near _ (proj1 PW)). destruct t_val as [T0 T1]. assert (E0 := e_val).
  set (k := val p * W) in *. assert (K : k <= 2147483649) by lra. assert (ek : 0 <= e * k <= / 4000000) by (rewrite E0; split; lra). apply Rabs_le. rewrite E0 in T1. lra.
Qed.
End At.

Lemma coord_ok p w : size w -> finite p = true -> 0 <= val (fmult p (fofint w)) < 2147483648 -> finite (fmult p (fofint w)) = true ->
  exists z, fint (fmult p (fofint w)) = Ok z /\ (0 <= z < 2 ^ 31)%Z /\ IZR z <= val (fmult p (fofint w)) < IZR z + 1 /\ fcoord p w = Ok (Z.min z (w - 1)).
Proof.
  intros Sw Fp B F. set (y := fmult p (fofint w)) in *. exists (Zfloor (val y)).
  assert (L := Zfloor_lb (val y)). assert (U := Zfloor_ub (val y)).
  assert (Z0 : (0 <= Zfloor (val y))%Z) by (apply Zfloor_lub; exact (proj1 B)).
  assert (Z1 : (Zfloor (val y) < 2 ^ 31)%Z) by (apply lt_IZR; change (2 ^ 31)%Z with 2147483648%Z; lra).
  assert (E : fint y = Ok (Zfloor (val y))) by (apply fint_ok; [assumption|apply Ztrunc_floor; lra|lia]).
  split; [assumption|]. split; [lia|]. split; [lra|]. unfold fcoord. fold y. rewrite E. cbn [obind]. f_equal. unfold zclamp. destruct Sw. lia.
Qed.

(** ** Tables *)
Lemma add_row_ok pre row post : forall base d, base = Z.of_nat (length pre) -> fadd_row (pre ++ row ++ post) base (length row) d = Ok (fold_left fadd row d).
Proof.
  revert pre. induction row as [|a row IH]; intros pre base d B; cbn [length fadd_row fold_left]; [reflexivity|].
  rewrite B, Nat2Z.id, nth_error_app2, Nat.sub_diag by lia. cbn [app nth_error].
  specialize (IH (pre ++ [a]) (base + 1)%Z (fadd d a)). rewrite <- app_assoc in IH. cbn [app] in IH. rewrite <- B. rewrite IH; [reflexivity|].
  rewrite app_length. cbn [length]. lia.
Qed.
Lemma back_total row : fback (fold_left fadd row fempty) = ftotal row.
Proof.
  unfold ftotal. assert (G : forall ws c, fback (fold_left fadd ws c) = fold_left fplus ws (fback c)).
  { induction ws as [|w ws IH]; intros c; cbn [fold_left]; [reflexivity|]. rewrite IH. f_equal. unfold fback, fadd. now rewrite last_last. }
  now rewrite G.
Qed.
Lemma add_rows_ok cols rows : (forall row, In row rows -> length row = Z.to_nat cols) -> (0 <= cols)%Z ->
  forall pre l mm i, length (concat pre) = (Z.to_nat cols * length pre)%nat -> i = Z.of_nat (length pre) ->
  fadd_rows (concat (pre ++ rows)) cols i (length rows) l mm = Ok (l ++ map fmade_of rows, fold_left fadd (map ftotal rows) mm).
Proof.
  intros L C. induction rows as [|row rows IH]; intros pre l mm i P I; cbn [length fadd_rows map fold_left]; [now rewrite app_nil_r|].
  rewrite concat_app. cbn [concat]. rewrite <- (L row) by now left. rewrite add_row_ok.
  - cbn [obind]. rewrite back_total. fold (fmade_of row). specialize (IH ltac:(intros r Hr; apply L; now right) (pre ++ [row]) (l ++ [fmade_of row]) (fadd mm (ftotal row)) (i + 1)%Z).
    rewrite !concat_app in IH. cbn [concat] in IH. rewrite app_nil_r, <- app_assoc in IH. rewrite IH.
    + now rewrite <- app_assoc.
    + rewrite !app_length, P, (L row) by now left. cbn [length]. lia.
    + rewrite app_length. cbn [length]. lia.
  - rewrite P, I. lia.
Qed.
Lemma finit_ok rows cols : (forall row, In row rows -> Z.of_nat (length row) = cols) -> (0 <= cols)%Z ->
  finit (concat rows) cols (Z.of_nat (length rows)) = Ok (mk_fdist2 (map fmade_of rows) (fmade_of (map ftotal rows)) cols (Z.of_nat (length rows))).
Proof.
  intros L C. unfold finit. destruct (Z.ltb_spec (Z.of_nat (length rows)) 0); [lia|]. rewrite Nat2Z.id.
  assert (H0 := add_rows_ok cols rows ltac:(intros r Hr; rewrite <- (L r Hr); lia) C [] [] fempty 0%Z ltac:(cbn; lia) eq_refl). cbn [app] in H0. rewrite H0. reflexivity.
Qed.
