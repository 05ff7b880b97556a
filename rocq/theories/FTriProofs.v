From Coq Require Import List Reals ZArith Bool Lra Lia Psatz.
From Flocq Require Import Core.Core IEEE754.BinarySingleNaN.
From Verif Require Import Base RBase RngModel FltModel FltProofs FDistModel FDistSpec FDistProofs FBoundModel FBoundSpec FBoundProofs FFilmModel FFilmProofs FBvhModel FBvhSpec FBvhProofs FDirModel FDirSpec FDirProofs FRasterSpec FCamModel FCamSpec FCamProofs FTriModel FTriSpec.
Import ListNotations.
Local Open Scope R_scope.

Lemma eta_small k : (-900 <= k)%Z -> / 2 ^ 1074 <= eps * bpow radix2 k / 64.
Proof.
  intros K. replace (/ 2 ^ 1074) with (bpow radix2 (-1074)). 2: { change (-1074)%Z with (- (1074))%Z. rewrite bpow_opp. f_equal. rewrite <- (IZR_Zpower radix2) by lia. rewrite pow_IZR. f_equal. }
  assert (E : eps = bpow radix2 (-53)).
  { unfold eps. change (-53)%Z with (- (53))%Z. rewrite bpow_opp. f_equal. rewrite <- (IZR_Zpower radix2) by lia. rewrite pow_IZR. reflexivity. }
  rewrite E. replace (/ 64) with (bpow radix2 (-6)) by (simpl; lra). unfold Rdiv. replace (/ 64) with (bpow radix2 (-6)) by (simpl; lra).
  rewrite <- !bpow_plus. apply bpow_le. lia.
Qed.
Lemma rnd_at k y : (-900 <= k)%Z -> Rabs (rnd y - y) <= eps * Rabs y + eps * bpow radix2 k / 64.
Proof. intros K. assert (R := rnd_any y). assert (T := eta_small k K). change (/ 2 ^ 53) with eps in R. lra. Qed.

(** The first coordinate *)
Lemma first_weight u v : barycentric u v ->
  finite (fminus (fminus fone u) v) = true /\ Rabs (val (fminus (fminus fone u) v)) <= 1 /\
  Rabs (val (fminus (fminus fone u) v) - (1 - val u - val v)) <= 9 / 4 * eps.
Proof.
  intros (Fu & Fv & Hu & Hv & S). assert (P := eps_pos).
  destruct (of_key _ _ 0 ltac:(lia) (fminus_key fone u fone_finite Fu)) as [[F1 B1] V1].
  { rewrite fone_val. cbn [bpow]. apply Rabs_le. lra. }
  rewrite fone_val in V1. assert (U1 := rnd_unit (1 - val u) ltac:(lra)). rewrite <- V1 in U1.
  assert (E1 := rnd_err (1 - val u)). rewrite <- V1, (Rabs_pos_eq (1 - val u)) in E1 by lra.
  set (w := fminus fone u) in *.
  destruct (of_key _ _ 0 ltac:(lia) (fminus_key w v F1 Fv)) as [[F2 B2] V2].
  { cbn [bpow]. apply Rabs_le. lra. }
  split; [assumption|]. split; [exact B2|]. assert (E2 := rnd_err (val w - val v)). rewrite <- V2 in E2.
  assert (A : Rabs (val w - val v) <= 1) by (apply Rabs_le; lra).
  set (z := val (fminus w v)) in *. replace (z - (1 - val u - val v)) with ((z - (val w - val v)) + (val w - (1 - val u))) by ring.
  apply Rle_trans with (1 := Rabs_triang _ _). nra.
Qed.

Lemma abs6 a b c d e f : Rabs (a + b + c + d + e + f) <= Rabs a + Rabs b + Rabs c + Rabs d + Rabs e + Rabs f.
Proof. repeat (eapply Rle_trans; [apply Rabs_triang|]; apply Rplus_le_compat_r). apply Rle_refl. Qed.

(** One component *)
Definition comp (a b c w u v : flt) : flt := fplus (fplus (fmult a w) (fmult b u)) (fmult c v).
Lemma comp_ok k a b c w u v (y : R) : (-900 <= k <= 1000)%Z -> sized k a -> sized k b -> sized k c ->
  finite w = true -> Rabs (val w) <= 1 -> finite u = true -> Rabs (val u) <= 1 -> finite v = true -> Rabs (val v) <= 1 -> Rabs (val w - y) <= 9 / 4 * eps ->
  finite (comp a b c w u v) = true /\ Rabs (val (comp a b c w u v) - (val a * y + val b * val u + val c * val v)) <= 12 * eps * bpow radix2 k.
Proof.
  intros K [Fa Ba] [Fb Bb] [Fc Bc] Fw Bw Fu Bu Fv Bv E. unfold comp. set (B := bpow radix2 k) in *. assert (PB : 0 < B) by apply bpow_gt_0.
  assert (Pm : forall x z, Rabs (val x) <= B -> Rabs (val z) <= 1 -> Rabs (val x * val z) <= B).
  { intros x z Hx Hz. replace B with (B * 1) by ring. now apply prod_bound. }
  assert (Mul : forall x z, finite x = true -> Rabs (val x) <= B -> finite z = true -> Rabs (val z) <= 1 ->
     finite (fmult x z) = true /\ Rabs (val (fmult x z)) <= B /\ Rabs (val (fmult x z) - val x * val z) <= 65 / 64 * eps * B).
  { intros x z Fx Bx Fz Bz. destruct (of_key _ _ k ltac:(lia) (fmult_key x z Fx Fz)) as [[F S] V]; [now apply Pm|].
    split; [assumption|]. split; [exact S|]. rewrite V. assert (R := rnd_at k (val x * val z) ltac:(lia)). assert (Q := Pm x z Bx Bz). fold B in R. assert (P := eps_pos). nra. }
  destruct (Mul a w Fa Ba Fw Bw) as (F1 & B1 & E1). destruct (Mul b u Fb Bb Fu Bu) as (F2 & B2 & E2). destruct (Mul c v Fc Bc Fv Bv) as (F3 & B3 & E3).
  assert (D2 : bpow radix2 (k + 1) = 2 * B) by (unfold B; rewrite bpow_plus; change (bpow radix2 1) with 2; ring).
  assert (D4 : bpow radix2 (k + 2) = 4 * B) by (unfold B; rewrite bpow_plus; change (bpow radix2 2) with 4; ring).
  destruct (of_key _ _ (k + 1) ltac:(lia) (fplus_key _ _ F1 F2)) as [[F4 B4] V4].
  { rewrite D2. apply Rle_trans with (1 := sum_bound _ _ _ _ B1 B2). lra. }
  rewrite D2 in B4.
  destruct (of_key _ _ (k + 2) ltac:(lia) (fplus_key _ _ F4 F3)) as [[F5 B5] V5].
  { rewrite D4. apply Rle_trans with (1 := sum_bound _ _ _ _ B4 B3). lra. }
  split; [assumption|].
  assert (R4 := rnd_at k (val (fmult a w) + val (fmult b u)) ltac:(lia)). assert (R5 := rnd_at k (val (fplus (fmult a w) (fmult b u)) + val (fmult c v)) ltac:(lia)).
  fold B in R4, R5. rewrite <- V4 in R4. rewrite <- V5 in R5.
  assert (S4 := sum_bound _ _ _ _ B1 B2). assert (S5 := sum_bound _ _ _ _ B4 B3).
  set (z5 := val (fplus (fplus (fmult a w) (fmult b u)) (fmult c v))) in *. set (z4 := val (fplus (fmult a w) (fmult b u))) in *.
  set (m1 := val (fmult a w)) in *. set (m2 := val (fmult b u)) in *. set (m3 := val (fmult c v)) in *.
  assert (Ea : Rabs (val a * (val w - y)) <= B * (9 / 4 * eps)) by now apply prod_bound.
  replace (z5 - (val a * y + val b * val u + val c * val v)) with
    ((z5 - (z4 + m3)) + (z4 - (m1 + m2)) + (m1 - val a * val w) + (m2 - val b * val u) + (m3 - val c * val v) + val a * (val w - y)) by ring.
  assert (P := eps_pos). assert (PP : 0 < eps * B) by now apply Rmult_lt_0_compat.
  assert (Q4 : eps * Rabs (m1 + m2) <= 2 * (eps * B)) by nra. assert (Q5 : eps * Rabs (z4 + m3) <= 3 * (eps * B)) by nra.
  apply Rle_trans with (1 := abs6 _ _ _ _ _ _). lra.
Qed.

Lemma mix_close k t u v i : (-900 <= k <= 1000)%Z -> tsized k t -> barycentric u v ->
  finite (fcomp (fmix (tp1 t) (tp2 t) (tp3 t) u v) i) = true /\
  Rabs (val (fcomp (fmix (tp1 t) (tp2 t) (tp3 t) u v) i) -
        (val (fcomp (tp1 t) i) * (1 - val u - val v) + val (fcomp (tp2 t) i) * val u + val (fcomp (tp3 t) i) * val v)) <= 12 * eps * bpow radix2 k.
Proof.
  intros K (A & B & C) H. destruct (first_weight u v H) as (F & L & E). destruct H as (Fu & Fv & Hu & Hv & _).
  assert (Au : Rabs (val u) <= 1) by (apply Rabs_le; lra). assert (Av : Rabs (val v) <= 1) by (apply Rabs_le; lra).
  assert (D : fcomp (fmix (tp1 t) (tp2 t) (tp3 t) u v) i = comp (fcomp (tp1 t) i) (fcomp (tp2 t) i) (fcomp (tp3 t) i) (fminus (fminus fone u) v) u v).
  { destruct i as [|[|i]]; reflexivity. }
  rewrite D. apply comp_ok; auto.
Qed.

(** The point of the triangle meant *)
Lemma near_ok k t u v : (-900 <= k <= 1000)%Z -> tsized k t -> barycentric u v -> near_triangle (20 * eps * bpow radix2 k) t (fmix (tp1 t) (tp2 t) (tp3 t) u v).
Proof.
  intros K T H. assert (Hc := fun i => mix_close k t u v i K T H). destruct H as (_ & _ & Hu & Hv & S). assert (P := eps_pos).
  set (B := bpow radix2 k) in *. assert (PB : 0 < B) by apply bpow_gt_0. assert (PP : 0 < eps * B) by now apply Rmult_lt_0_compat.
  destruct (Rle_dec (val u + val v) 1) as [L|G].
  - exists (fun i => val (fcomp (tp1 t) i) * (1 - val u - val v) + val (fcomp (tp2 t) i) * val u + val (fcomp (tp3 t) i) * val v). split.
    + exists (1 - val u - val v), (val u), (val v). repeat (split; [lra|]). intros i. ring.
    + intros i. destruct (Hc i) as [F E]. split; [assumption|]. lra.
  - assert (G' : 1 < val u + val v) by lra. clear G. set (s := val u + val v) in *.
    assert (I : 0 < / s <= 1) by (split; [apply Rinv_0_lt_compat; lra|rewrite <- Rinv_1; apply Rinv_le; lra]).
    exists (fun i => 0 * val (fcomp (tp1 t) i) + val u / s * val (fcomp (tp2 t) i) + val v / s * val (fcomp (tp3 t) i)). split.
    + exists 0, (val u / s), (val v / s). split; [lra|]. split; [apply Rmult_le_pos; lra|]. split; [apply Rmult_le_pos; lra|]. split; [|reflexivity].
      unfold s. field. fold s. lra.
    + intros i. destruct (Hc i) as [F E]. split; [assumption|]. destruct T as (A1 & A2 & A3). destruct (A1 i) as [_ Ba], (A2 i) as [_ Bb], (A3 i) as [_ Bc]. fold B in Ba, Bb, Bc.
      set (a := val (fcomp (tp1 t) i)) in *. set (b := val (fcomp (tp2 t) i)) in *. set (c := val (fcomp (tp3 t) i)) in *.
      set (p := val (fcomp (fmix (tp1 t) (tp2 t) (tp3 t) u v) i)) in *.
      replace (p - (0 * a + val u / s * b + val v / s * c)) with
        ((p - (a * (1 - val u - val v) + b * val u + c * val v)) + (a * (1 - s) + (b * val u + c * val v) * (1 - / s))) by (unfold s, Rdiv; ring).
      assert (W : 0 <= 1 - / s <= (s - 1) * / s). { replace ((s - 1) * / s) with (1 - / s) by (field; lra). lra. }
      assert (X1 : Rabs (a * (1 - s)) <= B * (4 * eps)) by (apply prod_bound; [assumption|apply Rabs_le; lra]).
      assert (X2 : Rabs (b * val u + c * val v) <= B * s).
      { apply Rle_trans with (B * val u + B * val v); [apply sum_bound; apply prod_bound; auto; rewrite Rabs_pos_eq; lra|unfold s; lra]. }
      assert (X3 : Rabs ((b * val u + c * val v) * (1 - / s)) <= B * s * ((s - 1) * / s)) by (apply prod_bound; [assumption|rewrite Rabs_pos_eq; lra]).
      replace (B * s * ((s - 1) * / s)) with (B * (s - 1)) in X3 by (field; lra).
      apply Rle_trans with (1 := Rabs_triang _ _). assert (X4 := Rabs_triang (a * (1 - s)) ((b * val u + c * val v) * (1 - / s))). nra.
Qed.

(** A point near a triangle is in the box of its vertices up to that distance. *)
Lemma near_box d t p i : near_triangle d t p ->
  Rmin (val (fcomp (tp1 t) i)) (Rmin (val (fcomp (tp2 t) i)) (val (fcomp (tp3 t) i))) - d <= val (fcomp p i) <=
  Rmax (val (fcomp (tp1 t) i)) (Rmax (val (fcomp (tp2 t) i)) (val (fcomp (tp3 t) i))) + d.
Proof.
  intros (q & (x & y & z & X & Y & Z & S & E) & H). destruct (H i) as [_ D]. rewrite E in D. apply Rabs_le_inv in D.
  set (a := val (fcomp (tp1 t) i)) in *. set (b := val (fcomp (tp2 t) i)) in *. set (c := val (fcomp (tp3 t) i)) in *.
  assert (L1 := Rmin_l a (Rmin b c)). assert (L2 := Rmin_r a (Rmin b c)). assert (L3 := Rmin_l b c). assert (L4 := Rmin_r b c).
  assert (G1 := Rmax_l a (Rmax b c)). assert (G2 := Rmax_r a (Rmax b c)). assert (G3 := Rmax_l b c). assert (G4 := Rmax_r b c).
  set (lo := Rmin a (Rmin b c)) in *. set (hi := Rmax a (Rmax b c)) in *. assert (A1 : lo <= b) by lra. assert (A2 : lo <= c) by lra. assert (A3 : b <= hi) by lra. assert (A4 : c <= hi) by lra.
  clear - X Y Z S D L1 G1 A1 A2 A3 A4. replace x with (1 - y - z) in * by lra. split; nra.
Qed.

(** ** Sampled coordinates *)
Lemma bary_ok u1 u2 : unit_number u1 -> unit_number u2 -> barycentric (fst (fsample_bary u1 u2)) (snd (fsample_bary u1 u2)).
Proof.
  intros [F1 H1] [F2 H2]. unfold fsample_bary. cbn [fst snd]. destruct (safe_sqrt_unit u1 F1 ltac:(lra)) as (Fs & _ & Hs). set (s := fsafe_sqrt u1) in *. assert (P := eps_pos).
  destruct (of_key _ _ 0 ltac:(lia) (fminus_key fone s fone_finite Fs)) as [[Fu _] Vu].
  { rewrite fone_val. cbn [bpow]. apply Rabs_le. lra. }
  rewrite fone_val in Vu.
  destruct (of_key _ _ 0 ltac:(lia) (fmult_key u2 s F2 Fs)) as [[Fv _] Vv].
  { cbn [bpow]. apply Rabs_le. nra. }
  assert (Uu := rnd_unit (1 - val s) ltac:(lra)). assert (Uv := rnd_unit (val u2 * val s) ltac:(nra)). rewrite <- Vu in Uu. rewrite <- Vv in Uv.
  assert (Lv : val (fmult u2 s) <= val s) by (rewrite Vv; apply Rle_trans with (rnd (val s)); [apply rnd_mono; nra|rewrite rnd_val; lra]).
  assert (E := rnd_err (1 - val s)). rewrite <- Vu, (Rabs_pos_eq (1 - val s)) in E by lra. apply Rabs_le_inv in E.
  split; [assumption|]. split; [assumption|]. split; [assumption|]. split; [assumption|]. nra.
Qed.

(** ** Areas *)
Definition norm3 (x y z : R) : R := sqrt (x * x + y * y + z * z).
Lemma norm_step x d r : 0 <= r -> sqrt ((x + d) * (x + d) + r) <= sqrt (x * x + r) + Rabs d.
Proof.
  intros P. assert (Q : 0 <= x * x + r) by nra. assert (S0 := sqrt_pos (x * x + r)). assert (D0 := Rabs_pos d).
  apply Rsqr_incr_0_var; [|lra]. rewrite Rsqr_sqrt by (assert (W := Rle_0_sqr (x + d)); unfold Rsqr in W; lra). unfold Rsqr.
  assert (E := sqrt_sqrt _ Q). assert (X : Rabs x <= sqrt (x * x + r)). { rewrite <- sqrt_Rsqr_abs. apply sqrt_le_1; unfold Rsqr; nra. }
  assert (M : x * d <= Rabs x * Rabs d) by (rewrite <- Rabs_mult; apply Rle_abs).
  assert (DD : Rabs d * Rabs d = d * d) by (rewrite <- Rabs_mult; apply Rabs_pos_eq; nra).
  set (s := sqrt (x * x + r)) in *. assert (Rabs x * Rabs d <= s * Rabs d) by nra. nra.
Qed.
Lemma norm_le x y z x' y' z' : norm3 x y z <= norm3 x' y' z' + Rabs (x - x') + Rabs (y - y') + Rabs (z - z').
Proof.
  unfold norm3.
  assert (A := norm_step x' (x - x') (y * y + z * z) ltac:(nra)). assert (B := norm_step y' (y - y') (x' * x' + z * z) ltac:(nra)). assert (C := norm_step z' (z - z') (x' * x' + y' * y') ltac:(nra)).
  replace ((x' + (x - x')) * (x' + (x - x')) + (y * y + z * z)) with (x * x + y * y + z * z) in A by ring.
  replace (x' * x' + (y * y + z * z)) with (y * y + (x' * x' + z * z)) in A by ring.
  replace ((y' + (y - y')) * (y' + (y - y')) + (x' * x' + z * z)) with (y * y + (x' * x' + z * z)) in B by ring.
  replace (y' * y' + (x' * x' + z * z)) with (z * z + (x' * x' + y' * y')) in B by ring.
  replace ((z' + (z - z')) * (z' + (z - z')) + (x' * x' + y' * y')) with (z * z + (x' * x' + y' * y')) in C by ring.
  replace (z' * z' + (x' * x' + y' * y')) with (x' * x' + y' * y' + z' * z') in C by ring. lra.
Qed.
Lemma norm_close x y z x' y' z' e : Rabs (x - x') <= e -> Rabs (y - y') <= e -> Rabs (z - z') <= e -> Rabs (norm3 x y z - norm3 x' y' z') <= 3 * e.
Proof.
  intros A B C. assert (L := norm_le x y z x' y' z'). assert (G := norm_le x' y' z' x y z). rewrite (Rabs_minus_sym x'), (Rabs_minus_sym y'), (Rabs_minus_sym z') in G. apply Rabs_le. lra.
Qed.

Lemma sum_err e eta x0 x1 x2 v0 v1 v2 vs tot d : 0 < e -> e <= / 1000000000000000 -> 0 <= eta -> eta <= d / 1024 -> 0 <= x0 -> 0 <= x1 -> 0 <= x2 ->
  - (e * x0 + eta) <= v0 - x0 <= e * x0 + eta -> - (e * x1 + eta) <= v1 - x1 <= e * x1 + eta -> - (e * x2 + eta) <= v2 - x2 <= e * x2 + eta ->
  - (e * (v0 + v1) + eta) <= vs - (v0 + v1) <= e * (v0 + v1) + eta -> - (e * (vs + v2) + eta) <= tot - (vs + v2) <= e * (vs + v2) + eta ->
  Rabs (tot - (x0 + x1 + x2)) <= 4 * e * (x0 + x1 + x2) + d / 64.
Proof.
  intros P Es Q Eta X0 X1 X2 E0 E1 E2 R3 R4.
  assert (G : forall x, 0 <= x -> 0 <= e * x <= / 100 * x) by (intros x X; split; [apply Rmult_le_pos; lra|apply Rmult_le_compat_r; lra]).
  assert (A0 := G _ X0). assert (A1 := G _ X1). assert (A2 := G _ X2). assert (A3 := G _ Q).
  assert (V0 : e * v0 <= e * (101 / 100 * x0 + eta)) by (apply Rmult_le_compat_l; lra).
  assert (V1 : e * v1 <= e * (101 / 100 * x1 + eta)) by (apply Rmult_le_compat_l; lra).
  assert (V2 : e * v2 <= e * (101 / 100 * x2 + eta)) by (apply Rmult_le_compat_l; lra).
  assert (W : vs <= 103 / 100 * (x0 + x1) + 4 * eta) by lra.
  assert (VW : e * vs <= e * (103 / 100 * (x0 + x1) + 4 * eta)) by (apply Rmult_le_compat_l; lra).
  apply Rabs_le. split; lra.
Qed.

Section Area.
  Variable k : Z. Hypothesis K : (-200 <= k <= 200)%Z.
  Let B := bpow radix2 k.
  Let B2 := B * B.
  Lemma PB : 0 < B. Proof. apply bpow_gt_0. Qed.
  Lemma B2_pow : B2 = bpow radix2 (k + k). Proof. unfold B2, B. now rewrite bpow_plus. Qed.
  Lemma PB2 : 0 < B2. Proof. unfold B2. apply Rmult_lt_0_compat; apply PB. Qed.

  Lemma edge_ok x y : sized k x -> sized k y -> finite (fminus x y) = true /\ Rabs (val (fminus x y)) <= 2 * B /\ Rabs (val x - val y) <= 2 * B /\ Rabs (val (fminus x y) - (val x - val y)) <= 33 / 16 * eps * B.
  Proof.
    intros [Fx Bx] [Fy By]. fold B in Bx, By. assert (D2 : bpow radix2 (k + 1) = 2 * B) by (unfold B; rewrite bpow_plus; change (bpow radix2 1) with 2; ring).
    assert (L : Rabs (val x - val y) <= 2 * B) by (unfold Rminus; apply Rle_trans with (1 := Rabs_triang _ _); rewrite Rabs_Ropp; lra).
    destruct (of_key _ _ (k + 1) ltac:(lia) (fminus_key x y Fx Fy)) as [[F S] V]; [lra|].
    split; [assumption|]. split; [lra|]. split; [assumption|]. rewrite V. assert (R := rnd_at k (val x - val y) ltac:(lia)). fold B in R. assert (P := eps_pos). assert (Q := PB). nra.
  Qed.
  Lemma prod_ok x y X Y : finite x = true -> finite y = true -> Rabs (val x) <= 2 * B -> Rabs (val y) <= 2 * B -> Rabs X <= 2 * B -> Rabs (val x - X) <= 33 / 16 * eps * B -> Rabs (val y - Y) <= 33 / 16 * eps * B ->
    finite (fmult x y) = true /\ Rabs (val (fmult x y)) <= 4 * B2 /\ Rabs (val (fmult x y) - X * Y) <= 25 / 2 * eps * B2.
  Proof.
    intros Fx Fy Bx By BX Ex Ey. assert (D4 : bpow radix2 (k + k + 2) = 4 * B2) by (rewrite B2_pow, bpow_plus; change (bpow radix2 2) with 4; ring).
    assert (L : Rabs (val x * val y) <= 4 * B2) by (replace (4 * B2) with (2 * B * (2 * B)) by (unfold B2; ring); now apply prod_bound).
    destruct (of_key _ _ (k + k + 2) ltac:(lia) (fmult_key x y Fx Fy)) as [[F S] V]; [lra|]. split; [assumption|]. split; [lra|].
    assert (R := rnd_at (k + k) (val x * val y) ltac:(lia)). rewrite <- B2_pow, <- V in R. set (z := val (fmult x y)) in *.
    assert (E1 : Rabs ((val x - X) * val y) <= 33 / 16 * eps * B * (2 * B)) by now apply prod_bound.
    assert (E2 : Rabs (X * (val y - Y)) <= 2 * B * (33 / 16 * eps * B)) by now apply prod_bound.
    replace (z - X * Y) with ((z - val x * val y) + ((val x - X) * val y + X * (val y - Y))) by ring.
    apply Rle_trans with (1 := Rabs_triang _ _). assert (T := Rabs_triang ((val x - X) * val y) (X * (val y - Y))). assert (P := eps_pos).
    assert (Q : eps * Rabs (val x * val y) <= eps * (4 * B2)) by (apply Rmult_le_compat_l; lra).
    replace (33 / 16 * eps * B * (2 * B)) with (33 / 8 * eps * B2) in E1 by (unfold B2; field). replace (2 * B * (33 / 16 * eps * B)) with (33 / 8 * eps * B2) in E2 by (unfold B2; field).
    assert (0 < eps * B2) by (apply Rmult_lt_0_compat; [lra|apply PB2]). lra.
  Qed.
  Lemma diff_ok p q P Q : finite p = true -> finite q = true -> Rabs (val p) <= 4 * B2 -> Rabs (val q) <= 4 * B2 -> Rabs (val p - P) <= 25 / 2 * eps * B2 -> Rabs (val q - Q) <= 25 / 2 * eps * B2 ->
    finite (fminus p q) = true /\ Rabs (val (fminus p q)) <= 8 * B2 /\ Rabs (val (fminus p q) - (P - Q)) <= 34 * eps * B2.
  Proof.
    intros Fp Fq Bp Bq Ep Eq. assert (D8 : bpow radix2 (k + k + 3) = 8 * B2) by (rewrite B2_pow, bpow_plus; change (bpow radix2 3) with 8; ring).
    assert (L : Rabs (val p - val q) <= 8 * B2) by (unfold Rminus; apply Rle_trans with (1 := Rabs_triang _ _); rewrite Rabs_Ropp; lra).
    destruct (of_key _ _ (k + k + 3) ltac:(lia) (fminus_key p q Fp Fq)) as [[F S] V]; [lra|]. split; [assumption|]. split; [lra|].
    assert (R := rnd_at (k + k) (val p - val q) ltac:(lia)). rewrite <- B2_pow, <- V in R. set (z := val (fminus p q)) in *.
    replace (z - (P - Q)) with ((z - (val p - val q)) + ((val p - P) - (val q - Q))) by ring.
    apply Rle_trans with (1 := Rabs_triang _ _). assert (T := Rabs_triang (val p - P) (- (val q - Q))). rewrite Rabs_Ropp in T. fold (val p - P - (val q - Q)) in T. assert (Pe := eps_pos).
    assert (W : eps * Rabs (val p - val q) <= eps * (8 * B2)) by (apply Rmult_le_compat_l; lra).
    assert (0 < eps * B2) by (apply Rmult_lt_0_compat; [lra|apply PB2]). unfold Rminus in *. lra.
  Qed.

  Variable t : ftriangle. Hypothesis T : tsized k t.
  Let cr := fcross (fvsub (tp2 t) (tp1 t)) (fvsub (tp3 t) (tp1 t)).
  Lemma cross_ok i : finite (fcomp cr i) = true /\ Rabs (val (fcomp cr i)) <= 8 * B2 /\ Rabs (val (fcomp cr i) - cross_exact t i) <= 34 * eps * B2.
  Proof.
    destruct T as (A1 & A2 & A3).
    assert (E : forall a j, vsized k a -> finite (fcomp (fvsub a (tp1 t)) j) = true /\ Rabs (val (fcomp (fvsub a (tp1 t)) j)) <= 2 * B /\ Rabs (val (fcomp a j) - val (fcomp (tp1 t) j)) <= 2 * B /\
       Rabs (val (fcomp (fvsub a (tp1 t)) j) - (val (fcomp a j) - val (fcomp (tp1 t) j))) <= 33 / 16 * eps * B).
    { intros a j Ha. replace (fcomp (fvsub a (tp1 t)) j) with (fminus (fcomp a j) (fcomp (tp1 t) j)) by (destruct j as [|[|j]]; reflexivity). now apply edge_ok. }
    assert (M : forall j l, exists p, p = fmult (fcomp (fvsub (tp2 t) (tp1 t)) j) (fcomp (fvsub (tp3 t) (tp1 t)) l) /\ finite p = true /\ Rabs (val p) <= 4 * B2 /\
       Rabs (val p - (val (fcomp (tp2 t) j) - val (fcomp (tp1 t) j)) * (val (fcomp (tp3 t) l) - val (fcomp (tp1 t) l))) <= 25 / 2 * eps * B2).
    { intros j l. destruct (E (tp2 t) j A2) as (F1 & G1 & H1 & I1). destruct (E (tp3 t) l A3) as (F2 & G2 & H2 & I2). eexists. split; [reflexivity|]. now apply prod_ok. }
    assert (M2 : forall j l, exists p, p = fmult (fcomp (fvsub (tp3 t) (tp1 t)) j) (fcomp (fvsub (tp2 t) (tp1 t)) l) /\ finite p = true /\ Rabs (val p) <= 4 * B2 /\
       Rabs (val p - (val (fcomp (tp2 t) l) - val (fcomp (tp1 t) l)) * (val (fcomp (tp3 t) j) - val (fcomp (tp1 t) j))) <= 25 / 2 * eps * B2).
    { intros j l. destruct (E (tp3 t) j A3) as (F1 & G1 & H1 & I1). destruct (E (tp2 t) l A2) as (F2 & G2 & H2 & I2). eexists. split; [reflexivity|].
      rewrite (Rmult_comm (val (fcomp (tp2 t) l) - val (fcomp (tp1 t) l))). now apply prod_ok. }
    assert (N : forall j l m, m = fminus (fmult (fcomp (fvsub (tp2 t) (tp1 t)) j) (fcomp (fvsub (tp3 t) (tp1 t)) l)) (fmult (fcomp (fvsub (tp3 t) (tp1 t)) j) (fcomp (fvsub (tp2 t) (tp1 t)) l)) ->
       finite m = true /\ Rabs (val m) <= 8 * B2 /\
       Rabs (val m - ((val (fcomp (tp2 t) j) - val (fcomp (tp1 t) j)) * (val (fcomp (tp3 t) l) - val (fcomp (tp1 t) l)) - (val (fcomp (tp2 t) l) - val (fcomp (tp1 t) l)) * (val (fcomp (tp3 t) j) - val (fcomp (tp1 t) j)))) <= 34 * eps * B2).
    { intros j l m ->. destruct (M j l) as (p & Ep & F1 & G1 & H1). destruct (M2 j l) as (q & Eq & F2 & G2 & H2). rewrite <- Ep, <- Eq. now apply diff_ok. }
    destruct i as [|[|i]]; [exact (N 1%nat 2%nat _ eq_refl)|exact (N 2%nat 0%nat _ eq_refl)|exact (N 0%nat 1%nat _ eq_refl)].
  Qed.

  Lemma square_ok i : finite (fmult (fcomp cr i) (fcomp cr i)) = true /\ 0 <= val (fmult (fcomp cr i) (fcomp cr i)) /\
    Rabs (val (fmult (fcomp cr i) (fcomp cr i)) - val (fcomp cr i) * val (fcomp cr i)) <= eps * (val (fcomp cr i) * val (fcomp cr i)) + / 2 ^ 1074 /\
    val (fmult (fcomp cr i) (fcomp cr i)) <= 64 * (B2 * B2).
  Proof.
    destruct (cross_ok i) as (F & L & _). set (x := fcomp cr i) in *. assert (Sq : 0 <= val x * val x) by nra.
    assert (U : Rabs (val x * val x) <= 64 * (B2 * B2)) by (replace (64 * (B2 * B2)) with (8 * B2 * (8 * B2)) by ring; now apply prod_bound).
    assert (D : bpow radix2 (k + k + (k + k) + 6) = 64 * (B2 * B2)) by (rewrite !(bpow_plus _ (k + k + (k + k))), (bpow_plus _ (k + k) (k + k)), <- B2_pow; change (bpow radix2 6) with 64; ring).
    destruct (of_key _ _ (k + k + (k + k) + 6) ltac:(lia) (fmult_key x x F F)) as [[F2 S2] V2]; [lra|].
    assert (G : 0 <= rnd (val x * val x)) by (rewrite <- rnd_0; now apply rnd_mono). rewrite <- V2 in G.
    split; [assumption|]. split; [assumption|]. split.
    - assert (R := rnd_any (val x * val x)). change (/ 2 ^ 53) with eps in R. rewrite <- V2, (Rabs_pos_eq (val x * val x)) in R by assumption. exact R.
    - apply Rle_trans with (1 := Rle_abs _). lra.
  Qed.
  Lemma eta_tiny : / 2 ^ 1074 <= (eps * B2) * (eps * B2) / 1024.
  Proof.
    replace (/ 2 ^ 1074) with (bpow radix2 (-1074)). 2: { change (-1074)%Z with (- (1074))%Z. rewrite bpow_opp. f_equal. rewrite <- (IZR_Zpower radix2) by lia. rewrite pow_IZR. f_equal. }
    assert (E : eps = bpow radix2 (-53)).
    { unfold eps. change (-53)%Z with (- (53))%Z. rewrite bpow_opp. f_equal. rewrite <- (IZR_Zpower radix2) by lia. rewrite pow_IZR. reflexivity. }
    rewrite E, B2_pow. unfold Rdiv. replace (/ 1024) with (bpow radix2 (-10)) by (simpl; lra). rewrite <- !bpow_plus. apply bpow_le. lia.
  Qed.
  Lemma dot_ok : finite (fdot cr cr) = true /\ 0 <= val (fdot cr cr) <= 256 * (B2 * B2) /\
    Rabs (val (fdot cr cr) - (val (fcomp cr 0) * val (fcomp cr 0) + val (fcomp cr 1) * val (fcomp cr 1) + val (fcomp cr 2) * val (fcomp cr 2))) <=
      4 * eps * (val (fcomp cr 0) * val (fcomp cr 0) + val (fcomp cr 1) * val (fcomp cr 1) + val (fcomp cr 2) * val (fcomp cr 2)) + (eps * B2) * (eps * B2) / 64.
  Proof.
    destruct (square_ok 0) as (F0 & P0 & E0 & U0). destruct (square_ok 1) as (F1 & P1 & E1 & U1). destruct (square_ok 2) as (F2 & P2 & E2 & U2). assert (Eta := eta_tiny).
    unfold fdot. change (fx cr) with (fcomp cr 0). change (fy cr) with (fcomp cr 1). change (fz cr) with (fcomp cr 2).
    set (q0 := fmult (fcomp cr 0) (fcomp cr 0)) in *. set (q1 := fmult (fcomp cr 1) (fcomp cr 1)) in *. set (q2 := fmult (fcomp cr 2) (fcomp cr 2)) in *.
    assert (D7 : bpow radix2 (k + k + (k + k) + 7) = 128 * (B2 * B2)) by (rewrite !(bpow_plus _ (k + k + (k + k))), (bpow_plus _ (k + k) (k + k)), <- B2_pow; change (bpow radix2 7) with 128; ring).
    assert (D8 : bpow radix2 (k + k + (k + k) + 8) = 256 * (B2 * B2)) by (rewrite !(bpow_plus _ (k + k + (k + k))), (bpow_plus _ (k + k) (k + k)), <- B2_pow; change (bpow radix2 8) with 256; ring).
    destruct (of_key _ _ (k + k + (k + k) + 7) ltac:(lia) (fplus_key q0 q1 F0 F1)) as [[F3 S3] V3]; [rewrite D7, Rabs_pos_eq; lra|].
    assert (R3 := rnd_any (val q0 + val q1)). assert (G3 : 0 <= rnd (val q0 + val q1)) by (rewrite <- rnd_0; apply rnd_mono; lra).
    change (/ 2 ^ 53) with eps in R3. rewrite <- V3 in G3, R3. rewrite (Rabs_pos_eq (val q0 + val q1)) in R3 by lra. rewrite D7, Rabs_pos_eq in S3 by assumption. set (s := fplus q0 q1) in *.
    destruct (of_key _ _ (k + k + (k + k) + 8) ltac:(lia) (fplus_key s q2 F3 F2)) as [[F4 S4] V4]; [rewrite D8, Rabs_pos_eq; assert (X := Rmult_lt_0_compat _ _ PB2 PB2); lra|].
    assert (R4 := rnd_any (val s + val q2)). assert (G4 : 0 <= rnd (val s + val q2)) by (rewrite <- rnd_0; apply rnd_mono; lra).
    change (/ 2 ^ 53) with eps in R4. rewrite <- V4 in G4, R4. rewrite (Rabs_pos_eq (val s + val q2)) in R4 by lra. rewrite D8, Rabs_pos_eq in S4 by assumption.
    split; [assumption|]. split; [lra|].
    set (x0 := val (fcomp cr 0) * val (fcomp cr 0)) in *. set (x1 := val (fcomp cr 1) * val (fcomp cr 1)) in *. set (x2 := val (fcomp cr 2) * val (fcomp cr 2)) in *.
    assert (X0 : 0 <= x0) by (unfold x0; nra). assert (X1 : 0 <= x1) by (unfold x1; nra). assert (X2 : 0 <= x2) by (unfold x2; nra).
    set (tot := val (fplus s q2)) in *. assert (Q : 0 <= / 2 ^ 1074) by (apply Rlt_le, Rinv_0_lt_compat, pow_lt; lra). revert Q Eta E0 E1 E2 R3 R4. generalize (/ 2 ^ 1074). intros eta Q Eta E0 E1 E2 R3 R4. assert (P := eps_pos). assert (Es := eps_fine).
    clear - X0 X1 X2 P Es Eta E0 E1 E2 R3 R4 P0 P1 P2 G3 Q. apply Rabs_le_inv in E0, E1, E2, R3, R4.
    set (d := eps * B2 * (eps * B2)) in *. set (vs := val s) in *. set (v0 := val q0) in *. set (v1 := val q1) in *. set (v2 := val q2) in *. clearbody d vs v0 v1 v2 tot x0 x1 x2.
    now apply (sum_err eps eta x0 x1 x2 v0 v1 v2 vs tot d).
  Qed.
  Lemma half_ok x j : (-1074 <= j < 1024)%Z -> sized j x -> finite (fmult x fhalf) = true /\ val (fmult x fhalf) = rnd (val x / 2).
  Proof.
    intros J [F S]. destruct fhalf_ok as [Fh Vh]. destruct (of_key _ _ j J (fmult_key x fhalf F Fh)) as [[F2 _] V2].
    - rewrite Vh, Rabs_mult, (Rabs_pos_eq (/ 2)) by lra. assert (Q := Rabs_pos (val x)). lra.
    - rewrite Vh in V2. now split.
  Qed.
  Lemma area_ok : finite (farea t) = true /\ 0 <= val (farea t) /\
    Rabs (val (farea t) - / 2 * norm3 (cross_exact t 0) (cross_exact t 1) (cross_exact t 2)) <= 128 * eps * B2.
  Proof.
    unfold farea. fold cr. destruct dot_ok as (Fd & Gd & Ed). set (d := fdot cr cr) in *.
    destruct (cross_ok 0) as (_ & L0 & C0). destruct (cross_ok 1) as (_ & L1 & C1). destruct (cross_ok 2) as (_ & L2 & C2).
    assert (N := norm_close _ _ _ _ _ _ _ C0 C1 C2).
    set (S := val (fcomp cr 0) * val (fcomp cr 0) + val (fcomp cr 1) * val (fcomp cr 1) + val (fcomp cr 2) * val (fcomp cr 2)) in *.
    unfold norm3 at 1 in N. fold S in N.
    assert (P := eps_pos). assert (Es := eps_fine). assert (Pb := PB2).
    assert (S0 : 0 <= S) by (unfold S; nra).
    assert (SU : sqrt S <= 16 * B2).
    { replace (16 * B2) with (sqrt (16 * B2 * (16 * B2))) by (apply sqrt_square; lra). apply sqrt_le_1_alt. unfold S.
      assert (Sq : forall x, Rabs x <= 8 * B2 -> x * x <= 8 * B2 * (8 * B2)) by (intros x Hx; apply Rle_trans with (Rabs (x * x)); [apply Rle_abs|now apply prod_bound]).
      assert (A0 := Sq _ L0). assert (A1 := Sq _ L1). assert (A2 := Sq _ L2). nra. }
    unfold fsafe_sqrt. destruct (fsmax_ok d Fd) as [Fm Vm]. rewrite Rmax_right in Vm by lra.
    destruct (fsqrt_ok (fsmax fzero d) Fm ltac:(lra)) as [Fs Vs]. rewrite Vm in Vs. set (r := fsqrt (fsmax fzero d)) in *.
    (* the square root of the computed sum *)
    assert (Eb : 0 < eps * B2) by now apply Rmult_lt_0_compat.
    assert (Q0 := sqrt_pos S). assert (Q1 := sqrt_pos (val d)). assert (QS := sqrt_sqrt S S0). assert (Qd := sqrt_sqrt (val d) (proj1 Gd)).
    assert (Rt : Rabs (sqrt (val d) - sqrt S) <= 4 * eps * sqrt S + eps * B2).
    { apply Rabs_le_inv in Ed. set (y := sqrt (val d)) in *. set (x := sqrt S) in *. rewrite <- Qd, <- QS in Ed. clear - Ed Q0 Q1 P Es Eb.
      set (h := eps * B2) in *. clearbody h x y. apply Rabs_le. split.
      - destruct (Rle_dec (- (4 * eps * x + h)) (y - x)) as [|G]; [assumption|exfalso]. assert (Hz : y < x - 4 * eps * x - h) by lra.
        assert (M : y * y <= (x - 4 * eps * x - h) * (x - 4 * eps * x - h)) by (apply Rmult_le_compat; lra).
        assert (M1 : 0 <= (x - 4 * eps * x - h) * h) by (apply Rmult_le_pos; lra). assert (M2 : 0 <= eps * x * (x - 4 * eps * x)) by (apply Rmult_le_pos; [apply Rmult_le_pos; lra|lra]).
        assert (M3 : 0 < h * h) by now apply Rmult_lt_0_compat. lra.
      - destruct (Rle_dec (y - x) (4 * eps * x + h)) as [|G]; [assumption|exfalso]. assert (Hz : x + 4 * eps * x + h < y) by lra.
        assert (M0 : 0 <= eps * x) by (apply Rmult_le_pos; lra).
        assert (M : (x + 4 * eps * x + h) * (x + 4 * eps * x + h) <= y * y) by (apply Rmult_le_compat; lra).
        assert (M1 : 0 <= eps * x * x) by (apply Rmult_le_pos; lra). assert (M2 : 0 <= x * h) by (apply Rmult_le_pos; lra). assert (M3 : 0 < h * h) by now apply Rmult_lt_0_compat.
        assert (M4 : 0 <= eps * x * (eps * x)) by (apply Rmult_le_pos; lra). assert (M5 : 0 <= eps * x * h) by (apply Rmult_le_pos; lra). lra. }
    assert (SE := Rmult_le_compat_l _ _ _ (Rlt_le _ _ P) SU). assert (EB : eps * B2 <= / 1000 * B2) by (apply Rmult_le_compat_r; lra).
    assert (Rt' : Rabs (sqrt (val d) - sqrt S) <= 65 * eps * B2) by lra.
    assert (Up : sqrt (val d) <= 17 * B2) by (apply Rabs_le_inv in Rt'; lra). assert (UE := Rmult_le_compat_l _ _ _ (Rlt_le _ _ P) Up).
    assert (Rr := rnd_at (k + k) (sqrt (val d)) ltac:(lia)). rewrite <- B2_pow, <- Vs, (Rabs_pos_eq (sqrt (val d))) in Rr by assumption.
    assert (Rr' : Rabs (val r - sqrt (val d)) <= 18 * eps * B2) by lra.
    assert (R0 : 0 <= val r) by (rewrite Vs, <- rnd_0; apply rnd_mono; assumption).
    assert (Rb : val r <= 32 * B2) by (apply Rabs_le_inv in Rr'; lra). assert (RE := Rmult_le_compat_l _ _ _ (Rlt_le _ _ P) Rb).
    assert (D5 : bpow radix2 (k + k + 5) = 32 * B2) by (rewrite bpow_plus, <- B2_pow; change (bpow radix2 5) with 32; ring).
    destruct (half_ok r (k + k + 5) ltac:(lia)) as [Fh Vh]; [split; [assumption|rewrite D5, Rabs_pos_eq; lra]|].
    split; [assumption|]. split; [rewrite Vh, <- rnd_0; apply rnd_mono; lra|].
    assert (Rh := rnd_at (k + k) (val r / 2) ltac:(lia)). rewrite <- B2_pow, <- Vh, (Rabs_pos_eq (val r / 2)) in Rh by lra. set (f := val (fmult r fhalf)) in *.
    assert (Rh' : Rabs (f - val r / 2) <= 17 * eps * B2) by lra.
    apply Rabs_le_inv in Rh', Rr', Rt', N. set (nn := norm3 (cross_exact t 0) (cross_exact t 1) (cross_exact t 2)) in *. apply Rabs_le. lra.
  Qed.
End Area.
