From Coq Require Import List Reals ZArith Bool Lra Lia Psatz.
From Flocq Require Import Core.Core IEEE754.BinarySingleNaN.
From Verif Require Import RngModel FltModel FltProofs FDistSpec FDistProofs FBoundModel FBoundSpec FBoundProofs FFilmModel FFilmProofs FBvhSpec FBvhProofs FDirModel FDirSpec FDirProofs FCamModel FCamSpec.
Local Open Scope R_scope.

(** ** Rounding *)
Lemma rnd_err y : Rabs (rnd y - y) <= eps * Rabs y + eps / 8.
Proof. assert (R := rnd_any y). assert (T := tiny_eta). change (/ 2 ^ 53) with eps in R. lra. Qed.
Lemma fhalf_ok : finite fhalf = true /\ val fhalf = / 2.
Proof.
  destruct (val_sf fhalf (2 ^ 52) (-53) ltac:(vm_compute; reflexivity)) as [F V]. split; [assumption|]. rewrite V.
  change (IZR (2 ^ 52)) with (bpow radix2 52). rewrite <- bpow_plus. reflexivity.
Qed.

(** ** Normalised vectors are the vectors times one number. *)
Lemma scale_ok v : usual_vec v -> exists k, finite k = true /\ 0 < val k /\ fnormalize v = fvmul v k /\
  forall i, Rabs (val (fcomp (fnormalize v) i) - val (fcomp v i) * val k) <= 5 / 4 * eps.
Proof.
  intros U. exists (fdivide fone (fsqrt (fdot v v))). destruct (root_ok v U) as (Fs & Vs & Lo & Up). set (s := fsqrt (fdot v v)) in *.
  assert (P : 0 < bpow radix2 (-500)) by apply bpow_gt_0.
  destruct (of_key (fdivide fone s) _ 500 ltac:(lia) (fdivide_key fone s fone_finite Fs ltac:(lra))) as [[Fi Bi] Vi].
  { rewrite fone_val. unfold Rdiv. rewrite Rmult_1_l, Rabs_inv, Rabs_pos_eq by lra. replace (bpow radix2 500) with (/ bpow radix2 (-500)) by (rewrite <- bpow_opp; reflexivity). apply Rinv_le; lra. }
  split; [assumption|]. rewrite fone_val in Vi. unfold Rdiv in Vi. rewrite Rmult_1_l in Vi. split.
  - rewrite Vi. assert (I0 : 0 < / val s) by (apply Rinv_0_lt_compat; lra).
    assert (L : bpow radix2 (-510) <= / val s).
    { change (-510)%Z with (- (510))%Z. rewrite (bpow_opp radix2 510). apply Rinv_le; [lra|].
      destruct (dot_ge v U) as [[_ Bd] _]. rewrite Vs. apply Rle_trans with (1 := Rle_abs _). apply rnd_size; [lia|].
      rewrite Rabs_pos_eq by apply sqrt_pos. apply Rle_trans with (sqrt (bpow radix2 1020)).
      - apply sqrt_le_1_alt. apply Rle_trans with (1 := Rle_abs _). apply Rle_trans with (1 := Bd). apply bpow_le. lia.
      - change 1020%Z with (510 + 510)%Z. rewrite bpow_plus, sqrt_square by apply bpow_ge_0. lra. }
    assert (Q := rnd_mono _ _ L). assert (G : rnd (bpow radix2 (-510)) = bpow radix2 (-510)) by (apply round_generic; auto with typeclass_instances; apply bpow_format; lia).
    rewrite G in Q. assert (0 < bpow radix2 (-510)) by apply bpow_gt_0. lra.
  - split; [reflexivity|]. intros i. destruct (normalize_cube v U i) as [Fn Bn].
    assert (E : fcomp (fnormalize v) i = fmult (fcomp v i) (fdivide fone s)) by (destruct i as [|[|i]]; reflexivity). rewrite E in *.
    destruct (fmult_key (fcomp v i) (fdivide fone s) (proj1 (proj1 U i)) Fi) as [Nk Kk]. assert (V := finite_result _ _ Nk Kk Fn). rewrite V in *.
    assert (R := rnd_err (val (fcomp v i) * val (fdivide fone s))). revert R Bn. generalize (val (fcomp v i) * val (fdivide fone s)). intros y R Bn.
    apply Rle_trans with (1 := R). assert (E0 := eps_pos). assert (E1 := eps_tiny).
    assert (Y : Rabs y <= 1 + / 100). { revert R. unfold Rabs. destruct (Rcase_abs (rnd y - y)), (Rcase_abs y); intros R; nra. }
    nra.
Qed.

(** ** Vectors times a matrix *)
Definition small_vec (v : fvec) : Prop := forall i, finite (fcomp v i) = true /\ Rabs (val (fcomp v i)) <= 1001 / 1000.
Lemma prod_bound x y A B : Rabs x <= A -> Rabs y <= B -> Rabs (x * y) <= A * B.
Proof. intros H K. rewrite Rabs_mult. apply Rmult_le_compat; auto using Rabs_pos. Qed.
Lemma sum_bound x y A B : Rabs x <= A -> Rabs y <= B -> Rabs (x + y) <= A + B.
Proof. intros H K. apply Rle_trans with (1 := Rabs_triang _ _). lra. Qed.
Lemma ap_dot3 a0 a1 a2 b0 b1 b2 x0 x1 x2 : finite a0 = true -> finite a1 = true -> finite a2 = true ->
  Rabs (val a0) <= 1001 / 1000 -> Rabs (val a1) <= 1001 / 1000 -> Rabs (val a2) <= 1001 / 1000 ->
  approx b0 x0 15 -> approx b1 x1 15 -> approx b2 x2 15 -> Rabs x0 <= 3004 / 1000 -> Rabs x1 <= 3004 / 1000 -> Rabs x2 <= 3004 / 1000 ->
  approx (fplus (fplus (fmult a0 b0) (fmult a1 b1)) (fmult a2 b2)) (val a0 * x0 + val a1 * x1 + val a2 * x2) 78.
Proof.
  intros F0 F1 F2 A0 A1 A2 H0 H1 H2 B0 B1 B2.
  assert (M : forall a b x, finite a = true -> Rabs (val a) <= 1001 / 1000 -> approx b x 15 -> Rabs x <= 3004 / 1000 -> approx (fmult a b) (val a * x) (2005 / 100) /\ Rabs (val a * x) <= 301 / 100).
  { intros a b x F A H B. split; [|apply Rle_trans with (1 := prod_bound _ _ _ _ A B); lra].
    apply ap_le with (1 := ap_mult a b _ _ 0 15 _ _ (ap_exact a F) H A B ltac:(lra) ltac:(lra) ltac:(lra) ltac:(lra)). lra. }
  destruct (M a0 b0 x0 F0 A0 H0 B0) as [P0 Q0]. destruct (M a1 b1 x1 F1 A1 H1 B1) as [P1 Q1]. destruct (M a2 b2 x2 F2 A2 H2 B2) as [P2 Q2].
  assert (S1 := ap_plus _ _ _ _ _ _ _ _ P0 P1 Q0 Q1 ltac:(lra) ltac:(lra) ltac:(lra)).
  assert (S2 := ap_plus _ _ _ _ _ _ _ _ S1 P2 (sum_bound _ _ _ _ Q0 Q1) Q2 ltac:(lra) ltac:(lra) ltac:(lra)).
  apply ap_le with (1 := S2). lra.
Qed.
Lemma ap_comb a0 a1 a2 b0 b1 b2 : finite a0 = true -> finite a1 = true -> finite a2 = true -> finite b0 = true -> finite b1 = true -> finite b2 = true ->
  Rabs (val a0) <= 1001 / 1000 -> Rabs (val a1) <= 1001 / 1000 -> Rabs (val a2) <= 1001 / 1000 -> Rabs (val b0) <= 1 -> Rabs (val b1) <= 1 -> Rabs (val b2) <= 1 ->
  approx (fplus (fplus (fmult a0 b0) (fmult a1 b1)) (fmult a2 b2)) (val a0 * val b0 + val a1 * val b1 + val a2 * val b2) 15 /\
  Rabs (val a0 * val b0 + val a1 * val b1 + val a2 * val b2) <= 3004 / 1000.
Proof.
  intros F0 F1 F2 G0 G1 G2 A0 A1 A2 B0 B1 B2.
  assert (M : forall a b, finite a = true -> finite b = true -> Rabs (val a) <= 1001 / 1000 -> Rabs (val b) <= 1 -> approx (fmult a b) (val a * val b) (3002 / 1000) /\ Rabs (val a * val b) <= 10011 / 10000).
  { intros a b F G A B. split; [|apply Rle_trans with (1 := prod_bound _ _ _ _ A B); lra].
    apply ap_le with (1 := ap_mult a b _ _ 0 0 _ _ (ap_exact a F) (ap_exact b G) A B ltac:(lra) ltac:(lra) ltac:(lra) ltac:(lra)). lra. }
  destruct (M a0 b0 F0 G0 A0 B0) as [P0 Q0]. destruct (M a1 b1 F1 G1 A1 B1) as [P1 Q1]. destruct (M a2 b2 F2 G2 A2 B2) as [P2 Q2].
  assert (S1 := ap_plus _ _ _ _ _ _ _ _ P0 P1 Q0 Q1 ltac:(lra) ltac:(lra) ltac:(lra)).
  assert (S2 := ap_plus _ _ _ _ _ _ _ _ S1 P2 (sum_bound _ _ _ _ Q0 Q1) Q2 ltac:(lra) ltac:(lra) ltac:(lra)).
  split; [apply ap_le with (1 := S2); lra|]. apply Rle_trans with (1 := sum_bound _ _ _ _ (sum_bound _ _ _ _ Q0 Q1) Q2). lra.
Qed.

(** Vectors of a nearly orthonormal basis are small. *)
Lemma near_small v : finite_vec v -> near_one (rdot3 v v) -> small_vec v.
Proof.
  intros F N. assert (E := eps_tiny). assert (P := eps_pos). unfold near_one in N. apply Rabs_le_inv in N. unfold rdot3 in N. intros i. split; [apply F|]. apply small_square.
  destruct i as [|[|i]]; cbn [fcomp]; nra.
Qed.
Lemma dot_small u wo : small_vec u -> in_cube wo -> approx (fdot u wo) (rdot3 u wo) 15 /\ Rabs (rdot3 u wo) <= 3004 / 1000.
Proof.
  intros S C. destruct (S 0%nat), (S 1%nat), (S 2%nat). destruct (C 0%nat), (C 1%nat), (C 2%nat). cbn [fcomp] in *.
  apply ap_comb; try assumption; apply Rabs_le; lra.
Qed.

Section World.
  Variable c : fcamera. Hypothesis O : orthonormal (fcu c) (fcv c) (fcw c).
  Variable d : fvec. Hypothesis Hd : in_cube d.
  Let u := fcu c. Let v := fcv c. Let w := fcw c.
  Definition world i : R := val (fcomp (fcu c) i) * val (fx d) + val (fcomp (fcv c) i) * val (fy d) + val (fcomp (fcw c) i) * val (fz d).
  Lemma world_close i : approx (fcomp (fto_world c d) i) (world i) 15 /\ Rabs (world i) <= 3004 / 1000.
  Proof.
    destruct O as ((Fu & Fv & Fw) & (Nu & Nv & Nw) & _). assert (Su := near_small _ Fu Nu i). assert (Sv := near_small _ Fv Nv i). assert (Sw := near_small _ Fw Nw i).
    destruct (Hd 0%nat), (Hd 1%nat), (Hd 2%nat). cbn [fcomp] in *.
    replace (fcomp (fto_world c d) i) with (fplus (fplus (fmult (fcomp (fcu c) i) (fx d)) (fmult (fcomp (fcv c) i) (fy d))) (fmult (fcomp (fcw c) i) (fz d))) by (destruct i as [|[|i]]; reflexivity).
    apply ap_comb; try tauto; apply Rabs_le; lra.
  Qed.
  Lemma back_close b : small_vec b -> approx (fdot b (fto_world c d)) (rdot3 b u * val (fx d) + rdot3 b v * val (fy d) + rdot3 b w * val (fz d)) 78.
  Proof.
    intros S. destruct (S 0%nat), (S 1%nat), (S 2%nat). destruct (world_close 0), (world_close 1), (world_close 2). cbn [fcomp] in *.
    apply ap_eq with (val (fx b) * world 0 + val (fy b) * world 1 + val (fz b) * world 2).
    - unfold fdot. apply ap_dot3; assumption.
    - unfold world, rdot3, u, v, w. cbn [fcomp]. ring.
  Qed.
  (** In camera coordinates the direction comes back. *)
  Lemma eye_close i : approx (fcomp (fto_eye c (fto_world c d)) i) (val (fcomp d i)) 463.
  Proof.
    destruct O as ((Fu & Fv & Fw) & (Nu & Nv & Nw) & (Uv & Uw & Vw)).
    assert (Bu := back_close _ (near_small _ Fu Nu)). assert (Bv := back_close _ (near_small _ Fv Nv)). assert (Bw := back_close _ (near_small _ Fw Nw)).
    unfold u, v, w in Bu, Bv, Bw. unfold near_one, near_zero in *. clearbody u v w. clear u v w. set (u := fcu c) in *. set (v := fcv c) in *. set (w := fcw c) in *. destruct (Hd 0%nat) as [_ D0], (Hd 1%nat) as [_ D1], (Hd 2%nat) as [_ D2]. cbn [fcomp] in *.
    assert (Sy : forall a b, rdot3 a b = rdot3 b a) by (intros a b; unfold rdot3; ring).
    rewrite (Sy v u) in Bv. rewrite (Sy w u), (Sy w v) in Bw.
    assert (K : forall p q r a b e, Rabs p <= 128 * eps -> Rabs q <= 128 * eps -> Rabs r <= 128 * eps -> -1 <= a <= 1 -> -1 <= b <= 1 -> -1 <= e <= 1 -> Rabs (p * a + q * b + r * e) <= 385 * eps).
    { intros p q r a b e Hp Hq Hr Ha Hb He. assert (P := eps_pos).
      apply Rle_trans with (128 * eps * 1 + 128 * eps * 1 + 128 * eps * 1); [|lra].
      repeat apply sum_bound; apply prod_bound; try assumption; now apply Rabs_le. }
    destruct i as [|[|i]]; cbn [fcomp fto_eye fx fy fz].
    - apply ap_le with (78 + 385); [|lra]. apply ap_near with (1 := Bu).
      replace (rdot3 u u * val (fx d) + rdot3 u v * val (fy d) + rdot3 u w * val (fz d) - val (fx d)) with ((rdot3 u u - 1) * val (fx d) + rdot3 u v * val (fy d) + rdot3 u w * val (fz d)) by ring. now apply K.
    - apply ap_le with (78 + 385); [|lra]. apply ap_near with (1 := Bv).
      replace (rdot3 u v * val (fx d) + rdot3 v v * val (fy d) + rdot3 v w * val (fz d) - val (fy d)) with (rdot3 u v * val (fx d) + (rdot3 v v - 1) * val (fy d) + rdot3 v w * val (fz d)) by ring. now apply K.
    - apply ap_le with (78 + 385); [|lra]. apply ap_near with (1 := Bw).
      replace (rdot3 u w * val (fx d) + rdot3 v w * val (fy d) + rdot3 w w * val (fz d) - val (fz d)) with (rdot3 u w * val (fx d) + rdot3 v w * val (fy d) + (rdot3 w w - 1) * val (fz d)) by ring. now apply K.
  Qed.
  (** The length of the direction is kept. *)
  Lemma world_length : Rabs (length2 d - 1) <= 16 * eps -> Rabs (length2 (fto_world c d) - 1) <= 1500 * eps.
  Proof.
    intros L. destruct O as (_ & (Nu & Nv & Nw) & (Uv & Uw & Vw)). unfold near_one, near_zero in *.
    assert (P := eps_pos). assert (T := eps_tiny).
    destruct (Hd 0%nat) as [_ D0], (Hd 1%nat) as [_ D1], (Hd 2%nat) as [_ D2]. cbn [fcomp] in *.
    assert (E : world 0 * world 0 + world 1 * world 1 + world 2 * world 2 - length2 d =
      ((rdot3 (fcu c) (fcu c) - 1) * (val (fx d) * val (fx d)) + (rdot3 (fcv c) (fcv c) - 1) * (val (fy d) * val (fy d)) + (rdot3 (fcw c) (fcw c) - 1) * (val (fz d) * val (fz d))) +
      (2 * rdot3 (fcu c) (fcv c) * (val (fx d) * val (fy d)) + 2 * rdot3 (fcu c) (fcw c) * (val (fx d) * val (fz d)) + 2 * rdot3 (fcv c) (fcw c) * (val (fy d) * val (fz d)))).
    { unfold world, rdot3, length2. cbn [fcomp]. ring. }
    assert (Q : Rabs (world 0 * world 0 + world 1 * world 1 + world 2 * world 2 - length2 d) <= 1152 * eps).
    { rewrite E. assert (X : forall a b, -1 <= a <= 1 -> -1 <= b <= 1 -> Rabs (a * b) <= 1 * 1) by (intros a b Ha Hb; apply prod_bound; apply Rabs_le; lra).
      assert (Y : forall r, Rabs r <= 128 * eps -> Rabs (2 * r) <= 256 * eps) by (intros r Hr; rewrite Rabs_mult, (Rabs_pos_eq 2) by lra; lra).
      apply Rle_trans with ((128 * eps * (1 * 1) + 128 * eps * (1 * 1) + 128 * eps * (1 * 1)) + (256 * eps * (1 * 1) + 256 * eps * (1 * 1) + 256 * eps * (1 * 1))); [|lra].
      repeat apply sum_bound; apply prod_bound; auto. }
    assert (Wl : world 0 * world 0 + world 1 * world 1 + world 2 * world 2 <= 1002 / 1000).
    { apply Rabs_le_inv in Q. apply Rabs_le_inv in L. lra. }
    assert (S : forall i, (i < 3)%nat -> Rabs (world i) <= 1001 / 1000) by (intros [|[|[|i]]] I; try lia; apply small_square; nra).
    assert (Sq : forall i, (i < 3)%nat -> Rabs (val (fcomp (fto_world c d) i) * val (fcomp (fto_world c d) i) - world i * world i) <= 31 * eps).
    { intros i I. specialize (S i I). destruct (world_close i) as [[_ A] _]. revert A S. generalize (val (fcomp (fto_world c d) i)) (world i). intros z y A S.
      replace (z * z - y * y) with ((z - y) * (z - y) + 2 * y * (z - y)) by ring. apply Rle_trans with (1 := Rabs_triang _ _). rewrite !Rabs_mult, (Rabs_pos_eq 2) by lra.
      assert (0 <= Rabs (z - y)) by apply Rabs_pos. assert (0 <= Rabs y) by apply Rabs_pos.
      assert (Rabs (z - y) * Rabs (z - y) <= 15 * eps * (15 * eps)) by (apply Rmult_le_compat; lra).
      assert (2 * Rabs y * Rabs (z - y) <= 2 * (1001 / 1000) * (15 * eps)) by (apply Rmult_le_compat; nra). nra. }
    assert (Q0 := Sq 0%nat ltac:(lia)). assert (Q1 := Sq 1%nat ltac:(lia)). assert (Q2 := Sq 2%nat ltac:(lia)). cbn [fcomp] in *.
    unfold length2 at 1. set (o := fto_world c d) in *.
    replace (val (fx o) * val (fx o) + val (fy o) * val (fy o) + val (fz o) * val (fz o) - 1) with
      ((val (fx o) * val (fx o) - world 0 * world 0) + (val (fy o) * val (fy o) - world 1 * world 1) + (val (fz o) * val (fz o) - world 2 * world 2) +
       ((world 0 * world 0 + world 1 * world 1 + world 2 * world 2 - length2 d) + (length2 d - 1))) by ring.
    apply Rle_trans with (31 * eps + 31 * eps + 31 * eps + (1152 * eps + 16 * eps)); [|lra]. repeat apply sum_bound; assumption.
  Qed.
End World.

(** ** Positions on the film *)
Lemma eps_val : eps = / 9007199254740992.
Proof. unfold eps. f_equal. simpl. ring. Qed.
Lemma eps_fine : eps <= / 1000000000000000.
Proof. rewrite eps_val. lra. Qed.
Lemma div_abs x f g : 0 < g -> g <= f -> Rabs (x / f) <= Rabs x / g.
Proof.
  intros G L. unfold Rdiv. rewrite Rabs_mult. apply Rmult_le_compat_l; [apply Rabs_pos|]. rewrite Rabs_pos_eq; [now apply Rinv_le|]. apply Rlt_le, Rinv_0_lt_compat. lra.
Qed.
Lemma opp_ok x : finite x = true -> finite (Bopp x) = true /\ val (Bopp x) = - val x.
Proof. intros F. split; [unfold finite; now rewrite is_finite_Bopp|unfold val; apply B2R_Bopp]. Qed.
Lemma divide_round x y B : finite x = true -> finite y = true -> val y <> 0 -> Rabs (val x / val y) <= B -> B <= 1000 ->
  finite (fdivide x y) = true /\ Rabs (val (fdivide x y) - val x / val y) <= (B + / 8) * eps.
Proof.
  intros Fx Fy N H L. destruct (of_key _ _ 10 ltac:(lia) (fdivide_key x y Fx Fy N)) as [[F _] V].
  { apply Rle_trans with (1 := H). change (bpow radix2 10) with 1024. lra. }
  split; [assumption|]. rewrite V. assert (R := rnd_err (val x / val y)). assert (P := eps_pos). nra.
Qed.
Lemma abs_near x y D : Rabs (x - y) <= D -> Rabs x <= Rabs y + D.
Proof. intros H. replace x with (x - y + y) by ring. apply Rle_trans with (1 := Rabs_triang _ _). lra. Qed.

Lemma ratio_ok X Z x0 k : approx X (x0 * k) 465 -> approx Z (- k) 465 -> / 24 <= k -> Rabs x0 <= 17 ->
  finite (fdivide (Bopp X) Z) = true /\ Rabs (val (fdivide (Bopp X) Z) - x0) <= 210000 * eps.
Proof.
  intros [FX AX] [FZ AZ] K B. destruct (opp_ok X FX) as [Fo Vo]. assert (P := eps_pos). assert (E := eps_fine).
  assert (Zn : val Z <= - / 25) by (apply Rabs_le_inv in AZ; lra).
  assert (Q : Rabs (val (Bopp X) / val Z - x0) <= 209300 * eps).
  { rewrite Vo. replace (- val X / val Z - x0) with ((val X - x0 * k + x0 * (val Z - - k)) / (- val Z)) by (field; lra).
    apply Rle_trans with (1 := div_abs _ (- val Z) (/ 25) ltac:(lra) ltac:(lra)).
    assert (N : Rabs (val X - x0 * k + x0 * (val Z - - k)) <= 465 * eps + 17 * (465 * eps)) by (apply sum_bound; [assumption|]; now apply prod_bound). lra. }
  assert (A := abs_near _ _ _ Q). destruct (divide_round (Bopp X) Z (172 / 10) Fo FZ) as [F R]; [lra|lra|lra|].
  split; [assumption|]. replace (val (fdivide (Bopp X) Z) - x0) with (val (fdivide (Bopp X) Z) - val (Bopp X) / val Z + (val (Bopp X) / val Z - x0)) by ring.
  apply Rle_trans with (1 := sum_bound _ _ _ _ R Q). lra.
Qed.

Definition screen_close (p : flt) (y : R) : Prop := finite p = true /\ Rabs (val p - (y / 2 + / 2)) <= 1684000 * eps.
Lemma half_ok c y : finite c = true -> Rabs (val c - y) <= 3366000 * eps -> Rabs y <= 280 -> screen_close (fplus (fmult c fhalf) fhalf) y.
Proof.
  intros F H B. destruct fhalf_ok as [Fh Vh]. assert (P := eps_pos). assert (E := eps_fine). assert (A := abs_near _ _ _ H).
  assert (M1 : Rabs (val c * val fhalf) <= 141). { rewrite Vh, Rabs_mult, (Rabs_pos_eq (/ 2)) by lra. lra. }
  destruct (of_key _ _ 10 ltac:(lia) (fmult_key c fhalf F Fh)) as [[Fm _] Vm]. { apply Rle_trans with (1 := M1). change (bpow radix2 10) with 1024. lra. }
  assert (R1 := rnd_err (val c * val fhalf)). rewrite <- Vm in R1. assert (A1 := abs_near _ _ _ R1).
  assert (Z : Rabs (val fhalf) = / 2) by (rewrite Vh; apply Rabs_pos_eq; lra).
  assert (M2 : Rabs (val (fmult c fhalf) + val fhalf) <= 143). { apply Rle_trans with (1 := Rabs_triang _ _). rewrite Z. nra. }
  destruct (of_key _ _ 10 ltac:(lia) (fplus_key _ fhalf Fm Fh)) as [[Fs _] Vs]. { apply Rle_trans with (1 := M2). change (bpow radix2 10) with 1024. lra. }
  assert (R2 := rnd_err (val (fmult c fhalf) + val fhalf)). rewrite <- Vs in R2. split; [assumption|].
  set (s := val (fplus (fmult c fhalf) fhalf)) in *. set (m := val (fmult c fhalf)) in *. rewrite Vh in *.
  replace (s - (y / 2 + / 2)) with (s - (m + / 2) + (m - val c * / 2 + (val c - y) * / 2)) by field.
  assert (R3 : Rabs ((val c - y) * / 2) <= 3366000 * eps * / 2) by (rewrite Rabs_mult, (Rabs_pos_eq (/ 2)) by lra; lra).
  apply Rle_trans with (1 := sum_bound _ _ _ _ R2 (sum_bound _ _ _ _ R1 R3)). nra.
Qed.

Section Screen.
  Variables tf asp : flt. Hypothesis Hs : usual_screen tf asp.
  Let f := val tf. Let a := val asp.
  Lemma pos_y c x0 : finite c = true -> Rabs (val c - x0) <= 210000 * eps -> Rabs x0 <= 17 -> screen_close (fplus (fmult (fdivide c tf) fhalf) fhalf) (x0 / f).
  Proof.
    intros F H B. destruct Hs as (Ff & Fa & Bf & Ba & Bp). fold f in Bf. fold a in Ba. unfold sixteen in *. assert (P := eps_pos). assert (E := eps_fine).
    assert (D0 := div_abs (val c) f (/ 16) ltac:(lra) ltac:(lra)). assert (A := abs_near _ _ _ H).
    assert (D1 := div_abs (val c - x0) f (/ 16) ltac:(lra) ltac:(lra)). assert (D2 := div_abs x0 f (/ 16) ltac:(lra) ltac:(lra)).
    destruct (divide_round c tf 273 F Ff) as [Fd R]; [fold f; lra|fold f; lra|lra|]. fold f in R. apply half_ok; [assumption| |lra].
    replace (val (fdivide c tf) - x0 / f) with (val (fdivide c tf) - val c / f + (val c - x0) / f) by (field; lra).
    apply Rle_trans with (1 := sum_bound _ _ _ _ R D1). lra.
  Qed.
  Lemma pos_x c x0 : finite c = true -> Rabs (val c - x0) <= 210000 * eps -> Rabs x0 <= 17 -> screen_close (fplus (fmult (fdivide (fdivide c tf) asp) fhalf) fhalf) (x0 / (a * f)).
  Proof.
    intros F H B. destruct Hs as (Ff & Fa & Bf & Ba & Bp). fold f in Bf, Bp. fold a in Ba, Bp. unfold sixteen in *. assert (P := eps_pos). assert (E := eps_fine).
    assert (A := abs_near _ _ _ H).
    assert (D0 := div_abs (val c) f (/ 16) ltac:(lra) ltac:(lra)). assert (D1 := div_abs (val c - x0) (a * f) (/ 16) ltac:(lra) ltac:(lra)).
    assert (D2 := div_abs x0 (a * f) (/ 16) ltac:(lra) ltac:(lra)).
    destruct (divide_round c tf 273 F Ff) as [F1 R1]; [fold f; lra|fold f; lra|lra|]. fold f in R1. set (c2 := fdivide c tf) in *.
    assert (D3 := div_abs (val c2 - val c / f) a (/ 16) ltac:(lra) ltac:(lra)).
    assert (T1 : val c2 / a - x0 / (a * f) = (val c2 - val c / f) / a + (val c - x0) / (a * f)) by (field; lra).
    assert (Q1 : Rabs (val c2 / a - x0 / (a * f)) <= 3364500 * eps). { rewrite T1. apply Rle_trans with (1 := sum_bound _ _ _ _ D3 D1). lra. }
    assert (A1 := abs_near _ _ _ Q1). destruct (divide_round c2 asp 273 F1 Fa) as [F2 R2]; [fold a; lra|fold a; lra|lra|]. fold a in R2.
    apply half_ok; [assumption| |lra].
    replace (val (fdivide c2 asp) - x0 / (a * f)) with (val (fdivide c2 asp) - val c2 / a + (val c2 / a - x0 / (a * f))) by ring.
    apply Rle_trans with (1 := sum_bound _ _ _ _ R2 Q1). lra.
  Qed.
End Screen.

Lemma geb_zero x : finite x = true -> flt_geb x fzero = Rle_bool 0 (val x).
Proof. intros F. unfold flt_geb. now apply (Bleb_correct 53 1024 fzero x eq_refl F). Qed.
Lemma ltb_zero x : finite x = true -> flt_ltb x fzero = Rlt_bool (val x) 0.
Proof. intros F. now apply (Bltb_correct 53 1024 x fzero F eq_refl). Qed.
Lemma ltb_one x : finite x = true -> flt_ltb fone x = Rlt_bool 1 (val x).
Proof. intros F. unfold flt_ltb. rewrite (Bltb_correct 53 1024 fone x fone_finite F). fold (val fone). now rewrite fone_val. Qed.

(** The position of a direction whose coordinates in the camera are (x0, y0, -1) k *)
Lemma position_close c wo x0 y0 k : usual_screen (fctf c) (fcasp c) ->
  let e := fto_eye c wo in approx (fx e) (x0 * k) 465 -> approx (fy e) (y0 * k) 465 -> approx (fz e) (- k) 465 -> / 24 <= k -> Rabs x0 <= 17 -> Rabs y0 <= 17 ->
  exists px py, screen_close px (x0 / (val (fcasp c) * val (fctf c))) /\ screen_close py (y0 / val (fctf c)) /\
    fraster_position c wo = if Rlt_bool (val px) 0 || Rlt_bool 1 (val px) || Rlt_bool (val py) 0 || Rlt_bool 1 (val py) then None else Some (px, py).
Proof.
  intros Hs e Ax Ay Az K Bx By. destruct (ratio_ok _ _ _ _ Ax Az K Bx) as [Fx Rx]. destruct (ratio_ok _ _ _ _ Ay Az K By) as [Fy Ry].
  assert (Sx := pos_x _ _ Hs _ _ Fx Rx Bx). assert (Sy := pos_y _ _ Hs _ _ Fy Ry By).
  unfold fraster_position. fold e. destruct Az as [Fz Vz]. rewrite geb_zero by assumption. assert (P := eps_pos). assert (E := eps_fine). apply Rabs_le_inv in Vz.
  rewrite Rle_bool_false by lra. unfold fplane. set (px := fplus _ _) in Sx. set (py := fplus _ _) in Sy. fold px py.
  exists px, py. split; [assumption|]. split; [assumption|]. destruct Sx as [Fp _]. destruct Sy as [Fq _]. now rewrite !ltb_zero, !ltb_one by assumption.
Qed.

(** ** The ray of a position *)
Lemma coordinate_ok r : finite r = true -> 0 <= val r <= 1 -> finite (fminus (fmult ftwo r) fone) = true /\ Rabs (val (fminus (fmult ftwo r) fone) - (2 * val r - 1)) <= 4 * eps /\
  Rabs (val (fminus (fmult ftwo r) fone)) <= 1.
Proof.
  intros F B. destruct ftwo_ok as [F2 V2]. assert (P := eps_pos). assert (E := eps_fine).
  destruct (of_key _ _ 1 ltac:(lia) (fmult_key ftwo r F2 F)) as [[Fm Bm] Vm]. { rewrite V2, Rabs_pos_eq by lra. change (bpow radix2 1) with 2. lra. }
  rewrite V2 in Vm. change (bpow radix2 1) with 2 in Bm. assert (R1 := rnd_err (2 * val r)). rewrite <- Vm in R1.
  assert (N := rnd_pos (2 * val r) ltac:(lra)). rewrite <- Vm in N. rewrite (Rabs_pos_eq (2 * val r)) in R1 by lra. rewrite Rabs_pos_eq in Bm by assumption.
  destruct (of_key _ _ 0 ltac:(lia) (fminus_key _ fone Fm fone_finite)) as [[Fd Bd] Vd]. { rewrite fone_val. change (bpow radix2 0) with 1. apply Rabs_le. lra. }
  split; [assumption|]. split; [|exact Bd]. assert (R2 := rnd_err (val (fmult ftwo r) - val fone)). rewrite <- Vd in R2. rewrite fone_val in R2.
  replace (val (fminus (fmult ftwo r) fone) - (2 * val r - 1)) with (val (fminus (fmult ftwo r) fone) - (val (fmult ftwo r) - 1) + (val (fmult ftwo r) - 2 * val r)) by ring.
  apply Rle_trans with (1 := sum_bound _ _ _ _ R2 R1).
  assert (Rabs (val (fmult ftwo r) - 1) <= 1) by (apply Rabs_le; lra). nra.
Qed.
Lemma mult_round x y A B : finite x = true -> finite y = true -> Rabs (val x) <= A -> Rabs (val y) <= B -> A * B <= 1000 ->
  finite (fmult x y) = true /\ Rabs (val (fmult x y) - val x * val y) <= (A * B + / 8) * eps.
Proof.
  intros Fx Fy Hx Hy L. assert (H := prod_bound _ _ _ _ Hx Hy). destruct (of_key _ _ 10 ltac:(lia) (fmult_key x y Fx Fy)) as [[F _] V].
  { apply Rle_trans with (1 := H). change (bpow radix2 10) with 1024. lra. }
  split; [assumption|]. rewrite V. assert (R := rnd_err (val x * val y)). assert (P := eps_pos). nra.
Qed.
Lemma vertical_ok s f r : finite s = true -> Rabs (val s - f) <= 17 * eps -> / 16 <= f <= 16 -> finite r = true -> 0 <= val r <= 1 ->
  let y := fmult s (fminus (fmult ftwo r) fone) in finite y = true /\ Rabs (val y - f * (2 * val r - 1)) <= 99 * eps /\ Rabs (val y) <= 16001 / 1000.
Proof.
  intros Fs Hs Bf Fr Br y. destruct (coordinate_ok r Fr Br) as (F & A & B). set (x := fminus (fmult ftwo r) fone) in *. assert (P := eps_pos). assert (E := eps_fine).
  assert (Bs := abs_near _ _ _ Hs). rewrite (Rabs_pos_eq f) in Bs by lra. assert (L : Rabs (val s) <= 16 + / 8) by lra.
  destruct (mult_round s x _ _ Fs F L B) as [Fy R]; [lra|]. fold y in Fy, R. split; [assumption|].
  assert (Q : Rabs (val y - f * (2 * val r - 1)) <= 99 * eps).
  { replace (val y - f * (2 * val r - 1)) with (val y - val s * val x + ((val s - f) * val x + f * (val x - (2 * val r - 1)))) by ring.
    assert (Q1 := prod_bound _ _ _ _ Hs B). assert (Q2 : Rabs (f * (val x - (2 * val r - 1))) <= 16 * (4 * eps)) by (apply prod_bound; [rewrite Rabs_pos_eq; lra|assumption]).
    apply Rle_trans with (1 := sum_bound _ _ _ _ R (sum_bound _ _ _ _ Q1 Q2)). lra. }
  split; [assumption|]. apply Rle_trans with (1 := abs_near _ _ _ Q).
  assert (G : Rabs (f * (2 * val r - 1)) <= 16 * 1) by (apply prod_bound; [rewrite Rabs_pos_eq; lra|apply Rabs_le; lra]). lra.
Qed.
Lemma eye_ray_ok c rx ry : usual_screen (fctf c) (fcasp c) -> finite rx = true -> 0 <= val rx <= 1 -> finite ry = true -> 0 <= val ry <= 1 ->
  exists x0 y0 k, near_unit (feye_ray c rx ry) /\ / 24 <= k /\ Rabs x0 <= 17 /\ Rabs y0 <= 17 /\
    Rabs (x0 - val (fcasp c) * val (fctf c) * (2 * val rx - 1)) <= 99 * eps /\ Rabs (y0 - val (fctf c) * (2 * val ry - 1)) <= 99 * eps /\
    Rabs (val (fx (feye_ray c rx ry)) - x0 * k) <= 5 / 4 * eps /\ Rabs (val (fy (feye_ray c rx ry)) - y0 * k) <= 5 / 4 * eps /\ Rabs (val (fz (feye_ray c rx ry)) - - k) <= 5 / 4 * eps.
Proof.
  intros (Ff & Fa & Bf & Ba & Bp) Fx Hx Fy Hy. unfold sixteen in *. assert (P := eps_pos). assert (E := eps_fine).
  assert (Sf : Rabs (val (fctf c) - val (fctf c)) <= 17 * eps) by (rewrite Rminus_diag_eq, Rabs_R0 by reflexivity; lra).
  destruct (of_key _ _ 4 ltac:(lia) (fmult_key (fcasp c) (fctf c) Fa Ff)) as [[Fp _] Vp]. { rewrite Rabs_pos_eq by lra. change (bpow radix2 4) with 16. lra. }
  assert (Sp : Rabs (val (fmult (fcasp c) (fctf c)) - val (fcasp c) * val (fctf c)) <= 17 * eps).
  { rewrite Vp. assert (R := rnd_err (val (fcasp c) * val (fctf c))). rewrite (Rabs_pos_eq (val (fcasp c) * val (fctf c))) in R by lra. nra. }
  destruct (vertical_ok _ _ rx Fp Sp Bp Fx Hx) as (F0 & A0 & B0). destruct (vertical_ok _ _ ry Ff Sf Bf Fy Hy) as (F1 & A1 & B1).
  destruct val_neg1 as [Fn Vn]. unfold feye_ray. set (x := fmult (fmult (fcasp c) (fctf c)) _) in *. set (y := fmult (fctf c) _) in *.
  assert (U : usual_vec (FV x y (Bopp fone))).
  { assert (L : 16001 / 1000 <= bpow radix2 500) by (apply Rle_trans with (bpow radix2 5); [change (bpow radix2 5) with 32; lra|apply bpow_le; lia]).
    split.
    - intros [|[|i]]; cbn [fcomp fx fy fz]; (split; [assumption|]); [exact (Rle_trans _ _ _ B0 L)|exact (Rle_trans _ _ _ B1 L)|]. rewrite Vn, Rabs_left by lra. lra.
    - exists 2%nat. cbn [fcomp fz]. rewrite Vn, Rabs_left by lra. apply Rle_trans with (bpow radix2 0); [apply bpow_le; lia|change (bpow radix2 0) with 1; lra]. }
  assert (C := normalize_cube _ U). assert (Le := normalize_length _ U). destruct (scale_ok _ U) as (k & Fk & Pk & _ & S).
  assert (S0 := S 0%nat). assert (S1 := S 1%nat). assert (S2 := S 2%nat). cbn [fcomp fx fy fz] in S0, S1, S2. rewrite Vn in S2. replace (-1 * val k) with (- val k) in S2 by ring.
  exists (val x), (val y), (val k). split; [split; assumption|]. split; [|repeat split; try assumption; lra].
  destruct (Rle_or_lt (/ 24) (val k)) as [|K]; [assumption|]. exfalso. set (d := fnormalize (FV x y (Bopp fone))) in *. unfold length2 in Le. apply Rabs_le_inv in Le.
  assert (Sq : forall z X, Rabs (z - X * val k) <= 5 / 4 * eps -> Rabs X <= 16001 / 1000 -> z * z <= 45 / 100).
  { intros z X H L. assert (G := abs_near _ _ _ H). assert (M := prod_bound X (val k) (16001 / 1000) (/ 24) L ltac:(rewrite Rabs_pos_eq; lra)).
    assert (0 <= Rabs z) by apply Rabs_pos. rewrite <- (Rabs_pos_eq (z * z)) by nra. rewrite Rabs_mult. assert (Rabs z <= 667 / 1000) by lra. nra. }
  assert (Q0 := Sq _ _ S0 B0). assert (Q1 := Sq _ _ S1 B1).
  assert (Q2 : val (fz d) * val (fz d) <= / 100). { apply Rabs_le_inv in S2. assert (- / 20 <= val (fz d) <= 0 + / 20) by lra. nra. }
  lra.
Qed.

(** There and back *)
Lemma round_trip c rx ry : orthonormal (fcu c) (fcv c) (fcw c) -> usual_screen (fctf c) (fcasp c) -> finite rx = true -> 0 <= val rx <= 1 -> finite ry = true -> 0 <= val ry <= 1 ->
  exists px py, finite px = true /\ finite py = true /\ Rabs (val px - val rx) <= / 2 ^ 32 /\ Rabs (val py - val ry) <= / 2 ^ 32 /\
    fraster_position c (fprimary c rx ry) = if Rlt_bool (val px) 0 || Rlt_bool 1 (val px) || Rlt_bool (val py) 0 || Rlt_bool 1 (val py) then None else Some (px, py).
Proof.
  intros O Hs Fx Hx Fy Hy. destruct (eye_ray_ok c rx ry Hs Fx Hx Fy Hy) as (x0 & y0 & k & [C _] & K & Bx & By & Ax & Ay & Dx & Dy & Dz).
  set (d := feye_ray c rx ry) in *. assert (T := eye_close c O d C). assert (T0 := T 0%nat). assert (T1 := T 1%nat). assert (T2 := T 2%nat). cbn [fcomp] in T0, T1, T2.
  assert (P := eps_pos). assert (E := eps_fine).
  assert (N : forall z y t, approx z y 463 -> Rabs (y - t) <= 5 / 4 * eps -> approx z t 465) by (intros z y t A B; apply ap_le with (463 + 5 / 4); [now apply ap_near with y|lra]).
  destruct (position_close c (fprimary c rx ry) x0 y0 k Hs (N _ _ _ T0 Dx) (N _ _ _ T1 Dy) (N _ _ _ T2 Dz) K Bx By) as (px & py & [Fp Ap] & [Fq Aq] & R).
  exists px, py. split; [assumption|]. split; [assumption|].
  destruct Hs as (Ff & Fa & Bf & Ba & Bp). unfold sixteen in *. set (f := val (fctf c)) in *. set (a := val (fcasp c)) in *.
  assert (L32 : 1685000 * eps <= / 2 ^ 32) by (rewrite eps_val; replace (2 ^ 32) with 4294967296 by (simpl; ring); lra).
  assert (G : forall p z g r, / 16 <= g -> Rabs (p - (z / g / 2 + / 2)) <= 1684000 * eps -> Rabs (z - g * (2 * r - 1)) <= 99 * eps -> Rabs (p - r) <= / 2 ^ 32).
  { intros p z g r Hg H1 H2. assert (D := div_abs (z - g * (2 * r - 1)) g (/ 16) ltac:(lra) Hg).
    replace (p - r) with (p - (z / g / 2 + / 2) + (z - g * (2 * r - 1)) / g * / 2) by (field; lra).
    assert (D2 : Rabs ((z - g * (2 * r - 1)) / g * / 2) <= 99 * eps / / 16 * / 2) by (rewrite Rabs_mult, (Rabs_pos_eq (/ 2)) by lra; lra).
    apply Rle_trans with (1 := sum_bound _ _ _ _ H1 D2). lra. }
  split; [apply (G _ x0 (a * f)); [lra|assumption|assumption]|]. split; [apply (G _ y0 f); [lra|assumption|assumption]|]. exact R.
Qed.

(** ** The basis of a camera that looks at a point *)
Lemma ap_cross p q r s : finite p = true -> finite q = true -> finite r = true -> finite s = true -> Rabs (val p) <= 1 -> Rabs (val q) <= 1 -> Rabs (val r) <= 1 -> Rabs (val s) <= 1 ->
  approx (fminus (fmult p q) (fmult r s)) (val p * val q - val r * val s) (825 / 100).
Proof.
  intros Fp Fq Fr Fs Bp Bq Br Bs. 
  assert (M : forall a b, finite a = true -> finite b = true -> Rabs (val a) <= 1 -> Rabs (val b) <= 1 -> approx (fmult a b) (val a * val b) 3 /\ Rabs (val a * val b) <= 1).
  { intros a b F G A B. split; [|apply Rle_trans with (1 := prod_bound _ _ _ _ A B); lra].
    apply ap_le with (1 := ap_mult a b _ _ 0 0 _ _ (ap_exact a F) (ap_exact b G) A B ltac:(lra) ltac:(lra) ltac:(lra) ltac:(lra)). lra. }
  destruct (M p q Fp Fq Bp Bq) as [P0 Q0]. destruct (M r s Fr Fs Br Bs) as [P1 Q1].
  apply ap_le with (1 := ap_minus _ _ _ _ _ _ _ _ P0 P1 Q0 Q1 ltac:(lra) ltac:(lra) ltac:(lra)). lra.
Qed.
(** The exact cross product, one component *)
Definition rcross (a b : fvec) (i : nat) : R :=
  match i with
  | O => val (fy a) * val (fz b) - val (fy b) * val (fz a)
  | 1%nat => val (fz a) * val (fx b) - val (fz b) * val (fx a)
  | _ => val (fx a) * val (fy b) - val (fx b) * val (fy a)
  end.
Lemma cube_abs v i : in_cube v -> finite (fcomp v i) = true /\ Rabs (val (fcomp v i)) <= 1.
Proof. intros C. destruct (C i) as [F B]. split; [assumption|]. now apply Rabs_le. Qed.
Lemma cross_close a b i : in_cube a -> in_cube b -> approx (fcomp (fcross a b) i) (rcross a b i) (825 / 100).
Proof.
  intros A B. destruct (cube_abs a 0 A), (cube_abs a 1 A), (cube_abs a 2 A), (cube_abs b 0 B), (cube_abs b 1 B), (cube_abs b 2 B). cbn [fcomp] in *.
  destruct i as [|[|i]]; cbn [fcomp fcross fx fy fz rcross]; apply ap_cross; assumption.
Qed.
Lemma cross_length a b : rcross a b 0 * rcross a b 0 + rcross a b 1 * rcross a b 1 + rcross a b 2 * rcross a b 2 = cross2 a b.
Proof. unfold rcross, cross2, rdot3. ring. Qed.
Lemma cross_dot_l a b : rcross a b 0 * val (fx a) + rcross a b 1 * val (fy a) + rcross a b 2 * val (fz a) = 0.
Proof. unfold rcross. ring. Qed.
Lemma cross_dot_r a b : rcross a b 0 * val (fx b) + rcross a b 1 * val (fy b) + rcross a b 2 * val (fz b) = 0.
Proof. unfold rcross. ring. Qed.
Lemma sum3_bound x y z A B : Rabs x <= A -> Rabs y <= A -> Rabs z <= A -> 3 * A <= B -> Rabs (x + y + z) <= B.
Proof. intros H1 H2 H3 L. apply Rle_trans with (1 := sum_bound _ _ _ _ (sum_bound _ _ _ _ H1 H2) H3). lra. Qed.

Lemma lookat_ok pos ctr up : usual_vec (fvsub pos ctr) -> in_cube up -> / 16 <= cross2 up (fnormalize (fvsub pos ctr)) ->
  let '(u, v, w) := flookat pos ctr up in orthonormal u v w.
Proof.
  intros U Cu N. unfold flookat. set (w := fnormalize (fvsub pos ctr)) in *. cbv zeta.
  assert (Cw : in_cube w) by now apply normalize_cube. assert (Lw : Rabs (length2 w - 1) <= 16 * eps) by now apply normalize_length.
  assert (P := eps_pos). assert (E := eps_fine). set (c := fcross up w).
  assert (A0 := cross_close up w 0 Cu Cw). assert (A1 := cross_close up w 1 Cu Cw). assert (A2 := cross_close up w 2 Cu Cw).
  fold c in A0, A1, A2. cbn [fcomp] in A0, A1, A2. rewrite <- cross_length in N. assert (Z0 := cross_dot_r up w).
  destruct (cube_abs w 0 Cw) as [Fw0 Bw0], (cube_abs w 1 Cw) as [Fw1 Bw1], (cube_abs w 2 Cw) as [Fw2 Bw2].
  destruct (cube_abs up 0 Cu) as [Fp0 Bp0], (cube_abs up 1 Cu) as [Fp1 Bp1], (cube_abs up 2 Cu) as [Fp2 Bp2]. cbn [fcomp] in *.
  assert (Y : forall p q r s, Rabs p <= 1 -> Rabs q <= 1 -> Rabs r <= 1 -> Rabs s <= 1 -> Rabs (p * q - r * s) <= 2).
  { intros p q r s Hp Hq Hr Hs. unfold Rminus. apply Rle_trans with (1 * 1 + 1 * 1); [|lra]. apply sum_bound; [now apply prod_bound|]. rewrite Rabs_Ropp. now apply prod_bound. }
  assert (R0 : Rabs (rcross up w 0) <= 2) by now apply Y. assert (R1 : Rabs (rcross up w 1) <= 2) by now apply Y. assert (R2 : Rabs (rcross up w 2) <= 2) by now apply Y.
  set (C0 := rcross up w 0) in *. set (C1 := rcross up w 1) in *. set (C2 := rcross up w 2) in *. clearbody C0 C1 C2. clear Y.
  destruct A0 as [F0 A0], A1 as [F1 A1], A2 as [F2 A2].
  assert (Uc : usual_vec c).
  { split.
    - assert (L : 3 <= bpow radix2 500) by (apply Rle_trans with (bpow radix2 2); [change (bpow radix2 2) with 4; lra|apply bpow_le; lia]).
      intros [|[|i]]; cbn [fcomp]; (split; [assumption|]); [assert (X := abs_near _ _ _ A0)|assert (X := abs_near _ _ _ A1)|assert (X := abs_near _ _ _ A2)]; lra.
    - assert (L : bpow radix2 (-500) <= / 16) by (apply Rle_trans with (bpow radix2 (-4)); [apply bpow_le; lia|change (bpow radix2 (-4)) with (/ 16); lra]).
      assert (G : / 8 <= Rabs C0 \/ / 8 <= Rabs C1 \/ / 8 <= Rabs C2).
      { destruct (Rle_or_lt (/ 8) (Rabs C0)) as [|G0]; [now left|]. destruct (Rle_or_lt (/ 8) (Rabs C1)) as [|G1]; [now right; left|]. destruct (Rle_or_lt (/ 8) (Rabs C2)) as [|G2]; [now right; right|].
        exfalso. assert (S : forall z, Rabs z < / 8 -> z * z <= / 64) by (intros z Hz; apply Rabs_lt_inv in Hz; nra). assert (S0 := S _ G0). assert (S1 := S _ G1). assert (S2 := S _ G2). lra. }
      assert (H : forall x y, / 8 <= Rabs y -> Rabs (x - y) <= 825 / 100 * eps -> / 16 <= Rabs x).
      { intros x y Hy Hx. rewrite Rabs_minus_sym in Hx. assert (X := abs_near _ _ _ Hx). lra. }
      destruct G as [G|[G|G]]; [exists 0%nat; assert (X := H _ _ G A0)|exists 1%nat; assert (X := H _ _ G A1)|exists 2%nat; assert (X := H _ _ G A2)]; cbn [fcomp]; lra. }
  set (u := fnormalize c). assert (Cn : in_cube u) by now apply normalize_cube. assert (Ln : Rabs (length2 u - 1) <= 16 * eps) by now apply normalize_length.
  destruct (scale_ok c Uc) as (k & Fk & Pk & _ & S). fold u in S. assert (S0 := S 0%nat). assert (S1 := S 1%nat). assert (S2 := S 2%nat). clear S. cbn [fcomp] in S0, S1, S2.
  destruct (cube_abs u 0 Cn) as [Fu0 Bu0], (cube_abs u 1 Cn) as [Fu1 Bu1], (cube_abs u 2 Cn) as [Fu2 Bu2]. cbn [fcomp] in *.
  (* the factor is at most 4 *)
  assert (K : val k <= 401 / 100).
  { destruct (Rle_or_lt (val k) (401 / 100)) as [|K]; [assumption|]. exfalso.
    assert (G : forall z x, Rabs z <= 1 -> Rabs (z - x * val k) <= 5 / 4 * eps -> x * x * (val k * val k) <= z * z + / 1000000).
    { intros z x Hz H. apply Rabs_le_inv in H. apply Rabs_le_inv in Hz. assert (x * val k * (x * val k) <= z * z + / 1000000) by (clear - H Hz P E; nra). nra. }
    assert (T0 := G _ _ Bu0 S0). assert (T1 := G _ _ Bu1 S1). assert (T2 := G _ _ Bu2 S2). unfold length2 in Ln. apply Rabs_le_inv in Ln.
    assert (H : forall x y, Rabs y <= 2 -> Rabs (x - y) <= 825 / 100 * eps -> y * y - / 1000000 <= x * x).
    { intros x y Hy Hx. apply Rabs_le_inv in Hx. apply Rabs_le_inv in Hy. clear - Hx Hy P E. nra. }
    assert (H0 := H _ _ R0 A0). assert (H1 := H _ _ R1 A1). assert (H2 := H _ _ R2 A2).
    assert (Q : 624 / 10000 <= val (fx c) * val (fx c) + val (fy c) * val (fy c) + val (fz c) * val (fz c)) by lra.
    assert (Kk : 1608 / 100 <= val k * val k) by nra.
    assert (X : (val (fx c) * val (fx c) + val (fy c) * val (fy c) + val (fz c) * val (fz c)) * (val k * val k) <= 1 + 16 * eps + 3 / 1000000) by lra.
    assert (624 / 10000 * (1608 / 100) <= (val (fx c) * val (fx c) + val (fy c) * val (fy c) + val (fz c) * val (fz c)) * (val k * val k)) by (apply Rmult_le_compat; lra).
    lra. }
  (* u and w *)
  assert (Duw : Rabs (rdot3 u w) <= 104 * eps).
  { unfold rdot3.
    replace (val (fx u) * val (fx w) + val (fy u) * val (fy w) + val (fz u) * val (fz w)) with
      ((val (fx u) - val (fx c) * val k) * val (fx w) + (val (fy u) - val (fy c) * val k) * val (fy w) + (val (fz u) - val (fz c) * val k) * val (fz w) +
       ((val (fx c) - C0) * val (fx w) + (val (fy c) - C1) * val (fy w) + (val (fz c) - C2) * val (fz w)) * val k + (C0 * val (fx w) + C1 * val (fy w) + C2 * val (fz w)) * val k) by ring.
    rewrite Z0, Rmult_0_l, Rplus_0_r.
    apply Rle_trans with (3 * (5 / 4 * eps * 1) + 3 * (825 / 100 * eps * 1) * (401 / 100)); [|lra]. apply sum_bound.
    - apply sum3_bound with (5 / 4 * eps * 1); [apply prod_bound; assumption..|lra].
    - apply prod_bound; [|rewrite Rabs_pos_eq; lra]. apply sum3_bound with (825 / 100 * eps * 1); [apply prod_bound; assumption..|lra]. }
  clear S0 S1 S2 K Pk Fk k A0 A1 A2 Z0 N R0 R1 R2 C0 C1 C2 F0 F1 F2 Uc.
  (* v *)
  assert (A0 := cross_close w u 0 Cw Cn). assert (A1 := cross_close w u 1 Cw Cn). assert (A2 := cross_close w u 2 Cw Cn).
  set (v := fcross w u) in *. cbn [fcomp] in A0, A1, A2. assert (V2 := cross_length w u). assert (Z0 := cross_dot_l w u). assert (Z1 := cross_dot_r w u).
  set (V0 := rcross w u 0) in *. set (V1 := rcross w u 1) in *. set (V2' := rcross w u 2) in *. clearbody V0 V1 V2'.
  destruct A0 as [F0 A0], A1 as [F1 A1], A2 as [F2 A2].
  assert (L2 : Rabs (V0 * V0 + V1 * V1 + V2' * V2' - 1) <= 33 * eps).
  { rewrite V2. unfold cross2. change (rdot3 w w) with (length2 w). change (rdot3 u u) with (length2 u). replace (rdot3 w u) with (rdot3 u w) by (unfold rdot3; ring).
    clear - Lw Ln Duw P E. revert Lw Ln Duw. generalize (length2 w) (length2 u) (rdot3 u w). intros x y z Hx Hy Hz.
    replace (x * y - z * z - 1) with ((x - 1) * (y - 1) + ((x - 1) + (y - 1)) + - (z * z)) by ring.
    assert (Q1 := prod_bound _ _ _ _ Hx Hy). assert (Q2 := prod_bound _ _ _ _ Hz Hz). rewrite <- Rabs_Ropp in Q2.
    apply Rle_trans with (1 := sum_bound _ _ _ _ (sum_bound _ _ _ _ Q1 (sum_bound _ _ _ _ Hx Hy)) Q2). nra. }
  assert (Bv : Rabs V0 <= 1001 / 1000 /\ Rabs V1 <= 1001 / 1000 /\ Rabs V2' <= 1001 / 1000).
  { assert (T := L2). apply Rabs_le_inv in T. repeat split; apply small_square; nra. }
  destruct Bv as (B0 & B1 & B2).
  assert (Sq : forall x y, Rabs y <= 1001 / 1000 -> Rabs (x - y) <= 825 / 100 * eps -> Rabs (x * x - y * y) <= 17 * eps).
  { intros x y Hy Hx. replace (x * x - y * y) with ((x - y) * (x - y) + 2 * y * (x - y)) by ring.
    assert (Q1 := prod_bound _ _ _ _ Hx Hx). assert (Q2 : Rabs (2 * y) <= 2 * (1001 / 1000)) by (rewrite Rabs_mult, (Rabs_pos_eq 2) by lra; lra). assert (Q3 := prod_bound _ _ _ _ Q2 Hx).
    apply Rle_trans with (1 := sum_bound _ _ _ _ Q1 Q3). nra. }
  assert (Dv : forall x y z, Rabs x <= 1 -> Rabs y <= 1 -> Rabs z <= 1 -> V0 * x + V1 * y + V2' * z = 0 -> Rabs (val (fx v) * x + val (fy v) * y + val (fz v) * z) <= 25 * eps).
  { intros x y z Hx Hy Hz H. replace (val (fx v) * x + val (fy v) * y + val (fz v) * z) with ((val (fx v) - V0) * x + (val (fy v) - V1) * y + (val (fz v) - V2') * z + (V0 * x + V1 * y + V2' * z)) by ring.
    rewrite H, Rplus_0_r. apply sum3_bound with (825 / 100 * eps * 1); [apply prod_bound; assumption..|lra]. }
  split; [|split].
  - split; [|split]; intros [|[|i]]; assumption.
  - unfold near_one. split; [|split].
    + apply Rle_trans with (1 := Ln). lra.
    + unfold rdot3. replace (val (fx v) * val (fx v) + val (fy v) * val (fy v) + val (fz v) * val (fz v) - 1) with
        ((val (fx v) * val (fx v) - V0 * V0) + (val (fy v) * val (fy v) - V1 * V1) + (val (fz v) * val (fz v) - V2' * V2') + (V0 * V0 + V1 * V1 + V2' * V2' - 1)) by ring.
      apply Rle_trans with (3 * (17 * eps) + 33 * eps); [|lra]. apply sum_bound; [|assumption]. apply sum3_bound with (17 * eps); [apply Sq; assumption..|lra].
    + apply Rle_trans with (1 := Lw). lra.
  - unfold near_zero. split; [|split].
    + replace (rdot3 u v) with (val (fx v) * val (fx u) + val (fy v) * val (fy u) + val (fz v) * val (fz u)) by (unfold rdot3; ring). apply Rle_trans with (25 * eps); [|lra]. now apply Dv.
    + lra.
    + unfold rdot3. apply Rle_trans with (25 * eps); [|lra]. now apply Dv.
Qed.
