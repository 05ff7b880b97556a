From Coq Require Import List Reals ZArith Bool Lra Lia Psatz.
From Flocq Require Import Core.Core IEEE754.BinarySingleNaN.
From Verif Require Import RngModel FltModel FltProofs FDistSpec FDistProofs FBoundModel FBoundSpec FBoundProofs FFilmProofs FBvhSpec FBvhProofs FDirModel FDirSpec FDirProofs FMathModel.
Local Open Scope R_scope.

Lemma eqb_val x y : finite x = true -> finite y = true -> flt_eqb x y = Req_bool (val x) (val y).
Proof. intros. now apply Beqb_correct. Qed.
Lemma leb_val x y : finite x = true -> finite y = true -> flt_leb x y = Rle_bool (val x) (val y).
Proof. intros. now apply Bleb_correct. Qed.
Lemma fzero_val : val fzero = 0. Proof. reflexivity. Qed.

Section Balance.
  Variables p q : flt.
  Hypothesis (Fp : finite p = true) (Fq : finite q = true) (Pp : 0 <= val p) (Pq : 0 <= val q).
  Lemma balance_cases : (val p = 0 /\ val q = 0 /\ fbalance p q = fzero) \/
    (0 < val p + val q /\ fbalance p q = fdivide p (fplus p q) /\
      (fplus p q = B754_infinity false /\ finite (fdivide p (fplus p q)) = true /\ val (fdivide p (fplus p q)) = 0 \/
       finite (fplus p q) = true /\ val (fplus p q) = rnd (val p + val q) /\ val p <= val (fplus p q) /\ 0 < val (fplus p q))).
  Proof.
    unfold fbalance. rewrite !eqb_val by (reflexivity || assumption). rewrite fzero_val.
    case (Req_bool_spec (val p) 0); intros Hp; [case (Req_bool_spec (val q) 0); intros Hq; [left; cbn; tauto|]|]; right; (split; [lra|]); (split; [reflexivity|]).
    all: destruct (fplus_key p q Fp Fq) as [N K]; destruct (finite (fplus p q)) eqn:F;
      [right; split; [reflexivity|]; assert (V := finite_result _ _ N K F); split; [assumption|];
       assert (M1 := rnd_mono (val p) (val p + val q) ltac:(lra)); assert (M2 := rnd_mono (val q) (val p + val q) ltac:(lra)); rewrite rnd_val in M1, M2; rewrite V; split; lra
      |left].
    all: destruct (fplus p q) as [b|b| |b m e B]; try discriminate N; try discriminate F; destruct b;
      [exfalso; cbn [key] in K; assert (R := rnd_pos (val p + val q) ltac:(lra)); assert (G := big_pos); assert (C := clamp_mono _ _ R); rewrite clamp_in in C by lra; lra|].
    all: split; [reflexivity|]; destruct p as [b|b| |b m e B]; try discriminate Fp; split; reflexivity.
  Qed.
  Lemma balance_range : finite (fbalance p q) = true /\ 0 <= val (fbalance p q) <= 1.
  Proof.
    destruct balance_cases as [(_ & _ & ->)|(S & -> & [(_ & F & V)|(F & V & L & P)])]; [rewrite fzero_val; split; [reflexivity|lra]|split; [assumption|lra]|].
    assert (Q : 0 <= val p / val (fplus p q) <= 1).
    { split; [apply Rmult_le_pos; [assumption|left; now apply Rinv_0_lt_compat]|]. apply Rmult_le_reg_r with (val (fplus p q)); [assumption|]. unfold Rdiv. rewrite Rmult_assoc, Rinv_l by lra. lra. }
    destruct (of_key _ _ 0 ltac:(lia) (fdivide_key p (fplus p q) Fp F ltac:(lra))) as [[G _] W]; [rewrite Rabs_pos_eq by lra; exact (proj2 Q)|].
    split; [assumption|]. rewrite W. now apply rnd_unit.
  Qed.
  Lemma balance_value : 0 < val p + val q <= 2 ^ 1022 -> Rabs (val (fbalance p q) - val p / (val p + val q)) <= 3 * eps.
  Proof.
    intros [S B]. destruct balance_cases as [(H1 & H2 & _)|(_ & -> & [(I & _)|(F & V & L & P)])]; [lra| |].
    - exfalso. destruct (fplus_key p q Fp Fq) as [N K]. rewrite I in K. cbn [key] in K.
      assert (R := rnd_size (val p + val q) 1022 ltac:(lia) ltac:(rewrite Rabs_pos_eq by lra; rewrite pow_bpow in B; exact B)). rewrite Rabs_pos_eq in R by (apply rnd_pos; lra).
      assert (X : bpow radix2 1022 < big) by (apply bpow_lt; lia). assert (R0 := rnd_pos (val p + val q) ltac:(lra)).
      rewrite clamp_in in K by lra. lra.
    - clear B. assert (E := eps_pos). assert (T := eps_tiny). set (s := val p + val q) in *.
      assert (D : Rabs (val (fplus p q) - s) <= eps * s) by (rewrite V; destruct (plus_error p q) as (d & Hd & X); fold s in X; rewrite X; replace (s * (1 + d) - s) with (d * s) by ring; rewrite Rabs_mult, (Rabs_pos_eq s) by lra; nra).
      assert (Q : 0 <= val p / val (fplus p q) <= 1).
      { split; [apply Rmult_le_pos; [assumption|left; now apply Rinv_0_lt_compat]|]. apply Rmult_le_reg_r with (val (fplus p q)); [assumption|]. unfold Rdiv. rewrite Rmult_assoc, Rinv_l by lra. lra. }
      destruct (of_key _ _ 0 ltac:(lia) (fdivide_key p (fplus p q) Fp F ltac:(lra))) as [[G _] W]; [rewrite Rabs_pos_eq by lra; exact (proj2 Q)|].
      rewrite W. assert (R := rnd_any (val p / val (fplus p q))). assert (Y := tiny_eta). revert R Y. generalize (/ 2 ^ 1074). intros t R Y. change (/ 2 ^ 53) with eps in R.
      rewrite (Rabs_pos_eq (val p / val (fplus p q))) in R by lra.
      assert (Z : val p / val (fplus p q) - val p / s = (s - val (fplus p q)) / s * (val p / val (fplus p q))) by (field; split; lra).
      assert (Z2 : Rabs (val p / val (fplus p q) - val p / s) <= eps).
      { rewrite Z, Rabs_mult. rewrite (Rabs_pos_eq (val p / val (fplus p q))) by lra. unfold Rdiv at 1. rewrite Rabs_mult, Rabs_inv, (Rabs_pos_eq s), Rabs_minus_sym by lra.
        assert (A : Rabs (val (fplus p q) - s) * / s <= eps) by (apply Rmult_le_reg_r with s; [assumption|]; rewrite Rmult_assoc, Rinv_l by lra; lra).
        assert (A0 : 0 <= Rabs (val (fplus p q) - s) * / s) by (apply Rmult_le_pos; [apply Rabs_pos|left; now apply Rinv_0_lt_compat]). nra. }
      apply Rabs_le_inv in Z2, R. apply Rabs_le. nra.
  Qed.
  Lemma balance_zero : val p = 0 -> val (fbalance p q) = 0.
  Proof.
    intros Z. destruct balance_cases as [(_ & _ & ->)|(S & -> & [(_ & F & V)|(F & V & L & P)])]; [reflexivity|assumption|].
    destruct (fdivide_key p (fplus p q) Fp F ltac:(lra)) as [N K]. rewrite Z in K. unfold Rdiv in K. rewrite Rmult_0_l in K.
    assert (Fd : finite (fdivide p (fplus p q)) = true). { apply (proj2 (finite_key _ N)). rewrite K, rnd_0, clamp_in; assert (B := big_pos); lra. }
    rewrite (finite_result _ _ N K Fd). apply rnd_0.
  Qed.
  Lemma balance_only : 0 < val p -> val q = 0 -> val (fbalance p q) = 1.
  Proof.
    intros Hp Hq. destruct (fplus_key p q Fp Fq) as [N K]. rewrite Hq, Rplus_0_r, rnd_val in K. assert (B := val_big' p).
    destruct balance_cases as [(H1 & _)|(S & -> & [(I & _)|(F & V & L & P)])]; [lra|rewrite I in K; cbn [key] in K; rewrite clamp_in in K; lra|].
    rewrite Hq, Rplus_0_r, rnd_val in V. destruct (fdivide_key p (fplus p q) Fp F ltac:(lra)) as [N' K']. rewrite V in K'. replace (val p / val p) with 1 in K' by (field; lra). rewrite rnd_1 in K'.
    assert (G := big_1024). assert (1 <= 2 ^ 1022) by (replace 1 with (2 ^ 0) by ring; apply Rle_pow; [lra|lia]).
    assert (Fd : finite (fdivide p (fplus p q)) = true). { apply (proj2 (finite_key _ N')). rewrite K', clamp_in; lra. }
    rewrite <- (key_finite _ Fd), K'. apply clamp_in. lra.
  Qed.
End Balance.

(** ** Refraction *)
Lemma root_square_error2 w : 0 <= w <= 2 -> Rabs (rnd (sqrt w) * rnd (sqrt w) - w) <= 7 * eps /\ 0 <= rnd (sqrt w) <= 3 / 2.
Proof.
  intros W. assert (S0 := sqrt_pos w). assert (R := rnd_any (sqrt w)). assert (T := tiny_eta). revert R T. generalize (/ 2 ^ 1074). intros t R T. change (/ 2 ^ 53) with eps in R.
  assert (P0 := rnd_pos _ S0). rewrite (Rabs_pos_eq (sqrt w)) in R by lra. assert (Q := sqrt_def w (proj1 W)). revert S0 P0 R Q. generalize (sqrt w), (rnd (sqrt w)). intros q r S0 P0 R Q.
  assert (P := eps_pos). assert (E := eps_tiny). assert (q1 : q <= 142 / 100) by nra.
  assert (A := Rabs_pos (r - q)). assert (B : Rabs (r - q) <= 2 * eps) by nra. split.
  - rewrite <- Q. replace (r * r - q * q) with ((r - q) * (r - q) + 2 * q * (r - q)) by ring.
    apply Rle_trans with (1 := Rabs_triang _ _). rewrite !Rabs_mult. rewrite (Rabs_pos_eq 2), (Rabs_pos_eq q) by lra. nra.
  - apply Rabs_le_inv in B. lra.
Qed.
Section Refraction.
  Variables (w n : fvec) (eta : flt).
  Hypothesis (Hw : near_unit w) (Hn : near_unit n) (Fe : finite eta = true) (Be : 0 <= val eta <= 3).
  Let D := rdot3 w n. Let e := val eta.
  Let T2 := 1 - e * e * (1 - D * D).
  Let t2 := fminus fone (fmult (fmult eta eta) (fminus fone (fmult (fdot w n) (fdot w n)))).
  Lemma t2_close : approx t2 T2 400.
  Proof.
    assert (LD := dot_bound w n Hw Hn). assert (AD := dot_close w n Hw Hn). fold D in LD, AD. assert (LD' := LD). apply Rabs_le_inv in LD'.
    assert (M := ap_mult _ _ _ _ _ _ (1001 / 1000) (1001 / 1000) AD AD LD LD ltac:(lra) ltac:(lra) ltac:(lra) ltac:(lra)).
    assert (DD : 0 <= D * D <= 1003 / 1000) by nra. assert (E1 := ap_exact _ fone_finite). rewrite fone_val in E1.
    assert (S1 := ap_minus _ _ _ _ _ _ 1 (1003 / 1000) E1 M ltac:(apply Rabs_le; lra) ltac:(apply Rabs_le; lra) ltac:(lra) ltac:(lra) ltac:(lra)).
    assert (Le : Rabs e <= 3) by (apply Rabs_le; unfold e; lra). assert (Ee := ap_exact _ Fe). fold e in Ee.
    assert (M2 := ap_mult _ _ _ _ _ _ 3 3 Ee Ee Le Le ltac:(lra) ltac:(lra) ltac:(lra) ltac:(lra)).
    assert (EE : 0 <= e * e <= 9) by (clear - Be; unfold e; nra).
    assert (M3 := ap_mult _ _ _ _ _ _ 9 1 M2 S1 ltac:(apply Rabs_le; lra) ltac:(apply Rabs_le; lra) ltac:(lra) ltac:(lra) ltac:(lra) ltac:(lra)).
    assert (S2 := ap_minus _ _ _ _ _ _ 1 9 E1 M3 ltac:(apply Rabs_le; lra) ltac:(apply Rabs_le; nra) ltac:(lra) ltac:(lra) ltac:(lra)).
    apply (ap_le _ _ _ _ S2). lra.
  Qed.
  Lemma T2_small : T2 <= 1 + / 1000.
  Proof.
    destruct Hw as [_ A], Hn as [_ B]. assert (P := eps_pos). assert (T := eps_tiny). apply Rabs_le_inv in A, B.
    assert (DD : D * D <= length2 w * length2 n) by (unfold D, rdot3, length2; apply cauchy).
    assert (DD' : D * D <= 1 + / 20000) by (clear - DD A B T P; nra). assert (EE : 0 <= e * e <= 9) by (clear - Be; unfold e; nra). unfold T2. clear - EE DD'. nra.
  Qed.
  Lemma refraction_total : frefraction w n eta = None -> T2 <= 400 * eps.
  Proof.
    unfold frefraction. fold t2. destruct t2_close as [F A]. rewrite leb_val by (assumption || reflexivity). rewrite fzero_val. case Rle_bool_spec; [|discriminate].
    intros L _. apply Rabs_le_inv in A. lra.
  Qed.
  Variable d : fvec. Hypothesis H : frefraction w n eta = Some d.
  Lemma some_t2 : 0 < val t2 /\ d = fvsub (fvmul (fvsub (fvmul n (fdot w n)) w) eta) (fvmul n (fsafe_sqrt t2)).
  Proof.
    revert H. unfold frefraction. fold t2. destruct t2_close as [F A]. rewrite leb_val by (assumption || reflexivity). rewrite fzero_val. case Rle_bool_spec; [discriminate|].
    intros L E. split; [assumption|]. congruence.
  Qed.
  Let s := val (fsafe_sqrt t2).
  Lemma root2 : finite (fsafe_sqrt t2) = true /\ 0 <= s <= 101 / 100 /\ Rabs (s * s - T2) <= 408 * eps.
  Proof.
    destruct some_t2 as [P0 _]. destruct t2_close as [F A]. assert (P := eps_pos). assert (T := eps_tiny). assert (Sm := T2_small).
    destruct (fsmax_ok t2 F) as [F1 V1]. rewrite Rmax_right in V1 by lra. apply Rabs_le_inv in A.
    destruct (fsqrt_ok (fsmax fzero t2) F1 ltac:(lra)) as [F2 V2]. rewrite V1 in V2. fold (fsafe_sqrt t2) in F2, V2.
    destruct (root_square_error2 (val t2) ltac:(lra)) as [R1 R2]. rewrite <- V2 in R1, R2. fold s in R1, R2. apply Rabs_le_inv in R1.
    split; [assumption|]. split; [split; [lra|nra]|]. apply Rabs_le. lra.
  Qed.
  Let r i := e * (D * val (fcomp n i) - val (fcomp w i)) - s * val (fcomp n i).
  Lemma refr_close i : approx (fcomp d i) (r i) 90.
  Proof.
    destruct root2 as (Fs & Bs & _). destruct some_t2 as [_ Ed]. rewrite Ed. assert (LD := dot_bound w n Hw Hn). assert (AD := dot_close w n Hw Hn). fold D in LD, AD.
    destruct Hw as [Cw _], Hn as [Cn _]. assert (Le : Rabs e <= 3) by (apply Rabs_le; unfold e; lra). assert (Ee := ap_exact _ Fe). fold e in Ee.
    assert (K : forall a b, finite a = true /\ -1 <= val a <= 1 -> finite b = true /\ -1 <= val b <= 1 ->
      approx (fminus (fmult (fminus (fmult a (fdot w n)) b) eta) (fmult a (fsafe_sqrt t2))) (e * (D * val a - val b) - s * val a) 90).
    { intros a b [Fa Ba] [Fb Bb].
      assert (M := ap_mult a _ _ _ _ _ 1 (1001 / 1000) (ap_exact a Fa) AD (rabs1 _ Ba) LD ltac:(lra) ltac:(lra) ltac:(lra) ltac:(lra)).
      assert (LM : Rabs (val a * D) <= 1001 / 1000) by (rewrite Rabs_mult; assert (X := rabs1 _ Ba); assert (X2 := Rabs_pos (val a)); assert (X1 := Rabs_pos D); nra).
      assert (S1 := ap_minus _ b _ _ _ _ (1001 / 1000) 1 M (ap_exact b Fb) LM (rabs1 _ Bb) ltac:(lra) ltac:(lra) ltac:(lra)).
      assert (LS : Rabs (val a * D - val b) <= 2001 / 1000) by (apply Rabs_le; apply Rabs_le_inv in LM; lra).
      assert (M2 := ap_mult _ _ _ _ _ _ (2001 / 1000) 3 S1 Ee LS Le ltac:(lra) ltac:(lra) ltac:(lra) ltac:(lra)).
      assert (M3 := ap_mult a _ _ _ _ _ 1 (101 / 100) (ap_exact a Fa) (ap_exact _ Fs) (rabs1 _ Ba) ltac:(apply Rabs_le; unfold s in Bs; lra) ltac:(lra) ltac:(lra) ltac:(lra) ltac:(lra)). fold s in M3.
      assert (L2 : Rabs ((val a * D - val b) * e) <= 6003 / 1000) by (rewrite Rabs_mult; assert (X1 := Rabs_pos (val a * D - val b)); assert (X2 := Rabs_pos e); nra).
      assert (L3 : Rabs (val a * s) <= 101 / 100) by (apply Rabs_le; nra).
      assert (S2 := ap_minus _ _ _ _ _ _ (6003 / 1000) (101 / 100) M2 M3 L2 L3 ltac:(lra) ltac:(lra) ltac:(lra)).
      apply ap_eq with ((val a * D - val b) * e - val a * s); [|ring]. apply (ap_le _ _ _ _ S2). lra. }
    unfold r. destruct i as [|[|i]]; cbn [fcomp fvsub fvmul fx fy fz]; apply K; [apply (Cn 0%nat)|apply (Cw 0%nat)|apply (Cn 1%nat)|apply (Cw 1%nat)|apply (Cn 2%nat)|apply (Cw 2%nat)].
  Qed.
  Lemma refr_length : Rabs (length2 d - 1) <= 2048 * eps.
  Proof.
    assert (P := eps_pos). assert (T := eps_tiny). assert (LD := dot_bound w n Hw Hn). fold D in LD. destruct root2 as (_ & Bs & Qs).
    assert (I : r 0 * r 0 + r 1 * r 1 + r 2 * r 2 - 1 =
      e * e * (D * D * (length2 n - 1) + (length2 w - 1)) - 2 * e * s * D * (length2 n - 1) + s * s * (length2 n - 1) + (s * s - T2)).
    { unfold r, T2. replace D with (rdot3 w n) by reflexivity. unfold rdot3, length2; cbn [fcomp]. ring. }
    assert (B : Rabs (r 0 * r 0 + r 1 * r 1 + r 2 * r 2 - 1) <= 830 * eps).
    { rewrite I. destruct Hw as [_ A], Hn as [_ B]. apply Rabs_le_inv in A, B, LD, Qs. apply Rabs_le. assert (DD : 0 <= D * D <= 1003 / 1000) by nra.
      assert (EE : 0 <= e * e <= 9) by (clear - Be; unfold e; nra). assert (SS : 0 <= s * s <= 103 / 100) by nra.
      revert A B Qs. generalize (length2 n - 1), (length2 w - 1), (s * s - T2). intros k l m A B Qs.
      assert (X1 : - (161 / 10 * eps) <= D * D * k <= 161 / 10 * eps) by nra.
      assert (X2 : - (290 * eps) <= e * e * (D * D * k + l) <= 290 * eps).
      { assert (Y : - (322 / 10 * eps) <= D * D * k + l <= 322 / 10 * eps) by lra. revert Y. generalize (D * D * k + l). intros y Y. nra. }
      assert (X3 : - (7 * 16 * eps) <= 2 * e * s * D * k <= 7 * 16 * eps).
      { assert (Es : 0 <= e * s <= 303 / 100) by (unfold e in *; nra). assert (Es2 : - (31 / 10) <= e * s * D <= 31 / 10) by nra.
        replace (2 * e * s * D * k) with (2 * (e * s * D) * k) by ring. revert Es2. generalize (e * s * D). intros y Y. nra. }
      assert (X4 : - (17 * eps) <= s * s * k <= 17 * eps) by nra. lra. }
    assert (Q : forall i, (i < 3)%nat -> Rabs (val (fcomp d i) * val (fcomp d i) - r i * r i) <= 190 * eps).
    { intros i Hi. assert (L : Rabs (r i) <= 1001 / 1000).
      { apply small_square. apply Rabs_le_inv in B. assert (0 <= r 0%nat * r 0%nat) by apply Rle_0_sqr. assert (0 <= r 1%nat * r 1%nat) by apply Rle_0_sqr. assert (0 <= r 2%nat * r 2%nat) by apply Rle_0_sqr.
        destruct i as [|[|[|i]]]; [lra|lra|lra|lia]. }
      destruct (refr_close i) as [_ C]. revert C L. generalize (val (fcomp d i)), (r i). intros a b C L.
      replace (a * a - b * b) with ((a - b) * (a - b) + 2 * b * (a - b)) by ring. apply Rle_trans with (1 := Rabs_triang _ _). rewrite !Rabs_mult. rewrite (Rabs_pos_eq 2) by lra.
      assert (X := Rabs_pos (a - b)). assert (X1 := Rabs_pos b). revert C L X X1. generalize (Rabs (a - b)), (Rabs b). intros f m C L X X1.
      assert (f * f <= eps) by (apply Rle_trans with (90 * eps * (90 * eps)); [apply Rmult_le_compat; lra|nra]). assert (m * f <= 1001 / 1000 * (90 * eps)) by (apply Rmult_le_compat; lra). lra. }
    assert (Q0 := Q 0%nat ltac:(lia)). assert (Q1 := Q 1%nat ltac:(lia)). assert (Q2 := Q 2%nat ltac:(lia)). cbn [fcomp] in Q0, Q1, Q2.
    apply Rabs_le_inv in B, Q0, Q1, Q2. unfold length2. apply Rabs_le. lra.
  Qed.
End Refraction.
