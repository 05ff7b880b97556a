From Coq Require Import List Reals ZArith Bool Lra Lia Psatz.
From Flocq Require Import Core.Core IEEE754.BinarySingleNaN.
From Verif Require Import RngModel FltModel FltProofs FDistSpec FDistProofs FBoundModel FBoundSpec FBoundProofs FFilmProofs FBvhSpec FBvhProofs FDirModel FDirSpec.
Local Open Scope R_scope.

(** ** Square roots *)
Lemma fsqrt_ok x : finite x = true -> 0 <= val x -> finite (fsqrt x) = true /\ val (fsqrt x) = rnd (sqrt (val x)).
Proof.
  intros F P. destruct (Bsqrt_correct 53 1024 prec64 emax64 mode_NE x) as (V & G & _). split; [|exact V].
  unfold finite, fsqrt. rewrite G. destruct x as [s|s| |s m e B]; try reflexivity; try discriminate F. destruct s; [|reflexivity].
  exfalso. revert P. unfold val. cbn [B2R]. intros P. assert (N := F2R_lt_0 radix2 (Float radix2 (Zneg m) e) ltac:(cbn; lia)).
  cbn [cond_Zopp] in P. change (- Z.pos m)%Z with (Z.neg m) in P. lra.
Qed.
Lemma fsmax_ok x : finite x = true -> finite (fsmax fzero x) = true /\ val (fsmax fzero x) = Rmax 0 (val x).
Proof.
  intros F. unfold fsmax. rewrite ltb_key by (reflexivity || now apply finite_not_nan). rewrite !key_finite by (reflexivity || assumption).
  replace (val fzero) with 0 by reflexivity. unfold Rmax. destruct (Rlt_bool_spec 0 (val x)), (Rle_dec 0 (val x)); split; try assumption; try reflexivity; try lra.
  replace (val fzero) with 0 by reflexivity. lra.
Qed.
Lemma sqrt_unit x : 0 <= x <= 1 -> 0 <= sqrt x <= 1.
Proof. intros [A B]. split; [apply sqrt_pos|]. rewrite <- sqrt_1. now apply sqrt_le_1_alt. Qed.
Lemma rnd_unit x : 0 <= x <= 1 -> 0 <= rnd x <= 1.
Proof. intros [A B]. assert (U := rnd_mono _ _ B). assert (L := rnd_mono _ _ A). rewrite rnd_1 in U. rewrite rnd_0 in L. lra. Qed.
Lemma rnd_cube x : -1 <= x <= 1 -> -1 <= rnd x <= 1.
Proof. intros [A B]. assert (U := rnd_mono _ _ B). assert (L := rnd_mono _ _ A). rewrite rnd_1 in U. replace (-1) with (- (1)) in L by ring. rewrite rnd_opp, rnd_1 in L. lra. Qed.
Lemma safe_sqrt_unit x : finite x = true -> val x <= 1 ->
  finite (fsafe_sqrt x) = true /\ val (fsafe_sqrt x) = rnd (sqrt (Rmax 0 (val x))) /\ 0 <= val (fsafe_sqrt x) <= 1.
Proof.
  intros F L. unfold fsafe_sqrt. destruct (fsmax_ok x F) as [F1 V1]. assert (B : 0 <= Rmax 0 (val x) <= 1) by (unfold Rmax; destruct Rle_dec; lra).
  destruct (fsqrt_ok (fsmax fzero x) F1 ltac:(lra)) as [F2 V2]. rewrite V1 in V2. split; [assumption|]. split; [assumption|]. rewrite V2. now apply rnd_unit, sqrt_unit.
Qed.

(** The rounded root of the rounded square of a Float is not less than it. *)
Lemma root_of_square a : bpow radix2 (-500) <= val a -> val a <= rnd (sqrt (rnd (val a * val a))).
Proof.
  intros L. set (x := val a) in *. assert (P : 0 < bpow radix2 (-500)) by apply bpow_gt_0. assert (X : 0 < x) by lra.
  assert (Fx : generic_format radix2 fexp64 x) by apply val_format.
  destruct (mag radix2 x) as [e E]. specialize (E ltac:(lra)). rewrite Rabs_pos_eq in E by lra. destruct E as [E1 E2].
  assert (Em : mag radix2 x = e :> Z) by (apply mag_unique_pos; split; assumption).
  assert (Le : (-500 < e)%Z).
  { apply (lt_bpow radix2). apply Rle_lt_trans with (2 := E2). exact L. }
  assert (Fe : forall z, (-1021 <= z)%Z -> fexp64 z = (z - 53)%Z) by (intros z Hz; unfold fexp64, SpecFloat.fexp, SpecFloat.emin; lia).
  set (g := bpow radix2 (e - 53)). assert (G : 0 < g) by apply bpow_gt_0.
  assert (Gb : bpow radix2 (e - 1) = bpow radix2 52 * g) by (unfold g; rewrite <- bpow_plus; f_equal; lia).
  destruct (Req_dec x (bpow radix2 (e - 1))) as [Ep|Ep].
  - (* a power of two *)
    assert (S : rnd (x * x) = x * x).
    { apply round_generic; auto with typeclass_instances. rewrite Ep, <- bpow_plus. apply bpow_format. lia. }
    rewrite S. fold (Rsqr x). rewrite sqrt_Rsqr by lra. right. symmetry. apply round_generic; auto with typeclass_instances.
  - assert (Fb : generic_format radix2 fexp64 (bpow radix2 (e - 1))) by (apply bpow_format; lia).
    assert (Ub : ulp radix2 fexp64 (bpow radix2 (e - 1)) = g) by (rewrite ulp_bpow; unfold g; f_equal; replace (e - 1 + 1)%Z with e by lia; apply Fe; lia).
    assert (Ux : ulp radix2 fexp64 x = g) by (rewrite ulp_neq_0 by lra; unfold cexp; rewrite Em; unfold g; f_equal; apply Fe; lia).
    assert (Big : bpow radix2 (e - 1) + g <= x).
    { assert (S := succ_le_lt radix2 fexp64 (bpow radix2 (e - 1)) x Fb Fx ltac:(lra)). rewrite succ_eq_pos in S by apply bpow_ge_0. now rewrite Ub in S. }
    assert (Pr : pred radix2 fexp64 x = x - g).
    { rewrite pred_eq_pos by lra. unfold pred_pos. rewrite Em. rewrite Req_bool_false by assumption. now rewrite Ux. }
    apply round_N_ge_midp; [auto with typeclass_instances..|assumption|]. rewrite Pr.
    assert (Er : Rabs (rnd (x * x) - x * x) <= / 2 * bpow radix2 (2 * e - 53)).
    { apply Rle_trans with (1 := error_le_half_ulp radix2 fexp64 (fun z => negb (Z.even z)) (x * x)). apply Rmult_le_compat_l; [lra|].
      rewrite ulp_neq_0 by nra. apply bpow_le. unfold cexp.
      assert (M : (mag radix2 (x * x) <= 2 * e)%Z).
      { apply mag_le_bpow; [nra|]. rewrite Rabs_pos_eq by nra. replace (2 * e)%Z with (e + e)%Z by lia. rewrite bpow_plus. apply Rmult_le_0_lt_compat; lra. }
      unfold fexp64, SpecFloat.fexp, SpecFloat.emin. lia. }
    assert (Eb : / 2 * bpow radix2 (2 * e - 53) = g * bpow radix2 (e - 1)).
    { replace (/ 2) with (bpow radix2 (-1)) by reflexivity. unfold g. rewrite <- !bpow_plus. f_equal. lia. }
    rewrite Eb in Er. apply Rabs_le_inv in Er.
    assert (Mid : ((x + (x - g)) / 2) * ((x + (x - g)) / 2) < rnd (x * x)) by nra.
    assert (M0 : 0 <= (x + (x - g)) / 2) by (assert (0 < bpow radix2 (e - 1)) by apply bpow_gt_0; lra).
    rewrite <- (sqrt_Rsqr _ M0). apply sqrt_lt_1_alt. split; [apply Rle_0_sqr|exact Mid].
Qed.

(** ** Normalisation *)
Section Normalize.
  Variable v : fvec. Hypothesis Uv : usual_vec v.
  Let x i := val (fcomp v i).
  Lemma comps i : sized 500 (fcomp v i).
  Proof. destruct Uv as [A _]. destruct (A i). now split. Qed.
  Lemma square_ok i : sized 1000 (fmult (fcomp v i) (fcomp v i)) /\ val (fmult (fcomp v i) (fcomp v i)) = rnd (x i * x i).
  Proof.
    destruct (comps i) as [F B]. apply (of_key _ _ 1000 ltac:(lia) (fmult_key _ _ F F)).
    rewrite Rabs_mult. change 1000%Z with (500 + 500)%Z. rewrite bpow_plus. apply Rmult_le_compat; auto using Rabs_pos.
  Qed.
  Lemma dot_ge : sized 1002 (fdot v v) /\ forall i, rnd (x i * x i) <= val (fdot v v).
  Proof.
    assert (S : sized 1002 (fdot v v)) by (apply (fdot_size 500 500); [lia|lia|exact comps|exact comps]). split; [exact S|].
    destruct (square_ok 0) as [[F0 B0] V0]. destruct (square_ok 1) as [[F1 B1] V1]. destruct (square_ok 2) as [[F2 B2] V2]. cbn [fcomp] in *.
    assert (N : forall i, 0 <= rnd (x i * x i)) by (intros i; apply rnd_pos; nra).
    assert (S1 := sized_plus 1000 _ _ ltac:(lia) (conj F0 B0) (conj F1 B1)). destruct S1 as [Fs _].
    destruct (fplus_key _ _ F0 F1) as [Ns Ks]. assert (Vs := finite_result _ _ Ns Ks Fs). rewrite V0, V1 in Vs.
    destruct S as [Fd _]. unfold fdot in Fd |- *. destruct (fplus_key _ _ Fs F2) as [Nd Kd]. assert (Vd := finite_result _ _ Nd Kd Fd). rewrite Vs, V2 in Vd.
    rewrite Vd. assert (R : forall i, rnd (rnd (x i * x i)) = rnd (x i * x i)) by (intros i; apply round_generic; auto with typeclass_instances; apply generic_format_round; auto with typeclass_instances).
    assert (A : rnd (x 0%nat * x 0%nat) <= rnd (rnd (x 0%nat * x 0%nat) + rnd (x 1%nat * x 1%nat))) by (rewrite <- (R 0%nat) at 1; apply rnd_mono; specialize (N 1%nat); lra).
    assert (B : rnd (x 1%nat * x 1%nat) <= rnd (rnd (x 0%nat * x 0%nat) + rnd (x 1%nat * x 1%nat))) by (rewrite <- (R 1%nat) at 1; apply rnd_mono; specialize (N 0%nat); lra).
    assert (C : forall z, rnd z <= rnd (rnd z + rnd (x 2%nat * x 2%nat))).
    { intros z. rewrite <- (round_generic radix2 fexp64 ZnearestE (rnd z)) at 1 by (apply generic_format_round; auto with typeclass_instances).
      fold (rnd (rnd z)). apply rnd_mono. specialize (N 2%nat). lra. }
    intros [|[|i]]; [apply Rle_trans with (1 := A), C|apply Rle_trans with (1 := B), C|].
    change (x (S (S i))) with (x 2%nat). rewrite <- (R 2%nat) at 1. apply rnd_mono.
    assert (0 <= rnd (rnd (x 0%nat * x 0%nat) + rnd (x 1%nat * x 1%nat))) by (apply rnd_pos; assert (N1 := N 1%nat); specialize (N 0%nat); lra). lra.
  Qed.
  Lemma root_ok : finite (fsqrt (fdot v v)) = true /\ val (fsqrt (fdot v v)) = rnd (sqrt (val (fdot v v))) /\ bpow radix2 (-500) <= val (fsqrt (fdot v v)) /\
    forall i, Rabs (x i) <= val (fsqrt (fdot v v)).
  Proof.
    destruct dot_ge as [[F _] G]. assert (N : 0 <= val (fdot v v)) by (apply Rle_trans with (2 := G 0%nat); apply rnd_pos; nra).
    destruct (fsqrt_ok _ F N) as [Fs Vs]. split; [assumption|]. split; [assumption|].
    assert (Y : forall i, bpow radix2 (-500) <= Rabs (x i) -> Rabs (x i) <= val (fsqrt (fdot v v))).
    { intros i L. rewrite Vs. apply Rle_trans with (rnd (sqrt (rnd (Rabs (x i) * Rabs (x i))))).
      - assert (A : Rabs (x i) = val (Babs (fcomp v i))) by (unfold x, val; now rewrite B2R_Babs). rewrite A in *. now apply root_of_square.
      - apply rnd_mono, sqrt_le_1_alt. rewrite <- Rabs_mult, Rabs_pos_eq by nra. apply G. }
    destruct Uv as [_ [j J]]. assert (Z := Y j J). fold (x j) in J. split; [lra|]. intros i.
    destruct (Rle_or_lt (bpow radix2 (-500)) (Rabs (x i))) as [H|H]; [now apply Y|lra].
  Qed.
  Lemma normalize_cube : in_cube (fnormalize v).
  Proof.
    destruct root_ok as (Fs & Vs & Lo & Up). set (s := fsqrt (fdot v v)) in *. assert (P : 0 < bpow radix2 (-500)) by apply bpow_gt_0.
    destruct (of_key (fdivide fone s) _ 500 ltac:(lia) (fdivide_key fone s fone_finite Fs ltac:(lra))) as [Si Vi].
    { rewrite fone_val. unfold Rdiv. rewrite Rmult_1_l, Rabs_inv, Rabs_pos_eq by lra. replace (bpow radix2 500) with (/ bpow radix2 (-500)) by (rewrite <- bpow_opp; reflexivity). apply Rinv_le; lra. }
    rewrite fone_val in Vi. unfold Rdiv in Vi. rewrite Rmult_1_l in Vi.
    assert (K : forall a, sized 500 a -> Rabs (val a) <= val s -> finite (fmult a (fdivide fone s)) = true /\ -1 <= val (fmult a (fdivide fone s)) <= 1).
    { intros a Sa La. destruct Si as [Fi Bi]. destruct Sa as [Fa Ba].
      assert (Q : Rabs (val a * val (fdivide fone s)) <= 1 + eps).
      { rewrite Vi, Rabs_mult. assert (I0 : 0 < / val s) by (apply Rinv_0_lt_compat; lra).
        destruct (rnd_rel (/ val s)) as (d & D & ->).
        - rewrite Rabs_pos_eq by lra. rewrite inv_pow_bpow. apply Rle_trans with (bpow radix2 (- (510))); [apply bpow_le; lia|].
          rewrite (bpow_opp radix2 510). apply Rinv_le; [lra|].
          assert (Sb : val s <= bpow radix2 510).
          { rewrite Vs. destruct dot_ge as [[_ Bd] _]. apply Rle_trans with (1 := Rle_abs _). apply rnd_size; [lia|].
            rewrite Rabs_pos_eq by apply sqrt_pos. replace (bpow radix2 510) with (sqrt (bpow radix2 1020)).
            - apply sqrt_le_1_alt. apply Rle_trans with (1 := Rle_abs _). apply Rle_trans with (1 := Bd). apply bpow_le. lia.
            - change 1020%Z with (510 + 510)%Z. rewrite bpow_plus. apply sqrt_square. apply bpow_ge_0. }
          exact Sb.
        - apply Rabs_le_inv in D. change (/ 2 ^ 53) with eps in D. assert (E := eps_small). rewrite (Rabs_pos_eq (/ val s * (1 + d))) by nra.
          apply Rle_trans with (val s * (/ val s * (1 + d))); [apply Rmult_le_compat_r; nra|]. rewrite <- Rmult_assoc, Rinv_r by lra. lra. }
      assert (R1 : Rabs (rnd (val a * val (fdivide fone s))) <= 1).
      { assert (T : rnd (1 + eps) = 1).
        { destruct (val_sf (fmake 1 (-53)) (2 ^ 52) (-105) ltac:(vm_compute; reflexivity)) as [Fe Ve].
          destruct (val_sf (fplus fone (fmake 1 (-53))) (2 ^ 52) (-52) ltac:(vm_compute; reflexivity)) as [Ff Vf].
          destruct (fplus_key fone (fmake 1 (-53)) fone_finite Fe) as [Np Kp]. assert (Vp := finite_result _ _ Np Kp Ff). rewrite Ve, fone_val, Vf in Vp.
          replace (IZR (2 ^ 52) * bpow radix2 (-52)) with 1 in Vp by (change (IZR (2 ^ 52)) with (bpow radix2 52); rewrite <- bpow_plus; reflexivity).
          replace (IZR (2 ^ 52) * bpow radix2 (-105)) with eps in Vp; [now symmetry|].
          change (IZR (2 ^ 52)) with (bpow radix2 52). rewrite <- bpow_plus. unfold eps. rewrite inv_pow_bpow. reflexivity. }
        apply Rabs_le. apply Rabs_le_inv in Q. split; [rewrite <- T, <- rnd_opp|rewrite <- T]; apply rnd_mono; lra. }
      destruct (fmult_key a (fdivide fone s) Fa Fi) as [Nm Km]. destruct (result_finite _ _ Nm Km) as [Fm Vm].
      - apply Rle_lt_trans with (1 := R1). assert (B := big_1024). assert (1 <= 2 ^ 1022) by (replace 1 with (2 ^ 0) by ring; apply Rle_pow; [lra|lia]). rewrite B. lra.
      - split; [assumption|]. rewrite Vm. now apply Rabs_le_inv. }
    intros [|[|i]]; cbn [fcomp fnormalize fvmul fx fy fz]; fold s; apply K; [apply (comps 0)|apply (Up 0%nat)|apply (comps 1)|apply (Up 1%nat)|apply (comps 2)|apply (Up 2%nat)].
  Qed.
  (** The length is one up to rounding. *)
  Lemma normalize_length : Rabs (length2 (fnormalize v) - 1) <= 16 * eps.
  Proof.
    assert (E := eps_small). assert (E0 := eps_pos). assert (T := tiny_eta).
    set (N := x 0%nat * x 0%nat + x 1%nat * x 1%nat + x 2%nat * x 2%nat).
    set (t := / 2 ^ 1074) in *. assert (T0 : 0 < t) by (apply Rinv_0_lt_compat, pow_lt; lra).
    assert (Nlo : 128 * t <= eps * N).
    { assert (Hj : exists j, bpow radix2 (-500) <= Rabs (x j) /\ x j * x j <= N).
      { destruct Uv as [_ [j J]]. exists j. split; [exact J|]. unfold N. destruct j as [|[|j]]; [..|change (x (S (S j))) with (x 2%nat)]; nra. }
      destruct Hj as (j & J & L). apply Rle_trans with (eps * bpow radix2 (-1000)).
      - unfold t, eps. rewrite !inv_pow_bpow. change 128 with (bpow radix2 7). rewrite <- !bpow_plus. apply bpow_le. lia.
      - apply Rmult_le_compat_l; [lra|]. apply Rle_trans with (2 := L). rewrite <- (Rabs_pos_eq (x j * x j)) by nra. rewrite Rabs_mult.
        change (-1000)%Z with (-500 + -500)%Z. rewrite bpow_plus. assert (P := bpow_ge_0 radix2 (-500)). nra. }
    assert (N0 : 0 < N) by nra.
    assert (RA : forall z, Rabs (rnd z - z) <= eps * Rabs z + t) by (intros z; apply rnd_any). clearbody t.
    (* the sum of squares *)
    assert (D : Rabs (val (fdot v v) - N) <= 4 * eps * N).
    { destruct (square_ok 0) as [[F0 B0] V0]. destruct (square_ok 1) as [[F1 B1] V1]. destruct (square_ok 2) as [[F2 B2] V2]. cbn [fcomp] in *.
      assert (S1 := sized_plus 1000 _ _ ltac:(lia) (conj F0 B0) (conj F1 B1)). destruct S1 as [Fs _].
      destruct (fplus_key _ _ F0 F1) as [Ns Ks]. assert (Vs := finite_result _ _ Ns Ks Fs). rewrite V0, V1 in Vs.
      destruct dot_ge as [[Fd _] _]. unfold fdot in Fd |- *. destruct (fplus_key _ _ Fs F2) as [Nd Kd]. assert (Vd := finite_result _ _ Nd Kd Fd). rewrite Vs, V2 in Vd.
      rewrite Vd. unfold N.
      assert (A0 := RA (x 0%nat * x 0%nat)). assert (A1 := RA (x 1%nat * x 1%nat)). assert (A2 := RA (x 2%nat * x 2%nat)).
      assert (Q0 : 0 <= x 0%nat * x 0%nat) by nra. assert (Q1 : 0 <= x 1%nat * x 1%nat) by nra. assert (Q2 : 0 <= x 2%nat * x 2%nat) by nra.
      assert (P0 := rnd_pos _ Q0). assert (P1 := rnd_pos _ Q1). assert (P2 := rnd_pos _ Q2). unfold N in Nlo. clear - A0 A1 A2 Q0 Q1 Q2 P0 P1 P2 RA E E0 T0 Nlo.
      revert A0 A1 A2 Q0 Q1 Q2 P0 P1 P2 Nlo. generalize (x 0%nat * x 0%nat), (x 1%nat * x 1%nat), (x 2%nat * x 2%nat). intros a b c.
      generalize (rnd a), (rnd b), (rnd c). intros a' b' c' A0 A1 A2 Q0 Q1 Q2 P0 P1 P2 Nlo. rewrite (Rabs_pos_eq a) in A0 by assumption. rewrite (Rabs_pos_eq b) in A1 by assumption. rewrite (Rabs_pos_eq c) in A2 by assumption.
      assert (A3 := RA (a' + b')). rewrite (Rabs_pos_eq (a' + b')) in A3 by lra. assert (P3 := rnd_pos (a' + b') ltac:(lra)).
      revert A3 P3. generalize (rnd (a' + b')). intros d A3 P3.
      assert (A4 := RA (d + c')). rewrite (Rabs_pos_eq (d + c')) in A4 by lra. revert A4. generalize (rnd (d + c')). intros e A4.
      apply Rabs_le_inv in A0, A1, A2, A3, A4. apply Rabs_le.
      assert (K1 : a' + b' <= (1 + eps) * (a + b) + 2 * t /\ (1 - eps) * (a + b) - 2 * t <= a' + b') by lra.
      assert (K2 : eps * (a' + b') <= eps * (1 + eps) * (a + b) + t) by nra.
      assert (K3 : d + c' <= (1 + 2 * eps + eps * eps) * (a + b) + (1 + eps) * c + 5 * t) by lra.
      assert (K4 : eps * (d + c') <= eps * (1 + 3 * eps) * (a + b + c) + t).
      { apply Rle_trans with (1 := Rmult_le_compat_l eps _ _ (Rlt_le _ _ E0) K3).
        assert (M1 : 0 <= eps * eps * (1 - eps) * (a + b)) by (apply Rmult_le_pos; [apply Rmult_le_pos; nra|lra]).
        assert (M2 : 5 * eps * t <= t) by (clear - E E0 T0; nra). assert (M3 : 0 <= eps * eps * c) by (apply Rmult_le_pos; nra). nra. }
      assert (K5 : eps * eps * (a + b) <= / 100 * (eps * (a + b)) /\ eps * eps * (a + b + c) <= / 100 * (eps * (a + b + c))).
      { assert (Y : forall z, 0 <= z -> eps * eps * z <= / 100 * (eps * z)) by (clear - E E0; intros z Hz; assert (0 <= eps * z) by nra; nra). split; apply Y; lra. }
      assert (K6 : 0 <= eps * (a + b) /\ 0 <= eps * c) by (clear - E0 Q0 Q1 Q2; split; nra). lra. }
    destruct root_ok as (Fs & Vs & Lo & Up). set (s := fsqrt (fdot v v)) in *. set (d := val (fdot v v)) in *.
    assert (P : 0 < bpow radix2 (-500)) by apply bpow_gt_0.
    assert (D0 : 0 < d) by (apply Rabs_le_inv in D; nra).
    (* the root *)
    assert (Sr : exists d1, Rabs d1 <= eps /\ val s * val s = d * ((1 + d1) * (1 + d1))).
    { destruct (rnd_rel (sqrt d)) as (d1 & D1 & R1).
      - destruct (Rle_or_lt (/ 2 ^ 1022) (Rabs (sqrt d))) as [H|H]; [exact H|]. exfalso. rewrite Rabs_pos_eq in H by apply sqrt_pos.
        assert (R := rnd_mono _ _ (Rlt_le _ _ H)). rewrite <- Vs in R. rewrite inv_pow_bpow in R.
        replace (rnd (bpow radix2 (- Z.of_nat 1022))) with (bpow radix2 (-1022)) in R by (symmetry; apply round_generic; auto with typeclass_instances; apply bpow_format; lia).
        assert (bpow radix2 (-1022) < bpow radix2 (-500)) by (apply bpow_lt; lia). lra.
      - exists d1. split; [exact D1|]. rewrite Vs, R1. rewrite <- (sqrt_def d) at 3 by lra. ring. }
    destruct Sr as (d1 & D1 & Sr).
    (* its reciprocal *)
    destruct (of_key (fdivide fone s) _ 500 ltac:(lia) (fdivide_key fone s fone_finite Fs ltac:(lra))) as [[Fi _] Vi].
    { rewrite fone_val. unfold Rdiv. rewrite Rmult_1_l, Rabs_inv, Rabs_pos_eq by lra. replace (bpow radix2 500) with (/ bpow radix2 (-500)) by (rewrite <- bpow_opp; reflexivity). apply Rinv_le; lra. }
    rewrite fone_val in Vi. unfold Rdiv in Vi. rewrite Rmult_1_l in Vi. set (q := val (fdivide fone s)) in *.
    assert (Q : exists d2, Rabs d2 <= eps /\ q * val s = 1 + d2).
    { rewrite Vi. destruct (rnd_rel (/ val s)) as (d2 & D2 & ->).
      - rewrite Rabs_pos_eq by (apply Rlt_le, Rinv_0_lt_compat; lra). rewrite inv_pow_bpow. apply Rle_trans with (bpow radix2 (- (510))); [apply bpow_le; lia|].
        rewrite (bpow_opp radix2 510). apply Rinv_le; [lra|].
        rewrite Vs. destruct dot_ge as [[_ Bd] _]. apply Rle_trans with (1 := Rle_abs _). apply rnd_size; [lia|].
        rewrite Rabs_pos_eq by apply sqrt_pos. replace (bpow radix2 510) with (sqrt (bpow radix2 1020)).
        + apply sqrt_le_1_alt. apply Rle_trans with (1 := Rle_abs _). apply Rle_trans with (1 := Bd). apply bpow_le. lia.
        + change 1020%Z with (510 + 510)%Z. rewrite bpow_plus. apply sqrt_square. apply bpow_ge_0.
      - exists d2. split; [exact D2|]. field. lra. }
    destruct Q as (d2 & D2 & Q).
    (* the squares of the products before rounding *)
    assert (W : Rabs (N * (q * q) - 1) <= 9 * eps).
    { assert (H : N * (q * q) * d * ((1 + d1) * (1 + d1)) = N * ((1 + d2) * (1 + d2))).
      { transitivity (N * (q * q) * (d * ((1 + d1) * (1 + d1)))); [ring|]. rewrite <- Sr, <- Q. ring. }
      set (w := N * (q * q)) in *. assert (w0 : 0 <= w) by (unfold w; nra).
      apply Rabs_le_inv in D, D1, D2. clear - H D D1 D2 E E0 N0 w0 D0.
      assert (L1 : N * ((1 - 4 * eps) * ((1 - eps) * (1 - eps))) <= d * ((1 + d1) * (1 + d1))).
      { rewrite <- Rmult_assoc. apply Rmult_le_compat; nra. }
      assert (U1 : d * ((1 + d1) * (1 + d1)) <= N * ((1 + 4 * eps) * ((1 + eps) * (1 + eps)))).
      { rewrite <- (Rmult_assoc N). apply Rmult_le_compat; nra. }
      assert (L2 : (1 - eps) * (1 - eps) <= (1 + d2) * (1 + d2) <= (1 + eps) * (1 + eps)) by (split; nra).
      rewrite Rmult_assoc in H. apply Rabs_le. split.
      - assert (K : (1 - eps) * (1 - eps) <= w * ((1 + 4 * eps) * ((1 + eps) * (1 + eps)))).
        { apply Rmult_le_reg_l with N; [lra|]. apply Rle_trans with (N * ((1 + d2) * (1 + d2))); [apply Rmult_le_compat_l; lra|]. rewrite <- H.
          replace (N * (w * ((1 + 4 * eps) * ((1 + eps) * (1 + eps))))) with (w * (N * ((1 + 4 * eps) * ((1 + eps) * (1 + eps))))) by ring. now apply Rmult_le_compat_l. }
        assert (X : (1 + 4 * eps) * ((1 + eps) * (1 + eps)) <= 1 + 7 * eps - eps / 2) by nra. assert (X2 : w * ((1 + 4 * eps) * ((1 + eps) * (1 + eps))) <= w * (1 + 7 * eps - eps / 2)) by (apply Rmult_le_compat_l; lra). nra.
      - assert (K : w * ((1 - 4 * eps) * ((1 - eps) * (1 - eps))) <= (1 + eps) * (1 + eps)).
        { apply Rmult_le_reg_l with N; [lra|]. apply Rle_trans with (N * ((1 + d2) * (1 + d2))); [|apply Rmult_le_compat_l; lra]. rewrite <- H.
          replace (N * (w * ((1 - 4 * eps) * ((1 - eps) * (1 - eps))))) with (w * (N * ((1 - 4 * eps) * ((1 - eps) * (1 - eps))))) by ring. now apply Rmult_le_compat_l. }
        assert (X : 1 - 6 * eps <= (1 - 4 * eps) * ((1 - eps) * (1 - eps))) by nra. assert (X2 : w * (1 - 6 * eps) <= w * ((1 - 4 * eps) * ((1 - eps) * (1 - eps)))) by (apply Rmult_le_compat_l; lra). nra. }
    (* and after *)
    assert (K : forall i, Rabs (val (fcomp (fnormalize v) i) * val (fcomp (fnormalize v) i) - x i * q * (x i * q)) <= 3 * eps * (x i * q * (x i * q)) + eps).
    { assert (G : forall a, finite a = true -> finite (fmult a (fdivide fone s)) = true -> Rabs (val a * q) <= 2 ->
        Rabs (val (fmult a (fdivide fone s)) * val (fmult a (fdivide fone s)) - val a * q * (val a * q)) <= 3 * eps * (val a * q * (val a * q)) + eps).
      { intros a Fa Fm Lm. destruct (fmult_key a (fdivide fone s) Fa Fi) as [Nm Km]. rewrite (finite_result _ _ Nm Km Fm). fold q.
        assert (R := RA (val a * q)). revert R Lm. generalize (val a * q). intros p R Lm. revert R. generalize (rnd p). intros p' R.
        assert (Z : p' * p' - p * p = (p' - p) * (p' - p) + 2 * p * (p' - p)) by ring. rewrite Z.
        apply Rle_trans with (1 := Rabs_triang _ _). rewrite !Rabs_mult. rewrite (Rabs_pos_eq 2) by lra.
        replace (p * p) with (Rabs p * Rabs p) by (rewrite <- Rabs_mult; apply Rabs_pos_eq; nra). assert (Ap := Rabs_pos p). assert (Ar := Rabs_pos (p' - p)).
        revert R Lm Ap Ar. generalize (Rabs p), (Rabs (p' - p)). intros m r R Lm Ap Ar. assert (r <= eps * m + t) by assumption. nra. }
      assert (Bq : forall i, Rabs (x i * q) <= 2).
      { intros i. apply Rabs_le_inv in W. assert (x i * x i <= N) by (unfold N; destruct i as [|[|i]]; [..|change (x (S (S i))) with (x 2%nat)]; nra).
        rewrite <- (Rabs_pos_eq 2) by lra. apply Rsqr_le_abs_0. unfold Rsqr. assert (0 <= q * q) by nra. nra. }
      assert (C := normalize_cube). intros i. specialize (Bq i). destruct (C i) as [Fc _]. destruct (comps i) as [Fv _].
      destruct i as [|[|i]]; cbn [fcomp fnormalize fvmul fx fy fz] in *; fold s in Fc |- *; now apply G. }
    assert (K0 := K 0%nat). assert (K1 := K 1%nat). assert (K2 := K 2%nat). cbn [fcomp] in K0, K1, K2.
    unfold length2. assert (Z : N * (q * q) = x 0%nat * q * (x 0%nat * q) + x 1%nat * q * (x 1%nat * q) + x 2%nat * q * (x 2%nat * q)) by (unfold N; ring).
    rewrite Z in W. apply Rabs_le_inv in W, K0, K1, K2. apply Rabs_le. clear - K0 K1 K2 W E E0. nra.
  Qed.
End Normalize.

(** ** Arithmetic on small numbers: a Float within [d] roundings of a real *)
Definition approx (z : flt) (x d : R) : Prop := finite z = true /\ Rabs (val z - x) <= d * eps.
Lemma eps_tiny : eps <= / 1000000.
Proof.
  unfold eps. apply Rinv_le; [lra|]. apply Rle_trans with (2 ^ 20); [|apply Rle_pow; [lra|lia]].
  replace (2 ^ 20) with (1024 * 1024) by ring. lra.
Qed.
Lemma ap_exact z : finite z = true -> approx z (val z) 0.
Proof. intros F. split; [assumption|]. rewrite Rminus_diag_eq, Rabs_R0 by reflexivity. lra. Qed.
Lemma ap_le z x d e : approx z x d -> d <= e -> approx z x e.
Proof. intros [F A] L. split; [assumption|]. assert (E := eps_pos). nra. Qed.
Lemma ap_eq z x y d : approx z x d -> x = y -> approx z y d.
Proof. now intros A <-. Qed.
Lemma ap_near z x y d e : approx z x d -> Rabs (x - y) <= e * eps -> approx z y (d + e).
Proof. intros [F A] B. split; [assumption|]. replace (val z - y) with (val z - x + (x - y)) by ring. apply Rle_trans with (1 := Rabs_triang _ _). lra. Qed.
Lemma ap_bound z x d A : approx z x d -> Rabs x <= A -> d <= 1000 -> Rabs (val z) <= A + / 1000.
Proof. intros [F H] B D. replace (val z) with (val z - x + x) by ring. apply Rle_trans with (1 := Rabs_triang _ _). assert (E := eps_tiny). assert (P := eps_pos). nra. Qed.
Lemma ap_round z y x d B : is_nan z = false /\ key z = clamp (rnd y) -> Rabs y <= B -> B <= 1000 -> Rabs (y - x) <= d * eps -> approx z x (d + B + / 8).
Proof.
  intros K L H D. destruct (of_key z y 10 ltac:(lia) K) as [[F _] V]; [apply Rle_trans with (1 := L); change (bpow radix2 10) with 1024; lra|].
  split; [assumption|]. rewrite V. replace (rnd y - x) with (rnd y - y + (y - x)) by ring. apply Rle_trans with (1 := Rabs_triang _ _).
  assert (R := rnd_any y). assert (T := tiny_eta). revert R T. generalize (/ 2 ^ 1074). intros t R T. change (/ 2 ^ 53) with eps in R. assert (P := eps_pos). nra.
Qed.
Lemma ap_plus a b x y d e A B : approx a x d -> approx b y e -> Rabs x <= A -> Rabs y <= B -> d <= 1000 -> e <= 1000 -> A + B <= 100 ->
  approx (fplus a b) (x + y) (d + e + A + B + / 4).
Proof.
  intros Ha Hb Lx Ly D E S. assert (La := ap_bound _ _ _ _ Ha Lx D). assert (Lb := ap_bound _ _ _ _ Hb Ly E). destruct Ha as [Fa Ha], Hb as [Fb Hb].
  apply ap_le with (d + e + (A + B + 2 / 1000) + / 8); [|lra]. apply (ap_round _ _ _ _ _ (fplus_key a b Fa Fb)); [apply Rle_trans with (1 := Rabs_triang _ _); lra|lra|].
  replace (val a + val b - (x + y)) with (val a - x + (val b - y)) by ring. apply Rle_trans with (1 := Rabs_triang _ _). lra.
Qed.
Lemma ap_minus a b x y d e A B : approx a x d -> approx b y e -> Rabs x <= A -> Rabs y <= B -> d <= 1000 -> e <= 1000 -> A + B <= 100 ->
  approx (fminus a b) (x - y) (d + e + A + B + / 4).
Proof.
  intros Ha Hb Lx Ly D E S. assert (La := ap_bound _ _ _ _ Ha Lx D). assert (Lb := ap_bound _ _ _ _ Hb Ly E). destruct Ha as [Fa Ha], Hb as [Fb Hb].
  apply ap_le with (d + e + (A + B + 2 / 1000) + / 8); [|lra]. apply (ap_round _ _ _ _ _ (fminus_key a b Fa Fb)).
  - replace (val a - val b) with (val a + - val b) by ring. apply Rle_trans with (1 := Rabs_triang _ _). rewrite Rabs_Ropp. lra.
  - lra.
  - replace (val a - val b - (x - y)) with (val a - x + - (val b - y)) by ring. apply Rle_trans with (1 := Rabs_triang _ _). rewrite Rabs_Ropp. lra.
Qed.
Lemma ap_mult a b x y d e A B : approx a x d -> approx b y e -> Rabs x <= A -> Rabs y <= B -> d <= 1000 -> e <= 1000 -> A <= 10 -> B <= 10 ->
  approx (fmult a b) (x * y) (d * B + A * e + A * B + 2).
Proof.
  intros Ha Hb Lx Ly D E SA SB. assert (La := ap_bound _ _ _ _ Ha Lx D). assert (Lb := ap_bound _ _ _ _ Hb Ly E). destruct Ha as [Fa Ha], Hb as [Fb Hb].
  assert (P := eps_pos). assert (T := eps_tiny).
  assert (Q : Rabs (val a * val b - x * y) <= (d * B + A * e + 1) * eps).
  { replace (val a * val b - x * y) with ((val a - x) * y + x * (val b - y) + (val a - x) * (val b - y)) by ring.
    apply Rle_trans with (1 := Rabs_triang _ _). apply Rle_trans with (1 := Rplus_le_compat_r _ _ _ (Rabs_triang _ _)). rewrite !Rabs_mult.
    assert (Pa := Rabs_pos (val a - x)). assert (Pb := Rabs_pos (val b - y)). assert (Px := Rabs_pos x). assert (Py := Rabs_pos y).
    assert (M1 : Rabs (val a - x) * Rabs y <= d * eps * B) by (apply Rmult_le_compat; assumption).
    assert (M2 : Rabs x * Rabs (val b - y) <= A * (e * eps)) by (apply Rmult_le_compat; assumption).
    assert (M3 : Rabs (val a - x) * Rabs (val b - y) <= eps).
    { apply Rle_trans with (d * eps * (e * eps)); [apply Rmult_le_compat; assumption|].
      assert (0 <= d * eps) by lra. assert (0 <= e * eps) by lra. assert (d * eps <= 1000 * eps) by nra. assert (e * eps <= / 1000) by nra. nra. }
    lra. }
  apply ap_le with (d * B + A * e + 1 + (A * B + / 4) + / 8); [|lra]. apply (ap_round _ _ _ _ _ (fmult_key a b Fa Fb)); [|assert (Px := Rabs_pos x); assert (Py := Rabs_pos y); nra|exact Q].
  rewrite Rabs_mult. assert (Pa := Rabs_pos (val a)). assert (Pb := Rabs_pos (val b)).
  apply Rle_trans with ((A + / 1000) * (B + / 1000)); [apply Rmult_le_compat; lra|]. lra.
Qed.
Lemma ap_opp a x d : approx a x d -> approx (Bopp a) (- x) d.
Proof.
  intros [F A]. split; [unfold finite in *; now rewrite is_finite_Bopp|]. unfold val in *. rewrite B2R_Bopp. replace (- B2R a - - x) with (- (B2R a - x)) by ring. now rewrite Rabs_Ropp.
Qed.

(** ** Sampled directions *)
Lemma root_square_error w : 0 <= w <= 1 -> Rabs (rnd (sqrt w) * rnd (sqrt w) - w) <= 3 * eps.
Proof.
  intros W. assert (S := sqrt_unit w W). assert (R := rnd_any (sqrt w)). assert (T := tiny_eta). revert R T. generalize (/ 2 ^ 1074). intros t R T. change (/ 2 ^ 53) with eps in R.
  rewrite (Rabs_pos_eq (sqrt w)) in R by lra. assert (Q := sqrt_def w (proj1 W)). revert S R Q. generalize (sqrt w), (rnd (sqrt w)). intros q r S R Q.
  assert (P := eps_pos). assert (E := eps_tiny). rewrite <- Q. replace (r * r - q * q) with ((r - q) * (r - q) + 2 * q * (r - q)) by ring.
  apply Rle_trans with (1 := Rabs_triang _ _). rewrite !Rabs_mult. rewrite (Rabs_pos_eq 2), (Rabs_pos_eq q) by lra.
  assert (A := Rabs_pos (r - q)). assert (B : Rabs (r - q) <= 9 / 8 * eps) by nra. nra.
Qed.
Lemma cube_mult a b : finite a = true -> finite b = true -> -1 <= val a <= 1 -> -1 <= val b <= 1 ->
  finite (fmult a b) = true /\ val (fmult a b) = rnd (val a * val b) /\ -1 <= val (fmult a b) <= 1.
Proof.
  intros Fa Fb A B. assert (Q : -1 <= val a * val b <= 1) by nra. destruct (of_key _ _ 0 ltac:(lia) (fmult_key a b Fa Fb)) as [[F _] V].
  - apply Rabs_le. exact Q.
  - split; [assumption|]. split; [assumption|]. rewrite V. now apply rnd_cube.
Qed.
Lemma cosine_cube u c s : finite u = true -> 0 <= val u <= 1 -> finite c = true -> finite s = true -> -1 <= val c <= 1 -> -1 <= val s <= 1 ->
  in_cube (fcosine_weighted u c s) /\ 0 <= val (fz (fcosine_weighted u c s)).
Proof.
  intros Fu Hu Fc Fs Hc Hs. unfold fcosine_weighted. destruct (safe_sqrt_unit u Fu (proj2 Hu)) as (Fr & _ & Br). set (r := fsafe_sqrt u) in *.
  destruct (cube_mult r c Fr Fc ltac:(lra) Hc) as (Fx & _ & Bx). destruct (cube_mult r s Fr Fs ltac:(lra) Hs) as (Fy & _ & By).
  set (x := fmult r c) in *. set (y := fmult r s) in *. destruct (cube_mult x x Fx Fx Bx Bx) as (Fx2 & Vx2 & Bx2). destruct (cube_mult y y Fy Fy By By) as (Fy2 & Vy2 & By2).
  assert (Px : 0 <= val (fmult x x)) by (rewrite Vx2; apply rnd_pos; nra). assert (Py : 0 <= val (fmult y y)) by (rewrite Vy2; apply rnd_pos; nra).
  destruct (of_key _ _ 1 ltac:(lia) (fminus_key fone (fmult x x) fone_finite Fx2)) as [[F1 _] V1]; [rewrite fone_val; apply Rabs_le; change (bpow radix2 1) with 2; lra|].
  assert (B1 : 0 <= val (fminus fone (fmult x x)) <= 1) by (rewrite V1, fone_val; apply rnd_unit; lra).
  destruct (of_key _ _ 1 ltac:(lia) (fminus_key _ (fmult y y) F1 Fy2)) as [[F2 _] V2]; [apply Rabs_le; change (bpow radix2 1) with 2; lra|].
  assert (B2 : -1 <= val (fminus (fminus fone (fmult x x)) (fmult y y)) <= 1) by (rewrite V2; apply rnd_cube; lra).
  destruct (safe_sqrt_unit _ F2 (proj2 B2)) as (Fz & _ & Bz). split; [|exact (proj1 Bz)].
  intros [|[|i]]; cbn [fcomp fx fy fz]; split; try assumption; lra.
Qed.
Lemma ap_square a x d : approx a x d -> -1 <= x <= 1 -> d <= 100 -> Rabs (val a * val a - x * x) <= (2 * d + / 8) * eps.
Proof.
  intros [F A] B D. assert (P := eps_pos). assert (T := eps_tiny). replace (val a * val a - x * x) with ((val a - x) * (val a - x) + 2 * x * (val a - x)) by ring.
  apply Rle_trans with (1 := Rabs_triang _ _). rewrite !Rabs_mult. rewrite (Rabs_pos_eq 2) by lra. assert (X : Rabs x <= 1) by (apply Rabs_le; lra).
  assert (Q := Rabs_pos (val a - x)). assert (X0 := Rabs_pos x). revert A Q X X0. generalize (Rabs (val a - x)), (Rabs x). intros r m A Q X X0.
  assert (D0 : 0 <= d * eps) by lra. assert (M1 : r * r <= d * eps * (d * eps)) by (apply Rmult_le_compat; assumption).
  assert (M2 : m * r <= 1 * (d * eps)) by (apply Rmult_le_compat; lra).
  assert (M3 : d * eps * (d * eps) <= / 8 * eps). { assert (d * (d * eps) <= / 8) by (assert (d * eps <= 100 * eps) by nra; nra). nra. }
  lra.
Qed.
(** The root of an approximate number in [0, 1] *)
Lemma safe_sqrt_square w W d : approx w W d -> val w <= 1 -> 0 <= d -> Rabs (val (fsafe_sqrt w) * val (fsafe_sqrt w) - Rmax 0 W) <= (d + 3) * eps.
Proof.
  intros [F A] L D. destruct (safe_sqrt_unit w F L) as (_ & V & _). rewrite V. assert (B : 0 <= Rmax 0 (val w) <= 1) by (unfold Rmax; destruct Rle_dec; lra).
  assert (R := root_square_error _ B). apply Rabs_le_inv in A, R. assert (P := eps_pos).
  assert (M : Rabs (Rmax 0 (val w) - Rmax 0 W) <= d * eps) by (apply Rabs_le; unfold Rmax; repeat destruct Rle_dec; lra). apply Rabs_le_inv in M. apply Rabs_le. lra.
Qed.
Lemma circle_sum r c s x y : 0 <= r <= 1 -> unit_pair c s -> Rabs (x * x - r * val c * (r * val c)) <= (6 + / 8) * eps -> Rabs (y * y - r * val s * (r * val s)) <= (6 + / 8) * eps ->
  Rabs (x * x + y * y - r * r) <= 17 * eps.
Proof.
  intros R (_ & _ & Hc & Hs & Hn) Hx Hy. assert (P := eps_pos). apply Rabs_le_inv in Hx, Hy, Hn. apply Rabs_le.
  assert (R2 : 0 <= r * r <= 1) by nra. assert (Z : r * val c * (r * val c) + r * val s * (r * val s) = r * r + r * r * (val c * val c + val s * val s - 1)) by ring.
  assert (K : - (4 * eps) <= r * r * (val c * val c + val s * val s - 1) <= 4 * eps) by (revert Hn; generalize (val c * val c + val s * val s - 1); intros k Hk; nra). lra.
Qed.
Lemma rabs1 x : -1 <= x <= 1 -> Rabs x <= 1. Proof. apply Rabs_le. Qed.
Lemma cosine_length u c s : finite u = true -> 0 <= val u <= 1 -> unit_pair c s -> let d := fcosine_weighted u c s in
  Rabs (length2 d - 1) <= 64 * eps /\ Rabs (val (fx d) - sqrt (val u) * val c) <= 8 * eps /\ Rabs (val (fy d) - sqrt (val u) * val s) <= 8 * eps.
Proof.
  intros Fu Hu U d. destruct U as (Fc & Fs & Hc & Hs & Hn). assert (U : unit_pair c s) by (repeat split; tauto || lra).
  destruct (safe_sqrt_unit u Fu (proj2 Hu)) as (Fr & Vr & Br). subst d. unfold fcosine_weighted. set (r := fsafe_sqrt u) in *.
  rewrite Rmax_right in Vr by lra. assert (Er := root_square_error _ Hu). rewrite <- Vr in Er.
  destruct (cube_mult r c Fr Fc ltac:(lra) Hc) as (Fx & _ & Bx). destruct (cube_mult r s Fr Fs ltac:(lra) Hs) as (Fy & _ & By).
  assert (P := eps_pos). assert (T := eps_tiny). assert (Rr : -1 <= val r <= 1) by lra.
  assert (Ax := ap_mult r c _ _ _ _ 1 1 (ap_exact r Fr) (ap_exact c Fc) (rabs1 _ Rr) (rabs1 _ Hc) ltac:(lra) ltac:(lra) ltac:(lra) ltac:(lra)).
  assert (Ay := ap_mult r s _ _ _ _ 1 1 (ap_exact r Fr) (ap_exact s Fs) (rabs1 _ Rr) (rabs1 _ Hs) ltac:(lra) ltac:(lra) ltac:(lra) ltac:(lra)).
  set (x := fmult r c) in *. set (y := fmult r s) in *.
  assert (Qx := ap_square _ _ _ Ax ltac:(nra) ltac:(lra)). assert (Qy := ap_square _ _ _ Ay ltac:(nra) ltac:(lra)).
  assert (Sum : Rabs (val x * val x + val y * val y - val r * val r) <= 17 * eps).
  { apply (circle_sum (val r) c s); [lra|exact U| |]; [eapply Rle_trans; [exact Qx|]|eapply Rle_trans; [exact Qy|]]; lra. }
  assert (A1 := ap_mult x x _ _ _ _ 1 1 (ap_exact x Fx) (ap_exact x Fx) (rabs1 _ Bx) (rabs1 _ Bx) ltac:(lra) ltac:(lra) ltac:(lra) ltac:(lra)).
  assert (A2 := ap_mult y y _ _ _ _ 1 1 (ap_exact y Fy) (ap_exact y Fy) (rabs1 _ By) (rabs1 _ By) ltac:(lra) ltac:(lra) ltac:(lra) ltac:(lra)).
  assert (A3 := ap_minus fone _ _ _ _ _ 1 1 (ap_exact fone fone_finite) A1 ltac:(rewrite fone_val; apply Rabs_le; lra) ltac:(apply Rabs_le; nra) ltac:(lra) ltac:(lra) ltac:(lra)).
  rewrite fone_val in A3.
  assert (A4 := ap_minus _ _ _ _ _ _ 1 1 A3 A2 ltac:(apply Rabs_le; nra) ltac:(apply Rabs_le; nra) ltac:(lra) ltac:(lra) ltac:(lra)).
  destruct (cosine_cube u c s Fu Hu Fc Fs Hc Hs) as [Cu _].
  assert (W1 : val (fminus (fminus fone (fmult x x)) (fmult y y)) <= 1).
  { destruct (cube_mult x x Fx Fx Bx Bx) as (Fx2 & Vx2 & Bx2). destruct (cube_mult y y Fy Fy By By) as (Fy2 & Vy2 & By2).
    assert (Px : 0 <= val (fmult x x)) by (rewrite Vx2; apply rnd_pos; nra). assert (Py : 0 <= val (fmult y y)) by (rewrite Vy2; apply rnd_pos; nra).
    destruct A3 as [F1 _]. destruct A4 as [F2 _]. destruct (fminus_key _ _ F1 Fy2) as [N2 K2]. rewrite (finite_result _ _ N2 K2 F2).
    destruct (fminus_key _ _ fone_finite Fx2) as [N1 K1]. rewrite (finite_result _ _ N1 K1 F1), fone_val.
    assert (B1 := rnd_unit (1 - val (fmult x x)) ltac:(lra)). assert (B2 := rnd_cube (rnd (1 - val (fmult x x)) - val (fmult y y)) ltac:(lra)). lra. }
  assert (Z := safe_sqrt_square _ _ _ A4 W1 ltac:(lra)).
  split; [|split].
  - unfold length2. cbn [fx fy fz]. revert Z. generalize (val (fsafe_sqrt (fminus (fminus fone (fmult x x)) (fmult y y)))). intros z Z.
    apply Rabs_le_inv in Z, Sum, Er. apply Rabs_le. unfold Rmax in Z. destruct Rle_dec; lra.
  - cbn [fx]. destruct Ax as [_ Ax]. replace (val x - sqrt (val u) * val c) with (val x - val r * val c + (val r - sqrt (val u)) * val c) by ring.
    apply Rle_trans with (1 := Rabs_triang _ _). rewrite Rabs_mult. assert (Rc := rabs1 _ Hc).
    assert (D : Rabs (val r - sqrt (val u)) <= 2 * eps).
    { rewrite Vr. assert (R := rnd_any (sqrt (val u))). assert (Tt := tiny_eta). revert R Tt. generalize (/ 2 ^ 1074). intros t R Tt. change (/ 2 ^ 53) with eps in R.
      assert (Su := sqrt_unit _ Hu). rewrite (Rabs_pos_eq (sqrt (val u))) in R by lra. nra. }
    assert (Pd := Rabs_pos (val r - sqrt (val u))). assert (Pc := Rabs_pos (val c)). nra.
  - cbn [fy]. destruct Ay as [_ Ay]. replace (val y - sqrt (val u) * val s) with (val y - val r * val s + (val r - sqrt (val u)) * val s) by ring.
    apply Rle_trans with (1 := Rabs_triang _ _). rewrite Rabs_mult. assert (Rs := rabs1 _ Hs).
    assert (D : Rabs (val r - sqrt (val u)) <= 2 * eps).
    { rewrite Vr. assert (R := rnd_any (sqrt (val u))). assert (Tt := tiny_eta). revert R Tt. generalize (/ 2 ^ 1074). intros t R Tt. change (/ 2 ^ 53) with eps in R.
      assert (Su := sqrt_unit _ Hu). rewrite (Rabs_pos_eq (sqrt (val u))) in R by lra. nra. }
    assert (Pd := Rabs_pos (val r - sqrt (val u))). assert (Ps := Rabs_pos (val s)). nra.
Qed.

Lemma ftwo_ok : finite ftwo = true /\ val ftwo = 2.
Proof.
  destruct (val_sf ftwo (2 ^ 52) (-51) ltac:(vm_compute; reflexivity)) as [F V]. split; [assumption|]. rewrite V.
  change (IZR (2 ^ 52)) with (bpow radix2 52). rewrite <- bpow_plus. reflexivity.
Qed.
Lemma sphere_z u : finite u = true -> 0 <= val u <= 1 -> let z := fminus fone (fmult ftwo u) in
  finite z = true /\ -1 <= val z <= 1 /\ Rabs (val z - (1 - 2 * val u)) <= 8 * eps.
Proof.
  intros Fu Hu z. destruct ftwo_ok as [F2 V2]. assert (P := eps_pos).
  assert (A1 := ap_mult ftwo u _ _ _ _ 2 1 (ap_exact _ F2) (ap_exact u Fu) ltac:(rewrite V2; apply Rabs_le; lra) ltac:(apply Rabs_le; lra) ltac:(lra) ltac:(lra) ltac:(lra) ltac:(lra)).
  rewrite V2 in A1.
  assert (A2 := ap_minus fone _ _ _ _ _ 1 2 (ap_exact fone fone_finite) A1 ltac:(rewrite fone_val; apply Rabs_le; lra) ltac:(apply Rabs_le; lra) ltac:(lra) ltac:(lra) ltac:(lra)).
  rewrite fone_val in A2. fold z in A2. destruct A1 as [F1 _]. destruct A2 as [Fz Az]. split; [assumption|]. split.
  - destruct (fmult_key ftwo u F2 Fu) as [N1 K1]. assert (V1 := finite_result _ _ N1 K1 F1). rewrite V2 in V1.
    assert (B1 : 0 <= rnd (2 * val u) <= 2).
    { split; [apply rnd_pos; lra|]. assert (M := rnd_mono (2 * val u) (val ftwo) ltac:(rewrite V2; lra)). rewrite rnd_val, V2 in M. exact M. }
    destruct (fminus_key fone (fmult ftwo u) fone_finite F1) as [Nz Kz]. unfold z in *. rewrite (finite_result _ _ Nz Kz Fz), fone_val, V1. apply rnd_cube. lra.
  - apply Rle_trans with (1 := Az). lra.
Qed.
Lemma sphere_cube u c s : finite u = true -> 0 <= val u <= 1 -> finite c = true -> finite s = true -> -1 <= val c <= 1 -> -1 <= val s <= 1 -> in_cube (funiform_sphere u c s).
Proof.
  intros Fu Hu Fc Fs Hc Hs. destruct (sphere_z u Fu Hu) as (Fz & Bz & _). unfold funiform_sphere. set (z := fminus fone (fmult ftwo u)) in *.
  destruct (cube_mult z z Fz Fz Bz Bz) as (F2 & V2 & B2). assert (P2 : 0 <= val (fmult z z)) by (rewrite V2; apply rnd_pos; nra).
  destruct (of_key _ _ 1 ltac:(lia) (fminus_key fone (fmult z z) fone_finite F2)) as [[F1 _] V1]; [rewrite fone_val; apply Rabs_le; change (bpow radix2 1) with 2; lra|].
  assert (B1 : 0 <= val (fminus fone (fmult z z)) <= 1) by (rewrite V1, fone_val; apply rnd_unit; lra).
  destruct (safe_sqrt_unit _ F1 (proj2 B1)) as (Fr & _ & Br). set (r := fsafe_sqrt (fminus fone (fmult z z))) in *.
  destruct (cube_mult r c Fr Fc ltac:(lra) Hc) as (Fx & _ & Bx). destruct (cube_mult r s Fr Fs ltac:(lra) Hs) as (Fy & _ & By).
  intros [|[|i]]; cbn [fcomp fx fy fz]; split; assumption.
Qed.
Lemma sphere_length u c s : finite u = true -> 0 <= val u <= 1 -> unit_pair c s -> let d := funiform_sphere u c s in
  Rabs (length2 d - 1) <= 64 * eps /\ Rabs (val (fz d) - (1 - 2 * val u)) <= 8 * eps /\
  Rabs (val (fx d) * val s - val (fy d) * val c) <= 8 * eps /\ 0 <= val (fx d) * val c /\ 0 <= val (fy d) * val s.
Proof.
  intros Fu Hu U d. destruct U as (Fc & Fs & Hc & Hs & Hn). assert (U : unit_pair c s) by (repeat split; tauto || lra).
  destruct (sphere_z u Fu Hu) as (Fz & Bz & Az). subst d. unfold funiform_sphere. set (z := fminus fone (fmult ftwo u)) in *.
  destruct (cube_mult z z Fz Fz Bz Bz) as (F2 & V2 & B2). assert (P2 : 0 <= val (fmult z z)) by (rewrite V2; apply rnd_pos; nra).
  destruct (of_key _ _ 1 ltac:(lia) (fminus_key fone (fmult z z) fone_finite F2)) as [[F1 _] V1]; [rewrite fone_val; apply Rabs_le; change (bpow radix2 1) with 2; lra|].
  assert (B1 : 0 <= val (fminus fone (fmult z z)) <= 1) by (rewrite V1, fone_val; apply rnd_unit; lra).
  destruct (safe_sqrt_unit _ F1 (proj2 B1)) as (Fr & _ & Br).
  assert (A1 := ap_mult z z _ _ _ _ 1 1 (ap_exact z Fz) (ap_exact z Fz) (rabs1 _ Bz) (rabs1 _ Bz) ltac:(lra) ltac:(lra) ltac:(lra) ltac:(lra)).
  assert (A3 := ap_minus fone _ _ _ _ _ 1 1 (ap_exact fone fone_finite) A1 ltac:(rewrite fone_val; apply Rabs_le; lra) ltac:(apply Rabs_le; nra) ltac:(lra) ltac:(lra) ltac:(lra)).
  rewrite fone_val in A3. assert (Sq := safe_sqrt_square _ _ _ A3 (proj2 B1) ltac:(lra)). rewrite Rmax_right in Sq by nra.
  set (r := fsafe_sqrt (fminus fone (fmult z z))) in *. assert (P := eps_pos). assert (T := eps_tiny). assert (Rr : -1 <= val r <= 1) by lra.
  destruct (cube_mult r c Fr Fc Rr Hc) as (Fx & Vx & Bx). destruct (cube_mult r s Fr Fs Rr Hs) as (Fy & Vy & By).
  assert (Ax := ap_mult r c _ _ _ _ 1 1 (ap_exact r Fr) (ap_exact c Fc) (rabs1 _ Rr) (rabs1 _ Hc) ltac:(lra) ltac:(lra) ltac:(lra) ltac:(lra)).
  assert (Ay := ap_mult r s _ _ _ _ 1 1 (ap_exact r Fr) (ap_exact s Fs) (rabs1 _ Rr) (rabs1 _ Hs) ltac:(lra) ltac:(lra) ltac:(lra) ltac:(lra)).
  assert (Qx := ap_square _ _ _ Ax ltac:(nra) ltac:(lra)). assert (Qy := ap_square _ _ _ Ay ltac:(nra) ltac:(lra)).
  assert (Sum : Rabs (val (fmult r c) * val (fmult r c) + val (fmult r s) * val (fmult r s) - val r * val r) <= 17 * eps).
  { apply (circle_sum (val r) c s); [lra|exact U| |]; [eapply Rle_trans; [exact Qx|]|eapply Rle_trans; [exact Qy|]]; lra. }
  cbn [fx fy fz]. split; [|split; [exact Az|split; [|split]]].
  - unfold length2. cbn [fx fy fz]. apply Rabs_le_inv in Sq, Sum. apply Rabs_le. lra.
  - destruct Ax as [_ Ax], Ay as [_ Ay]. replace (val (fmult r c) * val s - val (fmult r s) * val c) with ((val (fmult r c) - val r * val c) * val s - (val (fmult r s) - val r * val s) * val c) by ring.
    apply Rabs_le_inv in Ax, Ay. apply Rabs_le. revert Ax Ay. generalize (val (fmult r c) - val r * val c), (val (fmult r s) - val r * val s). intros e f Ax Ay. nra.
  - rewrite Vx. destruct (Rle_or_lt 0 (val c)) as [H|H].
    + apply Rmult_le_pos; [apply rnd_pos; nra|assumption].
    + assert (rnd (val r * val c) <= 0) by (rewrite <- rnd_0; apply rnd_mono; nra). nra.
  - rewrite Vy. destruct (Rle_or_lt 0 (val s)) as [H|H].
    + apply Rmult_le_pos; [apply rnd_pos; nra|assumption].
    + assert (rnd (val r * val s) <= 0) by (rewrite <- rnd_0; apply rnd_mono; nra). nra.
Qed.

(** ** The basis *)
(** Products of approximate numbers *)
Lemma prod_near a x b y d e : Rabs (a - x) <= d * eps -> Rabs (b - y) <= e * eps -> Rabs x <= 1 -> Rabs y <= 1 -> d <= 100 -> e <= 100 -> 0 <= d -> 0 <= e ->
  Rabs (a * b - x * y) <= (d + e + / 8) * eps.
Proof.
  intros A B X Y D E D0 E0. assert (P := eps_pos). assert (T := eps_tiny).
  replace (a * b - x * y) with ((a - x) * y + x * (b - y) + (a - x) * (b - y)) by ring.
  apply Rle_trans with (1 := Rabs_triang _ _). apply Rle_trans with (1 := Rplus_le_compat_r _ _ _ (Rabs_triang _ _)). rewrite !Rabs_mult.
  assert (Pa := Rabs_pos (a - x)). assert (Pb := Rabs_pos (b - y)). assert (Px := Rabs_pos x). assert (Py := Rabs_pos y).
  assert (M1 : Rabs (a - x) * Rabs y <= d * eps * 1) by (apply Rmult_le_compat; assumption).
  assert (M2 : Rabs x * Rabs (b - y) <= 1 * (e * eps)) by (apply Rmult_le_compat; assumption).
  assert (M3 : Rabs (a - x) * Rabs (b - y) <= / 8 * eps).
  { apply Rle_trans with (d * eps * (e * eps)); [apply Rmult_le_compat; assumption|].
    assert (H1 : d * e <= 100 * 100) by (apply Rmult_le_compat; assumption). assert (H2 : d * e * eps <= / 8) by nra.
    replace (d * eps * (e * eps)) with (d * e * eps * eps) by ring. now apply Rmult_le_compat_r; [lra|]. }
  lra.
Qed.
Section Basis.
  Variable n : fvec. Hypothesis Hn : near_unit n.
  Let s := fcopysign1 (fz n).
  Let x := val (fx n). Let y := val (fy n). Let z := val (fz n). Let g := val s.
  Lemma sign_ok : finite s = true /\ (g = 1 /\ 0 <= z \/ g = -1 /\ z <= 0).
  Proof.
    assert (Sg : val (Bopp fone) = -1 /\ finite (Bopp fone) = true).
    { unfold val, finite. rewrite B2R_Bopp, is_finite_Bopp. fold (val fone). rewrite fone_val. split; [lra|apply fone_finite]. }
    destruct Hn as [C _]. destruct (C 2%nat) as [F _]. cbn [fcomp] in F. assert (Q := sign_val (fz n)). unfold s, g, s, fcopysign1, z.
    specialize (Q F). destruct (Bsign (fz n)); [|assert (H := fone_val); assert (H1 := fone_finite)]; tauto.
  Qed.
  Let p := g + z. Let A := - / p.
  Lemma xyz : Rabs x <= 1 /\ Rabs y <= 1 /\ Rabs z <= 1 /\ Rabs g <= 1 /\ g * g = 1 /\ 1 <= Rabs p <= 2 /\ Rabs A <= 1.
  Proof.
    destruct Hn as [C _]. destruct (C 0%nat) as [_ X]. destruct (C 1%nat) as [_ Y]. destruct (C 2%nat) as [_ Z]. cbn [fcomp] in *. fold x in X. fold y in Y. fold z in Z.
    destruct sign_ok as [_ S]. assert (Pp : 1 <= Rabs p <= 2).
    { unfold p. destruct S as [[-> H]|[-> H]]; [rewrite Rabs_pos_eq by lra; lra|rewrite Rabs_left1 by lra; lra]. }
    split; [apply Rabs_le; lra|]. split; [apply Rabs_le; lra|]. split; [apply Rabs_le; lra|].
    split; [apply Rabs_le; destruct S as [[-> _]|[-> _]]; lra|]. split; [destruct S as [[-> _]|[-> _]]; lra|]. split; [exact Pp|].
    unfold A. rewrite Rabs_Ropp, Rabs_inv. rewrite <- Rinv_1. apply Rinv_le; lra.
  Qed.
  Let a := fdivide (Bopp fone) (fplus s (fz n)).
  Lemma recip_ok : approx a A 4.
  Proof.
    destruct xyz as (X & Y & Z & G & GG & Pp & LA). destruct sign_ok as [Fs _]. destruct Hn as [C _]. destruct (C 2%nat) as [Fz _]. cbn [fcomp] in Fz.
    assert (Ap := ap_plus s (fz n) _ _ _ _ 1 1 (ap_exact s Fs) (ap_exact _ Fz) G Z ltac:(lra) ltac:(lra) ltac:(lra)). fold g z p in Ap. destruct Ap as [Fp Ap]. set (q := fplus s (fz n)) in *.
    assert (P := eps_pos). assert (T := eps_tiny).
    assert (Qp : Rabs (val q) >= 999 / 1000). { assert (H := Rabs_triang_inv p (p - val q)). replace (p - (p - val q)) with (val q) in H by ring. rewrite (Rabs_minus_sym p) in H. nra. }
    assert (Q0 : val q <> 0) by (intros E; rewrite E, Rabs_R0 in Qp; lra). assert (P0 : p <> 0) by (intros E; rewrite E, Rabs_R0 in Pp; lra).
    assert (Vo : val (Bopp fone) = -1 /\ finite (Bopp fone) = true).
    { unfold val, finite. rewrite B2R_Bopp, is_finite_Bopp. fold (val fone). rewrite fone_val. split; [lra|apply fone_finite]. }
    destruct Vo as [Vo Fo]. assert (K := fdivide_key (Bopp fone) q Fo Fp Q0). rewrite Vo in K.
    assert (I : Rabs (/ val q) <= 1002 / 1000). { rewrite Rabs_inv. replace (1002 / 1000) with (/ (1000 / 1002)) by field. apply Rinv_le; lra. }
    apply ap_le with (12 / 5 + 1002 / 1000 + / 8); [|lra]. apply (ap_round _ _ _ _ _ K).
    - unfold Rdiv. replace (-1 * / val q) with (- / val q) by ring. now rewrite Rabs_Ropp.
    - lra.
    - unfold A. replace (-1 / val q - - / p) with ((val q - p) * (/ val q * / p)) by (field; split; assumption).
      rewrite !Rabs_mult. assert (Ip : Rabs (/ p) <= 1) by (rewrite Rabs_inv, <- Rinv_1; apply Rinv_le; lra).
      assert (M : Rabs (/ val q) * Rabs (/ p) <= 1002 / 1000 * 1) by (apply Rmult_le_compat; auto using Rabs_pos).
      apply Rle_trans with ((0 + 0 + 1 + 1 + / 4) * eps * (1002 / 1000 * 1)); [|lra]. apply Rmult_le_compat; auto using Rabs_pos. apply Rmult_le_pos; apply Rabs_pos.
  Qed.
  Lemma le1_mult u v : Rabs u <= 1 -> Rabs v <= 1 -> Rabs (u * v) <= 1.
  Proof. intros U V. rewrite Rabs_mult. assert (Pu := Rabs_pos u). assert (Pv := Rabs_pos v). nra. Qed.
  Let U := fst (fbasis n). Let V := snd (fbasis n).
  Lemma basis_close : (approx (fx U) (1 + g * x * x * A) 16 /\ approx (fy U) (g * (x * y * A)) 16 /\ approx (fz U) (- g * x) 16) /\
    (approx (fx V) (x * y * A) 16 /\ approx (fy V) (g + y * y * A) 16 /\ approx (fz V) (- y) 16).
  Proof.
    destruct xyz as (X & Y & Z & G & GG & Pp & LA). destruct sign_ok as [Fs _]. destruct Hn as [C _].
    destruct (C 0%nat) as [Fx _]. destruct (C 1%nat) as [Fy _]. cbn [fcomp] in Fx, Fy.
    assert (Ra := recip_ok). assert (Ex := ap_exact _ Fx). assert (Ey := ap_exact _ Fy). assert (Es := ap_exact _ Fs). fold x in Ex. fold y in Ey. fold g in Es.
    assert (XY := ap_mult _ _ _ _ _ _ 1 1 Ex Ey X Y ltac:(lra) ltac:(lra) ltac:(lra) ltac:(lra)).
    assert (B := ap_mult _ _ _ _ _ _ 1 1 XY Ra (le1_mult _ _ X Y) LA ltac:(lra) ltac:(lra) ltac:(lra) ltac:(lra)).
    assert (SB := ap_mult _ _ _ _ _ _ 1 1 Es B G (le1_mult _ _ (le1_mult _ _ X Y) LA) ltac:(lra) ltac:(lra) ltac:(lra) ltac:(lra)).
    assert (SX := ap_mult _ _ _ _ _ _ 1 1 Es Ex G X ltac:(lra) ltac:(lra) ltac:(lra) ltac:(lra)).
    assert (SXX := ap_mult _ _ _ _ _ _ 1 1 SX Ex (le1_mult _ _ G X) X ltac:(lra) ltac:(lra) ltac:(lra) ltac:(lra)).
    assert (W := ap_mult _ _ _ _ _ _ 1 1 SXX Ra (le1_mult _ _ (le1_mult _ _ G X) X) LA ltac:(lra) ltac:(lra) ltac:(lra) ltac:(lra)).
    assert (E1 := ap_exact _ fone_finite). rewrite fone_val in E1.
    assert (UX := ap_plus _ _ _ _ _ _ 1 1 E1 W ltac:(apply Rabs_le; lra) (le1_mult _ _ (le1_mult _ _ (le1_mult _ _ G X) X) LA) ltac:(lra) ltac:(lra) ltac:(lra)).
    assert (Os := ap_opp _ _ _ Es). assert (UZ := ap_mult _ _ _ _ _ _ 1 1 Os Ex ltac:(rewrite Rabs_Ropp; exact G) X ltac:(lra) ltac:(lra) ltac:(lra) ltac:(lra)).
    assert (YY := ap_mult _ _ _ _ _ _ 1 1 Ey Ey Y Y ltac:(lra) ltac:(lra) ltac:(lra) ltac:(lra)).
    assert (YA := ap_mult _ _ _ _ _ _ 1 1 YY Ra (le1_mult _ _ Y Y) LA ltac:(lra) ltac:(lra) ltac:(lra) ltac:(lra)).
    assert (VY := ap_plus _ _ _ _ _ _ 1 1 Es YA G (le1_mult _ _ (le1_mult _ _ Y Y) LA) ltac:(lra) ltac:(lra) ltac:(lra)).
    assert (VZ := ap_opp _ _ _ Ey).
    split; (split; [|split]); [apply (ap_le _ _ _ _ UX); lra|apply (ap_le _ _ _ _ SB); lra|apply (ap_le _ _ _ _ UZ); lra|
      apply (ap_le _ _ _ _ B); lra|apply (ap_le _ _ _ _ VY); lra|apply (ap_le _ _ _ _ VZ); lra].
  Qed.
  (** The exact vectors, up to how far the normal is from a unit vector *)
  Lemma basis_ideal : let u0 := 1 + g * x * x * A in let u1 := g * (x * y * A) in let u2 := - g * x in
    let v0 := x * y * A in let v1 := g + y * y * A in let v2 := - y in
    (Rabs u0 <= 1 /\ Rabs u1 <= 1 /\ Rabs u2 <= 1) /\ (Rabs v0 <= 1 /\ Rabs v1 <= 1 /\ Rabs v2 <= 1) /\
    Rabs (u0 * u0 + u1 * u1 + u2 * u2 - 1) <= 16 * eps /\ Rabs (v0 * v0 + v1 * v1 + v2 * v2 - 1) <= 16 * eps /\
    Rabs (u0 * v0 + u1 * v1 + u2 * v2) <= 16 * eps /\ Rabs (u0 * x + u1 * y + u2 * z) <= 16 * eps /\ Rabs (v0 * x + v1 * y + v2 * z) <= 16 * eps /\
    u1 * v2 - u2 * v1 = x /\ u2 * v0 - u0 * v2 = y /\ Rabs (u0 * v1 - u1 * v0 - z) <= 16 * eps.
  Proof.
    intros u0 u1 u2 v0 v1 v2. destruct xyz as (X & Y & Z & G & GG & Pp & LA). destruct Hn as [_ L]. unfold length2 in L. fold x y z in L.
    set (d := x * x + y * y + z * z - 1) in L. assert (P0 : p <> 0) by (intros E; rewrite E, Rabs_R0 in Pp; lra).
    assert (AP : A * p = -1) by (unfold A; field; assumption).
    assert (Q : x * x + y * y = (g - z) * p + d) by (replace ((g - z) * p) with (g * g - z * z) by (unfold p; ring); rewrite GG; unfold d; ring).
    assert (GA : - 1 <= g * A <= 0).
    { destruct sign_ok as [_ [[Hg Hz]|[Hg Hz]]]; rewrite Hg in *; unfold A, p; rewrite Hg.
      - assert (H : 0 < / (1 + z) <= 1) by (split; [apply Rinv_0_lt_compat; lra|rewrite <- Rinv_1; apply Rinv_le; lra]). lra.
      - replace (- / (-1 + z)) with (/ (1 - z)) by (field; lra). assert (H : 0 < / (1 - z) <= 1) by (split; [apply Rinv_0_lt_compat; lra|rewrite <- Rinv_1; apply Rinv_le; lra]). lra. }
    assert (XX : 0 <= x * x <= 1) by (apply Rabs_le_inv in X; nra). assert (YY : 0 <= y * y <= 1) by (apply Rabs_le_inv in Y; nra).
    assert (S2 : forall k, Rabs k <= 1 -> Rabs (k * d) <= 16 * eps) by (intros k Hk; rewrite Rabs_mult; assert (H := Rabs_pos k); assert (H1 := Rabs_pos d); nra).
    split; [|split; [|split; [|split; [|split; [|split; [|split; [|split; [|split]]]]]]]].
    - split; [|split].
      + unfold u0. replace (1 + g * x * x * A) with (1 + g * A * (x * x)) by ring. apply Rabs_le. nra.
      + unfold u1. auto using le1_mult.
      + unfold u2. rewrite Ropp_mult_distr_l_reverse, Rabs_Ropp. auto using le1_mult.
    - split; [|split].
      + unfold v0. auto using le1_mult.
      + unfold v1. replace (g + y * y * A) with (g * (1 + g * A * (y * y))) by (transitivity (g + g * g * (A * (y * y))); [ring|rewrite GG; ring]).
        apply le1_mult; [assumption|]. apply Rabs_le. nra.
      + unfold v2. now rewrite Rabs_Ropp.
    - replace (u0 * u0 + u1 * u1 + u2 * u2 - 1) with (x * x * A * A * d); [apply S2; auto using le1_mult|]. unfold u0, u1, u2.
      replace ((1 + g * x * x * A) * (1 + g * x * x * A) + g * (x * y * A) * (g * (x * y * A)) + - g * x * (- g * x) - 1)
        with (2 * g * x * x * A + (g * g) * (x * x * A * A * (x * x + y * y)) + (g * g) * (x * x)) by ring. rewrite GG, Q.
      replace (2 * g * x * x * A + 1 * (x * x * A * A * ((g - z) * p + d)) + 1 * (x * x)) with (x * x * A * A * d + x * x * (2 * g * A + A * (A * p) * (g - z) + 1)) by ring. rewrite AP.
      replace (2 * g * A + A * -1 * (g - z) + 1) with (A * p + 1) by (unfold p; ring). rewrite AP. ring.
    - replace (v0 * v0 + v1 * v1 + v2 * v2 - 1) with (y * y * A * A * d); [apply S2; auto using le1_mult|]. unfold v0, v1, v2.
      replace (x * y * A * (x * y * A) + (g + y * y * A) * (g + y * y * A) + - y * - y - 1)
        with (g * g - 1 + 2 * g * y * y * A + (y * y * A * A * (x * x + y * y)) + y * y) by ring. rewrite GG, Q.
      replace (1 - 1 + 2 * g * y * y * A + y * y * A * A * ((g - z) * p + d) + y * y) with (y * y * A * A * d + y * y * (2 * g * A + A * (A * p) * (g - z) + 1)) by ring. rewrite AP.
      replace (2 * g * A + A * -1 * (g - z) + 1) with (A * p + 1) by (unfold p; ring). rewrite AP. ring.
    - replace (u0 * v0 + u1 * v1 + u2 * v2) with (g * x * y * A * A * d); [apply S2; auto 6 using le1_mult|]. unfold u0, u1, u2, v0, v1, v2.
      replace ((1 + g * x * x * A) * (x * y * A) + g * (x * y * A) * (g + y * y * A) + - g * x * - y)
        with (x * y * A + (g * g) * (x * y * A) + g * (x * y * A * A) * (x * x + y * y) + g * x * y) by ring. rewrite GG, Q.
      replace (x * y * A + 1 * (x * y * A) + g * (x * y * A * A) * ((g - z) * p + d) + g * x * y) with (g * x * y * A * A * d + x * y * (2 * A + A * (A * p) * ((g * g) - g * z) + g)) by ring. rewrite AP, GG.
      replace (2 * A + A * -1 * (1 - g * z) + g) with (A * (1 + g * z) + g) by ring. replace (1 + g * z) with (g * p) by (unfold p; replace (g * (g + z)) with (g * g + g * z) by ring; rewrite GG; ring).
      replace (A * (g * p) + g) with (g * (A * p + 1)) by ring. rewrite AP. ring.
    - replace (u0 * x + u1 * y + u2 * z) with (g * x * A * d); [apply S2; auto 6 using le1_mult|]. unfold u0, u1, u2.
      replace ((1 + g * x * x * A) * x + g * (x * y * A) * y + - g * x * z) with (x * (1 + g * A * (x * x + y * y) - g * z)) by ring. rewrite Q.
      replace (1 + g * A * ((g - z) * p + d) - g * z) with (1 + (A * p) * (g * g - g * z) + g * A * d - g * z) by ring. rewrite AP, GG. ring.
    - replace (v0 * x + v1 * y + v2 * z) with (y * A * d); [apply S2; auto 6 using le1_mult|]. unfold v0, v1, v2.
      replace (x * y * A * x + (g + y * y * A) * y + - y * z) with (y * (g + A * (x * x + y * y) - z)) by ring. rewrite Q.
      replace (g + A * ((g - z) * p + d) - z) with (g + (A * p) * (g - z) + A * d - z) by ring. rewrite AP. ring.
    - unfold u1, u2, v1, v2. replace (g * (x * y * A) * - y - - g * x * (g + y * y * A)) with (g * g * x) by ring. rewrite GG. ring.
    - unfold u0, u2, v0, v2. ring.
    - replace (u0 * v1 - u1 * v0 - z) with (A * d); [apply S2; assumption|]. unfold u0, u1, v0, v1.
      replace ((1 + g * x * x * A) * (g + y * y * A) - g * (x * y * A) * (x * y * A) - z) with (g - z + A * (y * y) + (g * g) * A * (x * x)) by ring. rewrite GG.
      replace (g - z + A * (y * y) + 1 * A * (x * x)) with (g - z + A * (x * x + y * y)) by ring. rewrite Q.
      replace (g - z + A * ((g - z) * p + d)) with ((g - z) + (A * p) * (g - z) + A * d) by ring. rewrite AP. ring.
  Qed.
  Lemma basis_ok : (forall i, finite (fcomp U i) = true /\ finite (fcomp V i) = true) /\
    Rabs (length2 U - 1) <= 128 * eps /\ Rabs (length2 V - 1) <= 128 * eps /\
    Rabs (rdot3 U V) <= 128 * eps /\ Rabs (rdot3 U n) <= 128 * eps /\ Rabs (rdot3 V n) <= 128 * eps /\
    Rabs (val (fy U) * val (fz V) - val (fz U) * val (fy V) - x) <= 128 * eps /\
    Rabs (val (fz U) * val (fx V) - val (fx U) * val (fz V) - y) <= 128 * eps /\
    Rabs (val (fx U) * val (fy V) - val (fy U) * val (fx V) - z) <= 128 * eps.
  Proof.
    destruct basis_close as (((F0 & A0) & (F1 & A1) & (F2 & A2)) & ((G0 & B0) & (G1 & B1) & (G2 & B2))).
    destruct basis_ideal as ((U0 & U1 & U2) & (V0 & V1 & V2) & I1 & I2 & I3 & I4 & I5 & I6 & I7 & I8).
    destruct xyz as (X & Y & Z & _).
    split; [intros [|[|i]]; cbn [fcomp]; split; assumption|]. assert (P := eps_pos).
    revert A0 A1 A2 B0 B1 B2 U0 U1 U2 V0 V1 V2 I1 I2 I3 I4 I5 I6 I7 I8. unfold length2, rdot3. fold x y z.
    generalize (1 + g * x * x * A), (g * (x * y * A)), (- g * x), (x * y * A), (g + y * y * A), (- y). intros u0 u1 u2 v0 v1 v2.
    intros A0 A1 A2 B0 B1 B2 U0 U1 U2 V0 V1 V2 I1 I2 I3 I4 I5 I6 I7 I8.
    assert (D : forall k, Rabs (k - k) <= 0 * eps) by (intros k; rewrite Rminus_diag_eq, Rabs_R0 by reflexivity; lra).
    assert (PN : forall a x b y d e, Rabs (a - x) <= d * eps -> Rabs (b - y) <= e * eps -> Rabs x <= 1 -> Rabs y <= 1 -> 0 <= d <= 16 -> 0 <= e <= 16 -> - (33 * eps) <= a * b - x * y <= 33 * eps).
    { intros a1 x1 b1 y1 d1 e1 H1 H2 H3 H4 H5 H6. assert (H := prod_near _ _ _ _ _ _ H1 H2 H3 H4 ltac:(lra) ltac:(lra) ltac:(lra) ltac:(lra)). apply Rabs_le_inv in H. nra. }
    assert (L1 : 0 <= 16 <= 16) by lra. assert (L0 : 0 <= 0 <= 16) by lra.
    apply Rabs_le_inv in I1, I2, I3, I4, I5, I8.
    split; [|split; [|split; [|split; [|split; [|split; [|split]]]]]]; apply Rabs_le.
    - assert (H0 := PN _ _ _ _ _ _ A0 A0 U0 U0 L1 L1). assert (H1 := PN _ _ _ _ _ _ A1 A1 U1 U1 L1 L1). assert (H2 := PN _ _ _ _ _ _ A2 A2 U2 U2 L1 L1). lra.
    - assert (H0 := PN _ _ _ _ _ _ B0 B0 V0 V0 L1 L1). assert (H1 := PN _ _ _ _ _ _ B1 B1 V1 V1 L1 L1). assert (H2 := PN _ _ _ _ _ _ B2 B2 V2 V2 L1 L1). lra.
    - assert (H0 := PN _ _ _ _ _ _ A0 B0 U0 V0 L1 L1). assert (H1 := PN _ _ _ _ _ _ A1 B1 U1 V1 L1 L1). assert (H2 := PN _ _ _ _ _ _ A2 B2 U2 V2 L1 L1). lra.
    - assert (H0 := PN _ _ _ _ _ _ A0 (D x) U0 X L1 L0). assert (H1 := PN _ _ _ _ _ _ A1 (D y) U1 Y L1 L0). assert (H2 := PN _ _ _ _ _ _ A2 (D z) U2 Z L1 L0). lra.
    - assert (H0 := PN _ _ _ _ _ _ B0 (D x) V0 X L1 L0). assert (H1 := PN _ _ _ _ _ _ B1 (D y) V1 Y L1 L0). assert (H2 := PN _ _ _ _ _ _ B2 (D z) V2 Z L1 L0). lra.
    - assert (H0 := PN _ _ _ _ _ _ A1 B2 U1 V2 L1 L1). assert (H1 := PN _ _ _ _ _ _ A2 B1 U2 V1 L1 L1). lra.
    - assert (H0 := PN _ _ _ _ _ _ A2 B0 U2 V0 L1 L1). assert (H1 := PN _ _ _ _ _ _ A0 B2 U0 V2 L1 L1). lra.
    - assert (H0 := PN _ _ _ _ _ _ A0 B1 U0 V1 L1 L1). assert (H1 := PN _ _ _ _ _ _ A1 B0 U1 V0 L1 L1). lra.
  Qed.
End Basis.

(** ** Reflection *)
Lemma cauchy a b c x y z : (a * x + b * y + c * z) * (a * x + b * y + c * z) <= (a * a + b * b + c * c) * (x * x + y * y + z * z).
Proof.
  assert (H : (a * a + b * b + c * c) * (x * x + y * y + z * z) - (a * x + b * y + c * z) * (a * x + b * y + c * z) = (a * y - b * x) * (a * y - b * x) + (a * z - c * x) * (a * z - c * x) + (b * z - c * y) * (b * z - c * y)) by ring.
  assert (0 <= (a * y - b * x) * (a * y - b * x)) by apply Rle_0_sqr. assert (0 <= (a * z - c * x) * (a * z - c * x)) by apply Rle_0_sqr. assert (0 <= (b * z - c * y) * (b * z - c * y)) by apply Rle_0_sqr. lra.
Qed.
Lemma small_square a : a * a <= 1002 / 1000 -> Rabs a <= 1001 / 1000.
Proof. intros H. rewrite <- (Rabs_pos_eq (1001 / 1000)) by lra. apply Rsqr_le_abs_0. unfold Rsqr. lra. Qed.
Section Reflection.
  Variables w n : fvec. Hypothesis Hw : near_unit w. Hypothesis Hn : near_unit n.
  Let D := rdot3 w n.
  Lemma dot_bound : Rabs D <= 1001 / 1000.
  Proof.
    destruct Hw as [_ A], Hn as [_ B]. assert (P := eps_pos). assert (T := eps_tiny). apply Rabs_le_inv in A, B. apply small_square. unfold D, rdot3.
    apply Rle_trans with (1 := cauchy _ _ _ _ _ _). fold (length2 w) (length2 n). assert (A' : 0 <= length2 w <= 1 + / 10000) by lra. assert (B' : 0 <= length2 n <= 1 + / 10000) by lra. nra.
  Qed.
  Lemma dot_close : approx (fdot w n) D 15.
  Proof.
    destruct Hw as [Cw _], Hn as [Cn _].
    assert (M : forall i, approx (fmult (fcomp w i) (fcomp n i)) (val (fcomp w i) * val (fcomp n i)) 3 /\ Rabs (val (fcomp w i) * val (fcomp n i)) <= 1).
    { intros i. destruct (Cw i) as [Fw Bw]. destruct (Cn i) as [Fn Bn]. split; [|apply le1_mult; now apply rabs1].
      apply ap_le with (0 * 1 + 1 * 0 + 1 * 1 + 2); [|lra]. apply ap_mult; try lra; try (now apply rabs1); now apply ap_exact. }
    destruct (M 0%nat) as [M0 L0]. destruct (M 1%nat) as [M1 L1]. destruct (M 2%nat) as [M2 L2]. cbn [fcomp] in *.
    assert (S1 := ap_plus _ _ _ _ _ _ 1 1 M0 M1 L0 L1 ltac:(lra) ltac:(lra) ltac:(lra)).
    assert (S2 := ap_plus _ _ _ _ _ _ 2 1 S1 M2 ltac:(apply Rle_trans with (1 := Rabs_triang _ _); lra) L2 ltac:(lra) ltac:(lra) ltac:(lra)).
    apply (ap_le _ _ _ _ S2). lra.
  Qed.
  Let r i := 2 * D * val (fcomp n i) - val (fcomp w i).
  Lemma refl_close i : approx (fcomp (freflection w n) i) (r i) 42.
  Proof.
    destruct ftwo_ok as [F2 V2]. assert (LD := dot_bound).
    assert (T := ap_mult ftwo (fdot w n) _ _ _ _ 2 (1001 / 1000) (ap_exact _ F2) dot_close ltac:(rewrite V2; apply Rabs_le; lra) LD ltac:(lra) ltac:(lra) ltac:(lra) ltac:(lra)). rewrite V2 in T.
    destruct Hw as [Cw _], Hn as [Cn _].
    assert (L2 : Rabs (2 * D) <= 2002 / 1000) by (rewrite Rabs_mult, (Rabs_pos_eq 2) by lra; lra).
    assert (K : forall a b, finite a = true /\ -1 <= val a <= 1 -> finite b = true /\ -1 <= val b <= 1 -> approx (fminus (fmult a (fmult ftwo (fdot w n))) b) (2 * D * val a - val b) 42).
    { intros a b [Fa Ba] [Fb Bb].
      assert (M := ap_mult a _ _ _ _ _ 1 (2002 / 1000) (ap_exact a Fa) T (rabs1 _ Ba) L2 ltac:(lra) ltac:(lra) ltac:(lra) ltac:(lra)).
      assert (LM : Rabs (val a * (2 * D)) <= 2002 / 1000) by (rewrite Rabs_mult; assert (H := rabs1 _ Ba); assert (H2 := Rabs_pos (val a)); assert (H1 := Rabs_pos (2 * D)); nra).
      assert (S := ap_minus _ b _ _ _ _ (2002 / 1000) 1 M (ap_exact b Fb) LM (rabs1 _ Bb) ltac:(lra) ltac:(lra) ltac:(lra)).
      apply ap_eq with (val a * (2 * D) - val b); [|ring]. apply (ap_le _ _ _ _ S). lra. }
    unfold r. destruct i as [|[|i]]; cbn [fcomp freflection fvsub fvmul fx fy fz]; apply K; [apply (Cn 0%nat)|apply (Cw 0%nat)|apply (Cn 1%nat)|apply (Cw 1%nat)|apply (Cn 2%nat)|apply (Cw 2%nat)].
  Qed.
  Lemma refl_length : Rabs (length2 (freflection w n) - 1) <= 512 * eps.
  Proof.
    assert (P := eps_pos). assert (T := eps_tiny). assert (LD := dot_bound).
    assert (I : r 0 * r 0 + r 1 * r 1 + r 2 * r 2 = length2 w + 4 * D * D * (length2 n - 1)) by (unfold r, D, rdot3, length2; cbn [fcomp]; ring).
    assert (B : Rabs (r 0 * r 0 + r 1 * r 1 + r 2 * r 2 - 1) <= 82 * eps).
    { rewrite I. destruct Hw as [_ A], Hn as [_ B]. apply Rabs_le_inv in A, B, LD. apply Rabs_le. assert (DD : 0 <= D * D <= 1003 / 1000) by nra.
      revert B. generalize (length2 n - 1). intros k B. nra. }
    assert (Q : forall i, (i < 3)%nat -> Rabs (val (fcomp (freflection w n) i) * val (fcomp (freflection w n) i) - r i * r i) <= 90 * eps).
    { intros i Hi. assert (L : Rabs (r i) <= 1001 / 1000).
      { apply small_square. apply Rabs_le_inv in B. assert (0 <= r 0%nat * r 0%nat) by apply Rle_0_sqr. assert (0 <= r 1%nat * r 1%nat) by apply Rle_0_sqr. assert (0 <= r 2%nat * r 2%nat) by apply Rle_0_sqr.
        destruct i as [|[|[|i]]]; [lra|lra|lra|lia]. }
      destruct (refl_close i) as [_ C]. revert C L. generalize (val (fcomp (freflection w n) i)), (r i). intros a b C L.
      replace (a * a - b * b) with ((a - b) * (a - b) + 2 * b * (a - b)) by ring. apply Rle_trans with (1 := Rabs_triang _ _). rewrite !Rabs_mult. rewrite (Rabs_pos_eq 2) by lra.
      assert (H := Rabs_pos (a - b)). assert (H1 := Rabs_pos b). revert C L H H1. generalize (Rabs (a - b)), (Rabs b). intros e m C L H H1.
      assert (e * e <= eps) by (apply Rle_trans with (42 * eps * (42 * eps)); [apply Rmult_le_compat; lra|nra]). assert (m * e <= 1001 / 1000 * (42 * eps)) by (apply Rmult_le_compat; lra). lra. }
    assert (Q0 := Q 0%nat ltac:(lia)). assert (Q1 := Q 1%nat ltac:(lia)). assert (Q2 := Q 2%nat ltac:(lia)). cbn [fcomp] in Q0, Q1, Q2.
    apply Rabs_le_inv in B, Q0, Q1, Q2. unfold length2. apply Rabs_le. lra.
  Qed.
End Reflection.
