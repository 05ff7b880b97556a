(** * C122: conversions of densities in binary64 *)
From Coq Require Import Reals ZArith Bool Lra Lia Psatz.
From Flocq Require Import Core.Core IEEE754.BinarySingleNaN.
From Verif Require Import Base RngModel FltModel FltProofs FDistModel FDistSpec FDistProofs FBoundModel FBoundSpec FBoundProofs FBvhSpec FDirModel FDirSpec FDirProofs FMathModel FMathProofs FGtermModel FGtermSpec FGtermProofs FGtermProps FPdfModel FPdfSpec.
Local Open Scope R_scope.

Lemma abs_ok x : finite x = true -> finite (Babs x) = true /\ val (Babs x) = Rabs (val x).
Proof. intros F. split; [unfold finite in *; now rewrite is_finite_Babs|apply B2R_Babs]. Qed.
Lemma jacobian_ok n d : near_unit n -> near_unit d -> finite (Babs (fdot n d)) = true /\ 0 <= val (Babs (fdot n d)) /\ Rabs (val (Babs (fdot n d)) - Rabs (rdot3 n d)) <= 15 * eps.
Proof.
  intros Hn Hd. destruct (dot_close n d Hn Hd) as [F A]. destruct (abs_ok _ F) as [G V]. split; [exact G|]. rewrite V. split; [apply Rabs_pos|]. apply Rle_trans with (2 := A). apply Rabs_triang_inv2.
Qed.
Lemma tiny_le : / 2 ^ 1074 <= bpow radix2 (-600). Proof. rewrite inv_pow_bpow. apply bpow_le. lia. Qed.
Lemma eps_small : eps <= bpow radix2 (-53) /\ 0 < eps.
Proof. split; [unfold eps; rewrite inv_pow_bpow; apply Req_le; f_equal|apply eps_pos]. Qed.
Lemma size_below x k : (k < 1024)%Z -> (-1074 <= k)%Z -> Rabs x <= bpow radix2 k -> Rabs (rnd x) < big.
Proof.
  intros K L H. apply Rle_lt_trans with (bpow radix2 k); [|unfold big; now apply bpow_lt]. apply Rabs_le_inv in H. apply Rabs_le.
  assert (G : rnd (bpow radix2 k) = bpow radix2 k) by (unfold rnd; apply round_generic; [typeclasses eauto|apply generic_format_bpow; unfold fexp64, SpecFloat.fexp, SpecFloat.emin; lia]).
  split; [rewrite <- G, <- FFilmProofs.rnd_opp|rewrite <- G]; apply rnd_mono; lra.
Qed.

(** A point without normal keeps the density. *)
Theorem C122_degenerated p s d : fg_degenerated s = true -> fconvert_projSA p s d = p.
Proof. intros H. unfold fconvert_projSA. now rewrite H. Qed.
(** The side from which the surface is seen does not matter: bit for bit, for all Floats. *)
Theorem C122_sides p s d : fconvert_projSA p s (fvneg d) = fconvert_projSA p s d.
Proof. unfold fconvert_projSA. now rewrite (vneg_abs (fg_n s) d (fvneg d)) by apply vneg_opp. Qed.
(** Directions exactly along the surface have density zero. *)
Theorem C122_along p s d : fg_degenerated s = false -> finite (fdot (fg_n s) d) = true -> val (fdot (fg_n s) d) = 0 -> fconvert_projSA p s d = fzero.
Proof.
  intros H F V. unfold fconvert_projSA. rewrite H. cbv zeta. destruct (abs_ok _ F) as [G W]. rewrite eqb_val by (assumption || reflexivity). rewrite W, V, Rabs_R0. change (val fzero) with 0. now rewrite Req_bool_true by reflexivity.
Qed.
(** Otherwise it is the density divided by the cosine, up to rounding, unless the direction is very close to the surface. *)
Theorem C122_projected p s d : usual_pdf p -> fg_degenerated s = false -> near_unit (fg_n s) -> near_unit d -> bpow radix2 (-40) <= cosine_at s d ->
  finite (fconvert_projSA p s d) = true /\ 0 <= val (fconvert_projSA p s d) /\ Rabs (val (fconvert_projSA p s d) * cosine_at s d - val p) <= 33 * eps * val p / cosine_at s d + bpow radix2 (-599).
Proof.
  intros (Fp & Pp) H Hn Hd C. destruct (jacobian_ok _ _ Hn Hd) as (F & P & A). fold (cosine_at s d) in A. unfold fconvert_projSA. rewrite H. cbv zeta. set (J := Babs (fdot (fg_n s) d)) in *. set (c := cosine_at s d) in *. destruct eps_small as [E1 E0].
  assert (B40 : bpow radix2 (-53) * 64 <= bpow radix2 (-40)) by (change 64 with (bpow radix2 6); rewrite <- bpow_plus; apply bpow_le; lia). assert (C0 : 0 < bpow radix2 (-40)) by apply bpow_gt_0.
  assert (D : Rabs c <= 1001 / 1000) by (unfold c, cosine_at; rewrite Rabs_Rabsolu; apply dot_bound; assumption). rewrite Rabs_pos_eq in D by lra.
  apply Rabs_le_inv in A. assert (J1 : c / 2 <= val J) by lra. assert (J0 : 0 < val J) by lra.
  rewrite eqb_val by (assumption || reflexivity). change (val fzero) with 0. rewrite Req_bool_false by lra. destruct (fdivide_key p J Fp F ltac:(lra)) as [N K]. set (q := val p / val J) in *.
  assert (Q0 : 0 <= q) by (unfold q, Rdiv; apply Rmult_le_pos; [lra|left; now apply Rinv_0_lt_compat]). assert (QJ : q * val J = val p) by (unfold q; field; lra).
  assert (Qs : q <= bpow radix2 541).
  { apply Rmult_le_reg_r with (val J); [exact J0|]. rewrite QJ. apply Rle_trans with (bpow radix2 541 * (bpow radix2 (-40) / 2)); [|apply Rmult_le_compat_l; [apply bpow_ge_0|lra]]. apply Rle_trans with (1 := proj2 Pp). unfold Rdiv. change (/ 2) with (bpow radix2 (-1)). rewrite <- !bpow_plus. apply bpow_le. lia. }
  destruct (result_finite _ _ N K) as [G V]; [apply (size_below q 541); try lia; now rewrite Rabs_pos_eq|]. split; [exact G|]. rewrite V. split; [now apply rnd_pos|].
  assert (R := rnd_any q). rewrite (Rabs_pos_eq q) in R by exact Q0. fold eps in R. assert (T := tiny_le). replace (bpow radix2 (-599)) with (2 * bpow radix2 (-600)) by (change 2 with (bpow radix2 1); rewrite <- bpow_plus; reflexivity). assert (T0 : 0 < bpow radix2 (-600)) by apply bpow_gt_0.
  apply Rabs_le_inv in R. set (e := rnd q - q) in *. replace (rnd q * c - val p) with (q * (c - val J) + e * c) by (unfold e; rewrite <- QJ; ring).
  assert (W : eps * q <= 2 * (eps * val p / c)).
  { unfold Rdiv. replace (eps * q) with (eps * val p * / val J) by (unfold q; field; lra). replace (2 * (eps * val p * / c)) with (eps * val p * / (c / 2)) by (field; lra). apply Rmult_le_compat_l; [apply Rmult_le_pos; lra|]. apply Rinv_le_contravar; lra. }
  assert (S1 : Rabs (q * (c - val J)) <= 15 * (eps * q)). { rewrite Rabs_mult, (Rabs_pos_eq q) by exact Q0. assert (Rabs (c - val J) <= 15 * eps) by (apply Rabs_le; lra). nra. }
  assert (S2 : Rabs (e * c) <= (eps * q + bpow radix2 (-600)) * (1001 / 1000)). { rewrite Rabs_mult, (Rabs_pos_eq c) by lra. apply Rmult_le_compat; [apply Rabs_pos|lra|apply Rabs_le; lra|lra]. }
  apply Rle_trans with (1 := Rabs_triang _ _). assert (0 <= eps * q) by nra. replace (33 * eps * val p / c) with (33 * (eps * val p / c)) by (unfold Rdiv; ring). lra.
Qed.
(** The density per area is the same from both ends, bit for bit. *)
Theorem C122_area_symmetric p s1 s2 : fconvert_area p s1 s2 = fconvert_area p s2 s1.
Proof. unfold fconvert_area. now rewrite term_symmetric. Qed.
(** It is the density times both cosines over the square of the distance, up to rounding. *)
Theorem C122_area p s1 s2 : usual_pdf p -> usual_point s1 -> usual_point s2 -> apart s1 s2 ->
  finite (fconvert_area p s1 s2) = true /\ 0 <= val (fconvert_area p s1 s2) /\
  Rabs (val (fconvert_area p s1 s2) * dist2 s1 s2 - val p * (cosine s1 s1 s2 * cosine s2 s1 s2)) <= 202 * eps * val p + bpow radix2 (-600) * dist2 s1 s2.
Proof.
  intros (Fp & Pp) U1 U2 Ap. destruct (term_ok s1 s2 U1 U2 Ap) as (F & P & A). assert (B := C113_bound s1 s2 U1 U2 Ap). unfold fconvert_area. set (G := fgeometry_term s1 s2) in *. set (M := dist2 s1 s2) in *. set (cc := cosine s1 s1 s2 * cosine s2 s1 s2) in *. destruct eps_small as [E1 E0].
  assert (Mp : bpow radix2 (-400) <= M).
  { destruct Ap as (i & Li & Hi). assert (Q : bpow radix2 (-400) <= between s1 s2 i * between s1 s2 i).
    { replace (bpow radix2 (-400)) with (bpow radix2 (-200) * bpow radix2 (-200)) by (rewrite <- bpow_plus; reflexivity). rewrite <- (Rabs_pos_eq (between s1 s2 i * between s1 s2 i)) by nra. rewrite Rabs_mult. apply Rmult_le_compat; try apply bpow_ge_0; assumption. }
    unfold M, dist2. assert (Z0 : 0 <= between s1 s2 0 * between s1 s2 0) by nra. assert (Z1 : 0 <= between s1 s2 1 * between s1 s2 1) by nra. assert (Z2 : 0 <= between s1 s2 2 * between s1 s2 2) by nra. destruct i as [|[|[|i]]]; [lra|lra|lra|lia]. }
  assert (M0 : 0 < M) by (apply Rlt_le_trans with (2 := Mp); apply bpow_gt_0).
  assert (Gs : val G <= bpow radix2 401).
  { apply Rmult_le_reg_r with M; [exact M0|]. apply Rle_trans with (1 := B). apply Rle_trans with (bpow radix2 401 * bpow radix2 (-400)); [rewrite <- bpow_plus; change (bpow radix2 (401 + -400)) with 2; lra|]. apply Rmult_le_compat_l; [apply bpow_ge_0|exact Mp]. }
  destruct (fmult_key p G Fp F) as [N K]. assert (Q0 : 0 <= val p * val G) by (apply Rmult_le_pos; lra).
  destruct (result_finite _ _ N K) as [W V].
  { apply (size_below _ 901); try lia. rewrite Rabs_pos_eq by exact Q0. change 901%Z with (500 + 401)%Z. rewrite bpow_plus. apply Rmult_le_compat; lra. }
  split; [exact W|]. rewrite V. split; [now apply rnd_pos|]. assert (R := rnd_any (val p * val G)). rewrite (Rabs_pos_eq (val p * val G)) in R by exact Q0. fold eps in R. assert (T := tiny_le). set (e := rnd (val p * val G) - val p * val G) in *.
  replace (rnd (val p * val G) * M - val p * cc) with (val p * (val G * M - cc) + e * M) by (unfold e; ring). apply Rle_trans with (1 := Rabs_triang _ _). rewrite !Rabs_mult, (Rabs_pos_eq (val p)), (Rabs_pos_eq M) by lra.
  assert (S1 : val p * Rabs (val G * M - cc) <= val p * (200 * eps)) by (apply Rmult_le_compat_l; lra). assert (S2 : Rabs e * M <= (eps * (val p * val G) + bpow radix2 (-600)) * M) by (apply Rmult_le_compat_r; lra).
  assert (S3 : eps * (val p * val G) * M <= eps * val p * (1003 / 1000)). { replace (eps * (val p * val G) * M) with (eps * val p * (val G * M)) by ring. apply Rmult_le_compat_l; [apply Rmult_le_pos; lra|exact B]. }
  assert (0 <= eps * val p) by (apply Rmult_le_pos; lra). lra.
Qed.
Print Assumptions C122_degenerated.
Print Assumptions C122_sides.
Print Assumptions C122_along.
Print Assumptions C122_projected.
Print Assumptions C122_area_symmetric.
Print Assumptions C122_area.

(** ** Very close to the surface *)
Definition c122_least : flt := fmake 1 (-1074).
Definition c122_graze : fvec := FV fone fzero c122_least.
Lemma least_ok : finite c122_least = true /\ 0 < val c122_least <= eps.
Proof.
  destruct (val_sf c122_least 1 (-1074)) as [F V]; [reflexivity|]. split; [exact F|]. rewrite V, Rmult_1_l. split; [apply bpow_gt_0|]. unfold eps. rewrite inv_pow_bpow. apply bpow_le. lia.
Qed.
Lemma graze_unit : near_unit c122_graze.
Proof.
  destruct least_ok as [F B]. assert (E := eps_small). assert (P := eps_pos). assert (T : eps <= / 100) by (assert (X := eps_tiny); lra). split.
  - intros [|[|i]]; cbn [fcomp c122_graze fx fy fz]; (split; [reflexivity || apply fone_finite|]); [rewrite fone_val; lra|change (val fzero) with 0; lra|lra].
  - unfold length2. cbn [c122_graze fx fy fz]. rewrite fone_val. change (val fzero) with 0. apply Rabs_le. nra.
Qed.
(** Densities that are numbers can become infinite: for directions that are not exactly, but almost, along the surface. *)
Theorem C122_finite_refuted : ~ forall p s d, usual_pdf p -> fg_degenerated s = false -> near_unit (fg_n s) -> near_unit d -> finite (fconvert_projSA p s d) = true.
Proof.
  intros H. destruct C113_term_instance as (_ & (_ & _ & U) & _). destruct U as [U|U]; [discriminate|].
  assert (P : usual_pdf fone) by (split; [apply fone_finite|rewrite fone_val; split; [lra|change 1 with (bpow radix2 0); apply bpow_le; lia]]).
  specialize (H fone c113_low c122_graze P eq_refl U graze_unit). revert H. vm_compute. discriminate.
Qed.
Print Assumptions C122_finite_refuted.

(** ** The hypotheses are met *)
Example C122_instance : usual_pdf fone /\ fg_degenerated c113_low = false /\ near_unit (fg_n c113_low) /\ cosine_at c113_low (fg_n c113_top) = 1.
Proof.
  split; [split; [apply fone_finite|rewrite fone_val; split; [lra|change 1 with (bpow radix2 0); apply bpow_le; lia]]|]. split; [reflexivity|]. split; [apply unit_z; [apply fone_finite|left; apply fone_val]|].
  unfold cosine_at, rdot3. cbn [c113_low c113_top fg_n fx fy fz]. change (val fzero) with 0. rewrite val_opp, fone_val. replace (0 * 0 + 0 * 0 + 1 * - (1)) with (- (1)) by ring. now rewrite Rabs_Ropp, Rabs_R1.
Qed.
