(** Facts about binary64 that the proofs use: operations round monotonically, and the order is that of the reals
    with two more points for the infinities. *)
From Coq Require Import Reals ZArith Bool Lra Lia Psatz.
From Flocq Require Import Core.Core IEEE754.BinarySingleNaN Plus_error Relative.
From Coq Require Import Floats.SpecFloat.
From Verif Require Import RngModel FltModel.
Local Open Scope R_scope.

Notation fexp64 := (SpecFloat.fexp 53 1024).
Definition rnd (x : R) : R := round radix2 fexp64 ZnearestE x.
Definition big : R := bpow radix2 1024.
Lemma big_pos : 0 < big. Proof. apply bpow_gt_0. Qed.
Lemma one_lt_big : 1 < big. Proof. change 1 with (bpow radix2 0). apply bpow_lt. lia. Qed.
#[export] Instance fexp_valid : Valid_exp fexp64.
Proof. exact (fexp_correct 53 1024 prec64). Qed.
#[export] Instance fexp_mono : Monotone_exp fexp64.
Proof. exact (FLT_exp_monotone (3 - 1024 - 53) 53). Qed.
#[export] Instance fexp_flt : Valid_exp (FLT_exp (3 - 1024 - 53) 53).
Proof. exact (FLT_exp_valid (3 - 1024 - 53) 53 (prec_gt_0_ := prec64)). Qed.

Lemma rnd_mono x y : x <= y -> rnd x <= rnd y.
Proof. intros H. unfold rnd. apply round_le; auto with typeclass_instances. Qed.
Lemma rnd_0 : rnd 0 = 0.
Proof. unfold rnd. apply round_0. auto with typeclass_instances. Qed.
Lemma val_format x : generic_format radix2 fexp64 (val x).
Proof. apply generic_format_B2R. Qed.
Lemma rnd_val x : rnd (val x) = val x.
Proof. unfold rnd. apply round_generic; [auto with typeclass_instances|apply val_format]. Qed.
Lemma fone_val : val fone = 1. Proof. apply Bone_correct. Qed.
Lemma fone_finite : finite fone = true. Proof. apply is_finite_Bone. Qed.
Lemma rnd_1 : rnd 1 = 1.
Proof. rewrite <- fone_val. apply rnd_val. Qed.
Lemma rnd_pos x : 0 <= x -> 0 <= rnd x.
Proof. intros H. rewrite <- rnd_0. now apply rnd_mono. Qed.
Lemma val_big x : finite x = true -> Rabs (val x) < big.
Proof. intros _. apply abs_B2R_lt_emax. Qed.
Lemma val_big' x : - big < val x < big.
Proof. assert (H : Rabs (val x) < big) by apply abs_B2R_lt_emax. now apply Rabs_lt_inv. Qed.

(** Where a Float is in the order *)
Definition key (x : flt) : R := match x with B754_infinity true => - big | B754_infinity false => big | _ => val x end.
Definition clamp (x : R) : R := Rmax (- big) (Rmin big x).
Lemma clamp_mono x y : x <= y -> clamp x <= clamp y.
Proof. intros H. unfold clamp, Rmax, Rmin. repeat destruct Rle_dec; assert (B := big_pos); lra. Qed.
Lemma clamp_in x : - big <= x <= big -> clamp x = x.
Proof. intros H. unfold clamp, Rmax, Rmin. repeat destruct Rle_dec; lra. Qed.
Lemma clamp_bounds x : - big <= clamp x <= big.
Proof. unfold clamp, Rmax, Rmin. assert (B := big_pos). repeat destruct Rle_dec; lra. Qed.
Lemma key_bounds x : - big <= key x <= big.
Proof. assert (B := big_pos). destruct x as [s|[|]| |s m e H]; cbn [key]; try lra; match goal with |- context [val ?x] => assert (V := val_big' x) end; lra. Qed.
Lemma key_finite x : finite x = true -> key x = val x.
Proof. now destruct x as [s|[|]| |s m e H]. Qed.
Lemma finite_key x : is_nan x = false -> (finite x = true <-> - big < key x < big).
Proof.
  assert (B := big_pos). assert (V := val_big' x). intros N. destruct x as [s|[|]| |s m e H]; cbn [key finite is_finite] in *; try discriminate; split; intros; try discriminate; try lra; reflexivity.
Qed.
Lemma finite_not_nan x : finite x = true -> is_nan x = false.
Proof. now destruct x. Qed.

(** The comparison *)
Lemma ltb_key x y : is_nan x = false -> is_nan y = false -> flt_ltb x y = Rlt_bool (key x) (key y).
Proof.
  intros Nx Ny. unfold flt_ltb.
  destruct (finite x) eqn:Fx; [destruct (finite y) eqn:Fy|].
  - rewrite !key_finite by assumption. now apply Bltb_correct.
  - assert (V := val_big' x). destruct y as [s|[|]| |s m e H]; try discriminate; rewrite (key_finite x) by assumption; cbn [key].
    + rewrite Rlt_bool_false by lra. now destruct x as [|[|]| |[|] ? ? ?].
    + rewrite Rlt_bool_true by lra. now destruct x as [|[|]| |[|] ? ? ?].
  - assert (V := val_big' y). assert (B := big_pos). destruct x as [s|[|]| |s m e H]; try discriminate; cbn [key].
    + destruct y as [s|[|]| |s m e H]; try discriminate; cbn [key] in *; [rewrite Rlt_bool_true by lra|rewrite Rlt_bool_false by lra|rewrite Rlt_bool_true by lra|rewrite Rlt_bool_true by lra]; try reflexivity.
    + destruct y as [s|[|]| |s m e H]; try discriminate; cbn [key] in *; rewrite Rlt_bool_false by lra; try reflexivity.
Qed.
Lemma ltb_nan_l x y : is_nan x = true -> flt_ltb x y = false.
Proof. now destruct x. Qed.
Lemma ltb_nan_r x y : is_nan y = true -> flt_ltb x y = false.
Proof. destruct y; try discriminate. now destruct x as [|[|]| |[|] ? ? ?]. Qed.

(** What the operations give *)
Lemma overflow_key s (z : flt) : B2SF z = binary_overflow 53 1024 mode_NE s -> z = B754_infinity s.
Proof. destruct z as [s'|s'| |s' m e H]; cbn; intros E; try discriminate. now injection E as <-. Qed.

Lemma key_of_result (z : flt) (x : R) (s : bool) :
  (if Rlt_bool (Rabs (rnd x)) big then val z = rnd x /\ finite z = true else z = B754_infinity s) ->
  (big <= Rabs (rnd x) -> if s then x <= 0 else 0 <= x) ->
  is_nan z = false /\ key z = clamp (rnd x).
Proof.
  intros H S. destruct (Rlt_bool_spec (Rabs (rnd x)) big) as [L|L].
  - destruct H as [E F]. split; [now apply finite_not_nan|]. rewrite key_finite, E by assumption. apply Rabs_lt_inv in L. rewrite clamp_in; lra.
  - subst z. split; [reflexivity|]. specialize (S L). assert (B := big_pos). destruct s; cbn [key].
    + assert (P : rnd x <= 0) by (rewrite <- rnd_0; now apply rnd_mono). rewrite Rabs_left1 in L by assumption.
      unfold clamp, Rmax, Rmin. repeat destruct Rle_dec; lra.
    + assert (P := rnd_pos x S). rewrite Rabs_pos_eq in L by assumption.
      unfold clamp, Rmax, Rmin. repeat destruct Rle_dec; lra.
Qed.

Lemma sign_val x : finite x = true -> if Bsign x then val x <= 0 else 0 <= val x.
Proof.
  destruct x as [s|s| |s m e H]; try discriminate; intros _; cbn [Bsign val B2R].
  - destruct s; lra.
  - destruct s; cbn [cond_Zopp]; [apply Rlt_le, F2R_lt_0|apply Rlt_le, F2R_gt_0]; reflexivity.
Qed.

Lemma fplus_key x y : finite x = true -> finite y = true -> is_nan (fplus x y) = false /\ key (fplus x y) = clamp (rnd (val x + val y)).
Proof.
  intros Fx Fy. assert (H := Bplus_correct 53 1024 prec64 emax64 mode_NE x y Fx Fy). cbn [round_mode] in H.
  fold (fplus x y) (val x) (val y) (rnd (val x + val y)) big in H.
  apply (key_of_result _ _ (Bsign x)).
  - destruct (Rlt_bool_spec (Rabs (rnd (val x + val y))) big) as [L|L]; [split; apply H|]. apply overflow_key, H.
  - intros L. rewrite Rlt_bool_false in H by assumption. destruct H as [_ E]. assert (P := sign_val x Fx). assert (Q := sign_val y Fy). rewrite <- E in Q. destruct (Bsign x); lra.
Qed.

Lemma fminus_key x y : finite x = true -> finite y = true -> is_nan (fminus x y) = false /\ key (fminus x y) = clamp (rnd (val x - val y)).
Proof.
  intros Fx Fy. assert (H := Bminus_correct 53 1024 prec64 emax64 mode_NE x y Fx Fy). cbn [round_mode] in H.
  fold (fminus x y) (val x) (val y) (rnd (val x - val y)) big in H.
  apply (key_of_result _ _ (Bsign x)).
  - destruct (Rlt_bool_spec (Rabs (rnd (val x - val y))) big) as [L|L]; [split; apply H|]. apply overflow_key, H.
  - intros L. rewrite Rlt_bool_false in H by assumption. destruct H as [_ E]. assert (P := sign_val x Fx). assert (Q := sign_val y Fy). rewrite E in P. rewrite E. destruct (Bsign y); cbn [negb] in *; lra.
Qed.

Lemma fmult_key x y : finite x = true -> finite y = true -> is_nan (fmult x y) = false /\ key (fmult x y) = clamp (rnd (val x * val y)).
Proof.
  intros Fx Fy. assert (H := Bmult_correct 53 1024 prec64 emax64 mode_NE x y). cbn [round_mode] in H.
  fold (fmult x y) (val x) (val y) (rnd (val x * val y)) big in H.
  apply (key_of_result _ _ (xorb (Bsign x) (Bsign y))).
  - destruct (Rlt_bool_spec (Rabs (rnd (val x * val y))) big) as [L|L].
    + destruct H as [E [F _]]. split; [assumption|]. unfold finite in *. now rewrite F, Fx, Fy.
    + now apply overflow_key.
  - intros _. assert (P := sign_val x Fx). assert (Q := sign_val y Fy). destruct (Bsign x), (Bsign y); cbn [xorb] in *; nra.
Qed.

Lemma fdivide_key x y : finite x = true -> finite y = true -> val y <> 0 -> is_nan (fdivide x y) = false /\ key (fdivide x y) = clamp (rnd (val x / val y)).
Proof.
  intros Fx Fy N. assert (H := Bdiv_correct 53 1024 prec64 emax64 mode_NE x y N). cbn [round_mode] in H.
  fold (fdivide x y) (val x) (val y) (rnd (val x / val y)) big in H.
  apply (key_of_result _ _ (xorb (Bsign x) (Bsign y))).
  - destruct (Rlt_bool_spec (Rabs (rnd (val x / val y))) big) as [L|L].
    + destruct H as [E [F _]]. split; [assumption|]. unfold finite in *. now rewrite F.
    + now apply overflow_key.
  - intros _. assert (P := sign_val x Fx). assert (Q := sign_val y Fy). unfold Rdiv.
    assert (I : if Bsign y then / val y < 0 else 0 < / val y).
    { destruct (Bsign y); [apply Rinv_lt_0_compat|apply Rinv_0_lt_compat]; lra. }
    destruct (Bsign x), (Bsign y); cbn [xorb] in *; nra.
Qed.

(** In particular *)
Lemma result_finite z x : is_nan z = false -> key z = clamp (rnd x) -> Rabs (rnd x) < big -> finite z = true /\ val z = rnd x.
Proof.
  intros N K L. apply Rabs_lt_inv in L. rewrite clamp_in in K by lra. assert (F : finite z = true) by (apply (finite_key z N); lra).
  split; [assumption|]. now rewrite <- key_finite.
Qed.
Lemma finite_result z x : is_nan z = false -> key z = clamp (rnd x) -> finite z = true -> val z = rnd x.
Proof.
  intros N K F. assert (B := proj1 (finite_key z N) F). rewrite <- (key_finite z F). rewrite K in *. unfold clamp, Rmax, Rmin in *. repeat destruct Rle_dec; lra.
Qed.
(** The difference of different numbers is not rounded to zero *)
Lemma rnd_minus_pos x y : val x < val y -> 0 < rnd (val y - val x).
Proof.
  intros H. assert (P : 0 <= rnd (val y - val x)) by (apply rnd_pos; lra).
  assert (N : rnd (val y - val x) <> 0); [|lra].
  unfold rnd, Rminus. apply round_plus_neq_0; auto with typeclass_instances; [apply val_format|apply generic_format_opp, val_format|lra].
Qed.

(** Values of computed Floats *)
Definition sf_num (x : spec_float) : option (Z * Z) :=
  match x with S754_zero _ => Some (0, 0)%Z | S754_finite s m e => Some (cond_Zopp s (Zpos m), e) | _ => None end.
Lemma val_sf x m e : sf_num (B2SF x) = Some (m, e) -> finite x = true /\ val x = IZR m * bpow radix2 e.
Proof.
  destruct x as [s|s| |s mx ex B]; cbn [B2SF sf_num]; intros E; try discriminate; injection E as <- <-; (split; [reflexivity|]).
  - unfold val. cbn [B2R]. ring.
  - reflexivity.
Qed.
