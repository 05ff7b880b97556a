From Coq Require Import List Reals ZArith Bool Lra Lia Psatz.
From Flocq Require Import Core.Core IEEE754.BinarySingleNaN.
From Verif Require Import Base RngModel FltModel FltProofs FDistModel FDistSpec FDistProofs FBoundModel FBoundSpec FBoundProofs FFilmModel FFilmProofs FBvhModel FBvhSpec FBvhProofs FDirModel FDirSpec FDirProofs FRasterSpec FCamModel FCamSpec FCamProofs FTriModel FTriSpec FTriProofs FGtermModel FGtermSpec.
Local Open Scope R_scope.

(** ** Numbers that are each other's negation, up to the sign of zero *)
Inductive neg : flt -> flt -> Prop :=
| neg_opp a : neg a (Bopp a)
| neg_zero s t : neg (B754_zero s) (B754_zero t).

(** A result given by the real number it rounds and its sign *)
Definition det (z : flt) (r : R) (s : bool) : Prop :=
  if Rlt_bool (Rabs (rnd r)) big then val z = rnd r /\ finite z = true /\ Bsign z = s else B2SF z = SpecFloat.S754_infinity s.
Lemma det_eq z z' r s : det z r s -> det z' r s -> z = z'.
Proof.
  unfold det. destruct (Rlt_bool _ _).
  - intros (V & F & S) (V' & F' & S'). apply B2R_Bsign_inj; auto; [unfold val in *; congruence|congruence].
  - intros E E'. apply B2SF_inj. congruence.
Qed.
Lemma opp_det z r s : det z r s -> det (Bopp z) (- r) (negb s).
Proof.
  unfold det. rewrite rnd_opp, Rabs_Ropp. destruct (Rlt_bool _ _).
  - intros (V & F & S). unfold val, finite in *. rewrite B2R_Bopp, is_finite_Bopp. split; [now rewrite V|]. split; [assumption|]. rewrite Bsign_Bopp; [now rewrite S|]. destruct z; (discriminate || reflexivity).
  - intros E. destruct z; cbn in E |- *; try discriminate. now injection E as ->.
Qed.
Lemma mult_det x y : finite x = true -> finite y = true -> det (fmult x y) (val x * val y) (xorb (Bsign x) (Bsign y)).
Proof.
  intros Fx Fy. assert (H := Bmult_correct 53 1024 prec64 emax64 mode_NE x y). cbn [round_mode] in H. fold (fmult x y) (val x) (val y) (rnd (val x * val y)) big in H. unfold det.
  destruct (Rlt_bool _ _).
  - destruct H as (V & F & S). unfold finite in *. rewrite Fx, Fy in F. split; [exact V|]. split; [exact F|]. apply S. destruct (fmult x y); (discriminate || reflexivity).
  - exact H.
Qed.
Lemma div_det x y : finite x = true -> val y <> 0 -> det (fdivide x y) (val x / val y) (xorb (Bsign x) (Bsign y)).
Proof.
  intros Fx Ny. assert (H := Bdiv_correct 53 1024 prec64 emax64 mode_NE x y Ny). cbn [round_mode] in H. fold (fdivide x y) (val x) (val y) (rnd (val x / val y)) big in H. unfold det.
  destruct (Rlt_bool _ _).
  - destruct H as (V & F & S). unfold finite in *. rewrite Fx in F. split; [exact V|]. split; [exact F|]. apply S. destruct (fdivide x y); (discriminate || reflexivity).
  - exact H.
Qed.
(** The sign of a sum *)
Definition sum_sign (x y : flt) : bool := if Rlt_bool (Rabs (rnd (val x + val y))) big then Rlt_bool (val x + val y) 0 else Bsign x.
Lemma plus_det x y : finite x = true -> finite y = true -> val x + val y <> 0 -> det (fplus x y) (val x + val y) (sum_sign x y).
Proof.
  intros Fx Fy N. assert (H := Bplus_correct 53 1024 prec64 emax64 mode_NE x y Fx Fy). cbn [round_mode] in H. fold (fplus x y) (val x) (val y) (rnd (val x + val y)) big in H. unfold det, sum_sign.
  destruct (Rlt_bool (Rabs _) _).
  - destruct H as (V & F & S). split; [exact V|]. split; [exact F|]. rewrite S. destruct (Rcompare_spec (val x + val y) 0); [now rewrite Rlt_bool_true|contradiction|rewrite Rlt_bool_false; [reflexivity|lra]].
  - destruct H as [H _]. exact H.
Qed.
Lemma zero_is z : finite z = true -> val z = 0 -> exists s, z = B754_zero s.
Proof.
  destruct z as [s|s| |s m e H]; intros F V; try discriminate F; [now exists s|]. exfalso. revert V. unfold val. cbn [B2R]. destruct s.
  - assert (L := F2R_lt_0 radix2 (Float radix2 (Zneg m) e) ltac:(cbn; lia)). cbn in L |- *. lra.
  - assert (L := F2R_gt_0 radix2 (Float radix2 (Zpos m) e) ltac:(cbn; lia)). cbn in L |- *. lra.
Qed.
Lemma plus_zero x y : finite x = true -> finite y = true -> val x + val y = 0 -> exists s, fplus x y = B754_zero s.
Proof.
  intros Fx Fy E. assert (H := Bplus_correct 53 1024 prec64 emax64 mode_NE x y Fx Fy). cbn [round_mode] in H. fold (fplus x y) (val x) (val y) (rnd (val x + val y)) big in H.
  rewrite E, rnd_0, Rabs_R0, Rlt_bool_true in H by apply bpow_gt_0. destruct H as (V & F & _). now apply zero_is.
Qed.
Lemma val_opp x : val (Bopp x) = - val x. Proof. apply B2R_Bopp. Qed.
Lemma fin_opp x : finite (Bopp x) = finite x. Proof. apply is_finite_Bopp. Qed.
Lemma sgn_opp x : finite x = true -> Bsign (Bopp x) = negb (Bsign x).
Proof. intros F. apply Bsign_Bopp. destruct x; (discriminate || reflexivity). Qed.
Lemma opp_opp x : Bopp (Bopp x) = x :> flt. Proof. apply Bopp_involutive. Qed.

Lemma mult_comm x y : fmult x y = fmult y x.
Proof.
  destruct (finite x) eqn:Fx, (finite y) eqn:Fy.
  1: { apply (det_eq _ _ (val x * val y) (xorb (Bsign x) (Bsign y))); [now apply mult_det|]. rewrite Rmult_comm, xorb_comm. now apply mult_det. }
  all: destruct x, y; try discriminate; unfold fmult, Bmult; rewrite ?(xorb_comm s s0); reflexivity.
Qed.
Lemma mult_opp c a : fmult c (Bopp a) = Bopp (fmult c a).
Proof.
  destruct (finite c) eqn:Fx, (finite a) eqn:Fy.
  1: { apply (det_eq _ _ (- (val c * val a)) (negb (xorb (Bsign c) (Bsign a)))); [|now apply opp_det, mult_det].
       replace (- (val c * val a)) with (val c * val (Bopp a)) by (rewrite val_opp; ring). replace (negb (xorb (Bsign c) (Bsign a))) with (xorb (Bsign c) (Bsign (Bopp a))) by (rewrite sgn_opp by assumption; now destruct (Bsign c), (Bsign a)).
       apply mult_det; [assumption|now rewrite fin_opp]. }
  all: destruct c, a; try discriminate; unfold fmult, Bmult, Bopp; try reflexivity; now rewrite xorb_negb_r || (destruct s, s0; reflexivity).
Qed.
Lemma div_opp a s : fdivide (Bopp a) s = Bopp (fdivide a s).
Proof.
  destruct a as [sa|sa| |sa ma ea Ha]; try (destruct s as [ss|ss| |ss ms es Hs]; unfold fdivide, Bdiv, Bopp; try reflexivity; now destruct sa, ss).
  destruct s as [ss|ss| |ss ms es Hs]; try (unfold fdivide, Bdiv, Bopp; try reflexivity; now destruct sa, ss).
  set (a := B754_finite sa ma ea Ha : flt). set (s := B754_finite ss ms es Hs : flt).
  assert (N : val s <> 0) by (intros E; destruct (zero_is s eq_refl E); discriminate).
  apply (det_eq _ _ (- (val a / val s)) (negb (xorb (Bsign a) (Bsign s)))); [|apply opp_det, div_det; [reflexivity|assumption]].
  replace (- (val a / val s)) with (val (Bopp a) / val s) by (rewrite val_opp; field; assumption). replace (negb (xorb (Bsign a) (Bsign s))) with (xorb (Bsign (Bopp a)) (Bsign s)) by (rewrite sgn_opp by reflexivity; now destruct (Bsign a), (Bsign s)).
  apply div_det; [reflexivity|assumption].
Qed.
Lemma neg_sym a b : neg a b -> neg b a.
Proof. intros [x|s t]; [rewrite <- (opp_opp x) at 2; constructor|constructor]. Qed.
Lemma plus_opp a b : neg (fplus a b) (fplus (Bopp a) (Bopp b)).
Proof.
  destruct (finite a) eqn:Fa, (finite b) eqn:Fb.
  1: { destruct (Req_dec (val a + val b) 0) as [E|N].
       - destruct (plus_zero a b Fa Fb E) as [s ->]. destruct (plus_zero (Bopp a) (Bopp b)) as [t ->]; rewrite ?fin_opp, ?val_opp; auto; [lra|constructor].
       - replace (fplus (Bopp a) (Bopp b)) with (Bopp (fplus a b)); [constructor|].
         apply (det_eq _ _ (- (val a + val b)) (negb (sum_sign a b))); [now apply opp_det, plus_det|].
         replace (- (val a + val b)) with (val (Bopp a) + val (Bopp b)) by (rewrite !val_opp; ring).
         replace (negb (sum_sign a b)) with (sum_sign (Bopp a) (Bopp b)).
         + apply plus_det; rewrite ?fin_opp, ?val_opp; auto. lra.
         + unfold sum_sign. rewrite !val_opp. replace (- val a + - val b) with (- (val a + val b)) by ring. rewrite rnd_opp, Rabs_Ropp. destruct (Rlt_bool (Rabs _) _); [|now apply sgn_opp].
           destruct (Rlt_bool_spec (val a + val b) 0); [rewrite Rlt_bool_false; [reflexivity|lra]|rewrite Rlt_bool_true; [reflexivity|lra]]. }
  all: match goal with |- neg ?x ?y => replace y with (Bopp x); [constructor|] end.
  all: destruct a, b; try discriminate; unfold fplus, Bplus, Bopp; try reflexivity; destruct s, s0; reflexivity.
Qed.
Lemma plus_opp_zero a s t : neg (fplus a (B754_zero s)) (fplus (Bopp a) (B754_zero t)).
Proof.
  destruct a as [sa|sa| |sa ma ea Ha].
  - unfold fplus, Bplus, Bopp. destruct (eqb sa s), (eqb (negb sa) t); constructor.
  - apply (neg_opp (B754_infinity sa)).
  - apply (neg_opp B754_nan).
  - apply (neg_opp (B754_finite sa ma ea Ha)).
Qed.
Lemma plus_zero_opp a s t : neg (fplus (B754_zero s) a) (fplus (B754_zero t) (Bopp a)).
Proof.
  destruct a as [sa|sa| |sa ma ea Ha].
  - unfold fplus, Bplus, Bopp. destruct (eqb s sa), (eqb t (negb sa)); constructor.
  - apply (neg_opp (B754_infinity sa)).
  - apply (neg_opp B754_nan).
  - apply (neg_opp (B754_finite sa ma ea Ha)).
Qed.
Lemma neg_plus a b a' b' : neg a b -> neg a' b' -> neg (fplus a a') (fplus b b').
Proof.
  intros [x|s t] [y|s' t'].
  - apply plus_opp.
  - apply plus_opp_zero.
  - apply plus_zero_opp.
  - unfold fplus, Bplus. destruct (eqb s s'), (eqb t t'); constructor.
Qed.
Lemma minus_plus x y : fminus x y = fplus x (Bopp y).
Proof. destruct x, y; reflexivity. Qed.
Lemma plus_comm_neg x y : neg (fplus x (Bopp y)) (fplus y (Bopp x)).
Proof.
  destruct (finite x) eqn:Fx, (finite y) eqn:Fy.
  1: { destruct (Req_dec (val x - val y) 0) as [E|N].
       - destruct (plus_zero x (Bopp y) Fx ltac:(now rewrite fin_opp) ltac:(rewrite val_opp; lra)) as [s ->]. destruct (plus_zero y (Bopp x) Fy ltac:(now rewrite fin_opp) ltac:(rewrite val_opp; lra)) as [t ->]. constructor.
       - replace (fplus y (Bopp x)) with (Bopp (fplus x (Bopp y))); [constructor|].
         assert (Fo : finite (Bopp y) = true) by now rewrite fin_opp. assert (Fo' : finite (Bopp x) = true) by now rewrite fin_opp.
         assert (D := opp_det _ _ _ (plus_det x (Bopp y) Fx Fo ltac:(rewrite val_opp; lra))). assert (D' := plus_det y (Bopp x) Fy Fo' ltac:(rewrite val_opp; lra)).
         rewrite val_opp in D, D'. replace (- (val x + - val y)) with (val y + - val x) in D by ring.
         replace (negb (sum_sign x (Bopp y))) with (sum_sign y (Bopp x)) in D; [now apply (det_eq _ _ _ _ D)|].
         unfold sum_sign. rewrite !val_opp. replace (val y + - val x) with (- (val x + - val y)) by ring. rewrite rnd_opp, Rabs_Ropp.
         destruct (Rlt_bool (Rabs (rnd (val x + - val y))) big) eqn:O.
         + destruct (Rlt_bool_spec (val x + - val y) 0); [rewrite Rlt_bool_false; [reflexivity|lra]|rewrite Rlt_bool_true; [reflexivity|lra]].
         + assert (H := Bplus_correct 53 1024 prec64 emax64 mode_NE x (Bopp y) Fx Fo). cbn [round_mode] in H. fold (fplus x (Bopp y)) (val x) (val (Bopp y)) (rnd (val x + val (Bopp y))) big in H.
           rewrite val_opp, O in H. destruct H as [_ H]. rewrite H, sgn_opp by assumption. now destruct (Bsign y). }
  all: match goal with |- neg ?a ?b => replace b with (Bopp a); [constructor|] end.
  all: destruct x, y; try discriminate; unfold fplus, Bplus, Bopp; try reflexivity; destruct s, s0; reflexivity.
Qed.
Lemma neg_minus x y : neg (fminus x y) (fminus y x).
Proof. rewrite !minus_plus. apply plus_comm_neg. Qed.
Lemma neg_mult c a b : neg a b -> neg (fmult c a) (fmult c b).
Proof.
  intros [x|s t]; [rewrite mult_opp; constructor|]. destruct c; unfold fmult, Bmult; try constructor; apply (neg_opp B754_nan).
Qed.
Lemma neg_div a b s : neg a b -> neg (fdivide a s) (fdivide b s).
Proof.
  intros [x|u t]; [rewrite div_opp; constructor|]. destruct s; unfold fdivide, Bdiv; try constructor; apply (neg_opp B754_nan).
Qed.
Lemma neg_abs a b : neg a b -> Babs a = Babs b.
Proof. intros [[]|]; reflexivity. Qed.
Lemma neg_square a b : neg a b -> fmult a a = fmult b b.
Proof.
  intros [x|s t]; [|unfold fmult, Bmult; now rewrite !xorb_nilpotent].
  rewrite mult_opp, (mult_comm (Bopp x)), mult_opp, opp_opp. reflexivity.
Qed.

(** ** Vectors *)
Definition vneg (v w : fvec) : Prop := neg (fx v) (fx w) /\ neg (fy v) (fy w) /\ neg (fz v) (fz w).
Lemma vneg_opp v : vneg v (fvneg v). Proof. repeat split; constructor. Qed.
Lemma vneg_sub a b : vneg (fvsub a b) (fvsub b a). Proof. repeat split; apply neg_minus. Qed.
Lemma vneg_div v w s : vneg v w -> vneg (fvdiv v s) (fvdiv w s). Proof. intros (A & B & C). repeat split; now apply neg_div. Qed.
Lemma vneg_dot v w : vneg v w -> fdot v v = fdot w w. Proof. intros (A & B & C). unfold fdot. now rewrite (neg_square _ _ A), (neg_square _ _ B), (neg_square _ _ C). Qed.
Lemma vneg_abs n v w : vneg v w -> Babs (fdot n v) = Babs (fdot n w).
Proof. intros (A & B & C). apply neg_abs. unfold fdot. repeat apply neg_plus; now apply neg_mult. Qed.
Lemma cos_neg s v w : vneg v w -> fgeom_cos s v = fgeom_cos s w.
Proof. intros H. unfold fgeom_cos. destruct (_ || _); [reflexivity|now apply vneg_abs]. Qed.

Lemma cos_inf s v w : fg_infinite s = true -> fgeom_cos s v = fgeom_cos s w.
Proof. intros I. unfold fgeom_cos. now rewrite I, orb_true_r. Qed.

Lemma term_symmetric s1 s2 : fgeometry_term s1 s2 = fgeometry_term s2 s1.
Proof.
  unfold fgeometry_term, fgeom_dir. destruct (fg_infinite s1) eqn:I1, (fg_infinite s2) eqn:I2; cbn [andb orb]; try reflexivity.
  - rewrite mult_comm. f_equal. f_equal. now apply cos_inf.
  - rewrite mult_comm. f_equal. f_equal. now apply cos_inf.
  - assert (V := vneg_sub (fg_p s2) (fg_p s1)). rewrite <- (vneg_dot _ _ V). set (l2 := fdot _ _). rewrite mult_comm. f_equal. f_equal.
    + rewrite <- (cos_neg s2 _ _ (vneg_opp _)). apply cos_neg. now apply vneg_div.
    + rewrite <- (cos_neg s1 _ _ (vneg_opp _)). apply cos_neg. now apply vneg_div.
Qed.
Lemma distance_symmetric s1 s2 : fgeom_distance s1 s2 = fgeom_distance s2 s1.
Proof. unfold fgeom_distance. rewrite orb_comm. destruct (_ || _); [reflexivity|]. f_equal. apply vneg_dot, vneg_sub. Qed.

(** ** Accuracy *)
Lemma minus_rel x y : finite x = true -> finite y = true -> Rabs (val x) <= bpow radix2 200 -> Rabs (val y) <= bpow radix2 200 ->
  sized 201 (fminus x y) /\ exists d, Rabs d <= eps /\ val (fminus x y) = (val x - val y) * (1 + d).
Proof.
  intros Fx Fy Bx By. assert (S := sized_minus 200 x y ltac:(lia) (conj Fx Bx) (conj Fy By)). split; [exact S|]. destruct S as [F _].
  destruct (fminus_key x y Fx Fy) as [N K]. rewrite (finite_result _ _ N K F). destruct (plus_error x (Bopp y)) as (d & B & E). rewrite val_opp in E. exists d. split; [assumption|]. exact E.
Qed.
Lemma bp_sq j : bpow radix2 j * bpow radix2 j = bpow radix2 (j + j). Proof. symmetry. apply bpow_plus. Qed.

Section Accuracy.
  Variable s1 s2 : fgeom.
  Hypothesis U1 : usual_point s1. Hypothesis U2 : usual_point s2. Hypothesis Ap : apart s1 s2.
  Let D := between s1 s2. Let M := dist2 s1 s2. Let L := sqrt M.
  Let e := fvsub (fg_p s2) (fg_p s1).

  Lemma D_size i : Rabs (D i) <= 2 * bpow radix2 200.
  Proof.
    destruct U1 as (_ & S1 & _), U2 as (_ & S2 & _). destruct (S1 i) as [_ A], (S2 i) as [_ B]. unfold D, between, Rminus. apply Rle_trans with (1 := Rabs_triang _ _). rewrite Rabs_Ropp. lra.
  Qed.
  Lemma M_low : bpow radix2 (-400) <= M.
  Proof.
    destruct Ap as (i & I & B). fold D in B. assert (P := bpow_gt_0 radix2 (-200)).
    assert (Q : bpow radix2 (-400) <= D i * D i).
    { change (-400)%Z with (-200 + -200)%Z. rewrite <- bp_sq. replace (D i * D i) with (Rabs (D i) * Rabs (D i)) by (rewrite <- Rabs_mult; apply Rabs_pos_eq; nra). apply Rmult_le_compat; lra. }
    unfold M, dist2. fold (D 0) (D 1) (D 2). assert (P0 : 0 <= D 0 * D 0) by nra. assert (P1 : 0 <= D 1 * D 1) by nra. assert (P2 : 0 <= D 2 * D 2) by nra.
    destruct i as [|[|[|i]]]; [| | |lia]; lra.
  Qed.
  Lemma M_high : M <= bpow radix2 404.
  Proof.
    assert (Q : forall i, D i * D i <= 4 * bpow radix2 400).
    { intros i. assert (B := D_size i). replace (D i * D i) with (Rabs (D i) * Rabs (D i)) by (rewrite <- Rabs_mult; apply Rabs_pos_eq; nra).
      change 400%Z with (200 + 200)%Z. rewrite <- bp_sq. replace (4 * (bpow radix2 200 * bpow radix2 200)) with (2 * bpow radix2 200 * (2 * bpow radix2 200)) by ring.
      apply Rmult_le_compat; auto using Rabs_pos. }
    unfold M, dist2. fold (D 0) (D 1) (D 2). change 404%Z with (400 + 4)%Z. rewrite bpow_plus. change (bpow radix2 4) with 16. assert (Q0 := Q 0%nat). assert (Q1 := Q 1%nat). assert (Q2 := Q 2%nat). assert (P := bpow_gt_0 radix2 400). lra.
  Qed.
  Lemma M_pos : 0 < M. Proof. assert (A := M_low). assert (B := bpow_gt_0 radix2 (-400)). lra. Qed.
  Lemma L_sq : L * L = M. Proof. apply sqrt_sqrt. assert (A := M_pos). lra. Qed.
  Lemma L_low : bpow radix2 (-200) <= L.
  Proof. unfold L. rewrite <- (sqrt_square (bpow radix2 (-200))) by apply bpow_ge_0. apply sqrt_le_1_alt. rewrite bp_sq. exact M_low. Qed.
  Lemma L_pos : 0 < L. Proof. assert (A := L_low). assert (B := bpow_gt_0 radix2 (-200)). lra. Qed.
  Lemma eta_M : / 2 ^ 1074 <= eps * M / 1024.
  Proof.
    assert (A := eta_small (-410) ltac:(lia)). assert (B := M_low). assert (P := eps_pos). assert (Q := bpow_gt_0 radix2 (-410)).
    apply Rle_trans with (1 := A). unfold Rdiv. replace (eps * M * / 1024) with (eps * (M * / 1024)) by ring. rewrite (Rmult_assoc eps). apply Rmult_le_compat_l; [lra|].
    replace (bpow radix2 (-400)) with (bpow radix2 (-410) * 1024) in B by (change 1024 with (bpow radix2 10); now rewrite <- bpow_plus). lra.
  Qed.

  Lemma e_ok i : sized 201 (fcomp e i) /\ exists d, Rabs d <= eps /\ val (fcomp e i) = D i * (1 + d).
  Proof.
    destruct U1 as (_ & S1 & _), U2 as (_ & S2 & _). destruct (S1 i) as [F1 B1], (S2 i) as [F2 B2].
    replace (fcomp e i) with (fminus (fcomp (fg_p s2) i) (fcomp (fg_p s1) i)) by (destruct i as [|[|i]]; reflexivity). now apply minus_rel.
  Qed.
  Lemma e_sq i : Rabs (val (fcomp e i) * val (fcomp e i) - D i * D i) <= 201 / 100 * eps * (D i * D i).
  Proof.
    destruct (e_ok i) as [_ (d & B & ->)]. assert (P := eps_pos). assert (Es := eps_fine). apply Rabs_le_inv in B. assert (S : 0 <= D i * D i) by nra.
    replace (D i * (1 + d) * (D i * (1 + d)) - D i * D i) with ((2 * d + d * d) * (D i * D i)) by ring. rewrite Rabs_mult, (Rabs_pos_eq (D i * D i)) by assumption.
    apply Rmult_le_compat_r; [assumption|]. assert (0 <= d * d <= eps * / 1000000000000000) by (split; nra). apply Rabs_le. lra.
  Qed.
  Lemma l2_ok : finite (fdot e e) = true /\ Rabs (val (fdot e e) - M) <= 62 / 10 * eps * M.
  Proof.
    assert (Sz : forall i, sized 402 (fmult (fcomp e i) (fcomp e i))) by (intros i; apply (sized_mult 201 201); [lia| |]; apply e_ok).
    assert (Q : forall i, finite (fmult (fcomp e i) (fcomp e i)) = true /\ Rabs (val (fmult (fcomp e i) (fcomp e i)) - val (fcomp e i) * val (fcomp e i)) <= eps * (val (fcomp e i) * val (fcomp e i)) + / 2 ^ 1074).
    { intros i. destruct (Sz i) as [F _]. split; [assumption|]. destruct (e_ok i) as [[Fe _] _]. destruct (fmult_key _ _ Fe Fe) as [N K]. rewrite (finite_result _ _ N K F).
      assert (R := rnd_any (val (fcomp e i) * val (fcomp e i))). change (/ 2 ^ 53) with eps in R. rewrite (Rabs_pos_eq (val (fcomp e i) * val (fcomp e i))) in R by nra. exact R. }
    assert (G : forall i, 0 <= val (fmult (fcomp e i) (fcomp e i))).
    { intros i. destruct (Sz i) as [F _]. destruct (e_ok i) as [[Fe _] _]. destruct (fmult_key _ _ Fe Fe) as [N K]. rewrite (finite_result _ _ N K F). rewrite <- rnd_0. apply rnd_mono. nra. }
    unfold fdot. change (fx e) with (fcomp e 0). change (fy e) with (fcomp e 1). change (fz e) with (fcomp e 2).
    destruct (Q 0%nat) as [F0 E0], (Q 1%nat) as [F1 E1], (Q 2%nat) as [F2 E2]. assert (G0 := G 0%nat). assert (G1 := G 1%nat). assert (G2 := G 2%nat).
    assert (S3 : sized 403 (fplus (fmult (fcomp e 0) (fcomp e 0)) (fmult (fcomp e 1) (fcomp e 1)))) by (apply (sized_plus 402); [lia| |]; apply Sz).
    set (q0 := fmult (fcomp e 0) (fcomp e 0)) in *. set (q1 := fmult (fcomp e 1) (fcomp e 1)) in *. set (q2 := fmult (fcomp e 2) (fcomp e 2)) in *.
    assert (S4 : sized 404 (fplus (fplus q0 q1) q2)) by (apply (sized_plus 403); [lia|exact S3|apply (sized_le 402); [lia|apply Sz]]).
    destruct S3 as [F3 _], S4 as [F4 _]. split; [assumption|].
    destruct (fplus_key q0 q1 F0 F1) as [N3 K3]. assert (V3 := finite_result _ _ N3 K3 F3). destruct (fplus_key _ q2 F3 F2) as [N4 K4]. assert (V4 := finite_result _ _ N4 K4 F4).
    assert (R3 := rnd_any (val q0 + val q1)). assert (R4 := rnd_any (val (fplus q0 q1) + val q2)). change (/ 2 ^ 53) with eps in R3, R4. rewrite <- V3 in R3. rewrite <- V4 in R4.
    assert (G3 : 0 <= val (fplus q0 q1)) by (rewrite V3, <- rnd_0; apply rnd_mono; lra).
    rewrite (Rabs_pos_eq (val q0 + val q1)) in R3 by lra. rewrite (Rabs_pos_eq (val (fplus q0 q1) + val q2)) in R4 by lra.
    assert (W0 := e_sq 0). assert (W1 := e_sq 1). assert (W2 := e_sq 2). assert (Eta := eta_M). assert (Pm := M_pos). assert (P := eps_pos). assert (Es := eps_fine).
    assert (Me : M = D 0 * D 0 + D 1 * D 1 + D 2 * D 2) by reflexivity.
    assert (Eta0 : 0 <= / 2 ^ 1074) by (apply Rlt_le, Rinv_0_lt_compat, pow_lt; lra). revert Eta0 Eta E0 E1 E2 R3 R4. generalize (/ 2 ^ 1074). intros eta Eta0 Eta E0 E1 E2 R3 R4.
    apply Rabs_le_inv in E0, E1, E2, R3, R4, W0, W1, W2.
    assert (X0 : 0 <= val (fcomp e 0) * val (fcomp e 0)) by nra. assert (X1 : 0 <= val (fcomp e 1) * val (fcomp e 1)) by nra. assert (X2 : 0 <= val (fcomp e 2) * val (fcomp e 2)) by nra.
    assert (T := sum_err eps eta _ _ _ _ _ _ _ _ (eps * M) P Es Eta0 Eta X0 X1 X2 E0 E1 E2 R3 R4). apply Rabs_le_inv in T.
    set (y0 := val (fcomp e 0) * val (fcomp e 0)) in *. set (y1 := val (fcomp e 1) * val (fcomp e 1)) in *. set (y2 := val (fcomp e 2) * val (fcomp e 2)) in *.
    assert (Y : - (201 / 100 * eps * M) <= y0 + y1 + y2 - M <= 201 / 100 * eps * M) by (rewrite Me; lra).
    assert (Ye : eps * (y0 + y1 + y2) <= eps * (1001 / 1000 * M)). { apply Rmult_le_compat_l; [lra|]. assert (eps * M <= / 1000000000000000 * M) by (apply Rmult_le_compat_r; lra). lra. }
    apply Rabs_le. assert (0 < eps * M) by now apply Rmult_lt_0_compat. lra.
  Qed.
  Lemma l_ok : finite (fsqrt (fdot e e)) = true /\ Rabs (val (fsqrt (fdot e e)) - L) <= 75 / 10 * eps * L.
  Proof.
    destruct l2_ok as [F E]. assert (P := eps_pos). assert (Es := eps_fine). assert (Pm := M_pos). assert (Pl := L_pos). assert (Q := L_sq).
    assert (EM : 0 < eps * M <= / 1000000000000000 * M) by (split; [now apply Rmult_lt_0_compat|apply Rmult_le_compat_r; lra]).
    assert (B := E). apply Rabs_le_inv in B. set (a := val (fdot e e)) in *. assert (A0 : 0 < a) by lra.
    destruct (fsqrt_ok _ F ltac:(fold a; lra)) as [Fs Vs]. fold a in Vs. split; [assumption|]. rewrite Vs.
    assert (Sa := sqrt_lt_R0 a A0). assert (Qa := sqrt_sqrt a ltac:(lra)). set (r := sqrt a) in *.
    assert (Rl : Rabs (r - L) <= 62 / 10 * eps * L).
    { apply Rmult_le_reg_r with L; [assumption|]. apply Rle_trans with (Rabs (r - L) * (r + L)); [apply Rmult_le_compat_l; [apply Rabs_pos|lra]|].
      rewrite <- (Rabs_pos_eq (r + L)) at 1 by lra. rewrite <- Rabs_mult. replace ((r - L) * (r + L)) with (a - M) by (rewrite <- Qa, <- Q; ring).
      replace (62 / 10 * eps * L * L) with (62 / 10 * eps * M) by (rewrite <- Q; ring). exact E. }
    assert (EL : 0 < eps * L <= / 1000000000000000 * L) by (split; [now apply Rmult_lt_0_compat|apply Rmult_le_compat_r; lra]).
    assert (R := rnd_any r). change (/ 2 ^ 53) with eps in R. rewrite (Rabs_pos_eq r) in R by lra.
    assert (Eta : / 2 ^ 1074 <= eps * L / 64). { apply Rle_trans with (1 := eta_small (-200) ltac:(lia)). unfold Rdiv. apply Rmult_le_compat_r; [lra|]. apply Rmult_le_compat_l; [lra|]. exact L_low. }
    revert R Eta. generalize (/ 2 ^ 1074). intros eta R Eta. apply Rabs_le_inv in Rl.
    assert (Er : eps * r <= eps * (1001 / 1000 * L)) by (apply Rmult_le_compat_l; lra).
    apply Rabs_le_inv in R. apply Rabs_le. lra.
  Qed.

  Definition u (i : nat) : R := D i / L.
  Lemma u_unit i : (i < 3)%nat -> Rabs (u i) <= 1.
  Proof.
    intros I. unfold u, Rdiv. rewrite Rabs_mult, (Rabs_pos_eq (/ L)) by (apply Rlt_le, Rinv_0_lt_compat, L_pos). apply Rmult_le_reg_r with L; [apply L_pos|].
    rewrite Rmult_assoc, Rinv_l by (assert (X := L_pos); lra). rewrite Rmult_1_l, Rmult_1_r. unfold L. rewrite <- (sqrt_Rsqr_abs (D i)). apply sqrt_le_1_alt. unfold Rsqr, M, dist2. fold (D 0) (D 1) (D 2).
    assert (0 <= D 0 * D 0) by nra. assert (0 <= D 1 * D 1) by nra. assert (0 <= D 2 * D 2) by nra. destruct i as [|[|[|i]]]; [| | |lia]; lra.
  Qed.
  Let d := fvdiv e (fsqrt (fdot e e)).
  Lemma d_ok i : (i < 3)%nat -> approx (fcomp d i) (u i) 10.
  Proof.
    intros I. destruct l_ok as [Fl El]. destruct (e_ok i) as [[Fe _] (h & Bh & Ve)]. assert (P := eps_pos). assert (Es := eps_fine). assert (Pl := L_pos).
    replace (fcomp d i) with (fdivide (fcomp e i) (fsqrt (fdot e e))) by (destruct i as [|[|i]]; reflexivity).
    set (s := fsqrt (fdot e e)) in *. assert (Ui := u_unit i I). assert (EL : 0 < eps * L <= / 1000000000000000 * L) by (split; [now apply Rmult_lt_0_compat|apply Rmult_le_compat_r; lra]).
    apply Rabs_le_inv in El. assert (Ps : 999 / 1000 * L <= val s) by lra.
    assert (Di : D i = u i * L) by (unfold u; field; lra).
    assert (X : Rabs (val (fcomp e i) / val s - u i) <= 86 / 10 * eps).
    { rewrite Ve, Di. replace (u i * L * (1 + h) / val s - u i) with (u i * ((L * h + (L - val s)) / val s)) by (field; lra).
      rewrite Rabs_mult. replace (86 / 10 * eps) with (1 * (86 / 10 * eps)) by ring. apply Rmult_le_compat; auto using Rabs_pos.
      unfold Rdiv. rewrite Rabs_mult, (Rabs_pos_eq (/ val s)) by (apply Rlt_le, Rinv_0_lt_compat; lra). apply Rmult_le_reg_r with (val s); [lra|]. rewrite Rmult_assoc, Rinv_l, Rmult_1_r by lra.
      assert (Lh : Rabs (L * h) <= L * eps) by (rewrite Rabs_mult, (Rabs_pos_eq L) by lra; apply Rmult_le_compat_l; lra). apply Rabs_le_inv in Lh.
      assert (Se : eps * (999 / 1000 * L) <= eps * val s) by (apply Rmult_le_compat_l; lra). apply Rabs_le. split; lra. }
    assert (Y : Rabs (val (fcomp e i) / val s) <= 1001 / 1000) by (apply Rle_trans with (1 := abs_near _ _ _ X); lra).
    destruct (divide_round (fcomp e i) s (1001 / 1000) Fe Fl ltac:(lra) Y ltac:(lra)) as [F R]. split; [assumption|].
    replace (val (fdivide (fcomp e i) s) - u i) with ((val (fdivide (fcomp e i) s) - val (fcomp e i) / val s) + (val (fcomp e i) / val s - u i)) by ring.
    apply Rle_trans with (1 := Rabs_triang _ _). lra.
  Qed.

  Lemma cube_of s : near_unit (fg_n s) -> forall i, finite (fcomp (fg_n s) i) = true /\ Rabs (val (fcomp (fg_n s) i)) <= 1001 / 1000.
  Proof. intros [C _] i. destruct (C i) as [F B]. split; [assumption|]. apply Rabs_le. lra. Qed.
  Lemma u_sum : u 0 * u 0 + u 1 * u 1 + u 2 * u 2 = 1.
  Proof. unfold u. replace (D 0 / L * (D 0 / L) + D 1 / L * (D 1 / L) + D 2 / L * (D 2 / L)) with (M / (L * L)) by (unfold M, dist2; fold (D 0) (D 1) (D 2); field; assert (X := L_pos); lra). rewrite L_sq. field. assert (X := M_pos). lra. Qed.

  (** One cosine, for the direction or its negation *)
  Lemma cosine_ok s dd : s = s1 \/ s = s2 -> vneg d dd -> finite (fgeom_cos s dd) = true /\ 0 <= val (fgeom_cos s dd) /\ Rabs (val (fgeom_cos s dd) - cosine s s1 s2) <= 78 * eps /\ 0 <= cosine s s1 s2 <= 1001 / 1000.
  Proof.
    intros Hs V. rewrite <- (cos_neg s _ _ V). assert (Us : usual_point s) by (destruct Hs as [E|E]; rewrite E; assumption). destruct Us as (I & _ & N). unfold fgeom_cos, cosine. rewrite I, orb_false_r.
    assert (P := eps_pos). assert (Es := eps_fine). destruct (fg_degenerated s).
    - split; [apply fone_finite|]. rewrite fone_val. replace (1 - 1) with 0 by ring. rewrite Rabs_R0. lra.
    - destruct N as [N|N]; [discriminate|]. assert (C := cube_of s N). destruct (C 0%nat) as [F0 B0], (C 1%nat) as [F1 B1], (C 2%nat) as [F2 B2].
      assert (A : forall i, (i < 3)%nat -> Rabs (u i) <= 3004 / 1000) by (intros i H; assert (X := u_unit i H); lra).
      assert (Ad : forall i, (i < 3)%nat -> approx (fcomp d i) (u i) 15) by (intros i H; apply ap_le with (1 := d_ok i H); lra).
      destruct (ap_dot3 _ _ _ _ _ _ _ _ _ F0 F1 F2 B0 B1 B2 (Ad 0%nat ltac:(lia)) (Ad 1%nat ltac:(lia)) (Ad 2%nat ltac:(lia)) (A 0%nat ltac:(lia)) (A 1%nat ltac:(lia)) (A 2%nat ltac:(lia))) as [F E].
      change (finite (fdot (fg_n s) d) = true) in F. change (Rabs (val (fdot (fg_n s) d) - (val (fcomp (fg_n s) 0) * u 0 + val (fcomp (fg_n s) 1) * u 1 + val (fcomp (fg_n s) 2) * u 2)) <= 78 * eps) in E.
      set (c := val (fcomp (fg_n s) 0) * u 0 + val (fcomp (fg_n s) 1) * u 1 + val (fcomp (fg_n s) 2) * u 2) in *.
      assert (Vb : val (Babs (fdot (fg_n s) d)) = Rabs (val (fdot (fg_n s) d))) by apply B2R_Babs.
      assert (Ec : Rabs (val (fx (fg_n s)) * between s1 s2 0 + val (fy (fg_n s)) * between s1 s2 1 + val (fz (fg_n s)) * between s1 s2 2) / sqrt (dist2 s1 s2) = Rabs c).
      { fold M L D. replace c with ((val (fx (fg_n s)) * D 0 + val (fy (fg_n s)) * D 1 + val (fz (fg_n s)) * D 2) / L) by (unfold c, u; cbn [fcomp]; field; assert (X := L_pos); lra).
        unfold Rdiv. rewrite Rabs_mult, (Rabs_pos_eq (/ L)) by (apply Rlt_le, Rinv_0_lt_compat, L_pos). reflexivity. }
      rewrite Ec, Vb. split; [unfold finite; now rewrite is_finite_Babs|]. split; [apply Rabs_pos|]. split; [apply Rle_trans with (1 := Rabs_triang_inv2 _ _); exact E|].
      split; [apply Rabs_pos|]. apply small_square. assert (Ca := cauchy (val (fcomp (fg_n s) 0)) (val (fcomp (fg_n s) 1)) (val (fcomp (fg_n s) 2)) (u 0) (u 1) (u 2)). fold c in Ca. rewrite u_sum, Rmult_1_r in Ca.
      destruct N as [_ N]. unfold length2 in N. cbn [fcomp] in Ca. apply Rabs_le_inv in N. lra.
  Qed.

  Lemma term_ok : finite (fgeometry_term s1 s2) = true /\ 0 <= val (fgeometry_term s1 s2) /\ Rabs (val (fgeometry_term s1 s2) * M - cosine s1 s1 s2 * cosine s2 s1 s2) <= 200 * eps.
  Proof.
    unfold fgeometry_term, fgeom_dir. destruct U1 as (I1 & _), U2 as (I2 & _). rewrite I1, I2. cbn [andb orb]. fold e d.
    assert (Vd : vneg d d \/ True) by now right. clear Vd.
    destruct (cosine_ok s2 (fvneg d) (or_intror eq_refl) (vneg_opp d)) as (F2 & G2 & E2 & B2).
    assert (C1 : fgeom_cos s1 (fvneg d) = fgeom_cos s1 d) by (symmetry; apply cos_neg, vneg_opp).
    destruct (cosine_ok s1 (fvneg d) (or_introl eq_refl) (vneg_opp d)) as (F1 & G1 & E1 & B1). rewrite C1 in F1, G1, E1.
    set (c1 := fgeom_cos s1 d) in *. set (c2 := fgeom_cos s2 (fvneg d)) in *. set (x1 := cosine s1 s1 s2) in *. set (x2 := cosine s2 s1 s2) in *.
    assert (P := eps_pos). assert (Es := eps_fine). assert (Pm := M_pos). destruct l2_ok as [Fl El]. set (l := fdot e e) in *.
    apply Rabs_le_inv in E1, E2.
    assert (A1 : Rabs (val c1) <= 101 / 100) by (apply Rabs_le; lra). assert (A2 : Rabs (val c2) <= 101 / 100) by (apply Rabs_le; lra).
    destruct (mult_round c1 c2 _ _ F1 F2 A1 A2 ltac:(lra)) as [Fp Ep]. set (p := fmult c1 c2) in *.
    assert (G : 0 <= val p). { destruct (fmult_key c1 c2 F1 F2) as [N K]. fold p in N, K. rewrite (finite_result _ _ N K Fp). rewrite <- rnd_0. apply rnd_mono. now apply Rmult_le_pos. }
    assert (Xp : Rabs (val p - x1 * x2) <= 161 * eps).
    { replace (val p - x1 * x2) with ((val p - val c1 * val c2) + ((val c1 - x1) * val c2 + x1 * (val c2 - x2))) by ring.
      assert (T1 : Rabs ((val c1 - x1) * val c2) <= 78 * eps * (101 / 100)) by (apply prod_bound; [apply Rabs_le; lra|assumption]).
      assert (T2 : Rabs (x1 * (val c2 - x2)) <= 1001 / 1000 * (78 * eps)) by (apply prod_bound; apply Rabs_le; lra).
      apply Rle_trans with (1 := Rabs_triang _ _). assert (T3 := Rabs_triang ((val c1 - x1) * val c2) (x1 * (val c2 - x2))). lra. }
    assert (Bx : 0 <= x1 * x2 <= 1003 / 1000). { split; [apply Rmult_le_pos; lra|]. apply Rle_trans with (1001 / 1000 * (1001 / 1000)); [apply Rmult_le_compat; lra|lra]. }
    assert (Up : val p <= 101 / 100) by (apply Rabs_le_inv in Xp; lra).
    assert (EM : 0 < eps * M <= / 1000000000000000 * M) by (split; [now apply Rmult_lt_0_compat|apply Rmult_le_compat_r; lra]).
    apply Rabs_le_inv in El. assert (Lw : 999 / 1000 * M <= val l) by lra.
    assert (Ml := M_low). assert (Pb := bpow_gt_0 radix2 (-400)).
    assert (Qu : 0 <= val p / val l) by (apply Rmult_le_pos; [assumption|apply Rlt_le, Rinv_0_lt_compat; lra]).
    assert (QM : val p / val l * M <= 102 / 100).
    { apply Rmult_le_reg_r with (val l); [lra|]. replace (val p / val l * M * val l) with (val p * M) by (field; lra). assert (val p * M <= 101 / 100 * M) by (apply Rmult_le_compat_r; lra). lra. }
    destruct (of_key _ _ 402 ltac:(lia) (fdivide_key p l Fp Fl ltac:(lra))) as [[Fg _] Vg].
    { rewrite Rabs_pos_eq by assumption. apply Rmult_le_reg_r with M; [assumption|]. apply Rle_trans with (1 := QM). apply Rle_trans with (bpow radix2 402 * bpow radix2 (-400)); [rewrite <- bpow_plus; change (bpow radix2 (402 + -400)) with 4; lra|].
      apply Rmult_le_compat_l; [apply bpow_ge_0|assumption]. }
    split; [assumption|]. rewrite Vg. split; [rewrite <- rnd_0; now apply rnd_mono|].
    assert (R := rnd_any (val p / val l)). change (/ 2 ^ 53) with eps in R. rewrite (Rabs_pos_eq (val p / val l)) in R by assumption. set (g := rnd (val p / val l)) in *.
    assert (Eta : / 2 ^ 1074 * M <= eps / 64).
    { assert (H := eta_small (-404) ltac:(lia)). assert (Hm := M_high). apply Rle_trans with (eps * bpow radix2 (-404) / 64 * bpow radix2 404).
      - apply Rmult_le_compat; try lra; try (apply Rlt_le, Rinv_0_lt_compat, pow_lt; lra).
      - replace (eps * bpow radix2 (-404) / 64 * bpow radix2 404) with (eps / 64 * (bpow radix2 (-404) * bpow radix2 404)) by (unfold Rdiv; ring). rewrite <- bpow_plus. change (bpow radix2 (-404 + 404)) with 1. lra. }
    assert (Y1 : Rabs (g * M - val p / val l * M) <= 11 / 10 * eps).
    { replace (g * M - val p / val l * M) with ((g - val p / val l) * M) by ring. rewrite Rabs_mult, (Rabs_pos_eq M) by lra.
      apply Rle_trans with ((eps * (val p / val l) + / 2 ^ 1074) * M); [apply Rmult_le_compat_r; lra|]. assert (eps * (val p / val l * M) <= eps * (102 / 100)) by (apply Rmult_le_compat_l; lra). lra. }
    assert (Y2 : Rabs (val p / val l * M - val p) <= 64 / 10 * eps).
    { replace (val p / val l * M - val p) with (val p * ((M - val l) / val l)) by (field; lra). rewrite Rabs_mult, (Rabs_pos_eq (val p)) by assumption.
      apply Rle_trans with (101 / 100 * (63 / 10 * eps)); [|lra]. apply Rmult_le_compat; auto using Rabs_pos. unfold Rdiv. rewrite Rabs_mult, (Rabs_pos_eq (/ val l)) by (apply Rlt_le, Rinv_0_lt_compat; lra).
      apply Rmult_le_reg_r with (val l); [lra|]. rewrite Rmult_assoc, Rinv_l, Rmult_1_r by lra. assert (eps * (999 / 1000 * M) <= eps * val l) by (apply Rmult_le_compat_l; lra). apply Rabs_le. split; lra. }
    replace (g * M - x1 * x2) with ((g * M - val p / val l * M) + (val p / val l * M - val p) + (val p - x1 * x2)) by ring.
    apply Rle_trans with (1 := Rabs_triang _ _). assert (T := Rabs_triang (g * M - val p / val l * M) (val p / val l * M - val p)). lra.
  Qed.
  Lemma distance_ok : finite (fgeom_distance s1 s2) = true /\ Rabs (val (fgeom_distance s1 s2) - sqrt (dist2 s1 s2)) <= 75 / 10 * eps * sqrt (dist2 s1 s2).
  Proof. unfold fgeom_distance. destruct U1 as (I1 & _), U2 as (I2 & _). rewrite I1, I2. exact l_ok. Qed.
End Accuracy.
