From Coq Require Import Reals List ZArith Bool Lra Lia.
From Flocq Require Import Core.Core IEEE754.BinarySingleNaN.
From Verif Require Import RngModel FltModel FltProofs FBoundModel FBoundSpec FBoundProofs FDirModel FFilmModel FDistSpec FDistProofs FMathModel FMathProofs FMultiModel FMultiSpec.
Import ListNotations.
Local Open Scope R_scope.

Lemma fzero_val : val fzero = 0. Proof. reflexivity. Qed.
Lemma fzero_finite : finite fzero = true. Proof. reflexivity. Qed.
Lemma plus_val x y : finite x = true -> finite y = true -> finite (fplus x y) = true -> val (fplus x y) = rnd (val x + val y).
Proof. intros Fx Fy F. destruct (fplus_key x y Fx Fy) as [N K]. exact (finite_result _ _ N K F). Qed.
Lemma plus_le x y x' y' : finite x = true -> finite y = true -> finite x' = true -> finite y' = true -> finite (fplus x' y') = true -> 0 <= val x <= val x' -> 0 <= val y <= val y' ->
  finite (fplus x y) = true /\ 0 <= val (fplus x y) <= val (fplus x' y').
Proof.
  intros Fx Fy Fx' Fy' F Hx Hy. assert (V := plus_val _ _ Fx' Fy' F). assert (B := val_big _ F). rewrite V in B. assert (P : 0 <= rnd (val x + val y)) by (apply rnd_pos; lra). assert (M : rnd (val x + val y) <= rnd (val x' + val y')) by (apply rnd_mono; lra).
  destruct (fplus_key x y Fx Fy) as [N K]. destruct (result_finite _ _ N K) as [G W].
  - rewrite Rabs_pos_eq by exact P. rewrite Rabs_pos_eq in B by lra. lra.
  - split; [exact G|]. rewrite W, V. lra.
Qed.
Lemma inf_plus x : finite x = true -> fplus (B754_infinity false) x = B754_infinity false.
Proof. destruct x; try discriminate; reflexivity. Qed.
Lemma max_inf l : (forall v, In v l -> finite (fv_max v) = true) -> fmulti_max l (B754_infinity false) = B754_infinity false.
Proof. induction l as [|v l IH]; intros H; [reflexivity|]. cbn [fmulti_max fold_left]. rewrite inf_plus by (apply H; now left). apply IH. intros w I. apply H. now right. Qed.
Lemma plus_inf x y : finite x = true -> finite y = true -> 0 <= val x -> 0 <= val y -> finite (fplus x y) = false -> fplus x y = B754_infinity false.
Proof.
  intros Fx Fy Px Py F. destruct (fplus_key x y Fx Fy) as [N K]. destruct (inf_sign _ N F) as [s E]. rewrite E in *. destruct s; [|reflexivity]. exfalso. cbn [key] in K. assert (P : 0 <= rnd (val x + val y)) by (apply rnd_pos; lra). assert (B := big_pos). unfold clamp in K.
  assert (0 <= Rmin big (rnd (val x + val y))) by (apply Rmin_glb; lra). assert (Q := Rmax_r (- big) (Rmin big (rnd (val x + val y)))). lra.
Qed.
Lemma max_step l v m : (forall w, In w (v :: l) -> finite (fv_max w) = true /\ 0 <= val (fv_max w)) -> finite m = true -> 0 <= val m -> finite (fmulti_max (v :: l) m) = true -> finite (fplus m (fv_max v)) = true.
Proof.
  intros H Fm Pm F. destruct (finite (fplus m (fv_max v))) eqn:E; [reflexivity|]. destruct (H v ltac:(now left)) as [Fv Pv]. apply (plus_inf _ _ Fm Fv Pm Pv) in E. cbn [fmulti_max fold_left] in F. rewrite E in F. fold (fmulti_max l (B754_infinity false)) in F. rewrite max_inf in F; [discriminate|]. intros w I. apply H. now right.
Qed.
Lemma bounded_max v : bounded v -> finite (fv_max v) = true /\ 0 <= val (fv_max v).
Proof. intros [F H]. split; [exact F|]. destruct (H (FV fzero fzero fzero)) as [_ Q]. lra. Qed.
Lemma multi_sum p l : forall s m, (forall v, In v l -> bounded v) -> finite s = true -> finite m = true -> 0 <= val s <= val m -> finite (fmulti_max l m) = true ->
  finite (fmulti_scalar l p s) = true /\ 0 <= val (fmulti_scalar l p s) <= val (fmulti_max l m).
Proof.
  induction l as [|v l IH]; intros s m H Fs Fm Hs F; [now split|]. assert (Bv := H v ltac:(now left)). destruct (bounded_max v Bv) as [Fv Pv].
  assert (G : finite (fplus m (fv_max v)) = true) by (apply (max_step l); [intros w I; apply bounded_max, H, I|assumption|lra|exact F]).
  cbn [fmulti_scalar]. cbn [fmulti_max fold_left] in F |- *. fold (fmulti_max l (fplus m (fv_max v))) in F |- *.
  assert (L : forall x, finite x = true -> 0 <= val x <= val (fv_max v) -> finite (fplus s x) = true /\ 0 <= val (fplus s x) <= val (fplus m (fv_max v))).
  { intros x Fx Hx. now apply plus_le. }
  destruct (fin_bound p (fv_bound v)); cbn [negb].
  - destruct Bv as [_ Bv]. destruct (Bv p) as [Fx Hx]. destruct (L _ Fx Hx) as [A B]. apply IH; try assumption. intros w I. apply H. now right.
  - destruct (L fzero fzero_finite ltac:(rewrite fzero_val; lra)) as [A B]. apply IH; try assumption; [intros w I; apply H; now right|]. split; [lra|]. apply Rle_trans with (2 := proj2 B). rewrite (plus_val _ _ Fs fzero_finite A), fzero_val, Rplus_0_r, rnd_val. lra.
Qed.
Lemma in_bound_iff p b : vec_ok p -> box_ok b -> (fin_bound p b = true <-> point_in b p).
Proof.
  intros P [L H]. assert (P0 := P 0%nat). assert (P1 := P 1%nat). assert (P2 := P 2%nat). assert (L0 := L 0%nat). assert (L1 := L 1%nat). assert (L2 := L 2%nat). assert (H0 := H 0%nat). assert (H1 := H 1%nat). assert (H2 := H 2%nat). cbn [fcomp] in *.
  unfold fin_bound, fbetween. rewrite !andb_true_iff, !leb_val by assumption.
  assert (R : forall x y, Rle_bool x y = true <-> x <= y) by (intros x y; destruct (Rle_bool_spec x y); split; (auto || discriminate || lra)). rewrite !R. split.
  - intros ((A & B) & C) [|[|i]]; cbn [fcomp]; assumption.
  - intros Q. assert (Q0 := Q 0%nat). assert (Q1 := Q 1%nat). assert (Q2 := Q 2%nat). cbn [fcomp] in *. tauto.
Qed.
Lemma sum_accuracy p inn l : forall s m, (forall v, In v l -> bounded v) -> (forall v, In v l -> fin_bound p (fv_bound v) = inn v) -> finite s = true -> finite m = true -> 0 <= val s <= val m -> finite (fmulti_max l m) = true ->
  0 <= exact_density inn l p /\ (val s + exact_density inn l p) * (1 - eps) ^ List.length l <= val (fmulti_scalar l p s) <= (val s + exact_density inn l p) * (1 + eps) ^ List.length l.
Proof.
  assert (E0 := eps_pos). assert (E1 : eps <= / 1024) by (apply e53_small).
  induction l as [|v l IH]; intros s m H Hi Fs Fm Hs F; [cbn; lra|]. assert (Bv := H v ltac:(now left)). destruct (bounded_max v Bv) as [Fv Pv].
  assert (G : finite (fplus m (fv_max v)) = true) by (apply (max_step l); [intros w I; apply bounded_max, H, I|assumption|lra|exact F]).
  cbn [fmulti_scalar]. cbn [fmulti_max fold_left] in F. fold (fmulti_max l (fplus m (fv_max v))) in F. rewrite (Hi v) by now left. cbn [exact_density fold_right List.length pow]. fold (exact_density inn l p).
  assert (L : forall x, finite x = true -> 0 <= val x <= val (fv_max v) -> finite (fplus s x) = true /\ 0 <= val (fplus s x) <= val (fplus m (fv_max v))) by (intros x Fx Hx; now apply plus_le).
  assert (K : forall s', finite s' = true -> 0 <= val s' <= val (fplus m (fv_max v)) -> 0 <= exact_density inn l p /\ (val s' + exact_density inn l p) * (1 - eps) ^ List.length l <= val (fmulti_scalar l p s') <= (val s' + exact_density inn l p) * (1 + eps) ^ List.length l).
  { intros s' Fs' Hs'. apply (IH s' (fplus m (fv_max v))); try assumption; intros w I; [apply H|apply Hi]; now right. }
  assert (P1 : 0 <= (1 - eps) ^ List.length l) by (apply pow_le; lra). assert (P2 : 0 <= (1 + eps) ^ List.length l) by (apply pow_le; lra).
  destruct (inn v); cbn [negb].
  - destruct Bv as [_ Bv]. destruct (Bv p) as [Fx Hx]. destruct (L _ Fx Hx) as [A B]. destruct (K _ A B) as (D & Q). split; [lra|]. destruct (plus_error s (fv_scalar v p)) as (d & Hd & Ed). rewrite (plus_val _ _ Fs Fx A), Ed in Q. apply Rabs_le_inv in Hd.
    set (S := exact_density inn l p) in *. set (x := val (fv_scalar v p)) in *. split.
    + apply Rle_trans with (2 := proj1 Q). rewrite <- Rmult_assoc. apply Rmult_le_compat_r; [exact P1|]. nra.
    + apply Rle_trans with (1 := proj2 Q). rewrite <- Rmult_assoc. apply Rmult_le_compat_r; [exact P2|]. nra.
  - destruct (L fzero fzero_finite ltac:(rewrite fzero_val; lra)) as [A B]. assert (V : val (fplus s fzero) = val s) by (rewrite (plus_val _ _ Fs fzero_finite A), fzero_val, Rplus_0_r, rnd_val; reflexivity). destruct (K s Fs ltac:(rewrite V in B; lra)) as (D & Q). split; [lra|]. set (S := exact_density inn l p) in *. rewrite Rplus_0_l. split.
    + apply Rle_trans with (2 := proj1 Q). rewrite <- Rmult_assoc. apply Rmult_le_compat_r; [exact P1|]. nra.
    + apply Rle_trans with (1 := proj2 Q). rewrite <- Rmult_assoc. apply Rmult_le_compat_r; [exact P2|]. nra.
Qed.
Lemma multi_bounded l : (forall v, In v l -> bounded v) -> finite (fv_max (fmulti l)) = true -> bounded (fmulti l).
Proof. intros H F. split; [exact F|]. intros p. apply multi_sum; try assumption; try reflexivity. rewrite fzero_val. lra. Qed.
Lemma sphere_bounded b pos r s : finite s = true -> 0 <= val s -> bounded (fsphere b pos r s).
Proof.
  intros F P. split; [exact F|]. intros p. cbn [fsphere fv_scalar fv_max]. assert (Q := val_big _ F). rewrite Rabs_pos_eq in Q by exact P. destruct (fin_sphere _ _).
  - destruct (fmult_key s fone F fone_finite) as [N K]. rewrite fone_val, Rmult_1_r in K. destruct (result_finite _ _ N K) as [G V]; [rewrite rnd_val, Rabs_pos_eq; lra|]. split; [exact G|]. rewrite V, rnd_val. lra.
  - destruct (fmult_key s fzero F fzero_finite) as [N K]. rewrite fzero_val, Rmult_0_r in K. destruct (result_finite _ _ N K) as [G V]; [rewrite rnd_0, Rabs_R0; apply big_pos|]. split; [exact G|]. rewrite V, rnd_0. lra.
Qed.
Fixpoint built_bounded v (H : built v) {struct H} : bounded v.
Proof.
  destruct H as [b s F P|b pos r s F P|l H F].
  - split; [exact F|]. intros p. cbn. split; [exact F|lra].
  - now apply sphere_bounded.
  - apply multi_bounded; [|exact F]. intros v I. exact (built_bounded v (H v I)).
Qed.

(** ** The probability of a collision *)
Lemma rnd_half : rnd (1 + e53) = 1.
Proof.
  assert (Fh : finite (fmake 1 (-53)) = true) by reflexivity. assert (Vh : val (fmake 1 (-53)) = e53).
  { destruct (val_sf (fmake 1 (-53)) 4503599627370496 (-105)) as [_ V]; [reflexivity|]. rewrite V, inv_pow_bpow. change (Z.of_nat 53) with 53%Z. change (- (53))%Z with (52 + -105)%Z. rewrite bpow_plus. f_equal. }
  destruct (fplus_key fone (fmake 1 (-53)) fone_finite Fh) as [N K]. rewrite fone_val, Vh in K. assert (E : fplus fone (fmake 1 (-53)) = fone) by (apply B2SF_inj; vm_compute; reflexivity). rewrite E in *.
  rewrite <- (finite_result _ _ N K fone_finite). apply fone_val.
Qed.
Lemma recip_max m : usual_max m -> finite (fdivide fone m) = true /\ exists e, Rabs e <= e53 /\ val (fdivide fone m) = / val m * (1 + e).
Proof.
  intros (F & L & H). assert (P : 0 < / 2 ^ 1022) by (apply Rinv_0_lt_compat, pow_lt; lra). apply moderate_recip; [split; [exact F|]; rewrite Rabs_pos_eq; lra|rewrite Rabs_pos_eq; lra].
Qed.
Lemma collide_ok m d : usual_max m -> finite d = true -> 0 <= val d <= val m ->
  finite (fcollide m d) = true /\ 0 <= val (fcollide m d) <= 1 /\ Rabs (val (fcollide m d) - val d / val m) <= 3 * e53.
Proof.
  intros U Fd Hd. destruct (recip_max m U) as (Fi & e & He & Vi). destruct U as (Fm & L & H). assert (P : 0 < / 2 ^ 1022) by (apply Rinv_0_lt_compat, pow_lt; lra). assert (Pm : 0 < val m) by lra. assert (E := e53_small). apply Rabs_le_inv in He.
  set (q := val d / val m). assert (Q : 0 <= q <= 1).
  { unfold q, Rdiv. split; [apply Rmult_le_pos; [lra|left; now apply Rinv_0_lt_compat]|]. apply Rmult_le_reg_r with (val m); [exact Pm|]. rewrite Rmult_assoc, Rinv_l; lra. }
  assert (X : val d * val (fdivide fone m) = q * (1 + e)) by (rewrite Vi; unfold q, Rdiv; ring). assert (B : 0 <= q * (1 + e) <= 1 + e53) by nra.
  assert (R : 0 <= rnd (q * (1 + e)) <= 1) by (split; [apply rnd_pos; lra|apply Rle_trans with (rnd (1 + e53)); [apply rnd_mono; lra|rewrite rnd_half; lra]]).
  destruct (fmult_key d _ Fd Fi) as [N K]. rewrite X in K. destruct (result_finite _ _ N K) as [G V]; [rewrite Rabs_pos_eq by lra; assert (O := one_lt_big); lra|]. fold (fcollide m d) in G, V.
  split; [exact G|]. rewrite V. split; [exact R|]. assert (A := rnd_any (q * (1 + e))). rewrite (Rabs_pos_eq (q * (1 + e))) in A by lra. assert (T : / 2 ^ 1074 <= e53 / 1024).
  { rewrite !inv_pow_bpow. unfold Rdiv. change (/ 1024) with (/ IZR (2 ^ 10)). replace (/ IZR (2 ^ 10)) with (bpow radix2 (-10)) by reflexivity. rewrite <- bpow_plus. apply bpow_le. lia. }
  apply Rabs_le_inv in A. apply Rabs_le. nra.
Qed.
Lemma factor_ok m d : usual_max m -> finite d = true -> 0 <= val d <= val m ->
  finite (fminus fone (fcollide m d)) = true /\ 0 <= val (fminus fone (fcollide m d)) <= 1 /\ Rabs (val (fminus fone (fcollide m d)) - (1 - val d / val m)) <= 5 * e53.
Proof.
  intros U Fd Hd. destruct (collide_ok m d U Fd Hd) as (F & B & A). destruct (fminus_key _ _ fone_finite F) as [N K]. rewrite fone_val in K. assert (R : 0 <= rnd (1 - val (fcollide m d)) <= 1) by (split; [apply rnd_pos; lra|apply Rle_trans with (rnd 1); [apply rnd_mono; lra|rewrite rnd_1; lra]]).
  destruct (result_finite _ _ N K) as [G V]; [rewrite Rabs_pos_eq by lra; assert (O := one_lt_big); lra|]. split; [exact G|]. rewrite V. split; [exact R|]. assert (Q := rnd_any (1 - val (fcollide m d))). rewrite (Rabs_pos_eq (1 - val (fcollide m d))) in Q by lra. assert (E := e53_small).
  assert (T : / 2 ^ 1074 <= e53). { rewrite !inv_pow_bpow. apply bpow_le. lia. } apply Rabs_le_inv in Q. apply Rabs_le_inv in A. apply Rabs_le. nra.
Qed.
Lemma mult_unit a b : finite a = true -> finite b = true -> 0 <= val a <= 1 -> 0 <= val b <= 1 -> finite (fmult a b) = true /\ 0 <= val (fmult a b) <= val a.
Proof.
  intros Fa Fb A B. assert (R : 0 <= rnd (val a * val b) <= val a) by (split; [apply rnd_pos; nra|apply Rle_trans with (rnd (val a)); [apply rnd_mono; nra|rewrite rnd_val; lra]]). destruct (fmult_key a b Fa Fb) as [N K]. destruct (result_finite _ _ N K) as [G V]; [rewrite Rabs_pos_eq by lra; assert (O := one_lt_big); lra|]. split; [exact G|]. now rewrite V.
Qed.
Lemma ratio_ok log v r tmax us : bounded v -> usual_max (fv_max v) -> forall t tr res, finite tr = true -> 0 <= val tr <= 1 -> fratio log v r tmax us t tr = Some res -> finite res = true /\ 0 <= val res <= val tr.
Proof.
  intros [_ B] U. induction us as [|u us IH]; intros t tr res F H; [discriminate|]. cbn [fratio]. cbv zeta. destruct (flt_leb _ _); [intros [= <-]; split; [exact F|lra]|]. intros E.
  match type of E with context [fv_scalar v ?p] => destruct (B p) as [Fd Hd] end. destruct (factor_ok _ _ U Fd Hd) as (Ff & Hf & _). destruct (mult_unit tr _ F Ff H Hf) as [G Q]. destruct (IH _ _ _ G ltac:(lra) E) as [A C]. split; [exact A|lra].
Qed.
