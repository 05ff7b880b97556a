(** Integral equations of the tracking loops for densities that are piecewise continuous. *)
From Coq Require Import List Reals Lra Lia.
From Coquelicot Require Import Coquelicot.
From Verif Require Import VolExpectSpec VolExpectProofs.
Import ListNotations.
Open Scope R_scope.

Lemma pw_le g a b : piecewise g a b -> a <= b.
Proof. induction 1; lra. Qed.
Lemma pw_cont g a b : a <= b -> (forall t, continuous g t) -> piecewise g a b.
Proof. intros L C. now apply (pw_one g a b g). Qed.
Lemma pw_sub g a b : piecewise g a b -> forall c d, a <= c -> c <= d -> d <= b -> piecewise g c d.
Proof.
  induction 1 as [a b k L C E|a b e H1 IH1 H2 IH2]; intros c d Lc Lcd Ld.
  - apply (pw_one g c d k); [exact Lcd|exact C|]. intros t Ht. apply E. lra.
  - destruct (Rle_dec d b); [apply IH1; lra|]. destruct (Rle_dec b c); [apply IH2; lra|].
    apply (pw_two g c b d); [apply IH1; lra|apply IH2; lra].
Qed.
Lemma pw_ext g g' a b : (forall t, a < t < b -> g t = g' t) -> piecewise g a b -> piecewise g' a b.
Proof.
  intros E H. induction H as [a b k L C Ek|a b e H1 IH1 H2 IH2].
  - apply (pw_one g' a b k); [exact L|exact C|]. intros t Ht. rewrite <- E, Ek by lra. reflexivity.
  - assert (L1 := pw_le _ _ _ H1). assert (L2 := pw_le _ _ _ H2). apply (pw_two g' a b e); [apply IH1|apply IH2]; intros t Ht; apply E; lra.
Qed.
Lemma pw_map2 (F : R -> R -> R) : (forall c1 c2 : R -> R, (forall t, continuous c1 t) -> (forall t, continuous c2 t) -> forall t, continuous (fun t => F (c1 t) (c2 t)) t) ->
  forall g1 g2 a b, piecewise g1 a b -> piecewise g2 a b -> piecewise (fun t => F (g1 t) (g2 t)) a b.
Proof.
  intros HF g1 g2 a b H1. induction H1 as [a b k L C E|a b e H1 IH1 H1' IH1']; intros H2.
  - induction H2 as [a b k' L' C' E'|a b e H2 IH2 H2' IH2'].
    + apply (pw_one _ a b (fun t => F (k t) (k' t))); [exact L|now apply HF|]. intros t Ht. now rewrite E, E'.
    + assert (L1 := pw_le _ _ _ H2). assert (L2 := pw_le _ _ _ H2').
      apply (pw_two _ a b e); [apply IH2|apply IH2']; try lra; intros t Ht; apply E; lra.
  - assert (L1 := pw_le _ _ _ H1). assert (L2 := pw_le _ _ _ H1'). apply (pw_two _ a b e); [apply IH1|apply IH1']; apply (pw_sub g2 a e H2); lra.
Qed.
Lemma pw_plus g1 g2 a b : piecewise g1 a b -> piecewise g2 a b -> piecewise (fun t => g1 t + g2 t) a b.
Proof. apply (pw_map2 Rplus). intros c1 c2 H1 H2 t. now apply (continuous_plus c1 c2). Qed.
Lemma pw_mult g1 g2 a b : piecewise g1 a b -> piecewise g2 a b -> piecewise (fun t => g1 t * g2 t) a b.
Proof. apply (pw_map2 Rmult). intros c1 c2 H1 H2 t. now apply (continuous_mult c1 c2). Qed.
Lemma pw_minus g1 g2 a b : piecewise g1 a b -> piecewise g2 a b -> piecewise (fun t => g1 t - g2 t) a b.
Proof. apply (pw_map2 Rminus). intros c1 c2 H1 H2 t. now apply (continuous_minus c1 c2). Qed.
Lemma pw_int_le g a b : piecewise g a b -> ex_RInt g a b.
Proof.
  induction 1 as [a b k L C E|a b e H1 IH1 H2 IH2].
  - apply (ex_RInt_ext (V := R_NormedModule) k); [|now apply exI]. intros t Ht. rewrite Rmin_left, Rmax_right in Ht by lra. symmetry. now apply E.
  - now apply (ex_RInt_Chasles (V := R_NormedModule) g a b e).
Qed.
(** On every interval *)
Definition pwall (g : R -> R) : Prop := forall a b, a <= b -> piecewise g a b.
Lemma pw_int g a b : pwall g -> ex_RInt g a b.
Proof.
  intros H. destruct (Rle_dec a b) as [L|L]; [now apply pw_int_le, H|]. apply ex_RInt_swap, pw_int_le, H. lra.
Qed.
Lemma pwall_cont g : (forall t, continuous g t) -> pwall g.
Proof. intros H a b L. now apply pw_cont. Qed.

(** A function that is zero outside of the interval *)
Definition cut (x y : R) (g : R -> R) (t : R) : R := if Rle_dec x t then (if Rle_dec t y then g t else 0) else 0.
Lemma cut_in x y g t : x <= t <= y -> cut x y g t = g t.
Proof. intros H. unfold cut. destruct (Rle_dec x t), (Rle_dec t y); try reflexivity; lra. Qed.
Lemma pw_cut x y g : piecewise g x y -> pwall (cut x y g).
Proof.
  intros H a b L. assert (Lx := pw_le _ _ _ H). assert (C0 : forall t : R, continuous (fun _ : R => 0) t) by (intros; apply continuous_const).
  assert (P : piecewise (cut x y g) (Rmin a x) (Rmax b y)).
  { assert (L1 := Rmin_r a x). assert (L2 := Rmax_r b y). apply (pw_two _ _ x _); [|apply (pw_two _ _ y _)].
    - apply (pw_one _ _ _ (fun _ => 0)); [exact L1|exact C0|]. intros t Ht. unfold cut. destruct (Rle_dec x t); [lra|reflexivity].
    - apply (pw_ext g); [|exact H]. intros t Ht. rewrite cut_in; [reflexivity|lra].
    - apply (pw_one _ _ _ (fun _ => 0)); [exact L2|exact C0|]. intros t Ht. unfold cut. destruct (Rle_dec x t); [|reflexivity]. destruct (Rle_dec t y); [lra|reflexivity]. }
  apply (pw_sub _ _ _ P); [apply Rmin_l|exact L|apply Rmax_l].
Qed.

Section Pieces.
  Variables (f phi : R -> R) (m : R).
  Hypothesis Hm : 0 < m.
  Hypothesis Pf : pwall f.
  Hypothesis Pp : pwall phi.

  Lemma pkern W : (forall t, continuous W t) -> pwall (kern f phi m W).
  Proof using Pf Pp.
    intros CW a b L. unfold kern, Rdiv. assert (Pd : piecewise (fun s => f s * / m) a b).
    { apply (pw_mult f (fun _ => / m)); [now apply Pf|]. apply pw_cont; [exact L|]. intros; apply continuous_const. }
    apply (pw_plus (fun s => f s * / m * phi s) (fun s => (1 - f s * / m) * W s)).
    - apply (pw_mult (fun s => f s * / m) phi); [exact Pd|now apply Pp].
    - apply (pw_mult (fun s => 1 - f s * / m) W); [|now apply pw_cont]. apply (pw_minus (fun _ => 1) (fun s => f s * / m)); [|exact Pd].
      apply pw_cont; [exact L|]. intros; apply continuous_const.
  Qed.
  Lemma cweight t : continuous (fun s => m * exp (- m * s)) t.
  Proof using. apply (ex_derive_continuous (V := R_NormedModule)). auto_derive. trivial. Qed.
  Lemma pweight g : pwall g -> pwall (fun s => m * exp (- m * s) * g s).
  Proof using. intros H a b L. apply (pw_mult (fun s => m * exp (- m * s)) g); [|now apply H]. apply pw_cont; [exact L|apply cweight]. Qed.
  Lemma pRint (g : R -> R) b t : pwall g -> continuous (fun x => RInt g x b) t.
  Proof using.
    intros H. apply (continuous_RInt_2 (V := R_NormedModule) g t b). exists (mkposreal 1 Rlt_0_1). intros y _.
    apply (RInt_correct (V := R_CompleteNormedModule)). now apply pw_int.
  Qed.

  Section End.
  Variables (psi b : R).
  Lemma pstep W : (forall t, continuous W t) -> forall t, continuous (stepW f phi psi m b W) t.
  Proof using Pf Pp.
    intros H t. unfold stepW. apply (continuous_plus (fun t => psi * exp (- m * (b - t))) (fun t => exp (m * t) * RInt (fun s => m * exp (- m * s) * kern f phi m W s) t b)).
    - apply (ex_derive_continuous (V := R_NormedModule)). auto_derive. trivial.
    - apply (continuous_mult (fun t => exp (m * t)) (fun t => RInt (fun s => m * exp (- m * s) * kern f phi m W s) t b)).
      + apply (ex_derive_continuous (V := R_NormedModule)). auto_derive. trivial.
      + now apply pRint, pweight, pkern.
  Qed.
  Lemma pWn n : forall t, continuous (Wn f phi psi m b n) t.
  Proof using Pf Pp. induction n as [|n IH]; [intros t; apply continuous_const|]. cbn [Wn]. now apply pstep. Qed.
  End End.

  (** One flight *)
  Lemma pland (g : R -> R) t x y : pwall g -> t <= x -> x <= y ->
    is_RInt (fun u => g (land m t u)) (1 - exp (- m * (x - t))) (1 - exp (- m * (y - t))) (exp (m * t) * RInt (fun s => m * exp (- m * s) * g s) x y).
  Proof using Hm.
    intros Pg Lx Lxy. assert (H := Pg x y Lxy).
    assert (Mono : forall x y, x <= y -> 1 - exp (- m * (x - t)) <= 1 - exp (- m * (y - t))).
    { intros p q [L| ->]; [|lra]. assert (exp (- m * (q - t)) < exp (- m * (p - t))) by (apply exp_increasing; nra). lra. }
    induction H as [x y c L C E|x y z H1 IH1 H2 IH2].
    - assert (Ec : RInt (fun s => m * exp (- m * s) * g s) x y = RInt (fun s => m * exp (- m * s) * c s) x y).
      { apply RInt_ext. intros s Hs. rewrite Rmin_left, Rmax_right in Hs by lra. now rewrite E. }
      rewrite Ec. apply (is_RInt_ext (V := R_NormedModule) (fun u => c (land m t u))).
      { intros u U. assert (Mo := Mono x y L). rewrite Rmin_left, Rmax_right in U by lra. symmetry. apply E.
        assert (Lt : u < 1) by (assert (0 < exp (- m * (y - t))) by apply exp_pos; lra).
        assert (Q1 := land_le m x Hm t u Lt). assert (Q2 := land_le m y Hm t u Lt). split.
        - destruct (Rle_lt_or_eq_dec x (land m t u)) as [?|Eq]; [apply Q1; lra|assumption|]. exfalso.
          assert (u = 1 - exp (- m * (x - t))); [|lra]. unfold land in Eq. assert (Ln : ln (1 - u) = - m * (x - t)) by (rewrite Eq; field; lra).
          rewrite <- Ln, exp_ln; lra.
        - destruct (Rlt_dec (land m t u) y) as [?|N]; [assumption|]. assert (1 - exp (- m * (y - t)) <= u) by (apply Q2; lra). lra. }
      assert (CF : forall u, u < 1 -> continuous (fun u => c (land m t u)) u).
      { intros u U. apply (continuous_comp (land m t) c); [|apply C]. apply (ex_derive_continuous (V := R_NormedModule)). unfold land. auto_derive. lra. }
      assert (Cc := is_RInt_comp (V := R_CompleteNormedModule) (fun u => c (land m t u)) (fun s => 1 - exp (- m * (s - t))) (fun s => m * exp (- m * (s - t))) x y).
      lapply Cc; [clear Cc; intros Cc|intros s _; apply CF; assert (0 < exp (- m * (s - t))) by apply exp_pos; lra].
      lapply Cc; [clear Cc; intros Cc|].
      2: { intros s _. split; [auto_derive; [trivial|unfold Rminus; ring]|]. apply (ex_derive_continuous (V := R_NormedModule)). auto_derive. trivial. }
      apply (is_RInt_unique (V := R_CompleteNormedModule)) in Cc. cbv beta in Cc.
      replace (exp (m * t) * RInt (fun s => m * exp (- m * s) * c s) x y) with (RInt (fun u => c (land m t u)) (1 - exp (- m * (x - t))) (1 - exp (- m * (y - t)))).
      { apply (RInt_correct (V := R_CompleteNormedModule)), (ex_RInt_continuous (V := R_CompleteNormedModule)). intros u U. assert (Mo := Mono x y L). rewrite Rmin_left, Rmax_right in U by lra.
        apply CF. assert (0 < exp (- m * (y - t))) by apply exp_pos. lra. }
      rewrite <- Cc. transitivity (RInt (fun s => scal (exp (m * t)) (m * exp (- m * s) * c s)) x y).
      + apply RInt_ext. intros s _. rewrite land_exp by exact Hm. unfold scal; cbn; unfold mult; cbn. replace (- m * (s - t)) with (m * t + - m * s) by ring. rewrite exp_plus. ring.
      + rewrite (RInt_scal (V := R_CompleteNormedModule)); [reflexivity|]. apply exI. intros s. apply (continuous_mult (fun s => m * exp (- m * s)) c); [apply cweight|apply C].
    - assert (L1 := pw_le _ _ _ H1). assert (L2 := pw_le _ _ _ H2).
      rewrite <- (RInt_Chasles (V := R_CompleteNormedModule) _ x y z) by (apply pw_int, pweight, Pg).
      replace (exp (m * t) * plus (RInt (fun s => m * exp (- m * s) * g s) x y) (RInt (fun s => m * exp (- m * s) * g s) y z))
        with (plus (exp (m * t) * RInt (fun s => m * exp (- m * s) * g s) x y) (exp (m * t) * RInt (fun s => m * exp (- m * s) * g s) y z)) by (unfold plus; cbn; ring).
      apply (is_RInt_Chasles (V := R_NormedModule) _ _ (1 - exp (- m * (y - t))) _); [apply IH1; lra|apply IH2; lra].
  Qed.
  Lemma pflight (W : R -> R) psi b t : (forall t, continuous W t) -> t <= b ->
    is_RInt (fun u => if Rle_dec b (land m t u) then psi else kern f phi m W (land m t u)) 0 1 (stepW f phi psi m b W t).
  Proof using Hm Pf Pp.
    intros CW Ht. assert (Part := pland (kern f phi m W) t t b (pkern W CW) ltac:(lra) Ht).
    replace (1 - exp (- m * (t - t))) with 0 in Part by (replace (- m * (t - t)) with 0 by ring; rewrite exp_0; ring).
    set (c := 1 - exp (- m * (b - t))) in *.
    assert (Hc : 0 <= c < 1). { unfold c. assert (0 < exp (- m * (b - t))) by apply exp_pos. assert (exp (- m * (b - t)) <= exp 0); [|rewrite exp_0 in *; lra]. destruct (Rle_lt_or_eq_dec t b Ht) as [L|L]; [left; apply exp_increasing; nra|right; f_equal; rewrite L; ring]. }
    unfold stepW. rewrite Rplus_comm.
    apply (is_RInt_Chasles (V := R_NormedModule) _ 0 c 1).
    - apply (is_RInt_ext (V := R_NormedModule) (fun u => kern f phi m W (land m t u))); [|exact Part]. intros u U. rewrite Rmin_left, Rmax_right in U by lra.
      destruct (Rle_dec b (land m t u)) as [L|L]; [|reflexivity]. apply land_le in L; [|exact Hm|lra]. fold c in L. lra.
    - apply (is_RInt_ext (V := R_NormedModule) (fun _ => psi)).
      + intros u U. rewrite Rmin_left, Rmax_right in U by lra. destruct (Rle_dec b (land m t u)) as [L|L]; [reflexivity|]. exfalso. apply L, land_le; [exact Hm|lra|]. fold c. lra.
      + replace (psi * exp (- m * (b - t))) with (scal (1 - c) psi); [apply (is_RInt_const (V := R_NormedModule))|]. unfold scal; cbn; unfold mult; cbn. unfold c. ring.
  Qed.

  (** The solution *)
  Lemma pA b : forall t, continuous (A f b) t.
  Proof using Pf. intros t. unfold A. now apply pRint. Qed.
  Lemma pB0 b : pwall (fun s => f s * exp (A f b s) * phi s).
  Proof using Pf Pp.
    intros x y L. apply (pw_mult (fun s => f s * exp (A f b s)) phi); [|now apply Pp]. apply (pw_mult f (fun s => exp (A f b s))); [now apply Pf|].
    apply pw_cont; [exact L|]. intros t. apply cexp, pA.
  Qed.
  Lemma pTr x y z : Tr f x z = Tr f x y * Tr f y z.
  Proof using Pf.
    unfold Tr. rewrite <- exp_plus. f_equal. rewrite <- (RInt_Chasles (V := R_CompleteNormedModule) f x y z) by (now apply pw_int). unfold plus; cbn. ring.
  Qed.
  Lemma pTrA b t s : Tr f t s = exp (- A f b t) * exp (A f b s).
  Proof using Pf.
    unfold Tr, A. rewrite <- exp_plus. f_equal. rewrite <- (RInt_Chasles (V := R_CompleteNormedModule) f t s b) by (now apply pw_int). unfold plus; cbn. ring.
  Qed.
  Lemma pTrint t : pwall (fun s => f s * Tr f t s * phi s).
  Proof using Pf Pp.
    intros x y L. apply (pw_ext (fun s => exp (- A f t t) * (f s * exp (A f t s) * phi s))).
    - intros s _. rewrite (pTrA t t s). ring.
    - apply (pw_mult (fun _ => exp (- A f t t)) (fun s => f s * exp (A f t s) * phi s)); [|now apply pB0].
      apply pw_cont; [exact L|]. intros; apply continuous_const.
  Qed.
  Lemma pSol_eq psi b t : Sol f phi psi b t = exp (- A f b t) * (psi + B f phi b t).
  Proof using Pf Pp.
    unfold Sol. replace (RInt (fun s => f s * Tr f t s * phi s) t b) with (exp (- A f b t) * B f phi b t).
    - unfold Tr. fold (A f b t). ring.
    - unfold B. rewrite <- (RInt_scal (V := R_CompleteNormedModule)) by (apply pw_int, pB0). apply RInt_ext. intros s _. rewrite (pTrA b). unfold scal; cbn; unfold mult; cbn. ring.
  Qed.
  Lemma pSol psi b : forall t, continuous (Sol f phi psi b) t.
  Proof using Pf Pp.
    intros t. apply (continuous_ext (fun t => exp (- A f b t) * (psi + B f phi b t))); [intros s; symmetry; apply pSol_eq|].
    apply (continuous_mult (fun t => exp (- A f b t)) (fun t => psi + B f phi b t)).
    - apply cexp. apply (continuous_opp (A f b)). apply pA.
    - apply (continuous_plus (fun _ => psi) (B f phi b)); [apply continuous_const|]. apply pRint, pB0.
  Qed.
  Lemma sol_split psi b c t : Sol f phi psi b t = Sol f phi (Sol f phi psi b c) c t.
  Proof using Pf Pp.
    unfold Sol. rewrite (pTr t c b). rewrite <- (RInt_Chasles (V := R_CompleteNormedModule) (fun s => f s * Tr f t s * phi s) t c b) by (apply pw_int, pTrint).
    replace (RInt (fun s => f s * Tr f t s * phi s) c b) with (Tr f t c * RInt (fun s => f s * Tr f c s * phi s) c b).
    - unfold plus; cbn. ring.
    - rewrite <- (RInt_scal (V := R_CompleteNormedModule)) by (apply pw_int, pTrint). apply RInt_ext. intros s _. rewrite (pTr t c s). unfold scal; cbn; unfold mult; cbn. ring.
  Qed.
  Lemma step_split psi b W c t : (forall t, continuous W t) -> stepW f phi psi m b W t = stepW f phi (stepW f phi psi m b W c) m c W t.
  Proof using Pf Pp.
    intros CW. unfold stepW. rewrite <- (RInt_Chasles (V := R_CompleteNormedModule) (fun s => m * exp (- m * s) * kern f phi m W s) t c b) by (now apply pw_int, pweight, pkern).
    replace (- m * (b - t)) with (- m * (b - c) + - m * (c - t)) by ring. rewrite exp_plus.
    assert (E : exp (m * c) * exp (- m * (c - t)) = exp (m * t)) by (rewrite <- exp_plus; f_equal; ring). rewrite <- E at 1. unfold plus; cbn. 
    rewrite <- E. ring.
  Qed.
  Lemma step_ext psi b W W' t : t <= b -> (forall s, t < s < b -> W s = W' s) -> stepW f phi psi m b W t = stepW f phi psi m b W' t.
  Proof using.
    intros L H. unfold stepW. do 2 f_equal. apply RInt_ext. intros s Hs. rewrite Rmin_left, Rmax_right in Hs by lra. unfold kern. now rewrite H.
  Qed.

  Lemma pSol_fix psi x y : x <= y -> Sol f phi psi y x = stepW f phi psi m y (Sol f phi psi y) x.
  Proof using Hm Pf Pp.
    intros L. set (Q := fun x y => forall psi, Sol f phi psi y x = stepW f phi psi m y (Sol f phi psi y) x). enough (H : Q x y) by apply H. clear psi.
    assert (Qtwo : forall x y z, x <= y -> y <= z -> Q x y -> Q y z -> Q x z).
    { clear x y L. intros x y z L1 L2 H1 H2 psi. rewrite (step_split psi z _ y x (pSol psi z)). rewrite <- (H2 psi).
      rewrite (sol_split psi z y x). rewrite H1. apply step_ext; [exact L1|]. intros s _. symmetry. apply sol_split. }
    assert (Qone : forall x y c p, x <= y -> (forall t, continuous c t) -> (forall t, continuous p t) -> (forall t, x < t < y -> f t = c t) -> (forall t, x < t < y -> phi t = p t) -> Q x y).
    { clear x y L. intros x y c p L Cc Cp Ec Ep psi.
      assert (Ei : forall u v, x <= u -> u <= v -> v <= y -> RInt f u v = RInt c u v).
      { intros u v U UV V. apply RInt_ext. intros s Hs. rewrite Rmin_left, Rmax_right in Hs by lra. apply Ec. lra. }
      assert (Es : forall t, x <= t <= y -> Sol f phi psi y t = Sol c p psi y t).
      { intros t Ht. unfold Sol, Tr. rewrite (Ei t y) by lra. f_equal. apply RInt_ext. intros s Hs. rewrite Rmin_left, Rmax_right in Hs by lra.
        rewrite (Ei t s), Ec, Ep by lra. reflexivity. }
      rewrite (Es x) by lra. rewrite (VolExpectProofs.Sol_fix c p psi m y Hm Cc Cp x). unfold stepW. do 2 f_equal. apply RInt_ext.
      intros s Hs. rewrite Rmin_left, Rmax_right in Hs by lra. unfold kern. rewrite Es, Ec, Ep by lra. reflexivity. }
    assert (H := Pf x y L). assert (H' := Pp x y L). clear L.
    revert H'. induction H as [x y c L C E|x y z H1 IH1 H2 IH2]; intros H'.
    - induction H' as [x y p L' C' E'|x y z H1 IH1 H2 IH2].
      + exact (Qone x y c p L C C' E E').
      + assert (L1 := pw_le _ _ _ H1). assert (L2 := pw_le _ _ _ H2). apply (Qtwo x y z L1 L2); [apply IH1|apply IH2]; try lra; intros t Ht; apply E; lra.
    - assert (L1 := pw_le _ _ _ H1). assert (L2 := pw_le _ _ _ H2). apply (Qtwo x y z L1 L2); [apply IH1|apply IH2]; apply (pw_sub _ _ _ H'); lra.
  Qed.

  (** Distance to the solution *)
  Variables (a b psi K : R).
  Hypothesis Hf : forall t, a <= t <= b -> 0 <= f t <= m.
  Hypothesis HK : forall t, a <= t <= b -> Rabs (Sol f phi psi b t) <= K.
  Notation Sl := (Sol f phi psi b).
  Notation Wk := (Wn f phi psi m b).
  Notation kn := (kern f phi m).
  Lemma pdist n : forall t, a <= t <= b -> Rabs (Sl t - Wk n t) <= K * ((m * (b - t)) ^ n / INR (fact n)).
  Proof using Hm Pf Pp Hf HK.
    induction n as [|n IH]; intros t Ht.
    - cbn [Wn pow fact INR]. rewrite Rminus_0_r. replace (K * (1 / 1)) with K by field. now apply HK.
    - cbn [Wn]. rewrite pSol_fix at 1 by lra. unfold stepW.
      assert (E1 := pw_int (fun s => m * exp (- m * s) * kn Sl s) t b (pweight _ (pkern _ (pSol psi b)))).
      assert (E2 := pw_int (fun s => m * exp (- m * s) * kn (Wk n) s) t b (pweight _ (pkern _ (pWn psi b n)))).
      replace (psi * exp (- m * (b - t)) + exp (m * t) * RInt (fun s => m * exp (- m * s) * kn Sl s) t b - (psi * exp (- m * (b - t)) + exp (m * t) * RInt (fun s => m * exp (- m * s) * kn (Wk n) s) t b))
        with (scal (exp (m * t)) (minus (RInt (fun s => m * exp (- m * s) * kn Sl s) t b) (RInt (fun s => m * exp (- m * s) * kn (Wk n) s) t b)))
        by (unfold scal, minus, plus, opp; cbn; unfold mult; cbn; ring).
      rewrite <- (RInt_minus (V := R_CompleteNormedModule)) by assumption.
      rewrite <- (RInt_scal (V := R_CompleteNormedModule)) by (apply (ex_RInt_minus (V := R_NormedModule)); assumption).
      assert (J : is_RInt (fun s => K * (m * ((m * (b - s)) ^ n / INR (fact n)))) t b (K * ((m * (b - t)) ^ S n / INR (fact (S n))))).
      { evar_last. { apply (is_RInt_derive (V := R_CompleteNormedModule) (fun s => - (K * ((m * (b - s)) ^ S n / INR (fact (S n)))))).
          - intros s _. assert (INR (fact n) <> 0) by apply INR_fact_neq_0. assert (INR (S n) <> 0) by (apply not_0_INR; lia).
            evar_last; [apply dpow|]. rewrite fact_simpl, mult_INR. cbv beta. field. auto.
          - intros s _. apply (ex_derive_continuous (V := R_NormedModule)). auto_derive. trivial. }
        unfold minus, plus, opp; cbn -[fact INR pow]. replace (m * (b - b)) with 0 by ring. rewrite pow_ne_zero by lia. field. apply INR_fact_neq_0. }
      refine (norm_RInt_le (V := R_NormedModule) _ _ t b _ _ (proj2 Ht) _ (RInt_correct (V := R_CompleteNormedModule) _ _ _ _) J).
      2: { apply (ex_RInt_scal (V := R_NormedModule)), (ex_RInt_minus (V := R_NormedModule)); assumption. }
      intros s Hs. assert (F := Hf s ltac:(lra)). assert (I := IH s ltac:(lra)).
      change (norm (scal (exp (m * t)) (minus (m * exp (- m * s) * kn Sl s) (m * exp (- m * s) * kn (Wk n) s)))) with (Rabs (exp (m * t) * (m * exp (- m * s) * kn Sl s + - (m * exp (- m * s) * kn (Wk n) s)))).
      replace (exp (m * t) * (m * exp (- m * s) * kn Sl s + - (m * exp (- m * s) * kn (Wk n) s))) with (exp (m * t) * exp (- m * s) * (m - f s) * (Sl s - Wk n s)) by (unfold kern; field; lra).
      rewrite <- exp_plus. rewrite Rabs_mult.
      assert (X : exp (m * t + - m * s) <= exp 0). { destruct (Rle_lt_or_eq_dec t s) as [L|L]; [lra|left; apply exp_increasing; nra|right; f_equal; rewrite L; ring]. }
      rewrite exp_0 in X. assert (Y := exp_pos (m * t + - m * s)). rewrite (Rabs_pos_eq (exp _ * _)) by nra.
      replace (K * (m * ((m * (b - s)) ^ n / INR (fact n)))) with (m * (K * ((m * (b - s)) ^ n / INR (fact n)))) by ring.
      apply Rmult_le_compat; [nra|apply Rabs_pos|nra|exact I].
  Qed.
  Lemma plim t : a <= t <= b -> is_lim_seq (fun n => Wk n t) (Sl t).
  Proof using Hm Pf Pp Hf HK.
    intros Ht. assert (L : is_lim_seq (fun n => K * ((m * (b - t)) ^ n / INR (fact n))) 0).
    { replace (Finite 0) with (Rbar_mult K 0) by (cbn; f_equal; ring). apply is_lim_seq_scal_l, is_lim_seq_Reals, cv_speed_pow_fact. }
    apply (is_lim_seq_le_le (fun n => Sl t - K * ((m * (b - t)) ^ n / INR (fact n))) _ (fun n => Sl t + K * ((m * (b - t)) ^ n / INR (fact n)))).
    - intros n. assert (D' := pdist n t Ht). unfold Rabs in D'. destruct (Rcase_abs _); lra.
    - replace (Finite (Sl t)) with (Finite (Sl t - 0)) by (f_equal; ring). apply is_lim_seq_minus'; [apply is_lim_seq_const|exact L].
    - replace (Finite (Sl t)) with (Finite (Sl t + 0)) by (f_equal; ring). apply is_lim_seq_plus'; [apply is_lim_seq_const|exact L].
  Qed.
End Pieces.
