(** Expected values of the tracking loops: integral equations and their solution. *)
From Coq Require Import List Reals Lra Lia.
From Coquelicot Require Import Coquelicot.
Import ListNotations.
Open Scope R_scope.

Lemma cexp (h : R -> R) t : continuous h t -> continuous (fun x => exp (h x)) t.
Proof. intros H. apply (continuous_comp h exp); [exact H|]. apply (ex_derive_continuous (V := R_NormedModule)). auto_derive. trivial. Qed.
Lemma clin (a b t : R) : continuous (fun x => a * x + b) t.
Proof. apply (ex_derive_continuous (V := R_NormedModule)). auto_derive. trivial. Qed.

Lemma dpow n m b K d s : is_derive (fun s => - (K * ((m * (b - s)) ^ S n / d))) s (K * (m * (INR (S n) / d * (m * (b - s)) ^ n))).
Proof. auto_derive; [trivial|]. cbn [pred]. change (match n with O => 1 | S _ => INR n + 1 end) with (INR (S n)). unfold Rminus, Rdiv. ring. Qed.

Section Engine.
  Variables (f phi : R -> R) (psi m b : R).
  Hypothesis Hm : 0 < m.
  Hypothesis Cf : forall t, continuous f t.
  Hypothesis Cp : forall t, continuous phi t.

  (** Value of a particle that flies to [s] *)
  Definition kern (W : R -> R) (s : R) : R := f s / m * phi s + (1 - f s / m) * W s.
  Definition stepW (W : R -> R) (t : R) : R := psi * exp (- m * (b - t)) + exp (m * t) * RInt (fun s => m * exp (- m * s) * kern W s) t b.
  Fixpoint Wn (n : nat) : R -> R := match n with O => fun _ => 0 | S n => stepW (Wn n) end.

  Lemma Ckern W t : continuous W t -> continuous (kern W) t.
  Proof.
    intros H. unfold kern. assert (D : continuous (fun s => f s / m) t) by (apply (continuous_mult f (fun _ => / m)); [apply Cf|apply continuous_const]).
    apply (continuous_plus (fun s => f s / m * phi s) (fun s => (1 - f s / m) * W s)).
    - apply (continuous_mult (fun s => f s / m) phi); auto.
    - apply (continuous_mult (fun s => 1 - f s / m) W); auto. apply (continuous_minus (fun _ => 1) (fun s => f s / m)); auto. apply continuous_const.
  Qed.
  Lemma Cweight W t : continuous W t -> continuous (fun s => m * exp (- m * s) * kern W s) t.
  Proof.
    intros H. apply (continuous_mult (fun s => m * exp (- m * s)) (kern W)); [|now apply Ckern].
    apply (ex_derive_continuous (V := R_NormedModule)). auto_derive. trivial.
  Qed.
  Lemma exI (g : R -> R) x y : (forall t, continuous g t) -> ex_RInt g x y.
  Proof. intros H. apply (ex_RInt_continuous (V := R_CompleteNormedModule)). auto. Qed.
  Lemma CRint (g : R -> R) t : (forall t, continuous g t) -> continuous (fun x => RInt g x b) t.
  Proof.
    intros H. apply (ex_derive_continuous (V := R_NormedModule)). eexists. apply (is_derive_RInt' (V := R_NormedModule) g (fun x => RInt g x b) t b); [|apply H].
    exists (mkposreal 1 Rlt_0_1). intros y _. apply (RInt_correct (V := R_CompleteNormedModule)). apply exI, H.
  Qed.
  Lemma Cstep W : (forall t, continuous W t) -> forall t, continuous (stepW W) t.
  Proof.
    intros H t. unfold stepW. apply (continuous_plus (fun t => psi * exp (- m * (b - t))) (fun t => exp (m * t) * RInt (fun s => m * exp (- m * s) * kern W s) t b)).
    - apply (ex_derive_continuous (V := R_NormedModule)). auto_derive. trivial.
    - apply (continuous_mult (fun t => exp (m * t)) (fun t => RInt (fun s => m * exp (- m * s) * kern W s) t b)).
      + apply (ex_derive_continuous (V := R_NormedModule)). auto_derive. trivial.
      + apply CRint. intros s. apply Cweight, H.
  Qed.
  Lemma CWn n : forall t, continuous (Wn n) t.
  Proof. induction n as [|n IH]; [intros t; apply continuous_const|]. cbn [Wn]. now apply Cstep. Qed.

  (** One flight *)
  Definition land (t u : R) : R := t - ln (1 - u) * / m.
  Lemma land_exp t s : land t (1 - exp (- m * (s - t))) = s.
  Proof. unfold land. replace (1 - (1 - exp (- m * (s - t)))) with (exp (- m * (s - t))) by ring. rewrite ln_exp. field. lra. Qed.
  Lemma land_le t u : u < 1 -> (b <= land t u <-> 1 - exp (- m * (b - t)) <= u).
  Proof.
    intros U. unfold land. assert (P : 0 < / m) by now apply Rinv_0_lt_compat. split; intros H.
    - assert (L : ln (1 - u) <= - m * (b - t)).
      { assert (K : - ln (1 - u) * / m * m >= (b - t) * m) by (apply Rmult_ge_compat_r; lra). replace (- ln (1 - u) * / m * m) with (- ln (1 - u)) in K by (field; lra). lra. }
      assert (E : exp (ln (1 - u)) <= exp (- m * (b - t))). { destruct L as [L|L]; [left; now apply exp_increasing|rewrite L; right; reflexivity]. }
      rewrite exp_ln in E; lra.
    - assert (L : ln (1 - u) <= ln (exp (- m * (b - t)))). { destruct (Rle_lt_or_eq_dec (1 - u) (exp (- m * (b - t)))) as [L|L]; [lra|left; apply ln_increasing; lra|rewrite L; right; reflexivity]. }
      rewrite ln_exp in L. assert (K : - ln (1 - u) * / m >= m * (b - t) * / m) by (apply Rmult_ge_compat_r; lra).
      replace (m * (b - t) * / m) with (b - t) in K by (field; lra). lra.
  Qed.
  Lemma flight (W : R -> R) t : (forall t, continuous W t) -> t <= b ->
    is_RInt (fun u => if Rle_dec b (land t u) then psi else kern W (land t u)) 0 1 (stepW W t).
  Proof.
    intros CW Ht. set (c := 1 - exp (- m * (b - t))).
    assert (Hc : 0 <= c < 1). { unfold c. assert (0 < exp (- m * (b - t))) by apply exp_pos. assert (exp (- m * (b - t)) <= exp 0); [|rewrite exp_0 in *; lra]. destruct (Rle_lt_or_eq_dec t b Ht) as [L|L]; [left; apply exp_increasing; nra|right; f_equal; rewrite L; ring]. }
    assert (CF : forall u, u < 1 -> continuous (fun u => kern W (land t u)) u).
    { intros u U. apply (continuous_comp (land t) (kern W)); [|apply Ckern, CW]. apply (ex_derive_continuous (V := R_NormedModule)). unfold land. auto_derive. lra. }
    assert (Part : is_RInt (fun u => kern W (land t u)) 0 c (exp (m * t) * RInt (fun s => m * exp (- m * s) * kern W s) t b)).
    { assert (E : RInt (fun u => kern W (land t u)) 0 c = exp (m * t) * RInt (fun s => m * exp (- m * s) * kern W s) t b).
      { assert (C := is_RInt_comp (V := R_CompleteNormedModule) (fun u => kern W (land t u)) (fun s => 1 - exp (- m * (s - t))) (fun s => m * exp (- m * (s - t))) t b).
        lapply C; [clear C; intros C|intros s _; apply CF; assert (0 < exp (- m * (s - t))) by apply exp_pos; lra].
        lapply C; [clear C; intros C|].
        2: { intros s _. split; [auto_derive; [trivial|unfold Rminus; ring]|]. apply (ex_derive_continuous (V := R_NormedModule)). auto_derive. trivial. }
        replace (1 - exp (- m * (t - t))) with 0 in C by (replace (- m * (t - t)) with 0 by ring; rewrite exp_0; ring). fold c in C.
        apply (is_RInt_unique (V := R_CompleteNormedModule)) in C. cbv beta in C. rewrite <- C.
        transitivity (RInt (fun s => scal (exp (m * t)) (m * exp (- m * s) * kern W s)) t b).
        - apply RInt_ext. intros s _. rewrite land_exp. unfold scal; cbn; unfold mult; cbn. replace (- m * (s - t)) with (m * t + - m * s) by ring. rewrite exp_plus. ring.
        - rewrite (RInt_scal (V := R_CompleteNormedModule)); [reflexivity|]. apply exI. intros s. apply Cweight, CW. }
      rewrite <- E. apply (RInt_correct (V := R_CompleteNormedModule)), (ex_RInt_continuous (V := R_CompleteNormedModule)). intros u U. rewrite Rmin_left, Rmax_right in U by lra. apply CF. lra. }
    unfold stepW. rewrite Rplus_comm.
    apply (is_RInt_Chasles (V := R_NormedModule) _ 0 c 1).
    - apply (is_RInt_ext (V := R_NormedModule) (fun u => kern W (land t u))); [|exact Part]. intros u U. rewrite Rmin_left, Rmax_right in U by lra.
      destruct (Rle_dec b (land t u)) as [L|L]; [|reflexivity]. apply land_le in L; [|lra]. fold c in L. lra.
    - apply (is_RInt_ext (V := R_NormedModule) (fun _ => psi)).
      + intros u U. rewrite Rmin_left, Rmax_right in U by lra. destruct (Rle_dec b (land t u)) as [L|L]; [reflexivity|]. exfalso. apply L, land_le; [lra|]. fold c. lra.
      + replace (psi * exp (- m * (b - t))) with (scal (1 - c) psi); [apply (is_RInt_const (V := R_NormedModule))|]. unfold scal; cbn; unfold mult; cbn. unfold c. ring.
  Qed.

  (** The solution *)
  Definition Tr (x y : R) : R := exp (- RInt f x y).
  Definition Sol (t : R) : R := psi * Tr t b + RInt (fun s => f s * Tr t s * phi s) t b.
  Definition A (t : R) : R := RInt f t b.
  Lemma dA t : is_derive A t (- f t).
  Proof.
    apply (is_derive_RInt' (V := R_NormedModule) f A t b); [|apply Cf]. exists (mkposreal 1 Rlt_0_1). intros y _. apply (RInt_correct (V := R_CompleteNormedModule)). apply exI, Cf.
  Qed.
  Lemma CA t : continuous A t. Proof. apply (ex_derive_continuous (V := R_NormedModule)). eexists. apply dA. Qed.
  Lemma Tr_A t s : Tr t s = exp (- A t) * exp (A s).
  Proof.
    unfold Tr, A. rewrite <- exp_plus. f_equal. rewrite <- (RInt_Chasles (V := R_CompleteNormedModule) f t s b) by (apply exI, Cf). unfold plus; cbn. ring.
  Qed.
  Definition B (t : R) : R := RInt (fun s => f s * exp (A s) * phi s) t b.
  Lemma CB0 s : continuous (fun s => f s * exp (A s) * phi s) s.
  Proof. apply (continuous_mult (fun s => f s * exp (A s)) phi); [|apply Cp]. apply (continuous_mult f (fun s => exp (A s))); [apply Cf|]. apply cexp, CA. Qed.
  Lemma dB t : is_derive B t (- (f t * exp (A t) * phi t)).
  Proof.
    apply (is_derive_RInt' (V := R_NormedModule) (fun s => f s * exp (A s) * phi s) B t b); [|apply CB0]. exists (mkposreal 1 Rlt_0_1). intros y _. apply (RInt_correct (V := R_CompleteNormedModule)). apply exI, CB0.
  Qed.
  Lemma Sol_eq t : Sol t = exp (- A t) * (psi + B t).
  Proof.
    unfold Sol. replace (RInt (fun s => f s * Tr t s * phi s) t b) with (exp (- A t) * B t).
    - unfold Tr. fold (A t). ring.
    - unfold B. rewrite <- (RInt_scal (V := R_CompleteNormedModule)) by (apply exI, CB0). apply RInt_ext. intros s _. rewrite Tr_A. unfold scal; cbn; unfold mult; cbn. ring.
  Qed.
  Lemma dSol t : is_derive Sol t (f t * (Sol t - phi t)).
  Proof.
    apply (is_derive_ext (fun t => exp (- A t) * (psi + B t))); [intros s; now rewrite Sol_eq|]. rewrite Sol_eq.
    evar_last. { apply (is_derive_mult (fun t => exp (- A t)) (fun t => psi + B t) t). 
      - apply (is_derive_comp exp (fun t => - A t) t); [apply is_derive_exp|]. apply (is_derive_opp A), dA.
      - apply (is_derive_plus (fun _ => psi) B); [apply is_derive_const|apply dB].
      - intros; apply Rmult_comm. }
    unfold plus, mult, scal, opp, zero; cbn; unfold mult; cbn. rewrite exp_Ropp. field. apply Rgt_not_eq, exp_pos.
  Qed.
  Lemma CSol t : continuous Sol t. Proof. apply (ex_derive_continuous (V := R_NormedModule)). eexists. apply dSol. Qed.
  Lemma Sol_fix t : Sol t = stepW Sol t.
  Proof.
    assert (I : is_RInt (fun s => m * exp (- m * s) * kern Sol s) t b (minus (- exp (- m * b) * Sol b) (- exp (- m * t) * Sol t))).
    { apply (is_RInt_derive (V := R_CompleteNormedModule) (fun s => - exp (- m * s) * Sol s)); [|intros s _; apply Cweight, CSol].
      intros s _. evar_last. { apply (is_derive_mult (fun s => - exp (- m * s)) Sol s); [auto_derive; [trivial|reflexivity]|apply dSol|intros; apply Rmult_comm]. }
      unfold kern, plus, mult; cbn. field. lra. }
    unfold stepW. rewrite (is_RInt_unique (V := R_CompleteNormedModule) _ _ _ _ I). unfold minus, plus, opp; cbn.
    assert (E : Sol b = psi). { unfold Sol, Tr. rewrite !RInt_point. unfold zero; cbn. rewrite Ropp_0, exp_0. ring. }
    rewrite E. replace (- m * (b - t)) with (m * t + - m * b) by ring. rewrite exp_plus. 
    assert (K : exp (m * t) * exp (- m * t) = 1) by (rewrite <- exp_plus; replace (m * t + - m * t) with 0 by ring; apply exp_0).
    replace (exp (m * t) * (- exp (- m * b) * psi + - (- exp (- m * t) * Sol t))) with (- (exp (m * t) * exp (- m * b) * psi) + exp (m * t) * exp (- m * t) * Sol t) by ring. rewrite K. ring.
  Qed.

  (** Distance to the solution *)
  Variables (a K : R).
  Hypothesis Hf : forall t, a <= t <= b -> 0 <= f t <= m.
  Hypothesis HK : forall t, a <= t <= b -> Rabs (Sol t) <= K.
  Lemma dist_Wn n : forall t, a <= t <= b -> Rabs (Sol t - Wn n t) <= K * ((m * (b - t)) ^ n / INR (fact n)).
  Proof.
    induction n as [|n IH]; intros t Ht.
    - cbn [Wn pow fact INR]. rewrite Rminus_0_r. replace (K * (1 / 1)) with K by field. now apply HK.
    - cbn [Wn]. rewrite Sol_fix at 1. unfold stepW.
      assert (E1 := exI (fun s => m * exp (- m * s) * kern Sol s) t b (fun s => Cweight _ s (CSol s))).
      assert (E2 := exI (fun s => m * exp (- m * s) * kern (Wn n) s) t b (fun s => Cweight _ s (CWn n s))).
      replace (psi * exp (- m * (b - t)) + exp (m * t) * RInt (fun s => m * exp (- m * s) * kern Sol s) t b - (psi * exp (- m * (b - t)) + exp (m * t) * RInt (fun s => m * exp (- m * s) * kern (Wn n) s) t b))
        with (scal (exp (m * t)) (minus (RInt (fun s => m * exp (- m * s) * kern Sol s) t b) (RInt (fun s => m * exp (- m * s) * kern (Wn n) s) t b)))
        by (unfold scal, minus, plus, opp; cbn; unfold mult; cbn; ring).
      rewrite <- (RInt_minus (V := R_CompleteNormedModule)) by assumption.
      rewrite <- (RInt_scal (V := R_CompleteNormedModule)) by (apply (ex_RInt_minus (V := R_NormedModule)); assumption).
      assert (J : is_RInt (fun s => K * (m * ((m * (b - s)) ^ n / INR (fact n)))) t b (K * ((m * (b - t)) ^ S n / INR (fact (S n))))).
      { evar_last. { apply (is_RInt_derive (V := R_CompleteNormedModule) (fun s => - (K * ((m * (b - s)) ^ S n / INR (fact (S n)))))).
          - intros s _. assert (INR (fact n) <> 0) by apply INR_fact_neq_0. assert (INR (S n) <> 0) by (apply not_0_INR; lia).
            evar_last; [apply dpow|]. rewrite fact_simpl, mult_INR. cbv beta. field. auto.
          - intros s _. apply (ex_derive_continuous (V := R_NormedModule)). auto_derive. trivial. }
        unfold minus, plus, opp; cbn -[fact INR pow]. replace (m * (b - b)) with 0 by ring. rewrite pow_ne_zero by lia. field. apply INR_fact_neq_0. }
      refine (norm_RInt_le (V := R_NormedModule) _ _ t b _ _ (proj2 Ht) _ (RInt_correct (V := R_CompleteNormedModule) _ _ _ _) J).
      2: { apply (ex_RInt_scal (V := R_NormedModule)), (ex_RInt_minus (V := R_NormedModule)); assumption. }
      intros s Hs. assert (F := Hf s ltac:(lra)). assert (I := IH s ltac:(lra)).
      change (norm (scal (exp (m * t)) (minus (m * exp (- m * s) * kern Sol s) (m * exp (- m * s) * kern (Wn n) s)))) with (Rabs (exp (m * t) * (m * exp (- m * s) * kern Sol s + - (m * exp (- m * s) * kern (Wn n) s)))).
      replace (exp (m * t) * (m * exp (- m * s) * kern Sol s + - (m * exp (- m * s) * kern (Wn n) s))) with (exp (m * t) * exp (- m * s) * (m - f s) * (Sol s - Wn n s)) by (unfold kern; field; lra).
      rewrite <- exp_plus. rewrite Rabs_mult.
      assert (X : exp (m * t + - m * s) <= exp 0). { destruct (Rle_lt_or_eq_dec t s) as [L|L]; [lra|left; apply exp_increasing; nra|right; f_equal; rewrite L; ring]. }
      rewrite exp_0 in X. assert (Y := exp_pos (m * t + - m * s)). rewrite (Rabs_pos_eq (exp _ * _)) by nra.
      replace (K * (m * ((m * (b - s)) ^ n / INR (fact n)))) with (m * (K * ((m * (b - s)) ^ n / INR (fact n)))) by ring.
      apply Rmult_le_compat; [nra|apply Rabs_pos|nra|exact I].
  Qed.
  Lemma lim_Wn t : a <= t <= b -> is_lim_seq (fun n => Wn n t) (Sol t).
  Proof.
    intros Ht. assert (L : is_lim_seq (fun n => K * ((m * (b - t)) ^ n / INR (fact n))) 0).
    { replace (Finite 0) with (Rbar_mult K 0) by (cbn; f_equal; ring). apply is_lim_seq_scal_l, is_lim_seq_Reals, cv_speed_pow_fact. }
    apply (is_lim_seq_le_le (fun n => Sol t - K * ((m * (b - t)) ^ n / INR (fact n))) _ (fun n => Sol t + K * ((m * (b - t)) ^ n / INR (fact n)))).
    - intros n. assert (D' := dist_Wn n t Ht). unfold Rabs in D'. destruct (Rcase_abs _); lra.
    - replace (Finite (Sol t)) with (Finite (Sol t - 0)) by (f_equal; ring). apply is_lim_seq_minus'; [apply is_lim_seq_const|exact L].
    - replace (Finite (Sol t)) with (Finite (Sol t + 0)) by (f_equal; ring). apply is_lim_seq_plus'; [apply is_lim_seq_const|exact L].
  Qed.
End Engine.
