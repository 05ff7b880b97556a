From Coq Require Import List Reals Lra Lia.
From Coquelicot Require Import Coquelicot.
From Verif Require Import Base RBase VecBase GeoModel GeoSpec GeoProofs MatModel MatProofs PathModel PathProofs VolModel VolSpec VolProofs VolMediaProofs VolExpectSpec VolExpectProofs VolPieceProofs.
Import ListNotations.
Open Scope R_scope.

Lemma expected_ext n : forall f g v, (forall us, draws us -> length us = n -> f us = g us) -> expected n f v -> expected n g v.
Proof.
  induction n as [|n IH]; intros f g v E H; cbn [expected] in *.
  - rewrite H. apply E; [constructor|reflexivity].
  - destruct H as (k & K & I). exists k. split; [|exact I]. intros u U. apply (IH (fun us => f (u :: us))); [|now apply K].
    intros us D L. apply E; [now constructor|cbn; now rewrite L].
Qed.
Lemma expected_const n c : expected n (fun _ => c) c.
Proof.
  induction n as [|n IH]; cbn [expected]; [reflexivity|]. exists (fun _ => c). split; [intros; exact IH|].
  evar_last; [apply (is_RInt_const (V := R_NormedModule))|]. unfold scal; cbn; unfold mult; cbn. ring.
Qed.
Lemma uniform_split p x y : 0 <= p <= 1 -> is_RInt (fun u => if Rlt_dec u p then x else y) 0 1 (p * x + (1 - p) * y).
Proof.
  intros P. apply (is_RInt_Chasles (V := R_NormedModule) _ 0 p 1).
  - apply (is_RInt_ext (V := R_NormedModule) (fun _ => x)).
    + intros u U. rewrite Rmin_left, Rmax_right in U by lra. destruct (Rlt_dec u p); [reflexivity|lra].
    + replace (p * x) with (scal (p - 0) x); [apply (is_RInt_const (V := R_NormedModule))|]. unfold scal; cbn; unfold mult; cbn. ring.
  - apply (is_RInt_ext (V := R_NormedModule) (fun _ => y)).
    + intros u U. rewrite Rmin_left, Rmax_right in U by lra. destruct (Rlt_dec u p); [lra|reflexivity].
    + replace ((1 - p) * y) with (scal (1 - p) y); [apply (is_RInt_const (V := R_NormedModule))|]. reflexivity.
Qed.

Section Track.
  Variables (den alb : volume) (r : ray) (a b m inv : R) (f : R -> R).
  Hypothesis Hm : 0 < m.
  Hypothesis Hinv : inv = / m.
  Hypothesis Cf : pwall f.
  Hypothesis Hden : forall t, a <= t <= b -> v_scalar den (ray_at r t) = ret (f t).
  Hypothesis Hf : forall t, a <= t <= b -> 0 <= f t <= m.

  Lemma land_ge t u : 0 <= u < 1 -> t <= land m t u.
  Proof. intros U. unfold land. assert (L := ln_nonpos u U). assert (0 < / m) by now apply Rinv_0_lt_compat. nra. Qed.

  Definition rval (o : pm (R * list R)) : R := match o with Ok (Val (T, _)) => T | _ => 0 end.
  Lemma ratio_expected n : forall t T, a <= t <= b -> expected n (fun us => rval (ratio den us r t b inv T)) (T * Wn f (fun _ => 0) 1 m b n t).
  Proof.
    induction n as [|n IH]; intros t T Ht; cbn [expected].
    - cbn. ring.
    - exists (fun u => T * (if Rle_dec b (land m t u) then 1 else kern f (fun _ => 0) m (Wn f (fun _ => 0) 1 m b n) (land m t u))). split.
      + intros u U. assert (G := land_ge t u U).
        assert (E : forall us, ratio den (u :: us) r t b inv T = if Rle_dec b (land m t u) then ret (T, us) else ratio den us r (land m t u) b inv (T * (1 - f (land m t u) * inv))).
        { intros us. cbn [ratio]. rewrite (flog_val u U). cbn [pbind]. cbv zeta. rewrite Hinv. fold (land m t u). destruct (Rle_dec b (land m t u)) as [L|L]; [reflexivity|].
          rewrite ray_point_at, Hden by lra. reflexivity. }
        destruct (Rle_dec b (land m t u)) as [L|L].
        * rewrite Rmult_1_r. apply (expected_ext n (fun _ => T)); [|apply expected_const]. intros us _ _. now rewrite E.
        * replace (T * kern f (fun _ => 0) m (Wn f (fun _ => 0) 1 m b n) (land m t u)) with (T * (1 - f (land m t u) * inv) * Wn f (fun _ => 0) 1 m b n (land m t u)).
          2: { unfold kern. rewrite Hinv. unfold Rdiv. ring. }
          apply (expected_ext n (fun us => rval (ratio den us r (land m t u) b inv (T * (1 - f (land m t u) * inv))))); [|apply IH; lra]. intros us _ _. now rewrite E.
      + apply (is_RInt_scal (V := R_NormedModule)). cbn [Wn]. assert (C0 : pwall (fun _ => 0)) by (apply pwall_cont; intros; apply continuous_const). apply pflight; try assumption; try lra. intros s. now apply pWn.
  Qed.

  Variables (h : dsample -> R) (psi : R) (phi : R -> R).
  Hypothesis Cp : pwall phi.
  Hypothesis Halb : forall t, a <= t <= b -> 0 < f t -> exists c, v_color alb (ray_at r t) = ret c /\ phi t = h (mk_ds (ray_at r t) c true).
  Definition tval (o : pm (option dsample * list R)) : R := match o with Ok (Val (Some d, _)) => h d | Ok (Val (None, _)) => psi | _ => 0 end.
  Lemma track_expected n : forall t, a <= t <= b -> expected (2 * n) (fun us => tval (track den alb us r t b inv)) (Wn f phi psi m b n t).
  Proof.
    induction n as [|n IH]; intros t Ht; [reflexivity|]. replace (2 * S n)%nat with (S (S (2 * n))) by lia.
    exists (fun u => if Rle_dec b (land m t u) then psi else kern f phi m (Wn f phi psi m b n) (land m t u)). split.
    - intros u U. assert (G := land_ge t u U).
      assert (E : forall us, track den alb (u :: us) r t b inv = if Rle_dec b (land m t u) then ret (None, us) else
        match us with [] => Fuel | v :: us => if Rlt_dec v (f (land m t u) * inv) then
          (let! a := v_color alb (ray_at r (land m t u)) in ret (Some (mk_ds (ray_at r (land m t u)) a true), us)) else track den alb us r (land m t u) b inv end).
      { intros us. cbn [track]. rewrite (flog_val u U). cbn [pbind]. cbv zeta. rewrite Hinv. fold (land m t u). destruct (Rle_dec b (land m t u)) as [L|L]; [reflexivity|].
        rewrite !ray_point_at, Hden by lra. reflexivity. }
      destruct (Rle_dec b (land m t u)) as [L|L].
      + apply (expected_ext (S (2 * n)) (fun _ => psi)); [|apply expected_const]. intros us _ _. now rewrite E.
      + assert (F := Hf (land m t u) ltac:(lra)). assert (P : 0 < inv) by (rewrite Hinv; now apply Rinv_0_lt_compat).
        assert (Q : f (land m t u) * inv <= 1). { rewrite Hinv. replace 1 with (m * / m) by (field; lra). rewrite Hinv in P. nra. }
        exists (fun v => if Rlt_dec v (f (land m t u) * inv) then phi (land m t u) else Wn f phi psi m b n (land m t u)). split.
        * intros v V. destruct (Rlt_dec v (f (land m t u) * inv)) as [K|K].
          -- destruct (Halb (land m t u) ltac:(lra)) as (c & Ec & Ep). { destruct (Rle_lt_or_eq_dec 0 (f (land m t u))) as [?|X]; [lra|assumption|]. rewrite <- X in K. lra. }
             apply (expected_ext (2 * n) (fun _ => phi (land m t u))); [|apply expected_const]. intros us _ _. rewrite E. destruct (Rlt_dec _ _) as [_|?]; [|contradiction]. rewrite Ec. cbn. exact Ep.
          -- apply (expected_ext (2 * n) (fun us => tval (track den alb us r (land m t u) b inv))); [|apply IH; lra]. intros us _ _. rewrite E. destruct (Rlt_dec _ _) as [?|_]; [contradiction|]. reflexivity.
        * unfold kern, Rdiv. rewrite <- Hinv. apply uniform_split. split; [nra|lra].
    - cbn [Wn]. apply pflight; try assumption; try lra. intros s. now apply pWn.
  Qed.
End Track.

Lemma bounded_on (g : R -> R) a b : a <= b -> (forall t, continuous g t) -> exists K, forall t, a <= t <= b -> Rabs (g t) <= K.
Proof.
  intros L C. destruct (continuity_ab_maj (fun t => Rabs (g t)) a b L) as (M & HM & _).
  - intros t _. apply continuity_pt_filterlim. apply (continuous_comp g Rabs); [apply C|]. apply continuous_Rabs.
  - exists (Rabs (g M)). exact HM.
Qed.
