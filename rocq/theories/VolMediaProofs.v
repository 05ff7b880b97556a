From Coq Require Import List Reals ZArith Bool Lra Lia ZifyBool Psatz.
From Verif Require Import Base RBase VecBase GeoModel GeoSpec GeoProofs SurfProofs MatModel MatProofs CamProofs PathModel PathProofs VolModel VolSpec VolProofs.
Import ListNotations.
Open Scope R_scope.

Lemma ray_point_at r t : ray_point r t = ray_at r t. Proof. reflexivity. Qed.

(** The part of the ray between [t0] and [t1] in the box: none, or from [x] to [y]. *)
Definition part (b : bound) (r : ray) (t0 t1 : R) (o : option (R * R)) : Prop :=
  match o with
  | None => forall t, t0 <= t <= t1 -> ~ in_box b (ray_at r t)
  | Some (x, y) => x <= y /\ forall t, x <= t <= y <-> t0 <= t <= t1 /\ in_box b (ray_at r t)
  end.
Lemma range_part b r t0 t1 : valid_box b -> general b r -> exists o, range b r t0 t1 = Val o /\ part b r t0 t1 o.
Proof.
  intros V G. unfold range. destruct (isect_range b r t0 t1) as [[g l] h] eqn:E. destruct g.
  - destruct (isect_range_out b r t0 t1 l h V G E) as (x & y & -> & -> & L & Q). exists (Some (x, y)). split; [reflexivity|]. cbn [part]. now split.
  - exists None. split; [reflexivity|]. intros t Ht I. destruct (isect_range_in b r t0 t1 t Ht I) as (l' & h' & E' & _). congruence.
Qed.
Definition len (o : option (R * R)) : R := match o with None => 0 | Some (x, y) => y - x end.
Lemma len_pos b r t0 t1 o : part b r t0 t1 o -> 0 <= len o.
Proof. destruct o as [[x y]|]; cbn; [intros [? _]|]; lra. Qed.
Lemma part_add b r t0 t1 t2 o01 o12 o02 : t0 <= t1 <= t2 -> part b r t0 t1 o01 -> part b r t1 t2 o12 -> part b r t0 t2 o02 -> len o02 = len o01 + len o12.
Proof.
  intros T P Q S. destruct o02 as [[x y]|]; cbn [part] in S.
  - destruct S as [L S]. assert (Sx := proj1 (S x) ltac:(lra)). assert (Sy := proj1 (S y) ltac:(lra)).
    assert (In : forall t, x <= t <= y -> in_box b (ray_at r t)) by (intros t Ht; now apply (S t)).
    destruct o01 as [[x1 y1]|]; destruct o12 as [[x2 y2]|]; cbn [part len] in *.
    + destruct P as [L1 P]. destruct Q as [L2 Q]. assert (P1 := proj1 (P x1) ltac:(lra)). assert (P2 := proj1 (P y1) ltac:(lra)).
      assert (Q1 := proj1 (Q x2) ltac:(lra)). assert (Q2 := proj1 (Q y2) ltac:(lra)).
      assert (x <= x1 <= y) by (apply S; intuition lra). assert (x <= y1 <= y) by (apply S; intuition lra).
      assert (x <= x2 <= y) by (apply S; intuition lra). assert (x <= y2 <= y) by (apply S; intuition lra).
      assert (x1 <= x <= y1) by (apply P; split; [lra|tauto]). assert (x2 <= y <= y2) by (apply Q; split; [lra|tauto]).
      assert (I : in_box b (ray_at r t1)) by (apply In; lra).
      assert (x1 <= t1 <= y1) by (apply P; split; [lra|tauto]). assert (x2 <= t1 <= y2) by (apply Q; split; [lra|tauto]). lra.
    + destruct P as [L1 P]. assert (P1 := proj1 (P x1) ltac:(lra)). assert (P2 := proj1 (P y1) ltac:(lra)).
      assert (x <= x1 <= y) by (apply S; intuition lra). assert (x <= y1 <= y) by (apply S; intuition lra).
      assert (y < t1) by (apply Rnot_le_lt; intros K; apply (Q y); [lra|tauto]).
      assert (x1 <= x <= y1) by (apply P; split; [lra|tauto]). assert (x1 <= y <= y1) by (apply P; split; [lra|tauto]). lra.
    + destruct Q as [L1 Q]. assert (P1 := proj1 (Q x2) ltac:(lra)). assert (P2 := proj1 (Q y2) ltac:(lra)).
      assert (x <= x2 <= y) by (apply S; intuition lra). assert (x <= y2 <= y) by (apply S; intuition lra).
      assert (t1 < x) by (apply Rnot_le_lt; intros K; apply (P x); [lra|tauto]).
      assert (x2 <= x <= y2) by (apply Q; split; [lra|tauto]). assert (x2 <= y <= y2) by (apply Q; split; [lra|tauto]). lra.
    + exfalso. destruct (Rle_dec x t1); [apply (P x)|apply (Q x)]; try tauto; lra.
  - destruct o01 as [[x1 y1]|]; cbn [part] in *.
    + destruct P as [L1 P]. exfalso. assert (P1 := proj1 (P x1) ltac:(lra)). apply (S x1); [lra|tauto].
    + destruct o12 as [[x2 y2]|]; cbn [part len] in *; [|lra].
      destruct Q as [L1 Q]. exfalso. assert (P1 := proj1 (Q x2) ltac:(lra)). apply (S x2); [lra|tauto].
Qed.

Lemma homogeneous_tr d a lo hi us r t0 t1 o : range (box lo hi) r t0 t1 = Val o ->
  md_transmittance (homogeneous d a lo hi) us r t0 t1 = ret (grey (exp (- d * len o)), us).
Proof.
  intros E. cbn [md_transmittance homogeneous]. change (mk_bound _ _) with (box lo hi). rewrite E. cbn [pbind].
  destruct o as [[x y]|]; cbn [len]; [reflexivity|]. rewrite Rmult_0_r, exp_0. reflexivity.
Qed.

Lemma ln_nonpos u : 0 <= u < 1 -> ln (1 - u) <= 0.
Proof. intros H. destruct (Req_dec u 0) as [->|N]; [rewrite Rminus_0_r, ln_1; lra|]. assert (ln (1 - u) < ln 1) by (apply ln_increasing; lra). rewrite ln_1 in H0. lra. Qed.
Lemma ln_big u d : 0 < d -> d <= u < 1 -> ln (1 - u) <= - d.
Proof.
  intros H Hu. assert (1 - u <= exp (- d)). { assert (X := exp_ineq1_le (- d)). lra. }
  destruct (Req_dec (1 - u) (exp (- d))) as [->|N]; [rewrite ln_exp; lra|]. rewrite <- (ln_exp (- d)). left. apply ln_increasing; lra.
Qed.
Lemma flog_val u : 0 <= u < 1 -> flog (1 - u) = Val (ln (1 - u)).
Proof. intros H. unfold flog. destruct (Rlt_dec 0 (1 - u)); [reflexivity|lra]. Qed.

Lemma INR_unbounded a : exists n, a < INR n.
Proof.
  destruct (archimed a) as [A _]. exists (Z.to_nat (up a)). destruct (Z_le_dec 0 (up a)) as [H|H].
  - rewrite INR_IZR_INZ, Z2Nat.id by exact H. exact A.
  - assert (IZR (up a) < IZR 0) by (apply IZR_lt; lia). assert (X := pos_INR (Z.to_nat (up a))). lra.
Qed.

Section Track.
  Variables (den alb : volume).
  (** Along the range the density is defined and at most the majorant. *)
  Variables (r : ray) (tmin tmax m inv : R).
  Hypothesis Hm : 0 < m.
  Hypothesis Hinv : inv = / m.
  Hypothesis Hden : forall t, tmin <= t <= tmax -> exists x, v_scalar den (ray_at r t) = ret x /\ 0 <= x <= m.
  Let inv_pos : 0 < inv. Proof. subst inv. now apply Rinv_0_lt_compat. Qed.

  Lemma track_sound us : draws us -> forall t o us', tmin <= t <= tmax -> track den alb us r t tmax inv = ret (Some o, us') ->
    exists s x c, t <= s < tmax /\ v_scalar den (ray_at r s) = ret x /\ 0 < x /\ v_color alb (ray_at r s) = ret c /\ o = mk_ds (ray_at r s) c true.
  Proof.
    intros D. remember (length us) as n eqn:Hn. assert (Hle : (length us <= n)%nat) by lia. clear Hn. revert us D Hle.
    induction n as [|n IH]; intros us D Hle t o us' Ht H; (destruct us as [|u us]; [discriminate|]); cbn [length] in Hle; [lia|].
    apply Forall_cons_iff in D as [Du D']. cbn [track] in H. rewrite flog_val in H by exact Du. cbn [pbind] in H.
    assert (L := ln_nonpos u Du). set (s := t - ln (1 - u) * inv) in *. assert (Ls : t <= s) by (unfold s; nra).
    destruct (Rle_dec tmax s); [discriminate|]. change (ray_point r s) with (ray_at r s) in H.
    destruct (Hden s ltac:(lra)) as (x & Ex & Bx). rewrite Ex in H. cbn [pbind ret] in H.
    destruct us as [|u2 us]; [discriminate|]. apply Forall_cons_iff in D' as [Du2 D''].
    destruct (Rlt_dec u2 (x * inv)).
    - destruct (v_color alb (ray_at r s)) as [[c| |]| | |] eqn:Ec; cbn [pbind] in H; try discriminate.
      exists s, x, c. repeat split; auto; try lra.
      + assert (0 < x * inv) by lra. apply Rmult_lt_reg_r with inv; [apply inv_pos|]. lra.
      + unfold ret in H. congruence.
    - cbn [length] in Hle. destruct (IH us D'' ltac:(lia) s o us' ltac:(lra) H) as (s' & x' & c & A & B). exists s', x', c. split; [lra|exact B].
  Qed.

  Hypothesis Halb : forall t x, tmin <= t <= tmax -> v_scalar den (ray_at r t) = ret x -> 0 < x -> exists c, v_color alb (ray_at r t) = ret c.
  Lemma track_safe us : draws us -> forall t, tmin <= t <= tmax -> track den alb us r t tmax inv = Fuel \/ exists o, track den alb us r t tmax inv = ret o.
  Proof.
    intros D. remember (length us) as n eqn:Hn. assert (Hle : (length us <= n)%nat) by lia. clear Hn. revert us D Hle.
    induction n as [|n IH]; intros us D Hle t Ht; (destruct us as [|u us]; [now left|]); cbn [length] in Hle; [lia|].
    apply Forall_cons_iff in D as [Du D']. cbn [track]. rewrite flog_val by exact Du. cbn [pbind].
    assert (L := ln_nonpos u Du). set (s := t - ln (1 - u) * inv) in *. assert (Ls : t <= s) by (unfold s; assert (X := inv_pos); nra).
    destruct (Rle_dec tmax s); [right; eauto|]. change (ray_point r s) with (ray_at r s).
    destruct (Hden s ltac:(lra)) as (x & Ex & Bx). rewrite Ex. cbn [pbind ret].
    destruct us as [|u2 us]; [now left|]. apply Forall_cons_iff in D' as [Du2 D''].
    destruct (Rlt_dec u2 (x * inv)).
    - destruct (Halb s x ltac:(lra) Ex) as (c & ->). { assert (0 < x * inv) by lra. apply Rmult_lt_reg_r with inv; [apply inv_pos|]. lra. }
      right. cbn [pbind ret]. eauto.
    - cbn [length] in Hle. apply IH; [exact D''|lia|lra].
  Qed.

  (** Random numbers of which infinitely many at even places are at least [d] end the loop. *)
  Lemma track_ends (u : nat -> R) d : (forall n, 0 <= u n < 1) -> 0 < d -> (forall n, exists k, (n <= k)%nat /\ d <= u (2 * k)%nat) ->
    forall j t, tmin <= t <= tmax -> exists n o, track den alb (map u (seq (2 * j) n)) r t tmax inv = ret o.
  Proof.
    intros U Hd F. assert (Ip := inv_pos).
    assert (Main : forall c j t, tmin <= t <= tmax -> tmax - t <= INR c * (d * inv) -> exists n o, track den alb (map u (seq (2 * j) n)) r t tmax inv = ret o).
    2: { intros j t Ht. destruct (INR_unbounded ((tmax - t) / (d * inv))) as [c Hc]. apply (Main c j t Ht).
         assert (0 < d * inv) by now apply Rmult_lt_0_compat. apply Rmult_le_reg_r with (/ (d * inv)); [now apply Rinv_0_lt_compat|].
         rewrite Rmult_assoc, Rinv_r by lra. unfold Rdiv in Hc. lra. }
    induction c as [|c IH]; intros j t Ht Hc.
    { (* the next free flight always passes *) cbn [INR] in Hc. exists 1%nat. cbn [seq map track].
      rewrite flog_val by apply U. cbn [pbind]. assert (L := ln_nonpos _ (U (2 * j)%nat)).
      destruct (Rle_dec tmax (t - ln (1 - u (2 * j)%nat) * inv)); [eauto|]. exfalso. nra. }
    destruct (F j) as (k & Hk & Hd'). remember (k - j)%nat as g eqn:Hg. revert j t Ht Hc Hk Hg. induction g as [|g IHg]; intros j t Ht Hc Hk Hg.
    - assert (k = j) by lia. subst k. assert (L := ln_big _ d Hd (conj Hd' (proj2 (U (2 * j)%nat)))).
      set (s := t - ln (1 - u (2 * j)%nat) * inv). assert (Ls : t + d * inv <= s) by (unfold s; nra).
      destruct (Rle_dec tmax s) as [Q|Q].
      { exists 1%nat. cbn [seq map track]. rewrite flog_val by apply U. cbn [pbind]. fold s. destruct (Rle_dec tmax s); [eauto|lra]. }
      assert (Hs : tmin <= s <= tmax) by (assert (0 < d * inv) by (now apply Rmult_lt_0_compat); lra).
      destruct (Hden s Hs) as (x & Ex & Bx).
      destruct (Rlt_dec (u (S (2 * j))) (x * inv)) as [Q2|Q2].
      { destruct (Halb s x Hs Ex) as (c' & Ec). { assert (0 < x * inv) by (assert (X := U (S (2 * j))); lra). apply Rmult_lt_reg_r with inv; [exact Ip|]. lra. }
        exists 2%nat. cbn [seq map track]. rewrite flog_val by apply U. cbn [pbind]. fold s. destruct (Rle_dec tmax s); [lra|].
        change (ray_point r s) with (ray_at r s). rewrite Ex. cbn [pbind ret]. destruct (Rlt_dec _ _); [|lra]. rewrite Ec. cbn [pbind ret]. eauto. }
      destruct (IH (S j) s Hs) as (n & o & E). { rewrite S_INR in Hc. lra. }
      exists (S (S n)), o. cbn [seq map track]. rewrite flog_val by apply U. cbn [pbind]. fold s. destruct (Rle_dec tmax s); [lra|].
      change (ray_point r s) with (ray_at r s). rewrite Ex. cbn [pbind ret]. destruct (Rlt_dec _ _); [lra|].
      replace (S (S (2 * j))) with (2 * S j)%nat by lia. exact E.
    - assert (L := ln_nonpos _ (U (2 * j)%nat)).
      set (s := t - ln (1 - u (2 * j)%nat) * inv). assert (Ls : t <= s) by (unfold s; nra).
      destruct (Rle_dec tmax s) as [Q|Q].
      { exists 1%nat. cbn [seq map track]. rewrite flog_val by apply U. cbn [pbind]. fold s. destruct (Rle_dec tmax s); [eauto|lra]. }
      assert (Hs : tmin <= s <= tmax) by lra.
      destruct (Hden s Hs) as (x & Ex & Bx).
      destruct (Rlt_dec (u (S (2 * j))) (x * inv)) as [Q2|Q2].
      { destruct (Halb s x Hs Ex) as (c' & Ec). { assert (0 < x * inv) by (assert (X := U (S (2 * j))); lra). apply Rmult_lt_reg_r with inv; [exact Ip|]. lra. }
        exists 2%nat. cbn [seq map track]. rewrite flog_val by apply U. cbn [pbind]. fold s. destruct (Rle_dec tmax s); [lra|].
        change (ray_point r s) with (ray_at r s). rewrite Ex. cbn [pbind ret]. destruct (Rlt_dec _ _); [|lra]. rewrite Ec. cbn [pbind ret]. eauto. }
      destruct (IHg (S j) s Hs ltac:(lra) ltac:(lia) ltac:(lia)) as (n & o & E).
      exists (S (S n)), o. cbn [seq map track]. rewrite flog_val by apply U. cbn [pbind]. fold s. destruct (Rle_dec tmax s); [lra|].
      change (ray_point r s) with (ray_at r s). rewrite Ex. cbn [pbind ret]. destruct (Rlt_dec _ _); [lra|].
      replace (S (S (2 * j))) with (2 * S j)%nat by lia. exact E.
  Qed.

  Lemma ratio_range us : draws us -> forall t T, tmin <= t <= tmax -> 0 <= T <= 1 ->
    ratio den us r t tmax inv T = Fuel \/ exists T' us', ratio den us r t tmax inv T = ret (T', us') /\ 0 <= T' <= T.
  Proof.
    induction us as [|u us IH]; intros D t T Ht HT; [now left|]. apply Forall_cons_iff in D as [Du D']. cbn [ratio]. rewrite flog_val by exact Du. cbn [pbind].
    assert (L := ln_nonpos u Du). set (s := t - ln (1 - u) * inv) in *. assert (Ls : t <= s) by (unfold s; assert (X := inv_pos); nra).
    destruct (Rle_dec tmax s); [right; exists T, us; split; [reflexivity|lra]|]. change (ray_point r s) with (ray_at r s).
    destruct (Hden s ltac:(lra)) as (x & Ex & Bx). rewrite Ex. cbn [pbind ret].
    assert (K : 0 <= 1 - x * inv <= 1).
    { assert (X := inv_pos). assert (x * inv <= 1) by (apply Rmult_le_reg_r with m; [lra|]; rewrite Hinv, Rmult_assoc, Rinv_l by lra; lra). nra. }
    assert (K2 : 0 <= T * (1 - x * inv) <= T) by nra.
    destruct (IH D' s (T * (1 - x * inv)) ltac:(lra) ltac:(lra)) as [E|(T' & us' & E & B)]; [now left|]. right. exists T', us'. split; [exact E|lra].
  Qed.
  Lemma ratio_ends (u : nat -> R) d : (forall n, 0 <= u n < 1) -> 0 < d -> (forall n, exists k, (n <= k)%nat /\ d <= u k) ->
    forall j t T, tmin <= t <= tmax -> exists n o, ratio den (map u (seq j n)) r t tmax inv T = ret o.
  Proof.
    intros U Hd F. assert (Ip := inv_pos).
    assert (Main : forall c j t T, tmin <= t <= tmax -> tmax - t <= INR c * (d * inv) -> exists n o, ratio den (map u (seq j n)) r t tmax inv T = ret o).
    2: { intros j t T Ht. destruct (INR_unbounded ((tmax - t) / (d * inv))) as [c Hc]. apply (Main c j t T Ht).
         assert (0 < d * inv) by now apply Rmult_lt_0_compat. apply Rmult_le_reg_r with (/ (d * inv)); [now apply Rinv_0_lt_compat|].
         rewrite Rmult_assoc, Rinv_r by lra. unfold Rdiv in Hc. lra. }
    assert (One : forall j t T, tmin <= t <= tmax -> forall s, s = t - ln (1 - u j) * inv ->
      (tmax <= s -> exists n o, ratio den (map u (seq j n)) r t tmax inv T = ret o) /\
      (s < tmax -> (forall T', exists n o, ratio den (map u (seq (S j) n)) r s tmax inv T' = ret o) -> exists n o, ratio den (map u (seq j n)) r t tmax inv T = ret o)).
    { intros j t T Ht s Es. assert (L := ln_nonpos _ (U j)). split.
      - intros Q. exists 1%nat. cbn [seq map ratio]. rewrite flog_val by apply U. cbn [pbind]. rewrite <- Es. destruct (Rle_dec tmax s); [eauto|lra].
      - intros Q N. destruct (Hden s) as (x & Ex & Bx). { assert (t <= s) by nra. lra. }
        destruct (N (T * (1 - x * inv))) as (n & o & E). exists (S n), o. cbn [seq map ratio]. rewrite flog_val by apply U. cbn [pbind]. rewrite <- Es.
        destruct (Rle_dec tmax s); [lra|]. change (ray_point r s) with (ray_at r s). rewrite Ex. cbn [pbind ret]. exact E. }
    induction c as [|c IH]; intros j t T Ht Hc.
    { cbn [INR] in Hc. assert (L := ln_nonpos _ (U j)). destruct (One j t T Ht _ eq_refl) as [A _]. apply A. nra. }
    destruct (F j) as (k & Hk & Hd'). remember (k - j)%nat as g eqn:Hg. revert j t T Ht Hc Hk Hg. induction g as [|g IHg]; intros j t T Ht Hc Hk Hg.
    - assert (k = j) by lia. subst k. assert (L := ln_big _ d Hd (conj Hd' (proj2 (U j)))).
      destruct (One j t T Ht _ eq_refl) as [A B]. set (s := t - ln (1 - u j) * inv) in *. assert (Ls : t + d * inv <= s) by (unfold s; nra).
      destruct (Rle_dec tmax s) as [Q|Q]; [now apply A|]. apply B; [lra|]. intros T'. apply IH; [|rewrite S_INR in Hc; lra].
      assert (0 < d * inv) by (now apply Rmult_lt_0_compat). lra.
    - assert (L := ln_nonpos _ (U j)). destruct (One j t T Ht _ eq_refl) as [A B]. set (s := t - ln (1 - u j) * inv) in *. assert (Ls : t <= s) by (unfold s; nra).
      destruct (Rle_dec tmax s) as [Q|Q]; [now apply A|]. apply B; [lra|]. intros T'. apply IHg; try lia; lra.
  Qed.
End Track.
