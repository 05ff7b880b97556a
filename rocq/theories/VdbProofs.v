From Coq Require Import String List Reals Lra Lia Psatz.
From Coquelicot Require Import Coquelicot.
From Verif Require Import Base RBase VecBase GeoModel GeoSpec GeoProofs MatModel MatProofs PathModel PathProofs VolModel VolSpec VolProofs VolMediaProofs VolProps VolExpectSpec VolExpectProofs VolPieceProofs VolRayProofs VolTrackProofs VolExpectProps MarchModel VdbModel VdbSpec.
Import ListNotations.
Open Scope R_scope.

Lemma grid_along g s v : sound g -> 0 <= s -> shows g s v -> forall p, exists k, v_scalar v p = ret k /\ 0 <= k <= s * g_max g.
Proof.
  intros [M S] P (_ & _ & _ & _ & E) p. exists (s * g_eval g p). split; [apply E|]. specialize (S p).
  split; [apply Rmult_le_pos; lra|apply Rmult_le_compat_l; lra].
Qed.

(** Ratio tracking for any density that is piecewise continuous along the ray and at most the maximum *)
Lemma ratio_mean den alb r t0 t1 m x y f : v_max den = ret m -> 0 < m ->
  valid_box (v_bound den) -> general (v_bound den) r -> inside den r t0 t1 x y -> density_is den r x y f ->
  piecewise f x y -> (forall t, x <= t <= y -> 0 <= f t <= m) ->
  ex_RInt f x y /\ exists e : nat -> R,
    (forall n, expected n (fun us => match md_transmittance (heterogeneous den alb) us r t0 t1 with Ok (Val (T, _)) => vx T | _ => 0 end) (e n)) /\
    is_lim_seq e (exp (- RInt f x y)).
Proof.
  intros E Hm V G I Df Pf Bf. assert (Er := range_inside _ _ _ _ _ _ V G I). assert (L := proj1 I).
  split; [now apply pw_int_le|]. rewrite <- (rint_cut x y f L).
  assert (Cf := pw_cut _ _ _ Pf). assert (Dg : density_is den r x y (cut x y f)) by (intros t Ht; rewrite cut_in by exact Ht; now apply Df).
  assert (Hf : forall t, x <= t <= y -> 0 <= cut x y f t <= m) by (intros t Ht; rewrite cut_in by exact Ht; now apply Bf).
  set (g := cut x y f) in *. clearbody g. clear f Df Pf Bf.
  assert (C0 : pwall (fun _ : R => 0)) by (apply pwall_cont; intros; apply continuous_const).
  exists (fun n => Wn g (fun _ => 0) 1 m y n x). split.
  - intros n. apply (expected_ext n (fun us => rval (ratio den us r x y (/ m) 1))).
    + intros us _ _. cbn [md_transmittance heterogeneous]. rewrite Er. cbn [pbind]. rewrite E. cbn [pbind ret]. rewrite (inv_max m Hm). cbn [pbind].
      destruct (ratio den us r x y (/ m) 1) as [[[T us']| |]| | |]; reflexivity.
    + assert (H := ratio_expected den r x y m (/ m) g Hm eq_refl Cf Dg n x 1 ltac:(lra)). rewrite Rmult_1_l in H. exact H.
  - destruct (bounded_on (Sol g (fun _ => 0) 1 y) x y L) as (K & HK); [now apply pSol|].
    replace (Finite (exp (- RInt g x y))) with (Finite (Sol g (fun _ => 0) 1 y x)); [apply (plim g (fun _ => 0) m Hm Cf C0 x y 1 K Hf HK x); lra|].
    f_equal. unfold Sol. replace (RInt (fun s => g s * Tr g x s * 0) x y) with 0; [unfold Tr; ring|]. symmetry.
    rewrite (RInt_ext (V := R_CompleteNormedModule) (fun s => g s * Tr g x s * 0) (fun _ => 0)) by (intros; apply Rmult_0_r). rewrite RInt_const. unfold scal; cbn; unfold mult; cbn. ring.
Qed.
Lemma pw_scale s f a b : piecewise f a b -> piecewise (fun t => s * f t) a b.
Proof.
  induction 1 as [a b c L C E|a b c _ IH1 _ IH2].
  - apply pw_one with (fun t => s * c t); [exact L| |intros t Ht; now rewrite E].
    intros t. apply (continuous_scal_r s c t), C.
  - now apply pw_two with b.
Qed.

(** With a negative maximum the walk goes backwards. *)
Lemma track_back den alb r m : m < 0 -> (forall p, exists k, v_scalar den p = ret k /\ m <= k <= 0) -> (forall p, exists c, v_color alb p = ret c) ->
  forall us, draws us -> forall t tmax, t < tmax ->
  track den alb us r t tmax (/ m) = Fuel \/ exists s c us', s <= t /\ v_color alb (ray_at r s) = ret c /\ track den alb us r t tmax (/ m) = ret (Some (mk_ds (ray_at r s) c true), us').
Proof.
  intros Hm Hd Ha us D. remember (length us) as n eqn:Hn. assert (Hle : (length us <= n)%nat) by lia. clear Hn. revert us D Hle.
  assert (I : / m < 0) by now apply Rinv_lt_0_compat.
  induction n as [|n IH]; intros us D Hle t tmax Ht; (destruct us as [|u us]; [now left|]); cbn [length] in Hle; [lia|].
  apply Forall_cons_iff in D as [Du D']. cbn [track]. rewrite flog_val by exact Du. cbn [pbind]. assert (L := ln_nonpos u Du).
  set (s := t - ln (1 - u) * / m). assert (Ls : s <= t) by (unfold s; assert (0 <= ln (1 - u) * / m) by (rewrite <- Rmult_opp_opp; apply Rmult_le_pos; lra); lra).
  destruct (Rle_dec tmax s); [lra|]. change (ray_point r s) with (ray_at r s). destruct (Hd (ray_at r s)) as (k & Ek & Bk). rewrite Ek. cbn [pbind ret].
  destruct us as [|u2 us]; [now left|]. apply Forall_cons_iff in D' as [Du2 D''].
  destruct (Rlt_dec u2 (k * / m)).
  - destruct (Ha (ray_at r s)) as (c & Ec). right. exists s, c, us. rewrite Ec. now repeat split.
  - cbn [length] in Hle. destruct (IH us D'' ltac:(lia) s tmax ltac:(lra)) as [E|(s' & c & us' & A & B & E)]; [now left|]. right. exists s', c, us'. split; [lra|]. now split.
Qed.

Lemma march_visits {A} (body : R -> A -> fl (A * bool)) ts : forall a b, march body ts a = Val b <-> exists seen, visits body ts a seen b.
Proof.
  induction ts as [|t ts IH]; intros a b; cbn [march].
  - split; [intros [= ->]; exists []; constructor|]. intros (s & V). inversion V. reflexivity.
  - destruct (body t a) as [[c []]| |] eqn:E; cbn [fbind fst snd].
    + rewrite IH. split; intros (s & V); [exists (t :: s); now apply visits_go with c|]. inversion V; subst; [congruence|]. match goal with H : body t a = Val (?x, true), V : visits body ts ?x ?s b |- _ => rewrite E in H; injection H as <-; now exists s end.
    + split; [intros [= ->]; exists [t]; now apply visits_stop|]. intros (s & V). inversion V; subst; congruence.
    + split; [discriminate|]. intros (s & V). inversion V; subst; congruence.
    + split; [discriminate|]. intros (s & V). inversion V; subst; congruence.
Qed.
Lemma visits_prefix {A} (body : R -> A -> fl (A * bool)) ts a seen b : visits body ts a seen b -> exists rest, ts = seen ++ rest.
Proof. induction 1 as [a|t ts a b E|t ts a b seen c E V [rest ->]]; [now exists []|now exists ts|now exists rest]. Qed.
