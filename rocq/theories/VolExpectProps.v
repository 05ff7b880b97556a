(** C52, continued: the tracking loops of heterogeneous media compute the right distributions on average. *)
From Coq Require Import List Reals Lra Lia.
From Coquelicot Require Import Coquelicot.
From Verif Require Import Base RBase VecBase GeoModel GeoSpec GeoProofs MatModel MatProofs PathModel PathProofs VolModel VolSpec VolProofs VolMediaProofs VolProps VolExpectSpec VolExpectProofs VolPieceProofs VolRayProofs VolTrackProofs.
Import ListNotations.
Open Scope R_scope.

(** The numbers for which the point of the ray is in the bound of the volume *)
Definition inside (den : volume) (r : ray) (t0 t1 x y : R) : Prop :=
  x <= y /\ forall t, x <= t <= y <-> t0 <= t <= t1 /\ in_box (v_bound den) (ray_at r t).
(** The density along the ray *)
Definition density_is (den : volume) (r : ray) (x y : R) (f : R -> R) : Prop := forall t, x <= t <= y -> v_scalar den (ray_at r t) = ret (f t).

Lemma range_inside den r t0 t1 x y : valid_box (v_bound den) -> general (v_bound den) r -> inside den r t0 t1 x y -> range (v_bound den) r t0 t1 = Val (Some (x, y)).
Proof.
  intros V G (L & I). destruct (range_part _ r t0 t1 V G) as (o & E & P). rewrite E. destruct o as [[x' y']|]; cbn [part] in P.
  - destruct P as (L' & I'). assert (A1 := proj2 (I' x) (proj1 (I x) ltac:(lra))). assert (A2 := proj2 (I' y) (proj1 (I y) ltac:(lra))).
    assert (A3 := proj2 (I x') (proj1 (I' x') ltac:(lra))). assert (A4 := proj2 (I y') (proj1 (I' y') ltac:(lra))). do 3 f_equal; lra.
  - exfalso. assert (A1 := proj1 (I x) ltac:(lra)). destruct A1 as (A1 & A2). exact (P x A1 A2).
Qed.

(** The density of a volume is piecewise continuous where the ray is in its bound. *)
Lemma density_pw den r t0 t1 x y f : made den -> v_has_scalar den = true -> inside den r t0 t1 x y -> density_is den r x y f -> piecewise f x y.
Proof.
  intros M S (L & I) D. destruct (made_along den M S r x y L) as (k & Pk & Ek). apply (pw_ext k); [|exact Pk].
  intros t Ht. assert (Q := proj1 (I t) ltac:(lra)). assert (E := Ek t (proj2 Q)). rewrite (D t) in E by lra. unfold ret in E. congruence.
Qed.
Lemma rint_cut x y g : x <= y -> RInt (cut x y g) x y = RInt g x y.
Proof. intros L. apply RInt_ext. intros s Hs. rewrite Rmin_left, Rmax_right in Hs by lra. apply cut_in. lra. Qed.

(** Ratio tracking is unbiased for every volume that can be constructed: with enough random numbers, its mean is the
    transmittance of the part of the segment in the volume, exp (- integral of the density). *)
Theorem C52_ratio_unbiased : forall den alb r t0 t1 m x y f, made den -> v_has_scalar den = true -> v_max den = ret m -> 0 < m ->
  valid_box (v_bound den) -> general (v_bound den) r -> inside den r t0 t1 x y -> density_is den r x y f ->
  ex_RInt f x y /\ exists e : nat -> R,
    (forall n, expected n (fun us => match md_transmittance (heterogeneous den alb) us r t0 t1 with Ok (Val (T, _)) => vx T | _ => 0 end) (e n)) /\
    is_lim_seq e (exp (- RInt f x y)).
Proof.
  intros den alb r t0 t1 m x y f M S E Hm V G I Df. assert (Er := range_inside _ _ _ _ _ _ V G I). assert (L := proj1 I).
  assert (Pf := density_pw _ _ _ _ _ _ _ M S I Df). split; [now apply pw_int_le|]. rewrite <- (rint_cut x y f L).
  assert (Cf := pw_cut _ _ _ Pf). assert (Dg : density_is den r x y (cut x y f)) by (intros t Ht; rewrite cut_in by exact Ht; now apply Df).
  set (g := cut x y f) in *. clearbody g. clear f Df Pf.
  assert (Hf : forall t, x <= t <= y -> 0 <= g t <= m).
  { intros t Ht. destruct (along den r t0 t1 x y m M S E I t Ht) as (k & Ek & B). rewrite (Dg t Ht) in Ek. unfold ret in Ek. injection Ek as ->. exact B. }
  assert (C0 : pwall (fun _ : R => 0)) by (apply pwall_cont; intros; apply continuous_const).
  exists (fun n => Wn g (fun _ => 0) 1 m y n x). split.
  - intros n. apply (expected_ext n (fun us => rval (ratio den us r x y (/ m) 1))).
    + intros us _ _. cbn [md_transmittance heterogeneous]. rewrite Er. cbn [pbind]. rewrite E. cbn [pbind ret]. rewrite (inv_max m Hm). cbn [pbind].
      destruct (ratio den us r x y (/ m) 1) as [[[T us']| |]| | |]; reflexivity.
    + assert (H := ratio_expected den r x y m (/ m) g Hm eq_refl Cf Dg n x 1 ltac:(lra)). rewrite Rmult_1_l in H. exact H.
  - destruct (bounded_on (Sol g (fun _ => 0) 1 y) x y L) as (K & HK); [now apply pSol|].
    replace (Finite (exp (- RInt g x y))) with (Finite (Sol g (fun _ => 0) 1 y x)); [apply (plim g (fun _ => 0) m Hm Cf C0 x y 1 K Hf HK x); lra|].
    f_equal. unfold Sol. replace (RInt (fun s => g s * Tr g x s * 0) x y) with 0; [unfold Tr; ring|]. symmetry.
    rewrite (RInt_ext (V := R_CompleteNormedModule) (fun s => g s * Tr g x s * 0) (fun _ => 0)) by (intros; apply Rmult_0_r). rewrite RInt_const. unfold scal; cbn; unfold mult; cbn. ring.
Qed.
Print Assumptions C52_ratio_unbiased.

(** Delta tracking samples the right distribution: with enough random numbers, the mean of any function of the
    result that is piecewise continuous along the ray and worth [psi] without an event, is
    psi exp (- integral of f) + integral of f(s) exp (- integral of f up to s) h(event at s). *)
Theorem C52_delta_unbiased : forall den alb r t0 t1 m x y f h psi phi, made den -> v_has_scalar den = true -> v_max den = ret m -> 0 < m ->
  valid_box (v_bound den) -> general (v_bound den) r -> inside den r t0 t1 x y -> density_is den r x y f ->
  piecewise phi x y ->
  (forall t, x <= t <= y -> 0 < f t -> exists c, v_color alb (ray_at r t) = ret c /\ phi t = h (mk_ds (ray_at r t) c true)) ->
  ex_RInt (fun s => f s * exp (- RInt f x s) * phi s) x y /\ exists e : nat -> R,
    (forall n, expected (2 * n) (fun us => match md_sample (heterogeneous den alb) us r t0 t1 with
       Ok (Val (Some d, _)) => h d | Ok (Val (None, _)) => psi | _ => 0 end) (e n)) /\
    is_lim_seq e (psi * exp (- RInt f x y) + RInt (fun s => f s * exp (- RInt f x s) * phi s) x y).
Proof.
  intros den alb r t0 t1 m x y f h psi phi M S E Hm V G I Df Pp Ha. assert (Er := range_inside _ _ _ _ _ _ V G I). assert (L := proj1 I).
  assert (Pf := density_pw _ _ _ _ _ _ _ M S I Df).
  assert (Cf := pw_cut _ _ _ Pf). assert (Cp := pw_cut _ _ _ Pp).
  assert (Dg : density_is den r x y (cut x y f)) by (intros t Ht; rewrite cut_in by exact Ht; now apply Df).
  assert (Ec : forall s, x < s < y -> cut x y f s * Tr (cut x y f) x s * cut x y phi s = f s * exp (- RInt f x s) * phi s).
  { intros s Hs. unfold Tr. rewrite !cut_in by lra. do 4 f_equal. apply RInt_ext. intros u Hu. rewrite Rmin_left, Rmax_right in Hu by lra. apply cut_in. lra. }
  assert (Ei : psi * exp (- RInt f x y) + RInt (fun s => f s * exp (- RInt f x s) * phi s) x y = Sol (cut x y f) (cut x y phi) psi y x).
  { unfold Sol. f_equal; [unfold Tr; now rewrite rint_cut|]. apply RInt_ext. intros s Hs. rewrite Rmin_left, Rmax_right in Hs by lra. symmetry. now apply Ec. }
  rewrite Ei. split.
  { apply (ex_RInt_ext (V := R_NormedModule) (fun s => cut x y f s * Tr (cut x y f) x s * cut x y phi s)).
    - intros s Hs. rewrite Rmin_left, Rmax_right in Hs by lra. now apply Ec.
    - apply pw_int. now apply pTrint. }
  assert (Hb : forall t, x <= t <= y -> 0 < cut x y f t -> exists c, v_color alb (ray_at r t) = ret c /\ cut x y phi t = h (mk_ds (ray_at r t) c true)).
  { intros t Ht. rewrite !cut_in by exact Ht. now apply Ha. }
  set (g := cut x y f) in *. set (k := cut x y phi) in *. clearbody g k. clear f phi Df Pf Pp Ha Ec Ei.
  assert (Hf : forall t, x <= t <= y -> 0 <= g t <= m).
  { intros t Ht. destruct (along den r t0 t1 x y m M S E I t Ht) as (q & Ek & B). rewrite (Dg t Ht) in Ek. unfold ret in Ek. injection Ek as ->. exact B. }
  exists (fun n => Wn g k psi m y n x). split.
  - intros n. apply (expected_ext (2 * n) (fun us => tval h psi (track den alb us r x y (/ m)))).
    + intros us _ _. cbn [md_sample heterogeneous]. rewrite Er. cbn [pbind]. rewrite E. cbn [pbind ret]. rewrite (inv_max m Hm). reflexivity.
    + exact (track_expected den alb r x y m (/ m) g Hm eq_refl Cf Dg Hf h psi k Cp Hb n x ltac:(lra)).
  - destruct (bounded_on (Sol g k psi y) x y L) as (K & HK); [now apply pSol|].
    exact (plim g k m Hm Cf Cp x y psi K Hf HK x ltac:(lra)).
Qed.
Print Assumptions C52_delta_unbiased.

(** Sampling a homogeneous medium, with one random number, has the same distribution. *)
Theorem C52_homogeneous_unbiased : forall d albedo lo hi r t0 t1 x y h, 0 < d -> valid_box (box lo hi) -> general (box lo hi) r ->
  x <= y -> (forall t, x <= t <= y <-> t0 <= t <= t1 /\ in_box (box lo hi) (ray_at r t)) ->
  (forall t, continuous (fun t => h (mk_ds (ray_at r t) albedo true)) t) ->
  expected 1 (fun us => match md_sample (homogeneous d albedo lo hi) us r t0 t1 with Ok (Val (Some ds, _)) => h ds | _ => 0 end)
    (h (mk_ds (ray_at r y) (grey 1) false) * exp (- d * (y - x)) + RInt (fun s => d * exp (- d * (s - x)) * h (mk_ds (ray_at r s) albedo true)) x y).
Proof.
  intros d albedo lo hi r t0 t1 x y h Hd V G L I C. set (phi := fun t => h (mk_ds (ray_at r t) albedo true)). set (psi := h (mk_ds (ray_at r y) (grey 1) false)).
  assert (Er : range (box lo hi) r t0 t1 = Val (Some (x, y))).
  { apply (range_inside (mk_volume (box lo hi) true (ret 0) (fun _ => ret 0) true (fun _ => ret (grey 0)))); cbn [v_bound]; try assumption. split; assumption. }
  assert (C0 : forall t : R, continuous (fun _ : R => d) t) by (intros; apply continuous_const).
  assert (Z0 : forall t : R, continuous (fun _ : R => 0) t) by (intros; apply continuous_const).
  cbn [expected]. exists (fun u => if Rle_dec y (land d x u) then psi else kern (fun _ => d) phi d (fun _ => 0) (land d x u)). split.
  - intros u U. cbn [md_sample homogeneous]. fold (box lo hi). rewrite Er. cbn [pbind]. rewrite (flog_val u U). cbn [pbind].
    assert (Ed : rdiv (- ln (1 - u)) d = Val (- ln (1 - u) * / d)) by (unfold rdiv, fdiv; destruct (Req_EM_T d 0); [lra|reflexivity]). rewrite Ed. cbn [pbind].
    assert (El : land d x u = x + - ln (1 - u) * / d) by (unfold land; ring).
    destruct (Rle_dec y (land d x u)) as [K|K], (Rlt_dec (- ln (1 - u) * / d) (y - x)) as [J|J]; try lra.
    + reflexivity.
    + unfold kern. rewrite <- El. cbn [ret]. unfold phi, ray_point, ray_at. field. lra.
  - evar_last; [apply (flight (fun _ => d) phi psi d y Hd C0 C (fun _ => 0) x Z0 L)|]. unfold stepW. f_equal.
    rewrite <- (RInt_scal (V := R_CompleteNormedModule)).
    + apply RInt_ext. intros s _. unfold kern, scal; cbn; unfold mult; cbn. fold (phi s). replace (- d * (s - x)) with (d * x + - d * s) by ring. rewrite exp_plus. field. lra.
    + apply exI. intros s. now apply Cweight.
Qed.
Print Assumptions C52_homogeneous_unbiased.

(** Every constructible volume with a density has one along the ray: [density_is] can always be met. *)
Theorem C52_density : forall den r t0 t1 x y, made den -> v_has_scalar den = true -> inside den r t0 t1 x y -> exists f, density_is den r x y f /\ piecewise f x y.
Proof.
  intros den r t0 t1 x y M S (L & I). destruct (made_along den M S r x y L) as (k & Pk & Ek). exists k. split; [|exact Pk].
  intros t Ht. apply Ek. now apply I.
Qed.
Print Assumptions C52_density.

(** A density that is constant along the ray, in the scene of [C52_heterogeneous_example] *)
Example C52_unbiased_example : inside x_density x_ray 0 5 1 2 /\ density_is x_density x_ray 1 2 (fun _ => 3) /\
  forall t, v_color x_const (ray_at x_ray t) = ret (grey (1 / 2)).
Proof.
  split; [|split; [intros t _; reflexivity|reflexivity]]. split; [lra|]. intros t.
  unfold x_density, x_ray, in_box, vle, v0, grey, ray_at, vadd, vscale. cbn. lra.
Qed.

(** A ray through a sphere: the density jumps from 0 to 2 and back. *)
Definition s_ray : ray := mk_ray (V3 (-5) 0 0) (V3 1 0 0) (fun _ => false).
Definition s_f (t : R) : R := 2 * (if Rlt_dec (vlen (vsub v0 (ray_at s_ray t))) 1 then 1 else 0).
Example C52_sphere_unbiased_example : made x_sphere /\ v_has_scalar x_sphere = true /\ v_max x_sphere = ret 2 /\ general (v_bound x_sphere) s_ray /\
  inside x_sphere s_ray 0 10 (5 - sq3 - Eps) (5 + sq3 + Eps) /\ density_is x_sphere s_ray (5 - sq3 - Eps) (5 + sq3 + Eps) s_f /\ s_f 5 = 2 /\ s_f (7 / 2) = 0.
Proof.
  split; [exact x_sphere_made|]. split; [reflexivity|]. split; [reflexivity|].
  assert (D : forall t k, 0 <= k -> (t - 5) * (t - 5) = k * k -> vlen (vsub v0 (ray_at s_ray t)) = k).
  { intros t k K E. unfold vlen, dot, vsub, ray_at, s_ray, vadd, vscale, v0. cbn [vx vy vz ro rd].
    replace ((0 - (-5 + t * 1)) * (0 - (-5 + t * 1)) + (0 - (0 + t * 0)) * (0 - (0 + t * 0)) + (0 - (0 + t * 0)) * (0 - (0 + t * 0))) with (k * k) by lra. now apply sqrt_square. }
  split; [|split; [|split; [|split]]].
  - unfold x_sphere, general, s_ray. cbn [sphere_vol isSome negb andb v_bound ro rd bmin bmax]. unfold vsub, vadd, grey, v0, Eps, sq3.
    intros [|[|i]]; cbn [comp vx vy vz]; [left; lra|right|right]; split; lra.
  - unfold x_sphere, inside, in_box, vle, s_ray. cbn [sphere_vol isSome negb andb v_bound ro rd bmin bmax]. unfold vsub, vadd, vscale, grey, v0, ray_at, vadd, vscale, Eps, sq3.
    cbn [vx vy vz ro rd]. split; [lra|]. intros t. split; intros H; repeat split; lra.
  - intros t _. reflexivity.
  - unfold s_f. rewrite (D 5 0) by lra. destruct (Rlt_dec 0 1); lra.
  - unfold s_f. rewrite (D (7 / 2) (3 / 2)) by lra. destruct (Rlt_dec (3 / 2) 1); lra.
Qed.
