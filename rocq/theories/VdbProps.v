(** C115: volumes read from OpenVDB files. *)
From Coq Require Import String List Reals Lra Lia Psatz.
From Coquelicot Require Import Coquelicot.
From Verif Require Import Base RBase VecBase GeoModel GeoSpec GeoProofs MatModel MatProofs PathModel PathProofs VolModel VolSpec VolProofs VolMediaProofs VolProps VolExpectSpec VolExpectProofs VolPieceProofs VolRayProofs VolTrackProofs VolExpectProps MarchModel VdbModel VdbSpec VdbProofs.
Import ListNotations.
Open Scope R_scope.

(** Construction succeeds if and only if the path is a string that names a file that can be loaded and the scale is
    absent (then it is 1) or a number. Then, and whatever the instance was before, it is the volume of that file with
    its densities scaled. *)
Theorem C115_construct : forall files path sc i,
  (snd (construct files path sc i) = Ok tt <-> (exists p g, path = Given p /\ files p = Some g) /\ sc <> Wrong) /\
  (forall p g, path = Given p -> files p = Some g -> sc <> Wrong ->
     exists v, as_volume (fst (construct files path sc i)) = Ok v /\ shows g (match sc with Given s => s | _ => 1 end) v).
Proof.
  intros files path sc i. split.
  - unfold construct. destruct path as [| |p]; cbn [snd].
    + split; [discriminate|]. intros [(p & g & E & _) _]. discriminate.
    + split; [discriminate|]. intros [(p & g & E & _) _]. discriminate.
    + destruct (files p) as [g|] eqn:F; cbn [snd].
      * destruct sc as [| |s]; cbn [snd]; (split; [intros H; split; [now exists p, g|discriminate]|reflexivity]) || (split; [discriminate|intros [_ H]; congruence]).
      * split; [discriminate|]. intros [(q & g & [= <-] & E) _]. congruence.
  - intros p g -> F N. unfold construct. rewrite F. destruct sc as [| |s]; [|congruence|]; cbn [fst];
      (eexists; split; [reflexivity|]; unfold shows; cbn; repeat split; [now rewrite Rmult_comm|]; intros q; unfold eval_scalar; cbn; now rewrite Rmult_comm).
Qed.
Print Assumptions C115_construct.
(** A file that cannot be loaded raises an I/O error and leaves the instance as it was. *)
Theorem C115_missing_file : forall files p sc i, files p = None -> construct files (Given p) sc i = (i, Throw ErrIOError).
Proof. intros files p sc i F. unfold construct. now rewrite F. Qed.
Print Assumptions C115_missing_file.

(** The maximum bounds the density everywhere if the scale is not negative. *)
Theorem C115_majorant : forall g s v p x m, sound g -> 0 <= s -> shows g s v -> v_scalar v p = ret x -> v_max v = ret m -> 0 <= x <= m.
Proof.
  intros g s v p x m So P Sh Ex Em. destruct (grid_along g s v So P Sh p) as (k & Ek & B). destruct Sh as (_ & _ & _ & M & _).
  rewrite Ex in Ek. rewrite Em in M. unfold ret in *. injection Ek as ->. injection M as ->. exact B.
Qed.
Print Assumptions C115_majorant.

(** Tracking in a medium with this density: sampled events are in the bound, where the density is positive; estimates of
    the transmittance are between 0 and 1, and their mean is the transmittance of the scaled density. *)
Theorem C115_events : forall g s v alb us us' r t0 t1 ds, sound g -> 0 < s -> shows g s v ->
  valid_box (v_bound v) -> general (v_bound v) r -> draws us ->
  md_sample (heterogeneous v alb) us r t0 t1 = ret (Some ds, us') ->
  exists t c, t0 <= t <= t1 /\ in_box (mk_bound (g_lo g) (g_hi g)) (ray_at r t) /\ 0 < g_eval g (ray_at r t) /\
    v_color alb (ray_at r t) = ret c /\ ds = mk_ds (ray_at r t) c true.
Proof.
  intros g s v alb us us' r t0 t1 ds So P Sh V G D H. cbn [md_sample heterogeneous] in H. destruct (range_part _ r t0 t1 V G) as (o & Eo & Q). rewrite Eo in H. cbn [pbind] in H.
  destruct o as [[x y]|]; [|discriminate]. assert (Al := grid_along g s v So ltac:(lra) Sh). destruct Sh as (Eb & _ & _ & Em & Ev). rewrite Em in H. cbn [pbind ret] in H.
  assert (Hm : 0 < s * g_max g) by (destruct So; now apply Rmult_lt_0_compat). rewrite (inv_max _ Hm) in H. cbn [pbind] in H. assert (Lx := proj1 Q).
  destruct (track_sound v alb r x y (s * g_max g) (/ (s * g_max g)) Hm eq_refl (fun t _ => Al (ray_at r t)) us D x ds us' ltac:(lra) H) as (t & k & c & A & B & K & C).
  exists t, c. destruct Q as [_ Q]. assert (I := proj1 (Q t) ltac:(lra)). rewrite Eb in I. rewrite Ev in B. unfold ret in B. injection B as B. rewrite <- B in K.
  assert (0 < g_eval g (ray_at r t)) by (apply Rmult_lt_reg_l with s; lra). tauto.
Qed.
Print Assumptions C115_events.
Theorem C115_transmittance : forall g s v alb us us' r t0 t1 T, sound g -> 0 < s -> shows g s v ->
  valid_box (v_bound v) -> general (v_bound v) r -> draws us ->
  md_transmittance (heterogeneous v alb) us r t0 t1 = ret (T, us') -> exists k, T = grey k /\ 0 <= k <= 1.
Proof.
  intros g s v alb us us' r t0 t1 T So P Sh V G D H. cbn [md_transmittance heterogeneous] in H. destruct (range_part _ r t0 t1 V G) as (o & Eo & Q). rewrite Eo in H. cbn [pbind] in H.
  destruct o as [[x y]|]. 2: { exists 1. split; [unfold ret in H; congruence|lra]. }
  assert (Al := grid_along g s v So ltac:(lra) Sh). destruct Sh as (Eb & _ & _ & Em & Ev). rewrite Em in H. cbn [pbind ret] in H.
  assert (Hm : 0 < s * g_max g) by (destruct So; now apply Rmult_lt_0_compat). rewrite (inv_max _ Hm) in H. cbn [pbind] in H. assert (Lx := proj1 Q).
  destruct (ratio_range v r x y (s * g_max g) (/ (s * g_max g)) Hm eq_refl (fun t _ => Al (ray_at r t)) us D) with (t := x) (T := 1) as [Ef|(k & us2 & Et & B)]; try lra.
  - rewrite Ef in H. discriminate.
  - rewrite Et in H. cbn [pbind ret] in H. exists k. split; [|lra]. unfold ret in H. congruence.
Qed.
Print Assumptions C115_transmittance.
Theorem C115_unbiased : forall g s v alb r t0 t1 x y, sound g -> 0 < s -> shows g s v ->
  valid_box (v_bound v) -> general (v_bound v) r -> inside v r t0 t1 x y -> piecewise (fun t => g_eval g (ray_at r t)) x y ->
  exists e : nat -> R,
    (forall n, expected n (fun us => match md_transmittance (heterogeneous v alb) us r t0 t1 with Ok (Val (T, _)) => vx T | _ => 0 end) (e n)) /\
    is_lim_seq e (exp (- (s * RInt (fun t => g_eval g (ray_at r t)) x y))).
Proof.
  intros g s v alb r t0 t1 x y So P Sh V G I Pw. destruct Sh as (Eb & _ & _ & Em & Ev). destruct So as [M So].
  destruct (ratio_mean v alb r t0 t1 (s * g_max g) x y (fun t => s * g_eval g (ray_at r t)) Em) as (_ & e & E & L); try assumption.
  - now apply Rmult_lt_0_compat.
  - intros t _. apply Ev.
  - now apply pw_scale.
  - intros t _. specialize (So (ray_at r t)). split; [apply Rmult_le_pos; lra|apply Rmult_le_compat_l; lra].
  - exists e. split; [exact E|]. replace (s * RInt (fun t => g_eval g (ray_at r t)) x y) with (RInt (fun t => s * g_eval g (ray_at r t)) x y); [exact L|].
    apply (RInt_scal (V := R_CompleteNormedModule)). now apply pw_int_le.
Qed.
Print Assumptions C115_unbiased.

(** A march calls the function where the library stops, in that order, until it asks to stop. *)
Theorem C115_march : forall A i g o d t0 t1 h (body : R -> A -> fl (A * bool)) a b, context i = Some g ->
  (vdb_march i o d t0 t1 h body a = Ok (Val b) <-> exists seen, visits body (g_stops g o d t0 t1 h) a seen b) /\
  (forall seen, visits body (g_stops g o d t0 t1 h) a seen b -> exists rest, g_stops g o d t0 t1 h = seen ++ rest).
Proof.
  intros A i g o d t0 t1 h body a b C. split; [|intros seen; apply visits_prefix]. unfold vdb_march. rewrite C, <- march_visits. split; [intros [= ->]; reflexivity|now intros ->].
Qed.
Print Assumptions C115_march.

(** With a negative scale, which is accepted, the walk goes backwards: it never leaves the volume, and every event that
    it finds is at or before the place where the ray enters it. *)
Theorem C115_backwards : forall g s v alb us r t0 t1 x y, sound g -> s < 0 -> shows g s v -> (forall p, exists c, v_color alb p = ret c) ->
  valid_box (v_bound v) -> general (v_bound v) r -> inside v r t0 t1 x y -> x < y -> draws us ->
  md_sample (heterogeneous v alb) us r t0 t1 = Fuel \/
  exists t c us', t <= x /\ md_sample (heterogeneous v alb) us r t0 t1 = ret (Some (mk_ds (ray_at r t) c true), us').
Proof.
  intros g s v alb us r t0 t1 x y [M So] P (Eb & _ & _ & Em & Ev) Ha V G I L D. cbn [md_sample heterogeneous]. rewrite (range_inside _ _ _ _ _ _ V G I). cbn [pbind]. rewrite Em. cbn [pbind ret].
  assert (Hm : s * g_max g < 0). { rewrite <- (Rmult_0_l (g_max g)). now apply Rmult_lt_compat_r. }
  unfold rdiv, fdiv. destruct (Req_EM_T (s * g_max g) 0); [lra|]. cbn [pbind]. replace (1 / (s * g_max g)) with (/ (s * g_max g)) by (unfold Rdiv; ring).
  destruct (track_back v alb r (s * g_max g) Hm) with (us := us) (t := x) (tmax := y) as [E|(t & c & us' & A & _ & E)]; try assumption.
  - intros p. exists (s * g_eval g p). split; [apply Ev|]. specialize (So p). split.
    + replace (s * g_max g) with (- (- s * g_max g)) by ring. replace (s * g_eval g p) with (- (- s * g_eval g p)) by ring. apply Ropp_le_contravar, Rmult_le_compat_l; lra.
    + assert (0 <= - s * g_eval g p) by (apply Rmult_le_pos; lra). lra.
  - now left.
  - right. now exists t, c, us'.
Qed.
Print Assumptions C115_backwards.

(** ** Examples *)
(** A grid in the unit cube with the density x + 1/4, and a scale of 2 *)
Definition x_grid : grid := mk_grid v0 (grey 1) (5 / 4) (fun p => Rmax 0 (Rmin 1 (vx p)) + / 4) (fun _ _ t0 t1 h => [t0; t0 + h; t0 + 2 * h]).
Definition x_files (p : string) : option grid := if String.eqb p "smoke.vdb" then Some x_grid else None.
Definition x_vdb (s : R) : vdb := fst (construct x_files (Given "smoke.vdb"%string) (Given s) new_vdb).
Definition x_vol (s : R) : volume := match as_volume (x_vdb s) with Ok v => v | _ => checker (mk_bound v0 v0) end.
Example x_grid_sound : sound x_grid.
Proof. split; [cbn; lra|]. intros p. cbn. assert (A := Rmax_l 0 (Rmin 1 (vx p))). assert (Rmax 0 (Rmin 1 (vx p)) <= 1) by (apply Rmax_lub; [lra|apply Rmin_l]). lra. Qed.
Example x_shows s : shows x_grid s (x_vol s).
Proof.
  destruct (proj2 (C115_construct x_files (Given "smoke.vdb"%string) (Given s) new_vdb) "smoke.vdb"%string x_grid eq_refl eq_refl ltac:(discriminate)) as (v & E & H).
  unfold x_vol, x_vdb. rewrite E. exact H.
Qed.
Example x_missing : x_files "fog.vdb" = None.
Proof. reflexivity. Qed.
Example x_inside s : inside (x_vol s) x_ray 0 5 1 2 /\ valid_box (v_bound (x_vol s)) /\ general (v_bound (x_vol s)) x_ray.
Proof.
  destruct C52_homogeneous_example as (V & G & _). change (v_bound (x_vol s)) with (box (Some v0) (Some (grey 1))). split; [|now split]. split; [lra|]. intros t.
  change (v_bound (x_vol s)) with (box (Some v0) (Some (grey 1))). unfold x_ray, in_box, vle, box, v0, grey, ray_at, vadd, vscale. cbn. lra.
Qed.
Example x_piecewise : piecewise (fun t => g_eval x_grid (ray_at x_ray t)) 1 2.
Proof.
  apply pw_one with (fun t => t - 3 / 4); [lra| |].
  - intros t. apply (continuous_plus (V := R_NormedModule) (fun t => t) (fun _ => - (3 / 4))); [apply continuous_id|apply continuous_const].
  - intros t Ht. cbn. rewrite Rmult_1_r || idtac. rewrite Rmin_right, Rmax_right by lra. lra.
Qed.
(** The mean for this grid, exp (- 2 * 3/4) *)
Example x_march : exists seen, visits (fun t n => Val (S n, Nat.ltb n 1)) (g_stops x_grid v0 (V3 1 0 0) 0 1 (1 / 2)) 0%nat seen 2%nat /\ List.length seen = 2%nat.
Proof. eexists. split; [cbn; eapply visits_go; [reflexivity|]; eapply visits_stop; reflexivity|reflexivity]. Qed.

(** Negative scales: the maximum is not a bound of the density, and an event is found behind the origin of the ray. *)
Theorem C115_negative_refuted :
  ~ (forall g s v p x m, sound g -> shows g s v -> v_scalar v p = ret x -> v_max v = ret m -> x <= m) /\
  exists v alb us us' t, as_volume (x_vdb (-1)) = Ok v /\ draws us /\ t < 0 /\
    md_sample (heterogeneous v alb) us x_ray 0 5 = ret (Some (mk_ds (ray_at x_ray t) (grey 1) true), us').
Proof.
  split.
  - intros H. specialize (H x_grid (-1) (x_vol (-1)) v0 (- (1 / 4)) (-1 * (5 / 4)) x_grid_sound (x_shows (-1))).
    destruct (x_shows (-1)) as (_ & _ & _ & M & E). assert (Q := H ltac:(rewrite E; unfold ret; do 2 f_equal; cbn; rewrite Rmin_right, Rmax_left by lra; lra) M). lra.
  - assert (Bx := exp_pos (-5 / 2)). assert (B1 : exp (-5 / 2) < 1) by (rewrite <- exp_0; apply exp_increasing; lra).
    destruct (x_inside (-1)) as (I & V & G). destruct (x_shows (-1)) as (_ & _ & _ & M & E).
    set (alb := mk_volume (mk_bound v0 (grey 1)) false UB (fun _ => UB) true (fun _ => ret (grey 1))).
    exists (x_vol (-1)), alb, [1 - exp (-5 / 2); 0], [], (-1). split; [reflexivity|]. split; [repeat constructor; lra|]. split; [lra|].
    cbn [md_sample heterogeneous]. rewrite (range_inside _ _ _ _ _ _ V G I). cbn [pbind]. rewrite M. cbn [pbind ret].
    unfold rdiv, fdiv. cbn [g_max x_grid]. destruct (Req_EM_T (-1 * (5 / 4)) 0); [lra|]. cbn [pbind track]. rewrite flog_val by lra. cbn [pbind].
    replace (1 - (1 - exp (-5 / 2))) with (exp (-5 / 2)) by ring. rewrite ln_exp. replace (1 - -5 / 2 * (1 / (-1 * (5 / 4)))) with (-1) by lra.
    destruct (Rle_dec 2 (-1)); [lra|]. change (ray_point x_ray (-1)) with (ray_at x_ray (-1)). rewrite E. cbn [pbind ret].
    destruct (Rlt_dec 0 _) as [_|N]; [reflexivity|]. exfalso. apply N. cbn. rewrite Rmin_right, Rmax_left by lra. lra.
Qed.
Print Assumptions C115_negative_refuted.

(** Constructing an instance again with a scale that is not a number raises, but the instance has the new file by then,
    with the maximum and the bound of the old one. *)
Definition x_dense : grid := mk_grid v0 (grey 2) 100 (fun _ => 100) (fun _ _ _ _ _ => []).
Definition x_files2 (p : string) : option grid := if String.eqb p "dense.vdb" then Some x_dense else x_files p.
Theorem C115_again_refuted : exists i v, construct x_files2 (Given "dense.vdb"%string) Wrong (x_vdb 1) = (i, Throw ErrJsonType) /\ as_volume i = Ok v /\
  v_bound v = mk_bound v0 (grey 1) /\ v_max v = ret (5 / 4 * 1) /\ v_scalar v v0 = ret (100 * 1).
Proof. eexists _, _. split; [reflexivity|]. split; [reflexivity|]. now repeat split. Qed.
Print Assumptions C115_again_refuted.
