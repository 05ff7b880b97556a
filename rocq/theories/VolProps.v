(** C52 (volumes and media). *)
From Coq Require Import List Reals ZArith Bool Lra Lia Psatz.
From Verif Require Import Base RBase VecBase GeoModel GeoSpec GeoProofs SurfProofs MatModel MatProofs CamProofs PathModel PathProofs VolModel VolSpec VolProofs VolMediaProofs.
Import ListNotations.
Open Scope R_scope.

(** ** Volumes *)
(** For every volume, of any nesting, and every position: the value is between zero and the reported
    maximum. *)
Theorem C52_majorant : forall v p x m, made v -> v_scalar v p = ret x -> v_max v = ret m -> 0 <= x <= m.
Proof. intros v p x m M. destruct (made_ok v M) as (B & _). apply B. Qed.
Print Assumptions C52_majorant.
(** A volume with a scalar has a maximum and a value everywhere in its bound. *)
Theorem C52_defined : forall v, made v -> v_has_scalar v = true ->
  (exists m, v_max v = ret m /\ 0 <= m) /\ forall p, in_box (v_bound v) p -> exists x, v_scalar v p = ret x.
Proof.
  intros v M S. split; [|now apply made_defined]. destruct (made_ok v M) as (_ & P & Mx). destruct (Mx S) as [m E]. exists m. split; [exact E|now apply P].
Qed.
Print Assumptions C52_defined.
(** Several volumes: the value is the sum over the volumes whose bound contains the point, the bound contains
    the bounds of the parts, and outside of it the value is zero. *)
Theorem C52_multi : forall alb den v, multi alb den = ret v -> (forall w, In (Some w) den -> made w) ->
  (forall w, In (Some w) den -> box_le (v_bound w) (v_bound v)) /\
  (forall p, ~ in_box (v_bound v) p -> v_scalar v p = ret 0) /\
  (forall p, (exists x, v_scalar v p = ret x) /\ forall x, v_scalar v p = ret x ->
     exists xs, Forall2 (fun o y => exists w, o = Some w /\ ((in_box (v_bound w) p /\ v_scalar w p = ret y) \/ (~ in_box (v_bound w) p /\ y = 0))) den xs
       /\ x = fold_right Rplus 0 xs).
Proof.
  intros alb den v H Md. apply multi_inv in H as (l & b & m & -> & -> & NE & F & E & ->).
  destruct (multi_bound_le _ _ _ _ _ E) as [_ L]. cbn [v_bound v_scalar].
  assert (Md' : forall w, In w (map snd l) -> made w /\ v_has_scalar w = true).
  { intros w X. apply in_map_iff in X as (y & <- & X). split; [apply Md; apply in_map_iff; now exists y|]. rewrite Forall_forall in F. now apply F. }
  split; [|split].
  - intros w X. apply L. apply in_map_iff in X as (y & K & X). injection K as <-. now apply in_map.
  - intros p N. clear E NE F Md. induction l as [|[a d] l IH]; cbn [map multi_scalar snd]; [reflexivity|].
    replace (is_in_bound p (v_bound d)) with false; cbn [negb].
    + apply IH; [intros w X; apply L; now right|intros w X; apply Md'; now right].
    + symmetry. apply not_true_is_false. intros K. apply in_bound_iff in K. apply N. eapply in_box_le; [apply L; left; reflexivity|exact K].
  - intros p. clear E NE F Md L.
    assert (G : forall s, exists xs, Forall2 (fun o y => exists w, o = Some w /\ ((in_box (v_bound w) p /\ v_scalar w p = ret y) \/ (~ in_box (v_bound w) p /\ y = 0)))
        (map (fun x => Some (snd x)) l) xs /\ multi_scalar (map snd l) p s = ret (s + fold_right Rplus 0 xs)).
    { induction l as [|[a d] l IH]; intros s; cbn [map multi_scalar snd].
      - exists []. split; [constructor|]. cbn. now rewrite Rplus_0_r.
      - destruct (Md' d (or_introl eq_refl)) as [M1 M2]. assert (IH' := IH (fun w X => Md' w (or_intror X))).
        destruct (is_in_bound p (v_bound d)) eqn:K; cbn [negb].
        + apply in_bound_iff in K. destruct (made_defined d M1 M2 p K) as [x Ex]. rewrite Ex. cbn [pbind ret].
          destruct (IH' (s + x)) as (xs & A & B). exists (x :: xs). split; [constructor; [exists d; auto|exact A]|]. rewrite B. cbn [fold_right]. now rewrite Rplus_assoc.
        + destruct (IH' s) as (xs & A & B). exists (0 :: xs). split; [constructor; [|exact A]|].
          * exists d. split; [reflexivity|]. right. split; [|reflexivity]. intros X. apply in_bound_iff in X. congruence.
          * rewrite B. cbn [fold_right]. now rewrite Rplus_0_l. }
    destruct (G 0) as (xs & A & B). rewrite B. split; [eauto|]. intros x Hx. exists xs. split; [exact A|]. assert (0 + fold_right Rplus 0 xs = x) by (unfold ret in Hx; congruence). lra.
Qed.
Print Assumptions C52_multi.
(** Where the value of several volumes is positive their color is defined and an average of the colors: in
    every range that contains all colors. *)
Theorem C52_multi_color : forall alb den v lo hi p x, multi alb den = ret v -> (forall w, In (Some w) den -> made w) ->
  (forall w, In (Some w) alb -> exists c, v_color w p = ret c /\ within lo hi c) ->
  v_scalar v p = ret x -> 0 < x -> exists c, v_color v p = ret c /\ within lo hi c.
Proof.
  intros alb den v lo hi p x H Md Ma S X. apply multi_inv in H as (l & b & m & -> & -> & NE & F & E & ->). cbn [v_scalar v_color] in *.
  rewrite Forall_forall in F.
  destruct (multi_color_spec lo hi p l) with (s := 0) (c := v0) as (s' & c' & E1 & E2 & E3 & E4).
  - intros a d I. split; [apply Md; apply in_map_iff; now exists (a, d)|]. now apply (F (a, d) I).
  - intros a d I. apply Ma. apply in_map_iff. now exists (a, d).
  - rewrite E1. cbn [pbind ret]. assert (s' = x) by (unfold ret in *; congruence). subst s'. unfold vdiv. destruct (Req_EM_T x 0); [lra|].
    exists (vscale (/ x) c'). split; [reflexivity|]. assert (I := Rinv_0_lt_compat x X).
    assert (W : forall k, (k < 3)%nat -> lo <= / x * comp c' k <= hi).
    { intros k K. assert (Z := E4 k K). replace (comp v0 k) with 0 in Z by (destruct k as [|[|k]]; reflexivity).
      split; apply Rmult_le_reg_l with x; try exact X; rewrite <- Rmult_assoc, Rinv_r by lra; lra. }
    assert (W0 := W 0%nat ltac:(lia)). assert (W1 := W 1%nat ltac:(lia)). assert (W2 := W 2%nat ltac:(lia)).
    unfold within, vscale. cbn [vx vy vz]. cbn [comp] in *. tauto.
Qed.
Print Assumptions C52_multi_color.
(** Volumes whose references are not found are not reported as an error. *)
Theorem C52_multi_missing_refuted : forall d, multi [None] [d] = UB.
Proof. reflexivity. Qed.
Print Assumptions C52_multi_missing_refuted.

(** A sphere has its value inside and zero outside; the bound contains it. *)
Theorem C52_sphere : forall c p s r v q m, sphere_vol c p s r = Ok v -> 0 <= r -> v_max v = ret m ->
  v_scalar v q = ret (if Rlt_dec (vlen (vsub p q)) r then m else 0) /\ (vlen (vsub p q) < r -> in_box (v_bound v) q).
Proof.
  intros c p s r v q m H R E. apply sphere_inv in H as [_ ->]. cbn [v_max v_scalar v_bound] in *. apply read_val in E. subst s. cbn [read ret pbind]. split.
  - unfold ret. do 2 f_equal. destruct (Rlt_dec _ _); lra.
  - intros L. assert (G : forall k, Rabs k <= vlen (vsub p q) -> - (sq3 * r + Eps) <= k <= sq3 * r + Eps).
    { intros k K. assert (sq3 * r >= r) by (unfold sq3; nra). assert (0 < Eps) by (unfold Eps; lra). unfold Rabs in K. destruct (Rcase_abs k); lra. }
    assert (V : forall a b c, Rabs a <= sqrt (a * a + b * b + c * c) /\ Rabs b <= sqrt (a * a + b * b + c * c) /\ Rabs c <= sqrt (a * a + b * b + c * c)).
    { intros a b c'. rewrite <- !sqrt_Rsqr_abs. unfold Rsqr. repeat split; apply sqrt_le_1_alt; nra. }
    destruct p as [p1 p2 p3], q as [q1 q2 q3]. unfold vlen, dot, vsub in *. cbn [vx vy vz] in *.
    destruct (V (p1 - q1) (p2 - q2) (p3 - q3)) as (V1 & V2 & V3). apply G in V1, V2, V3.
    unfold in_box, vle, vadd, grey. cbn [bmin bmax vx vy vz]. lra.
Qed.
Print Assumptions C52_sphere.
(** The bound of a gaussian with standard deviations of at most 4 cuts off values of at most a thousandth of
    the maximum... *)
Lemma ln_Eps : ln Eps < 0.
Proof. unfold Eps. rewrite <- ln_1. apply ln_increasing; lra. Qed.
Theorem C52_gaussian_bound_partial : forall c s p sg v q x m, gaussian c s p sg = ret v -> positive sg -> within 0 4 sg ->
  v_max v = ret m -> 0 <= m -> v_scalar v q = ret x -> ~ in_box (v_bound v) q -> x <= Eps * m.
Proof.
  intros c s p sg v q x m H (P1 & P2 & P3) (W1 & W2 & W3) E M S N. apply gaussian_inv in H as (_ & a & b & d & A & B & D & ->).
  cbn [v_max v_scalar v_bound] in *. apply read_val in E. subst s. unfold ret in S. cbn [read ret pbind] in S. assert (S' : gauss_eval m (vsub p q) sg = Val x) by (injection S as S; exact S). clear S.
  set (ac := Rmax (Rmax a b) d) in *. assert (L := ln_Eps).
  assert (Q : forall w y, 0 < w -> gauss_ac w = Val y -> 0 <= y /\ y * y = -8 * w * ln Eps).
  { intros w y Hw K. unfold gauss_ac in K. cbv zeta in K. destruct (Rlt_dec _ _); [discriminate|]. assert (y = 2 * sqrt (-2 * w * ln Eps)) by (injection K; auto). subst y.
    assert (Z := sqrt_sqrt (-2 * w * ln Eps) ltac:(lra)). assert (Z' := sqrt_pos (-2 * w * ln Eps)). split; [lra|]. nra. }
  assert (C : forall w y k, 0 < w <= 4 -> gauss_ac w = Val y -> y <= ac -> ac < Rabs k -> k * k / (w * w) >= -2 * ln Eps).
  { intros w y k Hw K1 K2 K3. destruct (Q w y ltac:(lra) K1) as [Y1 Y2]. assert (Y3 : y * y <= k * k) by (unfold Rabs in K3; destruct (Rcase_abs k); nra).
    apply Rle_ge. apply Rmult_le_reg_r with (w * w); [nra|]. replace (k * k / (w * w) * (w * w)) with (k * k) by (field; lra). nra. }
  unfold gauss_eval in S'. fb S'. fb S'. fb S'. assert (Sx : x = m * exp (- (1 / 2) * (a0 + a1 + a2))) by (injection S' as S'; auto). clear S'.
  assert (D1 : forall u w z, rdiv (u * u) (w * w) = Val z -> z = u * u / (w * w) /\ 0 <= z).
  { intros u w k K. unfold rdiv, fdiv in K. destruct (Req_EM_T (w * w) 0); [discriminate|]. injection K as <-. split; [reflexivity|].
    assert (0 < w * w) by nra. apply Rmult_le_pos; [nra|left; now apply Rinv_0_lt_compat]. }
  destruct (D1 _ _ _ E) as [F1 G1]. destruct (D1 _ _ _ E0) as [F2 G2]. destruct (D1 _ _ _ E1) as [F3 G3].
  assert (T : a0 + a1 + a2 >= -2 * ln Eps).
  { assert (ax : a <= ac) by (unfold ac; eapply Rle_trans; [apply Rmax_l|apply Rmax_l]). assert (bx : b <= ac) by (unfold ac; eapply Rle_trans; [apply Rmax_r|apply Rmax_l]). assert (dx : d <= ac) by (unfold ac; apply Rmax_r).
    destruct (Rlt_dec ac (Rabs (vx (vsub p q)))) as [K|K]; [assert (X := C _ _ _ (conj P1 (proj2 W1)) A ax K); lra|].
    destruct (Rlt_dec ac (Rabs (vy (vsub p q)))) as [K2|K2]; [assert (X := C _ _ _ (conj P2 (proj2 W2)) B bx K2); lra|].
    destruct (Rlt_dec ac (Rabs (vz (vsub p q)))) as [K3|K3]; [assert (X := C _ _ _ (conj P3 (proj2 W3)) D dx K3); lra|].
    exfalso. apply N. assert (AB : forall k, ~ ac < Rabs k -> - ac <= k <= ac) by (intros k; unfold Rabs; destruct (Rcase_abs k); lra).
    apply AB in K, K2, K3. unfold in_box, vle, vadd, vsub, grey in *. cbn [bmin bmax vx vy vz] in *. lra. }
  assert (X : exp (- (1 / 2) * (a0 + a1 + a2)) <= Eps).
  { rewrite <- (exp_ln Eps) by (unfold Eps; lra). destruct (Req_dec (- (1 / 2) * (a0 + a1 + a2)) (ln Eps)) as [->|NE]; [lra|]. left. apply exp_increasing. lra. }
  rewrite Sx. rewrite (Rmult_comm Eps). apply Rmult_le_compat_l; assumption.
Qed.
Print Assumptions C52_gaussian_bound_partial.
(** ...but that of a wide one cuts off most of it: the bound is computed from the deviation instead of its
    square. *)
Theorem C52_gaussian_bound_refuted : exists v q x m, gaussian None (Some 1) v0 (grey 10000) = ret v /\ v_max v = ret m /\
  v_scalar v q = ret x /\ ~ in_box (v_bound v) q /\ m / 2 < x.
Proof.
  set (ac := 2 * sqrt (-2 * 10000 * ln Eps)).
  assert (L := ln_Eps).
  assert (LB : -1000 < ln Eps).
  { unfold Eps. rewrite ln_Rinv by lra. assert (X : ln 1000 < ln (exp 1000)).
    { apply ln_increasing; [lra|]. assert (Y := exp_ineq1 1000 ltac:(lra)). lra. }
    rewrite ln_exp in X. lra. }
  assert (GA : gauss_ac 10000 = Val ac). { unfold gauss_ac. cbv zeta. destruct (Rlt_dec _ _); [lra|]. reflexivity. }
  assert (AC : ac < 9000).
  { unfold ac. assert (S : sqrt (-2 * 10000 * ln Eps) < sqrt (4500 * 4500)) by (apply sqrt_lt_1_alt; lra). rewrite sqrt_square in S by lra. lra. }
  eexists. exists (V3 9000 0 0), (1 * exp (- (1 / 2) * (81 / 100 + 0 + 0))), 1. split; [|split; [|split; [|split]]].
  - unfold gaussian. cbn [isSome negb andb vx vy vz grey]. rewrite GA. cbn [pbind]. reflexivity.
  - reflexivity.
  - cbn [v_scalar read ret pbind]. unfold gauss_eval, rdiv, fdiv, vsub, grey, v0. cbn [vx vy vz]. destruct (Req_EM_T (10000 * 10000) 0); [lra|]. cbn [fbind].
    unfold ret. do 5 f_equal; field.
  - cbn [v_bound]. assert (MX : Rmax ac ac = ac) by (apply Rmax_left; lra). rewrite !MX. unfold in_box, vle, vadd, vsub, grey, v0. cbn [bmin bmax vx vy vz]. lra.
  - assert (X := exp_ineq1_le (- (1 / 2) * (81 / 100 + 0 + 0))). lra.
Qed.
Print Assumptions C52_gaussian_bound_refuted.

(** Examples: a sphere and a gaussian with positive and zero values, together in one volume. *)
Definition x_sphere : volume := match sphere_vol None v0 (Some 2) 1 with Ok v => v | _ => checker (mk_bound v0 v0) end.
Definition x_const : volume := match constant None None (Some (grey (1 / 2))) None with Ok v => v | _ => checker (mk_bound v0 v0) end.
Lemma x_sphere_made : made x_sphere.
Proof. apply (made_sphere None v0 (Some 2) 1); [intros x [= <-]; lra|lra|reflexivity]. Qed.
Lemma x_const_made : made x_const.
Proof. apply (made_constant None None (Some (grey (1 / 2))) None); [intros x; discriminate|reflexivity]. Qed.
Example C52_multi_example : exists v, multi [Some x_const; Some x_const] [Some x_sphere; Some (checker (mk_bound v0 (grey 1)))] = ret v /\ made v /\
  v_max v = ret 3 /\ v_scalar v v0 = ret 3.
Proof.
  set (l := [Some x_sphere; Some (checker (mk_bound v0 (grey 1)))]).
  assert (B : exists v, multi [Some x_const; Some x_const] l = ret v /\ v_max v = ret (0 + 2 + 1) /\ v_scalar v = fun p => multi_scalar [x_sphere; checker (mk_bound v0 (grey 1))] p 0).
  { eexists. split; [reflexivity|split; reflexivity]. }
  destruct B as (v & E & M & S). exists v. split; [exact E|]. split; [|split].
  - apply (made_multi [Some x_const; Some x_const] l); [| |exact E].
    + intros w [K|[K|[]]]; injection K as <-; apply x_const_made.
    + intros w [K|[K|[]]]; injection K as <-; [apply x_sphere_made|]. apply made_checker. unfold positive, vsub, grey, v0. cbn. lra.
  - rewrite M. unfold ret. do 2 f_equal. lra.
  - rewrite S. cbn [multi_scalar].
    assert (I1 : is_in_bound v0 (v_bound x_sphere) = true).
    { apply in_bound_iff. unfold x_sphere, in_box, vle, vadd, vsub, grey, v0, Eps, sq3. cbn [sphere_vol isSome negb andb v_bound bmin bmax vx vy vz vadd vsub]. unfold grey, Eps, sq3, vsub, vadd. cbn [vx vy vz]. lra. }
    assert (I2 : is_in_bound v0 (v_bound (checker (mk_bound v0 (grey 1)))) = true).
    { apply in_bound_iff. unfold in_box, vle, grey, v0. cbn. lra. }
    rewrite I1, I2. cbn [negb].
    assert (V1 : v_scalar x_sphere v0 = ret (2 * 1)).
    { unfold x_sphere. cbn [v_scalar sphere_vol isSome negb andb read pbind ret]. unfold vlen, dot, vsub, v0. cbn [vx vy vz].
      replace ((0 - 0) * (0 - 0) + (0 - 0) * (0 - 0) + (0 - 0) * (0 - 0)) with 0 by ring. rewrite sqrt_0. destruct (Rlt_dec 0 1); [reflexivity|lra]. }
    rewrite V1. cbn [pbind ret].
    assert (V2 : checker_eval (mk_bound v0 (grey 1)) v0 = Val 1).
    { unfold checker_eval, v0, grey. cbn [bmin bmax vx vy vz]. cbv zeta. unfold rdiv, fdiv. destruct (Req_EM_T (1 - 0) 0); [lra|]. cbn [fbind].
      assert (T0 : to_int ((0 - 0) / (1 - 0) / / 5) = Val 0%Z).
      { replace ((0 - 0) / (1 - 0) / / 5) with 0 by field. unfold to_int, trunc. destruct (Rlt_dec 0 0); [lra|]. rewrite (Int_part_spec 0 0) by lra. reflexivity. }
      rewrite T0. cbn [fbind]. reflexivity. }
    cbn [v_scalar checker]. rewrite V2. cbn [pbind]. unfold ret. do 2 f_equal. lra.
Qed.

(** ** Homogeneous media *)
(** The transmittance is a number in (0,1]: the exponential of minus the density times the length of the part
    of the segment inside of the bound. *)
Theorem C52_homogeneous : forall d a lo hi us r t0 t1, valid_box (box lo hi) -> general (box lo hi) r -> 0 <= d -> t0 <= t1 ->
  exists T, md_transmittance (homogeneous d a lo hi) us r t0 t1 = ret (grey T, us) /\ 0 < T <= 1 /\
    (in_box (box lo hi) (ray_at r t0) -> in_box (box lo hi) (ray_at r t1) -> T = exp (- d * (t1 - t0))) /\
    ((forall t, t0 <= t <= t1 -> ~ in_box (box lo hi) (ray_at r t)) -> T = 1).
Proof.
  intros d a lo hi us r t0 t1 V G D L. destruct (range_part _ r t0 t1 V G) as (o & E & P). rewrite (homogeneous_tr d a lo hi us r t0 t1 o E).
  exists (exp (- d * len o)). split; [reflexivity|]. assert (K := len_pos _ _ _ _ _ P). split; [split; [apply exp_pos|apply exp_le_1; nra]|]. split.
  - intros I0 I1. do 2 f_equal. destruct o as [[x y]|]; cbn [part len] in *.
    + destruct P as [_ P]. assert (x <= t0 <= y) by (apply P; split; [lra|exact I0]). assert (x <= t1 <= y) by (apply P; split; [lra|exact I1]).
      assert (A := proj1 (P x) ltac:(lra)). assert (B := proj1 (P y) ltac:(lra)). lra.
    + exfalso. apply (P t0); [lra|exact I0].
  - intros N. destruct o as [[x y]|]; cbn [part len] in *.
    + destruct P as [Lx P]. exfalso. assert (A := proj1 (P x) ltac:(lra)). apply (N x); tauto.
    + now rewrite Rmult_0_r, exp_0.
Qed.
Print Assumptions C52_homogeneous.
(** It is multiplicative along a ray, so that it decreases with the distance. *)
Theorem C52_homogeneous_multiplicative : forall d a lo hi us r t0 t1 t2, valid_box (box lo hi) -> general (box lo hi) r -> 0 <= d -> t0 <= t1 <= t2 ->
  exists T01 T12, let tr := md_transmittance (homogeneous d a lo hi) us r in
    tr t0 t1 = ret (grey T01, us) /\ tr t1 t2 = ret (grey T12, us) /\ tr t0 t2 = ret (grey (T01 * T12), us) /\ T01 * T12 <= T01.
Proof.
  intros d a lo hi us r t0 t1 t2 V G D L. destruct (range_part _ r t0 t1 V G) as (o & E & P). destruct (range_part _ r t1 t2 V G) as (o' & E' & P'). destruct (range_part _ r t0 t2 V G) as (o'' & E'' & P'').
  exists (exp (- d * len o)), (exp (- d * len o')). cbv zeta. rewrite (homogeneous_tr d a lo hi us r t0 t1 o E), (homogeneous_tr d a lo hi us r t1 t2 o' E'), (homogeneous_tr d a lo hi us r t0 t2 o'' E'').
  repeat split.
  - rewrite (part_add _ _ _ _ _ _ _ _ L P P' P''). rewrite <- exp_plus. unfold ret. do 4 f_equal. f_equal. ring.
  - assert (K := len_pos _ _ _ _ _ P'). assert (X := exp_le_1 (- d * len o') ltac:(nra)). assert (Y := exp_pos (- d * len o)). nra.
Qed.
Print Assumptions C52_homogeneous_multiplicative.
(** Sampling a distance: with the random number u, a scattering event is sampled exactly if u is less than
    one minus the transmittance T of the segment, that is with probability 1 - T; the event is at the point to
    which the transmittance is 1 - u, so that the density of the events is that of the collisions; its weight
    is the albedo. Otherwise, with probability T, the weight is one. *)
Theorem C52_homogeneous_sampling : forall d a lo hi u us r t0 t1, valid_box (box lo hi) -> general (box lo hi) r -> 0 < d -> t0 <= t1 -> 0 <= u < 1 ->
  let m := homogeneous d a lo hi in
  exists T o us', md_transmittance m us r t0 t1 = ret (grey T, us) /\ md_sample m (u :: us) r t0 t1 = ret (o, us') /\
    match o with
    | Some (mk_ds p w true) => u < 1 - T /\ w = a /\ exists t, t0 <= t <= t1 /\ p = ray_at r t /\ in_box (box lo hi) p /\
        md_transmittance m us r t0 t = ret (grey (1 - u), us)
    | Some (mk_ds p w false) => 1 - T <= u /\ w = grey 1
    | None => 1 - T <= u
    end.
Proof.
  intros d a lo hi u us r t0 t1 V G D L U m. destruct (range_part _ r t0 t1 V G) as (o & E & P). unfold m. rewrite (homogeneous_tr d a lo hi us r t0 t1 o E).
  exists (exp (- d * len o)). cbn [md_sample homogeneous]. change (mk_bound _ _) with (box lo hi). rewrite E. cbn [pbind].
  destruct o as [[x y]|].
  2: { exists None, (u :: us). split; [reflexivity|]. split; [reflexivity|]. cbn [len]. rewrite Rmult_0_r, exp_0. lra. }
  rewrite (flog_val u U). cbn [pbind]. unfold rdiv, fdiv. destruct (Req_EM_T d 0); [lra|]. cbn [pbind]. cbn [len part] in *. destruct P as [Lx P].
  set (k := - ln (1 - u) / d). assert (K0 : 0 <= k). { assert (X := ln_nonpos u U). unfold k. apply Rmult_le_pos; [lra|left; now apply Rinv_0_lt_compat]. }
  assert (Kd : exp (- d * k) = 1 - u). { unfold k. replace (- d * (- ln (1 - u) / d)) with (ln (1 - u)) by (field; lra). apply exp_ln. lra. }
  destruct (Rlt_dec k (y - x)) as [C|C].
  - eexists _, us. split; [reflexivity|]. split; [reflexivity|]. cbv beta iota. split; [|split; [reflexivity|]].
    + assert (exp (- d * (y - x)) < exp (- d * k)) by (apply exp_increasing; nra). lra.
    + exists (x + k). assert (I := proj1 (P (x + k)) ltac:(lra)). split; [tauto|]. split; [reflexivity|]. split; [tauto|].
      destruct (range_part _ r t0 (x + k) V G) as (o' & E' & P'). change (md_transmittance (homogeneous d a lo hi) us r t0 (x + k) = ret (grey (1 - u), us)).
      rewrite (homogeneous_tr d a lo hi us r t0 (x + k) o' E'). unfold ret. do 4 f_equal. rewrite <- Kd. do 2 f_equal.
      assert (I0 := proj1 (P x) ltac:(lra)).
      destruct o' as [[x' y']|]; cbn [part len] in *.
      * destruct P' as [_ P']. assert (x' <= x <= y') by (apply P'; intuition lra). assert (x' <= x + k <= y') by (apply P'; intuition lra).
        assert (A := proj1 (P' x') ltac:(lra)). assert (B := proj1 (P' y') ltac:(lra)). assert (x <= x' <= y) by (apply P; intuition lra). lra.
      * exfalso. apply (P' x); [lra|tauto].
  - eexists _, us. split; [reflexivity|]. split; [reflexivity|]. cbv beta iota. split; [|reflexivity].
    destruct (Req_dec k (y - x)) as [Q|Q]; [rewrite <- Q; lra|]. assert (exp (- d * k) < exp (- d * (y - x))) by (apply exp_increasing; nra). lra.
Qed.
Print Assumptions C52_homogeneous_sampling.

Definition x_medium : medium := homogeneous 2 (grey (1 / 2)) (Some v0) (Some (grey 1)).
Definition x_ray : ray := mk_ray (V3 (-1) (1 / 2) (1 / 2)) (V3 1 0 0) (fun _ => false).
Example C52_homogeneous_example : let b := box (Some v0) (Some (grey 1)) in valid_box b /\ general b x_ray /\
  in_box b (ray_at x_ray 1) /\ in_box b (ray_at x_ray 2) /\ ~ in_box b (ray_at x_ray 0).
Proof.
  cbv zeta. unfold valid_box, general, in_box, vle, ray_at, box, x_ray, grey, v0, vadd, vscale. cbn [bmin bmax ro rd vx vy vz]. repeat split; try lra.
  intros [|[|i]]; cbn [comp vx vy vz]; [left|right|right]; lra.
Qed.

(** ** Heterogeneous media *)
Lemma along den r t0 t1 x y m : made den -> v_has_scalar den = true -> v_max den = ret m -> part (v_bound den) r t0 t1 (Some (x, y)) ->
  forall t, x <= t <= y -> exists k, v_scalar den (ray_at r t) = ret k /\ 0 <= k <= m.
Proof.
  intros M S E [_ P] t Ht. apply P in Ht as [_ I]. destruct (made_defined den M S _ I) as [k Ek]. exists k. split; [exact Ek|].
  destruct (made_ok den M) as (B & _). now apply (B _ _ _ Ek E).
Qed.
Lemma inv_max m : 0 < m -> rdiv 1 m = Val (/ m).
Proof. intros H. unfold rdiv, fdiv. destruct (Req_EM_T m 0); [lra|]. now rewrite Rdiv_1_l || (unfold Rdiv; rewrite Rmult_1_l). Qed.

(** An event sampled by delta tracking is at a point of the segment inside of the bound, where the density is
    positive, and has the albedo there as its weight. *)
Theorem C52_delta_tracking : forall den alb us us' r t0 t1 m ds, made den -> v_has_scalar den = true -> v_max den = ret m -> 0 < m ->
  valid_box (v_bound den) -> general (v_bound den) r -> draws us ->
  md_sample (heterogeneous den alb) us r t0 t1 = ret (Some ds, us') ->
  exists t x c, t0 <= t <= t1 /\ in_box (v_bound den) (ray_at r t) /\ v_scalar den (ray_at r t) = ret x /\ 0 < x /\
    v_color alb (ray_at r t) = ret c /\ ds = mk_ds (ray_at r t) c true.
Proof.
  intros den alb us us' r t0 t1 m ds M S E Hm V G D H. cbn [md_sample heterogeneous] in H. destruct (range_part _ r t0 t1 V G) as (o & Eo & P). rewrite Eo in H. cbn [pbind] in H.
  destruct o as [[x y]|]; [|discriminate]. rewrite E in H. cbn [pbind ret] in H. rewrite (inv_max m Hm) in H. cbn [pbind] in H. assert (Lx := proj1 P).
  destruct (track_sound den alb r x y m (/ m) Hm eq_refl (along den r t0 t1 x y m M S E P) us D x ds us' ltac:(lra) H) as (s & k & c & A & B).
  exists s, k, c. destruct P as [_ P]. assert (I := proj1 (P s) ltac:(lra)). tauto.
Qed.
Print Assumptions C52_delta_tracking.
(** Both loops end, without errors, whenever the random numbers for the free flights do not tend to zero. *)
Theorem C52_tracking_ends : forall den alb (u : nat -> R) d r t0 t1 m, made den -> v_has_scalar den = true -> v_max den = ret m -> 0 < m ->
  valid_box (v_bound den) -> general (v_bound den) r ->
  (forall p x, v_scalar den p = ret x -> 0 < x -> exists c, v_color alb p = ret c) ->
  (forall n, 0 <= u n < 1) -> 0 < d -> (forall n, exists k, (n <= k)%nat /\ d <= u (2 * k)%nat) ->
  (exists n o, md_sample (heterogeneous den alb) (map u (seq 0 n)) r t0 t1 = ret o) /\
  (exists n T us, md_transmittance (heterogeneous den alb) (map u (seq 0 n)) r t0 t1 = ret (grey T, us) /\ 0 <= T <= 1).
Proof.
  intros den alb u d r t0 t1 m M S E Hm V G A U Hd F. cbn [md_sample md_transmittance heterogeneous]. destruct (range_part _ r t0 t1 V G) as (o & Eo & P).
  rewrite Eo. cbn [pbind]. destruct o as [[x y]|].
  2: { split; [exists 0%nat; eauto|]. exists 0%nat, 1, []. split; [reflexivity|lra]. }
  rewrite E. cbn [pbind ret]. rewrite (inv_max m Hm). cbn [pbind]. assert (Lx := proj1 P). assert (H := along den r t0 t1 x y m M S E P). split.
  - apply (track_ends den alb r x y m (/ m) Hm eq_refl H (fun t k _ => A _ k) u d U Hd F 0 x). lra.
  - destruct (ratio_ends den r x y m (/ m) Hm eq_refl H u d U Hd) with (j := 0%nat) (t := x) (T := 1) as (n & o & Er); [|lra|].
    { intros n. destruct (F n) as (k & K1 & K2). exists (2 * k)%nat. split; [lia|exact K2]. }
    destruct (ratio_range den r x y m (/ m) Hm eq_refl H (map u (seq 0 n))) with (t := x) (T := 1) as [Ef|(T & us & Et & B)]; try lra.
    + unfold draws. apply Forall_forall. intros k K. apply in_map_iff in K as (i & <- & _). apply U.
    + rewrite Er in Ef. discriminate.
    + exists n, T, us. rewrite Et. split; [reflexivity|lra].
Qed.
Print Assumptions C52_tracking_ends.
(** Every estimate of the transmittance is between zero and one. *)
Theorem C52_ratio_tracking : forall den alb us us' r t0 t1 m T, made den -> v_has_scalar den = true -> v_max den = ret m -> 0 < m ->
  valid_box (v_bound den) -> general (v_bound den) r -> draws us ->
  md_transmittance (heterogeneous den alb) us r t0 t1 = ret (T, us') -> exists k, T = grey k /\ 0 <= k <= 1.
Proof.
  intros den alb us us' r t0 t1 m T M S E Hm V G D H. cbn [md_transmittance heterogeneous] in H. destruct (range_part _ r t0 t1 V G) as (o & Eo & P). rewrite Eo in H. cbn [pbind] in H.
  destruct o as [[x y]|]. 2: { exists 1. split; [unfold ret in H; congruence|lra]. }
  rewrite E in H. cbn [pbind ret] in H. rewrite (inv_max m Hm) in H. cbn [pbind] in H. assert (Lx := proj1 P).
  destruct (ratio_range den r x y m (/ m) Hm eq_refl (along den r t0 t1 x y m M S E P) us D) with (t := x) (T := 1) as [Ef|(k & us2 & Et & B)]; try lra.
  - rewrite Ef in H. discriminate.
  - rewrite Et in H. cbn [pbind ret] in H. exists k. split; [|lra]. unfold ret in H. congruence.
Qed.
Print Assumptions C52_ratio_tracking.
(** A volume of constant density without bounds, which is what leaving out the optional parameters gives, acts
    as if it were empty. *)
Theorem C52_default_bound_refuted : forall c s den alb us r t0 t1, constant None None c (Some s) = Ok den -> Rabs (vx (ro r)) < Inf ->
  md_sample (heterogeneous den alb) us r t0 t1 = ret (None, us) /\ md_transmittance (heterogeneous den alb) us r t0 t1 = ret (grey 1, us).
Proof.
  intros c s den alb us r t0 t1 H A. apply constant_inv in H as [_ ->].
  assert (E : range (mk_bound (V3 Inf Inf Inf) (V3 (- Inf) (- Inf) (- Inf))) r t0 t1 = Val None).
  { unfold range, isect_range, slab. cbn [comp bmin bmax vx].
    assert (B : - Inf < vx (ro r) < Inf) by (unfold Rabs in A; destruct (Rcase_abs _); lra). unfold recip.
    assert (X : forall p q : R, p < q -> forall l h, xlt (xmin (Fin p) h) (xmax (Fin q) l) = true \/ h = NaN \/ l = NaN).
    { intros p q L l h. unfold xmin, xmax. destruct l as [l| | |], h as [h| | |]; cbn; auto; repeat (match goal with |- context [Rlt_dec ?a ?b] => destruct (Rlt_dec a b) end; cbn); auto; lra. }
    destruct (Req_EM_T (vx (rd r)) 0) as [Z|Z].
    - destruct (neg0 r 0); cbn [xscale xlt]; destruct (Req_EM_T (Inf - vx (ro r)) 0); try lra; destruct (Req_EM_T (- Inf - vx (ro r)) 0); try lra;
        destruct (Rlt_dec (Inf - vx (ro r)) 0); try lra; destruct (Rlt_dec (- Inf - vx (ro r)) 0); try lra; reflexivity.
    - cbn [xscale]. assert (Y : exists p q, p < q /\ (if xlt (Fin (/ vx (rd r))) (Fin 0) then (Fin ((- Inf - vx (ro r)) * / vx (rd r)), Fin ((Inf - vx (ro r)) * / vx (rd r))) else (Fin ((Inf - vx (ro r)) * / vx (rd r)), Fin ((- Inf - vx (ro r)) * / vx (rd r)))) = (Fin q, Fin p)).
      { cbn [xlt]. destruct (Rlt_dec (/ vx (rd r)) 0) as [N|N].
        - exists ((Inf - vx (ro r)) * / vx (rd r)), ((- Inf - vx (ro r)) * / vx (rd r)). split; [nra|reflexivity].
        - assert (/ vx (rd r) <> 0) by now apply Rinv_neq_0_compat. exists ((- Inf - vx (ro r)) * / vx (rd r)), ((Inf - vx (ro r)) * / vx (rd r)). split; [nra|reflexivity]. }
      destruct Y as (p & q & L & ->). destruct (X p q L (Fin t0) (Fin t1)) as [->|[K|K]]; [|discriminate|discriminate]. reflexivity. }
  cbn [md_sample md_transmittance heterogeneous v_bound]. rewrite E. split; reflexivity.
Qed.
Print Assumptions C52_default_bound_refuted.

Definition x_density : volume := match constant (Some v0) (Some (grey 1)) None (Some 3) with Ok v => v | _ => x_sphere end.
Example C52_heterogeneous_example : made x_density /\ v_has_scalar x_density = true /\ v_max x_density = ret 3 /\
  valid_box (v_bound x_density) /\ general (v_bound x_density) x_ray /\ (forall p, v_color x_const p = ret (grey (1 / 2))) /\
  in_box (v_bound x_density) (ray_at x_ray (3 / 2)).
Proof.
  split; [apply (made_constant (Some v0) (Some (grey 1)) None (Some 3)); [intros x [= <-]; lra|reflexivity]|].
  repeat split; try (unfold x_density, x_ray, vle, v0, grey, ray_at, vadd, vscale; cbn; lra).
  intros [|[|i]]; unfold x_density, x_ray; cbn; [left|right|right]; lra.
Qed.
