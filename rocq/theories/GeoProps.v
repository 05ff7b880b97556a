(** C33 (bounding boxes), C36 (ray-triangle test). *)
From Coq Require Import Reals ZArith Bool List Lra Lia.
From Verif Require Import Base RBase VecBase GeoModel GeoSpec GeoProofs.
Import ListNotations.
Open Scope R_scope.

(** ** C33 *)
(** merge is the least upper bound of two boxes, and of a box and a point. *)
Theorem C33_merge : forall a b, box_le a (merge a b) /\ box_le b (merge a b)
  /\ (forall c, box_le a c -> box_le b c -> box_le (merge a b) c)
  /\ (forall p, in_box a p \/ in_box b p -> in_box (merge a b) p).
Proof.
  intros a b. destruct (merge_ub a b) as [H1 H2]. split; [assumption|]. split; [assumption|]. split; [intros c; apply merge_lub|].
  intros p [H|H]; [exact (in_box_le _ _ _ H1 H)|exact (in_box_le _ _ _ H2 H)].
Qed.
Print Assumptions C33_merge.

Theorem C33_merge_point : forall b p, box_le b (merge_point b p) /\ in_box (merge_point b p) p
  /\ forall c, box_le b c -> in_box c p -> box_le (merge_point b p) c.
Proof. intros b p. destruct (merge_point_ub b p). split; [assumption|]. split; [assumption|]. intros c. apply merge_point_lub. Qed.
Print Assumptions C33_merge_point.

Theorem C33_merge_laws : forall a b c, merge a b = merge b a /\ merge a (merge b c) = merge (merge a b) c /\ merge a a = a.
Proof.
  intros a b c. unfold merge. cbn. split; [now rewrite vmin_comm, vmax_comm|]. split; [now rewrite vmin_assoc, vmax_assoc|].
  rewrite vmin_idem, vmax_idem. now destruct a.
Qed.
Print Assumptions C33_merge_laws.

(** The default box is neutral for boxes within the limits -Inf and Inf... *)
Theorem C33_neutral : forall b, vle (bmin b) (V3 Inf Inf Inf) -> vle (V3 (- Inf) (- Inf) (- Inf)) (bmax b) -> merge new_bound b = b.
Proof.
  intros [[a1 a2 a3] [b1 b2 b3]]. unfold vle, merge, new_bound, vmin, vmax. cbn. intros (? & ? & ?) (? & ? & ?). f_equal; f_equal; mm; lra.
Qed.
Print Assumptions C33_neutral.

(** ...but not for all boxes, because Inf is the number 10^10. *)
Theorem C33_neutral_refuted : ~ (forall b, valid_box b -> merge new_bound b = b).
Proof.
  intros H. specialize (H (mk_bound (V3 (2 * Inf) 0 0) (V3 (2 * Inf) 0 0))). unfold valid_box, vle, merge, new_bound, vmin, vmax, Inf in H. cbn in H.
  assert (E := H ltac:(lra)). injection E as E _ _. unfold Rmin in E. destruct (Rle_dec 10000000000 (2 * 10000000000)); lra.
Qed.
Print Assumptions C33_neutral_refuted.

(** If a point of the ray in the interval is in the box, the test succeeds, for every direction with
    any zero components; the range returned does not exclude the point. *)
Theorem C33_conservative : forall b r tmin tmax t, tmin <= t <= tmax -> in_box b (ray_at r t) ->
  isect b r tmin tmax = true
  /\ forall l h, isect_range b r tmin tmax = (true, l, h) -> xlt (Fin t) l = false /\ xlt h (Fin t) = false.
Proof.
  intros b r tmin tmax t Ht Hb. destruct (isect_range_in b r tmin tmax t Ht Hb) as (l & h & E & H). unfold isect. rewrite E. split; [reflexivity|].
  intros l' h' [= <- <-]. exact H.
Qed.
Print Assumptions C33_conservative.

(** Unless a zero direction component meets an origin on the face of the box, the test is exact and
    the range is the part of the interval inside the box. *)
Theorem C33_exact_partial : forall b r tmin tmax, valid_box b ->
  (forall i, comp (rd r) i <> 0 \/ (comp (ro r) i <> comp (bmin b) i /\ comp (ro r) i <> comp (bmax b) i)) ->
  (isect b r tmin tmax = true <-> exists t, tmin <= t <= tmax /\ in_box b (ray_at r t))
  /\ forall l h, isect_range b r tmin tmax = (true, l, h) ->
     exists x y, l = Fin x /\ h = Fin y /\ forall t, x <= t <= y <-> tmin <= t <= tmax /\ in_box b (ray_at r t).
Proof.
  intros b r tmin tmax Hb Hc. split; [split|].
  - intros H. unfold isect in H. destruct (isect_range b r tmin tmax) as [[g l] h] eqn:E. cbn in H. subst g.
    destruct (isect_range_out b r tmin tmax l h Hb Hc E) as (x & y & _ & _ & Hle & Q). exists x. apply Q. lra.
  - intros (t & Ht & Hin). now apply (C33_conservative b r tmin tmax t).
  - intros l h E. destruct (isect_range_out b r tmin tmax l h Hb Hc E) as (x & y & El & Eh & _ & Q). eauto.
Qed.
Print Assumptions C33_exact_partial.

Definition x_box : bound := mk_bound (V3 0 0 0) (V3 1 1 1).
Definition x_ray : ray := mk_ray (V3 (-5) 0 0) (V3 1 0 1) (fun _ => false).
Lemma x_isect : isect_range x_box x_ray 0 10 = (true, Fin 0, Fin 1).
Proof.
  assert (R1 : forall g, recip 1 g = Fin 1) by (intros g; unfold recip; destruct (Req_EM_T 1 0); [lra|]; now rewrite Rinv_1).
  assert (R0 : recip 0 false = PInf) by (unfold recip; destruct (Req_EM_T 0 0); [reflexivity|lra]).
  assert (L1 : xlt (Fin 1) (Fin 0) = false) by (cbn; destruct (Rlt_dec 1 0); [lra|reflexivity]).
  assert (S0 : slab x_box x_ray 0 (Fin 0) (Fin 10) = (Fin 5, Fin 6, true)).
  { unfold slab, x_box, x_ray. cbn [comp bmin bmax ro rd neg0 vx vy vz]. rewrite R1, L1. cbn [xscale].
    replace ((0 - -5) * 1) with 5 by ring. replace ((1 - -5) * 1) with 6 by ring. unfold xmax, xmin. cbn [xlt].
    destruct (Rlt_dec 5 0); [lra|]. destruct (Rlt_dec 10 6); [lra|]. cbn [xlt]. destruct (Rlt_dec 6 5); [lra|reflexivity]. }
  assert (S1 : slab x_box x_ray 1 (Fin 5) (Fin 6) = (NaN, Fin 6, true)).
  { unfold slab, x_box, x_ray. cbn [comp bmin bmax ro rd neg0 vx vy vz]. rewrite R0. cbn [xlt xscale].
    destruct (Req_EM_T (0 - 0) 0); [|lra]. destruct (Req_EM_T (1 - 0) 0); [lra|]. destruct (Rlt_dec (1 - 0) 0); [lra|]. reflexivity. }
  assert (S2 : slab x_box x_ray 2 NaN (Fin 6) = (Fin 0, Fin 1, true)).
  { unfold slab, x_box, x_ray. cbn [comp bmin bmax ro rd neg0 vx vy vz]. rewrite R1, L1. cbn [xscale].
    replace ((0 - 0) * 1) with 0 by ring. replace ((1 - 0) * 1) with 1 by ring. unfold xmax, xmin. cbn [xlt].
    destruct (Rlt_dec 6 1); [lra|]. cbn [xlt]. destruct (Rlt_dec 1 0); [lra|reflexivity]. }
  unfold isect_range. rewrite S0. cbn [negb]. rewrite S1. cbn [negb]. rewrite S2. reflexivity.
Qed.

(** In the exceptional case the test may succeed although no point of the interval is in the box:
    0 * infinity is NaN, and the comparisons with it drop the constraints found before. *)
Theorem C33_exact_refuted : ~ (forall b r tmin tmax, valid_box b -> tmin <= tmax -> isect b r tmin tmax = true ->
  exists t, tmin <= t <= tmax /\ in_box b (ray_at r t)).
Proof.
  intros H. destruct (H x_box x_ray 0 10) as (t & Ht & [Hlo Hhi]).
  - unfold valid_box, vle, x_box; cbn; lra.
  - lra.
  - unfold isect. now rewrite x_isect.
  - unfold vle, ray_at, x_box, x_ray in *. cbn in *. lra.
Qed.
Print Assumptions C33_exact_refuted.

(** A ray that passes the box, parallel to and starting in the plane of one of its faces... *)
Example C33_example_conservative : let r := mk_ray (V3 (-1) 0 0) (V3 1 0 0) (fun _ => true) in
  0 <= 3 / 2 <= 10 /\ in_box x_box (ray_at r (3 / 2)).
Proof. unfold in_box, vle, ray_at, x_box; cbn; lra. Qed.
(** ...and one in general position. *)
Example C33_example_exact : let r := mk_ray (V3 (-1) (1 / 2) 0) (V3 1 0 (1 / 4)) (fun _ => false) in
  valid_box x_box /\ (forall i, comp (rd r) i <> 0 \/ (comp (ro r) i <> comp (bmin x_box) i /\ comp (ro r) i <> comp (bmax x_box) i)).
Proof.
  split; [unfold valid_box, vle, x_box; cbn; lra|]. intros [|[|i]]; cbn; [left; lra|right; lra|left; lra].
Qed.

(** ** C36 *)
(** A reported hit is the point of the ray at distance t and the point of the triangle with the
    reported coordinates, within the triangle and the interval. *)
Theorem C36_sound : forall p1 p2 p3 fn f r tl th h, tri_isect (new_tri p1 p2 p3 fn f) r tl th = Some h ->
  ray_at r (ht h) = bary p1 p2 p3 (hu h) (hv h) /\ in_simplex (hu h) (hv h) /\ tl <= ht h <= th.
Proof.
  intros p1 p2 p3 fn f r tl th h E. destruct (tri_isect_sound _ _ _ _ _ E) as (Ht & Hu & Hv & Huv & Hp). split; [|unfold in_simplex; lra].
  rewrite Hp. cbn [tp1 te1 te2 new_tri]. unfold bary. vring.
Qed.
Print Assumptions C36_sound.

(** Conversely a point of the triangle on the ray within the interval is reported, with its distance
    and coordinates, if the ray is not too close to parallel to the triangle relative to its size:
    the determinant is at least 10^-8. *)
Theorem C36_complete_partial : forall p1 p2 p3 fn f r tl th t a b, in_simplex a b -> tl <= t <= th -> ray_at r t = bary p1 p2 p3 a b ->
  / 100000000 <= Rabs (dot (vsub p2 p1) (cross (rd r) (vsub p3 p1))) ->
  tri_isect (new_tri p1 p2 p3 fn f) r tl th = Some (mk_hit t a b).
Proof.
  intros p1 p2 p3 fn f r tl th t a b Hs Ht E Hd. apply tri_isect_complete; auto. rewrite E. cbn [tp1 te1 te2 new_tri]. unfold bary. vring.
Qed.
Print Assumptions C36_complete_partial.

(** The threshold is absolute: a triangle with edges of length 10^-5 facing the ray is never hit. *)
Theorem C36_complete_refuted : ~ (forall p1 p2 p3 fn f r tl th t a b, in_simplex a b -> tl <= t <= th -> ray_at r t = bary p1 p2 p3 a b ->
  dot (vsub p2 p1) (cross (rd r) (vsub p3 p1)) <> 0 -> exists h, tri_isect (new_tri p1 p2 p3 fn f) r tl th = Some h).
Proof.
  intros H. destruct (H v0 (V3 (/ 100000) 0 0) (V3 0 (/ 100000) 0) 0%Z 0%Z (mk_ray (V3 0 0 1) (V3 0 0 (-1)) (fun _ => false)) 0 10 1 0 0) as (h & E).
  - unfold in_simplex. lra.
  - lra.
  - unfold ray_at, bary. cbn [ro rd]. vcomp; lra.
  - unfold dot, cross, vsub; cbn. lra.
  - unfold tri_isect in E. match type of E with context [Rlt_dec (Rabs ?x) tri_eps] => assert (D : Rabs x < tri_eps) end.
    { unfold tri_eps, dot, cross, vsub; cbn. rewrite Rabs_right; lra. }
    destruct (Rlt_dec _ tri_eps) as [|n] in E; [discriminate|]. apply n, D.
Qed.
Print Assumptions C36_complete_refuted.

(** Every point of the triangle is in the box stored with it. *)
Theorem C36_box : forall p1 p2 p3 fn f a b, in_simplex a b -> in_box (tb (new_tri p1 p2 p3 fn f)) (bary p1 p2 p3 a b).
Proof. exact new_tri_box. Qed.
Print Assumptions C36_box.

Example C36_example : tri_isect (new_tri v0 (V3 1 0 0) (V3 0 1 0) 0 0) (mk_ray (V3 (1/4) (1/4) 1) (V3 0 0 (-1)) (fun _ => false)) 0 10 = Some (mk_hit 1 (1/4) (1/4)).
Proof.
  apply (C36_complete_partial v0 (V3 1 0 0) (V3 0 1 0) 0 0 (mk_ray (V3 (1/4) (1/4) 1) (V3 0 0 (-1)) (fun _ => false)) 0 10 1 (1/4) (1/4)).
  - unfold in_simplex. lra.
  - lra.
  - unfold ray_at, bary. cbn [ro rd]. vcomp; lra.
  - unfold dot, cross, vsub; cbn. rewrite Rabs_right; lra.
Qed.

(** The centre of a box lies in it and the box is symmetric about it. *)
Theorem C33_center : forall b, valid_box b -> in_box b (center b)
  /\ forall p, in_box b p -> in_box b (vsub (vadd (center b) (center b)) p).
Proof.
  intros b H. unfold valid_box, in_box, vle, center, vsub, vadd, vscale in *. destruct b as [[a1 a2 a3] [b1 b2 b3]]; cbn in *.
  split; [lra|]. intros [p1 p2 p3]; cbn. lra.
Qed.
Print Assumptions C33_center.

(** The surface area of a box is that of its six faces; a box inside another has no larger area. *)
Theorem C33_area : (forall x y z p, surface_area (mk_bound p (vadd p (V3 x y z))) = x * y + x * y + (y * z + y * z) + (x * z + x * z))
  /\ forall a b, valid_box a -> box_le a b -> surface_area a <= surface_area b.
Proof.
  split.
  - intros x y z [p1 p2 p3]. unfold surface_area, vsub, vadd; cbn. ring.
  - intros [[a1 a2 a3] [a4 a5 a6]] [[b1 b2 b3] [b4 b5 b6]]. unfold valid_box, box_le, vle, surface_area, vsub; cbn. intros H1 H2.
    assert (M : forall x y x' y', 0 <= x <= x' -> 0 <= y <= y' -> x * y <= x' * y') by (intros; apply Rmult_le_compat; lra).
    assert (M1 := M (a4 - a1) (a5 - a2) (b4 - b1) (b5 - b2) ltac:(lra) ltac:(lra)).
    assert (M2 := M (a5 - a2) (a6 - a3) (b5 - b2) (b6 - b3) ltac:(lra) ltac:(lra)).
    assert (M3 := M (a6 - a3) (a4 - a1) (b6 - b3) (b4 - b1) ltac:(lra) ltac:(lra)). lra.
Qed.
Print Assumptions C33_area.
Example C33_center_example : valid_box (mk_bound v0 (V3 2 4 6)) /\ center (mk_bound v0 (V3 2 4 6)) = V3 1 2 3
  /\ box_le (mk_bound v0 (V3 2 4 6)) (mk_bound v0 (V3 2 4 7)).
Proof. unfold valid_box, box_le, vle, center, vadd, vscale; cbn. split; [lra|split; [f_equal; lra|lra]]. Qed.
