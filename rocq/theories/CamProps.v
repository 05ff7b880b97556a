(** C44 (the pinhole camera), C64 (view and projection matrices) and the camera's part of C42. *)
From Coq Require Import Reals Lra Psatz ZArith Bool.
From Verif Require Import Base RBase VecBase GeoModel SurfModel SurfSpec SurfProofs SurfWarpProofs MatModel MatProofs CamModel CamSpec CamProofs.
Open Scope R_scope.

(** ** C44 *)
(** Construction by look-at: succeeds exactly if the up vector is not parallel to the viewing axis; the
    basis is orthonormal, the camera looks from its position to the center, and its upward axis is on
    the side of the up vector. *)
Theorem C44_look_at : forall pos center up vfov aspect,
  (look_at pos center up vfov aspect = NonFinite <-> cross up (vsub pos center) = v0)
  /\ (forall k, look_at pos center up vfov aspect = Val k -> 0 < vfov < 180 -> 0 < aspect ->
       proper_camera k /\ c_pos k = pos /\ same_direction (vsub center pos) (vneg (c_w k)) /\ 0 < dot up (c_v k)).
Proof.
  intros pos center up vfov aspect. split; [apply look_at_fails|]. intros k H Hv Ha. split; [now apply (look_at_proper pos center up vfov aspect)|]. now apply look_at_axes in H.
Qed.
Print Assumptions C44_look_at.
(** Construction by a matrix with orthonormal right-handed columns. *)
Theorem C44_matrix : forall m t vfov aspect, frame (col0 m) (col1 m) (col2 m) -> 0 < vfov < 180 -> 0 < aspect -> proper_camera (from_matrix m t vfov aspect).
Proof.
  intros m t vfov aspect (H0 & H1 & H2 & H3 & H4 & H5 & H6) Hv Ha. split; [|split; [now apply half_height_pos|assumption]]. cbn [from_matrix c_u c_v c_w].
  repeat split; try assumption; try (now apply unit_neg).
  - rewrite dot_comm, dot_neg_r, dot_comm. lra.
  - rewrite dot_comm, dot_neg_r, dot_comm, dot_neg_r. lra.
  - rewrite dot_neg_r. lra.
  - rewrite <- H6. clear. vring.
Qed.
Print Assumptions C44_matrix.

(** The raster position of the ray through a raster point is that point. *)
Theorem C44_round_trip : forall k rp, proper_camera k -> in_square rp ->
  exists d, primary_ray k rp = Val d /\ unit d /\ raster_position k d = Val (Some rp).
Proof. intros k rp K. now apply round_trip. Qed.
Print Assumptions C44_round_trip.
(** A direction with a raster position is that of the ray through it, and the position is in the square. *)
Theorem C44_inverse : forall k d rp, proper_camera k -> unit d -> raster_position k d = Val (Some rp) -> in_square rp /\ primary_ray k rp = Val d.
Proof. intros k d rp K. now apply raster_some. Qed.
Print Assumptions C44_inverse.
(** A direction has a raster position exactly if it is in the view pyramid. *)
Theorem C44_frustum : forall k d, proper_camera k -> unit d ->
  (in_view k d -> exists rp, raster_position k d = Val (Some rp)) /\ (~ in_view k d -> raster_position k d = Val None).
Proof.
  intros k d K Hd. rewrite (in_view_ray k K d Hd). split.
  - intros (rp & Hs & E). destruct (round_trip k K rp Hs) as (d' & E' & _ & R). rewrite E in E'. injection E' as <-. now exists rp.
  - intros H. destruct (raster_val k K d) as [[rp|] E]; [|assumption]. elim H. exists rp. now apply raster_some.
Qed.
Print Assumptions C44_frustum.
(** The importance is zero exactly outside of the view pyramid and positive inside. *)
Theorem C44_importance : forall k d, proper_camera k -> unit d -> exists a, cam_eval k d = Val (grey a) /\ (in_view k d -> 0 < a) /\ (~ in_view k d -> a = 0).
Proof.
  intros k d K Hd. destruct (eval_pdf k K d) as (a & E & _ & Ha & H0). exists a. split; [assumption|]. destruct (C44_frustum k d K Hd) as [F1 F2]. split.
  - intros H. destruct (F1 H) as (rp & R). destruct (Req_dec a 0) as [Z|Z]; [|lra]. apply H0 in Z. congruence.
  - intros H. apply H0. auto.
Qed.
Print Assumptions C44_importance.
(** The density reported for the direction of a ray is the reciprocal of the factor by which the map from
    raster positions to directions scales area. *)
Theorem C44_density : forall k rp (f : vec2 -> vec3), proper_camera k -> in_square rp -> (forall q, primary_ray k q = Val (f q)) ->
  exists j p, area_element f rp j /\ cam_pdf_ray k (f rp) = Val p /\ j * p = 1.
Proof.
  intros k rp f K Hs Hf. set (a := c_aspect k * c_tf k * (2 * v2x rp - 1)). set (b := c_tf k * (2 * v2y rp - 1)).
  assert (E : forall q, f q = dir k (c_aspect k * c_tf k * (2 * v2x q - 1)) (c_tf k * (2 * v2y q - 1))).
  { intros q. assert (H := Hf q). rewrite primary_form in H by assumption. now injection H. }
  destruct (round_trip k K rp Hs) as (d & Ed & _ & R). rewrite Hf in Ed. injection Ed as <-. destruct (eval_pdf k K (f rp)) as (p & _ & Ep & _).
  exists (4 * (c_aspect k * c_tf k) * c_tf k * (/ sqrt (N a b) * / sqrt (N a b) * / sqrt (N a b))), p.
  assert (Hp := Ep). unfold cam_pdf_direction in Hp. rewrite R in Hp. cbn [fbind] in Hp.
  split; [|split].
  - destruct (area k K rp) as (d1 & d2 & (A1 & A2 & A3) & (B1 & B2 & B3) & Jv). exists d1, d2. unfold partials1, partials2, partial1, partial2 in *.
    split; [|split; [|exact Jv]].
    + split; [|split]; [refine (d_eq _ _ _ _ _ A1 _ eq_refl)|refine (d_eq _ _ _ _ _ A2 _ eq_refl)|refine (d_eq _ _ _ _ _ A3 _ eq_refl)]; intros z; cbn beta; rewrite E; reflexivity.
    + split; [|split]; [refine (d_eq _ _ _ _ _ B1 _ eq_refl)|refine (d_eq _ _ _ _ _ B2 _ eq_refl)|refine (d_eq _ _ _ _ _ B3 _ eq_refl)]; intros z; cbn beta; rewrite E; reflexivity.
  - unfold cam_pdf_ray. rewrite Ep. cbn. f_equal. ring.
  - assert (S1 := spos a b). destruct (dir_dots k K a b) as (_ & _ & W). rewrite E in Hp. fold a b in Hp. rewrite J_form in Hp by (try assumption; lra). rewrite W in Hp.
    apply (f_equal (fun x => match x with Val r => r | _ => 0 end)) in Hp. cbn beta iota in Hp. rewrite <- Hp. destruct K as (_ & K1 & K2). rewrite Ropp_involutive. set (s := / sqrt (N a b)) in *. field. lra.
Qed.
Print Assumptions C44_density.
(** The ray through the middle of the upper edge makes half the vertical field of view with the axis. *)
Theorem C44_field_of_view : forall k, proper_camera k -> c_tf k = half_height (c_vfov k) -> 0 < c_vfov k < 180 ->
  exists d, primary_ray k (V2 (/ 2) 1) = Val d /\ dot d (vneg (c_w k)) = cos (c_vfov k / 2 * PI / 180).
Proof. exact fov. Qed.
Print Assumptions C44_field_of_view.
(** The visible width over the visible height is the aspect parameter. (The documentation of the component
    calls the parameter "height / width".) *)
Theorem C44_aspect : forall k, proper_camera k -> exists dx dy, primary_ray k (V2 1 (/ 2)) = Val dx /\ primary_ray k (V2 (/ 2) 1) = Val dy
  /\ dot dx (c_u k) / dot dx (vneg (c_w k)) = c_aspect k * (dot dy (c_v k) / dot dy (vneg (c_w k))).
Proof.
  intros k K. rewrite !primary_form by assumption. eexists _, _. split; [reflexivity|]. split; [reflexivity|]. cbn [v2x v2y]. rewrite !dot_neg_r, !(dot_comm (dir k _ _)).
  match goal with |- context [dir k ?a ?b] => destruct (dir_dots k K a b) as (-> & _ & ->); assert (S1 := spos a b) end.
  match goal with |- context [dir k ?a ?b] => destruct (dir_dots k K a b) as (_ & -> & ->); assert (S2 := spos a b) end.
  field. split; apply not_eq_sym, Rlt_not_eq; apply sqrt_lt_R0, Npos.
Qed.
Print Assumptions C44_aspect.

(** ** C42 *)
(** Rays, directions and positions sampled by the camera have the weight value over density. *)
Theorem C42_camera_rays : forall k ud, proper_camera k -> in_square ud ->
  (exists r f p, cam_sample_ray k ud = Val (Some r) /\ cam_eval k (r_wo r) = Val f /\ cam_pdf_ray k (r_wo r) = Val p /\ 0 < p /\ vscale p (r_weight r) = f)
  /\ (exists d w f p, cam_sample_direction k ud = Val (Some (d, w)) /\ cam_eval k d = Val f /\ cam_pdf_direction k d = Val p /\ 0 < p /\ vscale p w = f)
  /\ (exists g w p, cam_sample_position k = Val (Some (g, w)) /\ cam_pdf_position k = Val p /\ vscale p w = grey 1).
Proof.
  intros k ud K Hs. destruct (round_trip k K ud Hs) as (d & E & _ & R). destruct (eval_pdf k K d) as (a & Ee & Ep & Ha & H0).
  assert (P : 0 < a) by (destruct (Req_dec a 0) as [Z|Z]; [apply H0 in Z; congruence|lra]).
  assert (V : vscale a (grey 1) = grey a) by (apply vec3_eq; cbn; ring). split; [|split].
  - exists (mk_ray (Degenerated (c_pos k)) d (grey 1)), (grey a), a. unfold cam_sample_ray, cam_pdf_ray. rewrite E. cbn [fbind r_wo r_weight]. rewrite Ep. cbn [fbind cam_pdf_position]. rewrite Rmult_1_r. auto.
  - exists d, (grey 1), (grey a), a. unfold cam_sample_direction. rewrite E. auto.
  - exists (Degenerated (c_pos k)), (grey 1), 1. repeat split. apply vec3_eq; cbn; ring.
Qed.
Print Assumptions C42_camera_rays.
(** A direct connection to the camera has the weight value over density if the point is in view. *)
Theorem C42_camera_direct_partial : forall k g r, proper_camera k -> cam_sample_direct k g = Val (Some r) -> in_view k (r_wo r) ->
  exists f p, cam_eval k (r_wo r) = Val f /\ cam_pdf_direct k g (r_geom r) = Val p /\ vscale p (r_weight r) = f.
Proof.
  intros k g r K H V. assert (U : unit (r_wo r)).
  { unfold cam_sample_direct in H. destruct g as [s0|q0|w0]; try discriminate; (apply fbind_val in H; destruct H as (wo & Hw & H); apply fbind_val in H; destruct H as (j & Hj & H); apply fbind_val in H; destruct H as (p & Hp & H);
    destruct (Req_EM_T p 0); [discriminate|]; apply fbind_val in H; destruct H as (w & Hww & H); injection H as <-; cbn; now apply fnormalize_unit in Hw). }
  destruct (proj1 (C44_frustum k _ K U) V) as (rp & R). now apply (cam_weight_direct k g r K H rp).
Qed.
Print Assumptions C42_camera_direct_partial.

(** A concrete camera. *)
Definition id3 : mat3 := M3 (V3 (-1) 0 0) (V3 0 1 0) (V3 0 0 (-1)).
Definition cam0 : camera := from_matrix id3 v0 90 1.
Lemma cam0_tf : c_tf cam0 = 1.
Proof. cbn. unfold half_height. replace (90 * PI / 180 * / 2) with (PI / 4) by field. apply tan_PI4. Qed.
Example C44_example : proper_camera cam0 /\ in_square (V2 (/ 4) (/ 2)) /\ c_vfov cam0 = 90.
Proof.
  split; [|split; [split; cbn; lra|reflexivity]]. apply C44_matrix; try lra. repeat split; unfold unit, dot; cbn; try lra. apply vec3_eq; cbn; ring.
Qed.
Example C44_example_look_at : exists k, look_at (V3 0 0 5) v0 (V3 0 1 0) 60 2 = Val k.
Proof.
  destruct (look_at (V3 0 0 5) v0 (V3 0 1 0) 60 2) as [k| |] eqn:E; [eauto| |].
  - apply look_at_fails in E. apply (f_equal vx) in E. cbn in E. lra.
  - unfold look_at, fnormalize, vdiv in E. destruct (Req_EM_T _ 0); [discriminate|]. cbn [fbind] in E. destruct (Req_EM_T _ 0); discriminate.
Qed.
Lemma unit_up : unit (V3 0 0 1). Proof. unfold unit, dot; cbn; ring. Qed.
Lemma direct0 s : s * s = 1 -> cam_sample_direct cam0 (Degenerated (V3 0 0 s)) = Val (Some (mk_ray (Degenerated v0) (V3 0 0 s) (grey (- s / 4)))).
Proof.
  intros Hs. assert (Us : unit (V3 0 0 s)) by (unfold unit, dot; cbn; lra). unfold cam_sample_direct. cbn [pos_of]. replace (vsub (V3 0 0 s) (c_pos cam0)) with (V3 0 0 s) by (apply vec3_eq; cbn; ring).
  rewrite (unit_normalize _ Us). cbn [fbind]. unfold J. rewrite eye_comp. cbn [vz].
  replace (- dot (c_w cam0) (V3 0 0 s)) with (- s) by (unfold dot; cbn; ring). rewrite rdiv_ok by nra. cbn [fbind]. rewrite cam0_tf. cbn [c_aspect cam0 from_matrix].
  rewrite rdiv_ok by lra. cbn [fbind]. unfold cam_pdf_direct, geometry_term. cbn [pos_of c_pos cam0 from_matrix].
  replace (dot (vsub v0 (V3 0 0 s)) (vsub v0 (V3 0 0 s))) with 1 by (unfold dot; cbn; lra). rewrite sqrt_1. rewrite !fdiv_ok by lra. cbn [cos_at of_num fbind].
  destruct (Req_EM_T (1 * 1 / 1) 0); [lra|]. rewrite rdiv_ok by lra. cbn [fbind]. destruct (Req_EM_T (1 / (1 * 1 / 1)) 0); [lra|].
  unfold vdiv. destruct (Req_EM_T (1 / (1 * 1 / 1)) 0); [lra|]. cbn [fbind]. do 3 f_equal. assert (N0 : s <> 0) by nra.
  assert (E : / (1 / (1 * 1 / 1)) * (1 / - s * (1 / - s) * (1 / - s) / (1 * 1 * 1 * 4)) = - s / 4).
  { transitivity (- / (s * s) * / s / 4); [field; assumption|]. rewrite Hs. replace (/ s) with s by (apply Rmult_eq_reg_l with s; [rewrite Rinv_r by assumption; lra|assumption]). field. }
  apply vec3_eq; cbn [vscale grey vx vy vz]; exact E.
Qed.
Example C42_camera_example : exists r, cam_sample_direct cam0 (Degenerated (V3 0 0 (-1))) = Val (Some r) /\ in_view cam0 (r_wo r).
Proof.
  rewrite direct0 by ring. eexists. split; [reflexivity|]. cbn [r_wo]. exists 1, 0, 0. rewrite cam0_tf. cbn [c_aspect cam0 from_matrix]. repeat split; try lra. apply vec3_eq; cbn; ring.
Qed.
(** Finding: connecting a point behind the camera succeeds with a negative weight, although the value is
    zero: the direct connection does not look at the frustum. *)
Theorem C42_camera_direct_refuted : exists k g r f p, proper_camera k /\ cam_sample_direct k g = Val (Some r)
  /\ cam_eval k (r_wo r) = Val f /\ cam_pdf_direct k g (r_geom r) = Val p /\ vscale p (r_weight r) <> f /\ vx (r_weight r) < 0.
Proof.
  exists cam0, (Degenerated (V3 0 0 1)). rewrite direct0 by ring. eexists _, v0, 1. split; [apply C44_example|]. split; [reflexivity|]. cbn [r_wo r_geom r_weight]. split; [|split; [|split]].
  - unfold cam_eval, raster_position. rewrite eye_comp. cbn [vz]. destruct (Rle_dec 0 _) as [|C]; [reflexivity|]. elim C. unfold dot; cbn. lra.
  - unfold cam_pdf_direct, geometry_term. cbn [pos_of]. replace (dot (vsub v0 (V3 0 0 1)) (vsub v0 (V3 0 0 1))) with 1 by (unfold dot; cbn; lra). rewrite sqrt_1, !fdiv_ok by lra. cbn [cos_at of_num fbind].
    destruct (Req_EM_T (1 * 1 / 1) 0); [lra|]. rewrite rdiv_ok by lra. f_equal. field.
  - intros H. apply (f_equal vx) in H. cbn in H. lra.
  - cbn. lra.
Qed.
Print Assumptions C42_camera_direct_refuted.

(** ** C64 *)
(** For a camera placed by look-at, a point in front of it is projected by the view and projection
    matrices to the screen position that corresponds to its raster position; points outside of the screen
    have no raster position. *)
Theorem C64_projection : forall pos center up vfov aspect k p d, look_at pos center up vfov aspect = Val k -> 0 < vfov < 180 -> 0 < aspect ->
  dot (c_w k) (vsub p pos) < 0 -> fnormalize (vsub p pos) = Val d ->
  exists e x y, view_point k p = Val e /\ project k e = Val (V2 x y)
    /\ forall rp, raster_position k d = Val (Some rp) <-> -1 <= x <= 1 /\ -1 <= y <= 1 /\ rp = V2 ((x + 1) / 2) ((y + 1) / 2).
Proof. exact projection. Qed.
Print Assumptions C64_projection.
(** Finding: after construction by a matrix the view matrix reads the up vector, which is not set. *)
Theorem C64_matrix_refuted : forall m t vfov aspect p, view_point (from_matrix m t vfov aspect) p = Undefined.
Proof. reflexivity. Qed.
Print Assumptions C64_matrix_refuted.
Example C64_example : exists k d, look_at (V3 0 0 1) v0 (V3 0 1 0) 90 1 = Val k /\ dot (c_w k) (vsub v0 (V3 0 0 1)) < 0 /\ fnormalize (vsub v0 (V3 0 0 1)) = Val d.
Proof.
  exists (mk_camera (V3 0 0 1) (Some (V3 0 1 0)) (V3 1 0 0) (cross (V3 0 0 1) (V3 1 0 0)) (V3 0 0 1) 90 (half_height 90) 1), (V3 0 0 (-1)). split; [|split].
  - unfold look_at. replace (vsub (V3 0 0 1) v0) with (V3 0 0 1) by (apply vec3_eq; cbn; ring). rewrite (unit_normalize _ unit_up). cbn [fbind].
    replace (cross (V3 0 1 0) (V3 0 0 1)) with (V3 1 0 0) by (apply vec3_eq; cbn; ring). rewrite unit_normalize by (unfold unit, dot; cbn; ring). reflexivity.
  - unfold dot. cbn. lra.
  - replace (vsub v0 (V3 0 0 1)) with (V3 0 0 (-1)) by (apply vec3_eq; cbn; ring). apply unit_normalize. unfold unit, dot; cbn; ring.
Qed.
