(** Model of the pinhole camera (src/camera/camera_pinhole.cpp). Float is the reals. *)
From Coq Require Import Reals ZArith Bool.
From Verif Require Import Base RBase VecBase GeoModel SurfModel MatModel.
Open Scope R_scope.

(** camera_pinhole.cpp:50-58. [c_up] is None if construction leaves the member uninitialised; the look-at
    position is only reported back and not modelled. *)
Record camera := mk_camera { c_pos : vec3; c_up : option vec3; c_u : vec3; c_v : vec3; c_w : vec3; c_vfov : R; c_tf : R; c_aspect : R }.

(** 94-95 *)
Definition half_height (vfov : R) : R := tan (vfov * PI / 180 * / 2).
(** camera_pinhole.cpp:87-96 *)
Definition look_at (pos center up : vec3) (vfov aspect : R) : fl camera :=
  do w <- fnormalize (vsub pos center);
  do u <- fnormalize (cross up w);
  Val (mk_camera pos (Some up) u (cross w u) w vfov (half_height vfov) aspect).
(** camera_pinhole.cpp:79-84, 94-96: the upper three rows of the matrix are [m] and the column [t]. *)
Definition from_matrix (m : mat3) (t : vec3) (vfov aspect : R) : camera :=
  mk_camera t None (vneg (col0 m)) (col1 m) (vneg (col2 m)) vfov (half_height vfov) aspect.
(** 112-114 *)
Definition set_aspect_ratio (k : camera) (a : R) : camera := mk_camera (c_pos k) (c_up k) (c_u k) (c_v k) (c_w k) (c_vfov k) (c_tf k) a.

(** 103-104, 209-210 *)
Definition to_eye (k : camera) (wo : vec3) : vec3 := mmul (transpose (M3 (c_u k) (c_v k) (c_w k))) wo.
(** 102-109 *)
Definition J (k : camera) (wo : vec3) : fl R :=
  let cos_theta := - vz (to_eye k wo) in
  do inv <- rdiv 1 cos_theta;
  rdiv (inv * inv * inv) (c_tf k * c_tf k * c_aspect k * 4).

(** 128-132: the direction; the origin is the position. *)
Definition primary_ray (k : camera) (rp : vec2) : fl vec3 :=
  let x := 2 * v2x rp - 1 in let y := 2 * v2y rp - 1 in
  do d <- fnormalize (V3 (c_aspect k * c_tf k * x) (c_tf k * y) (-1));
  Val (vadd (vadd (vscale (vx d) (c_u k)) (vscale (vy d) (c_v k))) (vscale (vz d) (c_w k))).

(** 207-226 *)
Definition raster_position (k : camera) (wo : vec3) : fl (option vec2) :=
  let e := to_eye k wo in
  if Rle_dec 0 (vz e) then Val None else
  do x1 <- rdiv (- vx e) (vz e); do x2 <- rdiv x1 (c_tf k); do x3 <- rdiv x2 (c_aspect k);
  do y1 <- rdiv (- vy e) (vz e); do y2 <- rdiv y1 (c_tf k);
  let x := x3 * / 2 + / 2 in let y := y2 * / 2 + / 2 in
  if Rlt_dec x 0 then Val None else if Rlt_dec 1 x then Val None else
  if Rlt_dec y 0 then Val None else if Rlt_dec 1 y then Val None else Val (Some (V2 x y)).

(** A sampled ray: the end point, a direction and a weight.
    Used by [cam_sample_ray]: src/camera/camera_pinhole.cpp:134-140. *)
Record ray_sample := mk_ray { r_geom : geom; r_wo : vec3; r_weight : vec3 }.
(** 134-140 *)
Definition cam_sample_ray (k : camera) (ud : vec2) : fl (option ray_sample) :=
  do d <- primary_ray k ud; Val (Some (mk_ray (Degenerated (c_pos k)) d (grey 1))).
(** 150-155 *)
Definition cam_sample_direction (k : camera) (ud : vec2) : fl (option (vec3 * vec3)) :=
  do d <- primary_ray k ud; Val (Some (d, grey 1)).
(** 157-163 *)
Definition cam_pdf_direction (k : camera) (wo : vec3) : fl R :=
  do r <- raster_position k wo; match r with None => Val 0 | Some _ => J k wo end.
(** 165-174 *)
Definition cam_sample_position (k : camera) : fl (option (geom * vec3)) := Val (Some (Degenerated (c_pos k), grey 1)).
(** src/camera/camera_pinhole.cpp:172-175. *)
Definition cam_pdf_position (k : camera) : fl R := Val 1.
(** 142-146 *)
Definition cam_pdf_ray (k : camera) (wo : vec3) : fl R :=
  do d <- cam_pdf_direction k wo; do a <- cam_pdf_position k; Val (d * a).
(** 197-203 *)
Definition cam_pdf_direct (k : camera) (g gE : geom) : fl R :=
  match g with Infinite _ => Val 0 | _ =>
  do G <- of_num (geometry_term g gE); if Req_EM_T G 0 then Val 0 else rdiv 1 G end.
(** 178-195 *)
Definition cam_sample_direct (k : camera) (g : geom) : fl (option ray_sample) :=
  match g with Infinite _ => Val None | _ =>
  let gE := Degenerated (c_pos k) in
  do wo <- fnormalize (vsub (pos_of g) (c_pos k));
  do j <- J k wo;
  do p <- cam_pdf_direct k g gE;
  if Req_EM_T p 0 then Val None else do w <- vdiv (grey j) p; Val (Some (mk_ray gE wo w)) end.
(** 232-237 *)
Definition cam_eval (k : camera) (wo : vec3) : fl vec3 :=
  do r <- raster_position k wo; match r with None => Val v0 | Some _ => do j <- J k wo; Val (grey j) end.

(** 118-120: glm::lookAt as its action on points (right-handed): eye coordinates of [p]. *)
Definition view_point (k : camera) (p : vec3) : fl vec3 :=
  match c_up k with
  | None => Undefined
  | Some up =>
      let eye := c_pos k in
      do f <- fnormalize (vsub (vsub eye (c_w k)) eye);
      do s <- fnormalize (cross f up);
      let u := cross s f in
      Val (V3 (dot s p - dot s eye) (dot u p - dot u eye) (- dot f p + dot f eye))
  end.
(** 122-124: glm::perspective with the clip range -1..1 as its action on eye coordinates, the x, y and w
    clip coordinates divided: the position on the screen from -1 to 1. *)
Definition project (k : camera) (e : vec3) : fl vec2 :=
  let t := tan (c_vfov k * PI / 180 / 2) in
  do a <- rdiv 1 (c_aspect k * t); do b <- rdiv 1 t;
  do x <- rdiv (a * vx e) (- vz e); do y <- rdiv (b * vy e) (- vz e);
  Val (V2 x y).
