(** Model of the pinhole camera (src/camera/camera_pinhole.cpp) with the arithmetic of Float as it is (binary64): the
    same functions as in CamModel, on binary64 numbers instead of reals. *)
From Coq Require Import ZArith Bool.
From Flocq Require Import IEEE754.BinarySingleNaN.
From Verif Require Import RngModel FltModel FBoundModel FFilmModel FDirModel.
Local Open Scope Z_scope.

(** src/camera/camera_pinhole.cpp:52-56: u_, v_, w_, tf_, aspect_. [fctf] is the result of tan (92). *)
Record fcamera := mk_fcamera { fcu : fvec; fcv : fvec; fcw : fvec; fctf : flt; fcasp : flt }.
(** src/camera/camera_pinhole.cpp:87-89: w = normalize(position - center), u = normalize(cross(up, w)), v = cross(w, u) *)
Definition flookat (position center up : fvec) : fvec * fvec * fvec :=
  let w := fnormalize (fvsub position center) in
  let u := fnormalize (fcross up w) in
  (u, fcross w u, w).
(** .5_f. Used by [fplane]: src/camera/camera_pinhole.cpp:217-219. *)
Definition fhalf : flt := fmake 1 (-1).

(** src/camera/camera_pinhole.cpp:125-126: the direction in camera coordinates *)
Definition feye_ray (c : fcamera) (rx ry : flt) : fvec :=
  let x := fminus (fmult ftwo rx) fone in
  let y := fminus (fmult ftwo ry) fone in
  fnormalize (FV (fmult (fmult (fcasp c) (fctf c)) x) (fmult (fctf c) y) (Bopp fone)).
(** src/camera/camera_pinhole.cpp:127: u_*d.x + v_ * d.y + w_ * d.z *)
Definition fto_world (c : fcamera) (d : fvec) : fvec :=
  fvadd (fvadd (fvmul (fcu c) (fx d)) (fvmul (fcv c) (fy d))) (fvmul (fcw c) (fz d)).
(** src/camera/camera_pinhole.cpp:124-128: the direction of the primary ray *)
Definition fprimary (c : fcamera) (rx ry : flt) : fvec := fto_world c (feye_ray c rx ry).

(** src/camera/camera_pinhole.cpp:209-210: glm::transpose(Mat3(u_, v_, w_)) * wo. A row of the product adds the three
    products from left to right, like glm::dot (ext/glm, detail/type_mat3x3.inl). *)
Definition fto_eye (c : fcamera) (wo : fvec) : fvec := FV (fdot (fcu c) wo) (fdot (fcv c) wo) (fdot (fcw c) wo).
(** x >= y; false if one is NaN. Used by [fraster_position]: src/camera/camera_pinhole.cpp:207-226. *)
Definition flt_geb (x y : flt) : bool := Bleb y x.
(** src/camera/camera_pinhole.cpp:217-219: the position on the plane of the film *)
Definition fplane (c : fcamera) (e : fvec) : flt * flt :=
  (fplus (fmult (fdivide (fdivide (fdivide (Bopp (fx e)) (fz e)) (fctf c)) (fcasp c)) fhalf) fhalf,
   fplus (fmult (fdivide (fdivide (Bopp (fy e)) (fz e)) (fctf c)) fhalf) fhalf).
(** src/camera/camera_pinhole.cpp:207-226 *)
Definition fraster_position (c : fcamera) (wo : fvec) : option (flt * flt) :=
  let e := fto_eye c wo in
  if flt_geb (fz e) fzero then None else
  let '(x, y) := fplane c e in
  if flt_ltb x fzero || flt_ltb fone x || flt_ltb y fzero || flt_ltb fone y then None else Some (x, y).
