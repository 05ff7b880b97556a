(** Independent vocabulary for the camera. *)
From Coq Require Import Reals.
From Verif Require Import VecBase SurfSpec CamModel.
Open Scope R_scope.

(** A camera with an orthonormal right-handed basis and a positive field of view and aspect. *)
Definition proper_camera (k : camera) : Prop := frame (c_u k) (c_v k) (c_w k) /\ 0 < c_tf k /\ 0 < c_aspect k.
(** [d] points into the view pyramid: along it one meets the plane at distance one in front of the
    camera inside the rectangle of half height tf and half width aspect * tf. *)
Definition in_view (k : camera) (d : vec3) : Prop :=
  exists t x y, 0 < t /\ - (c_aspect k * c_tf k) <= x <= c_aspect k * c_tf k /\ - c_tf k <= y <= c_tf k
    /\ vscale t d = vadd (vadd (vscale x (c_u k)) (vscale y (c_v k))) (vneg (c_w k)).
(** [a] and [b] have the same direction. *)
Definition same_direction (a b : vec3) : Prop := exists t, 0 < t /\ a = vscale t b.
