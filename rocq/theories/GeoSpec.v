(** Independent vocabulary: points of rays, boxes and triangles. *)
From Coq Require Import Reals.
From Verif Require Import VecBase GeoModel.
Open Scope R_scope.

(** The point with parameter [t] on the ray. *)
Definition ray_at (r : ray) (t : R) : vec3 := vadd (ro r) (vscale t (rd r)).

Definition vle (a b : vec3) : Prop := vx a <= vx b /\ vy a <= vy b /\ vz a <= vz b.
Definition in_box (b : bound) (p : vec3) : Prop := vle (bmin b) p /\ vle p (bmax b).
(** Box [a] is inside box [b], compared by their corners. *)
Definition box_le (a b : bound) : Prop := vle (bmin b) (bmin a) /\ vle (bmax a) (bmax b).

(** The point of the triangle p1 p2 p3 with barycentric coordinates (1-a-b, a, b). *)
Definition bary (p1 p2 p3 : vec3) (a b : R) : vec3 := vadd (vscale (1 - a - b) p1) (vadd (vscale a p2) (vscale b p3)).
Definition in_simplex (a b : R) : Prop := 0 <= a /\ 0 <= b /\ a + b <= 1.
