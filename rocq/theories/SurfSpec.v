(** Independent vocabulary: frames, Snell's law, area elements. *)
From Coq Require Import Reals.
From Verif Require Import VecBase.
Open Scope R_scope.

Definition unit (w : vec3) : Prop := dot w w = 1.
(** Three unit vectors, mutually orthogonal, u x v = n. *)
Definition frame (u v n : vec3) : Prop :=
  unit u /\ unit v /\ unit n /\ dot u v = 0 /\ dot u n = 0 /\ dot v n = 0 /\ cross u v = n.

(** The part of [w] in the plane orthogonal to the unit normal [n]; its length is the sine of the angle. *)
Definition tangential (w n : vec3) : vec3 := vsub w (vscale (dot w n) n).
(** [wt] is the continuation of a ray that comes from direction [wi] on the side of [n], behind the
    surface, by Snell's law with the relative index [eta]. *)
Definition snell (wi n : vec3) (eta : R) (wt : vec3) : Prop :=
  unit wt /\ dot wt n < 0 /\ tangential wt n = vscale (- eta) (tangential wi n).

(** The unit square without its left and right edge, where the warps are one-to-one. *)
Definition in_square (u : vec2) : Prop := 0 <= v2x u <= 1 /\ 0 <= v2y u <= 1.
Definition interior (u : vec2) : Prop := 0 < v2x u < 1 /\ 0 <= v2y u < 1.

(** [d] is the partial derivative of [f] by the first (second) coordinate at [u]. *)
Definition partial1 (f : vec2 -> R) (u : vec2) (d : R) : Prop := derivable_pt_lim (fun x => f (V2 x (v2y u))) (v2x u) d.
Definition partial2 (f : vec2 -> R) (u : vec2) (d : R) : Prop := derivable_pt_lim (fun y => f (V2 (v2x u) y)) (v2y u) d.

(** The factor by which a map of the square to the plane (to a surface in space) scales area at [u]. *)
Definition plane_area_element (f : vec2 -> vec2) (u : vec2) (J : R) : Prop :=
  exists a b c d, partial1 (fun u => v2x (f u)) u a /\ partial2 (fun u => v2x (f u)) u b
    /\ partial1 (fun u => v2y (f u)) u c /\ partial2 (fun u => v2y (f u)) u d /\ J = Rabs (a * d - b * c).
Definition partials1 (f : vec2 -> vec3) (u : vec2) (d : vec3) : Prop :=
  partial1 (fun u => vx (f u)) u (vx d) /\ partial1 (fun u => vy (f u)) u (vy d) /\ partial1 (fun u => vz (f u)) u (vz d).
Definition partials2 (f : vec2 -> vec3) (u : vec2) (d : vec3) : Prop :=
  partial2 (fun u => vx (f u)) u (vx d) /\ partial2 (fun u => vy (f u)) u (vy d) /\ partial2 (fun u => vz (f u)) u (vz d).
Definition area_element (f : vec2 -> vec3) (u : vec2) (J : R) : Prop :=
  exists d1 d2, partials1 f u d1 /\ partials2 f u d2 /\ J = vlen (cross d1 d2).
(** [f] maps [D] one-to-one onto [T]. *)
Definition one_to_one_onto {A B : Type} (D : A -> Prop) (f : A -> B) (T : B -> Prop) : Prop :=
  (forall u, D u -> T (f u)) /\ (forall u v, D u -> D v -> f u = f v -> u = v) /\ (forall w, T w -> exists u, D u /\ f u = w).

Definition open_disk (p : vec2) : Prop := 0 < v2x p * v2x p + v2y p * v2y p < 1.
(** Upper hemisphere without pole and rim; sphere without poles. *)
Definition open_hemisphere (w : vec3) : Prop := unit w /\ 0 < vz w < 1.
Definition open_sphere (w : vec3) : Prop := unit w /\ -1 < vz w < 1.
(** Points of a triangle, and of a triangle without the edges ca and bc, by barycentric coordinates. *)
Definition in_triangle (a b c p : vec3) : Prop :=
  exists x y z, 0 <= x /\ 0 <= y /\ 0 <= z /\ x + y + z = 1 /\ p = vadd (vadd (vscale x a) (vscale y b)) (vscale z c).
Definition open_triangle (a b c p : vec3) : Prop :=
  exists x y z, 0 < x /\ 0 < y /\ 0 <= z /\ x + y + z = 1 /\ p = vadd (vadd (vscale x a) (vscale y b)) (vscale z c).
