(** Vocabulary for points on triangles. *)
From Coq Require Import List Reals.
From Flocq Require Import Core.Core.
From Verif Require Import RngModel FltModel FDistSpec FBoundModel FBvhSpec FTriModel.
Local Open Scope R_scope.

(** A triangle of coordinates up to 2^k *)
Definition tsized (k : Z) (t : ftriangle) : Prop := vsized k (tp1 t) /\ vsized k (tp2 t) /\ vsized k (tp3 t).
(** [q] is a point of the triangle (as a set of points of real coordinates). *)
Definition on_triangle (t : ftriangle) (q : nat -> R) : Prop :=
  exists x y z, 0 <= x /\ 0 <= y /\ 0 <= z /\ x + y + z = 1 /\
    forall i, q i = x * val (fcomp (tp1 t) i) + y * val (fcomp (tp2 t) i) + z * val (fcomp (tp3 t) i).
(** [p] is a vector of numbers each of which is within [d] of that of a point of the triangle. *)
Definition near_triangle (d : R) (t : ftriangle) (p : fvec) : Prop :=
  exists q, on_triangle t q /\ forall i, finite (fcomp p i) = true /\ Rabs (val (fcomp p i) - q i) <= d.
(** Coordinates on a triangle, up to rounding *)
Definition barycentric (u v : flt) : Prop :=
  finite u = true /\ finite v = true /\ 0 <= val u <= 1 /\ 0 <= val v <= 1 /\ val u + val v <= 1 + 4 * eps.
(** The three components of the normal whose length is twice the area *)
Definition cross_exact (t : ftriangle) (i : nat) : R :=
  let a j := val (fcomp (tp2 t) j) - val (fcomp (tp1 t) j) in
  let b j := val (fcomp (tp3 t) j) - val (fcomp (tp1 t) j) in
  match i with
  | O => a 1%nat * b 2%nat - a 2%nat * b 1%nat
  | 1%nat => a 2%nat * b 0%nat - a 0%nat * b 2%nat
  | _ => a 0%nat * b 1%nat - a 1%nat * b 0%nat
  end.
(** The triangle is not degenerate. *)
Definition proper (t : ftriangle) : Prop := exists i, cross_exact t i <> 0.
(** The area of the triangle *)
Definition area (t : ftriangle) : R :=
  / 2 * sqrt (cross_exact t 0 * cross_exact t 0 + cross_exact t 1 * cross_exact t 1 + cross_exact t 2 * cross_exact t 2).
