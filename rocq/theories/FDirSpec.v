(** Vocabulary for directions of binary64 numbers. *)
From Coq Require Import Reals.
From Flocq Require Import Core.Core.
From Verif Require Import RngModel FltModel FBoundModel FDistSpec.
Local Open Scope R_scope.

(** The square of the length of a vector, exactly *)
Definition length2 (v : fvec) : R := val (fx v) * val (fx v) + val (fy v) * val (fy v) + val (fz v) * val (fz v).
(** Every component is a number between -1 and 1. *)
Definition in_cube (v : fvec) : Prop := forall i, finite (fcomp v i) = true /\ -1 <= val (fcomp v i) <= 1.
(** Finite components up to 2^500 in size, one of them at least 2^-500 *)
Definition usual_vec (v : fvec) : Prop :=
  (forall i, finite (fcomp v i) = true /\ Rabs (val (fcomp v i)) <= bpow radix2 500) /\ exists i, bpow radix2 (-500) <= Rabs (val (fcomp v i)).
(** The exact dot product *)
Definition rdot3 (a b : fvec) : R := val (fx a) * val (fx b) + val (fy a) * val (fy b) + val (fz a) * val (fz b).
(** A unit vector up to rounding *)
Definition near_unit (v : fvec) : Prop := in_cube v /\ Rabs (length2 v - 1) <= 16 * eps.
(** The results of std::cos and std::sin for some angle: numbers between -1 and 1 whose squares add up to 1 but for rounding *)
Definition unit_pair (c s : flt) : Prop := finite c = true /\ finite s = true /\ -1 <= val c <= 1 /\ -1 <= val s <= 1 /\ Rabs (val c * val c + val s * val s - 1) <= 4 * eps.
