(** Vocabulary for the accuracy of hits. *)
From Coq Require Import List Reals.
From Flocq Require Import Core.Core.
From Verif Require Import RngModel FltModel FDistSpec FBoundModel FBvhSpec FTriModel FTriSpec.
Local Open Scope R_scope.

(** The point of the ray at distance [t], and the point of the plane of the triangle with coordinates [u], [v] *)
Definition ray_pos (r : fray) (t : R) (i : nat) : R := val (fcomp (fo r) i) + t * val (fcomp (fd r) i).
Definition tri_pos (k : ftriangle) (u v : R) (i : nat) : R :=
  (1 - u - v) * val (fcomp (tp1 k) i) + u * val (fcomp (tp2 k) i) + v * val (fcomp (tp3 k) i).
(** The ray meets the plane of the triangle at distance [t], at the point with coordinates [u], [v]. *)
Definition meets (r : fray) (k : ftriangle) (t u v : R) : Prop := forall i, ray_pos r t i = tri_pos k u v i.
(** How much the triangle faces the ray: the scalar product of the direction with the normal whose length is twice the
    area *)
Definition facing (r : fray) (k : ftriangle) : R :=
  Rabs (val (fcomp (fd r) 0) * cross_exact k 0 + val (fcomp (fd r) 1) * cross_exact k 1 + val (fcomp (fd r) 2) * cross_exact k 2).
(** A ray whose origin has coordinates up to 2^k and whose direction has components up to 2 (those of a normalised vector
    can be a little more than 1) *)
Definition rsized (k : Z) (r : fray) : Prop := vsized k (fo r) /\ vsized 1 (fd r).
(** The triangle as the acceleration structure holds it *)
Definition held (k : ftriangle) : ftri := new_ftri (tp1 k) (tp2 k) (tp3 k).
(** The accuracy that can be expected of a hit, where coordinates are up to 2^k: the less the triangle faces the ray, the
    worse *)
Definition blur (k : Z) (r : fray) (t : ftriangle) : R := 2000 * eps * (bpow radix2 k * bpow radix2 k) / facing r t.
(** The range of distances is of numbers and holds those from [lo] to [hi]. *)
Definition range_holds (tl th : flt) (lo hi : R) : Prop :=
  finite tl = true /\ finite th = true /\ val tl <= lo /\ hi <= val th.
