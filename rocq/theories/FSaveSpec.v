(** Vocabulary for image files: what is known of std::pow, and the exact values. *)
From Coq Require Import Reals ZArith.
From Flocq Require Import Core.Core IEEE754.BinarySingleNaN.
From Verif Require Import RngModel FltModel.
Local Open Scope R_scope.

(** std::pow of a C library that conforms to IEEE 754 and errs by at most two units of roundoff. Where the power is far from
    the limits of the range: *)
Definition pow_near (pow : flt -> flt -> flt) : Prop := forall x y, finite x = true -> finite y = true -> 0 < val x -> / 2 ^ 1000 <= Rpower (val x) (val y) <= 2 ^ 1000 ->
  finite (pow x y) = true /\ Rabs (val (pow x y) - Rpower (val x) (val y)) <= / 2 ^ 52 * Rpower (val x) (val y).
Definition pow_of_zero (pow : flt -> flt -> flt) : Prop := forall x y, finite x = true -> finite y = true -> val x = 0 -> 0 < val y -> finite (pow x y) = true /\ val (pow x y) = 0.
(** Exponents that are no integers: *)
Definition pow_of_negative (pow : flt -> flt -> flt) : Prop := forall x y, finite x = true -> finite y = true -> val x < 0 -> (forall z, val y <> IZR z) -> is_nan (pow x y) = true.
Definition pow_of_special (pow : flt -> flt -> flt) : Prop := forall x y, finite x = false -> finite y = true -> 0 < val y -> finite (pow x y) = false.
Definition pow_spec (pow : flt -> flt -> flt) : Prop := pow_near pow /\ pow_of_zero pow /\ pow_of_negative pow /\ pow_of_special pow.
(** Larger powers of larger numbers *)
Definition pow_monotone (pow : flt -> flt -> flt) : Prop := forall x x' y, finite x = true -> finite x' = true -> finite y = true -> 0 <= val x <= val x' -> 0 < val y ->
  finite (pow x y) = true -> finite (pow x' y) = true -> val (pow x y) <= val (pow x' y).

(** 256 times the value to the power 1 / 2.2 *)
Definition encoded (v : R) : R := if Req_EM_T v 0 then 0 else 256 * Rpower v (1 / (22 / 10)).
(** The byte for a number: the integer part, at most 255 *)
Definition quantised (x : R) : Z := Z.min 255 (Zfloor x).
(** The number of a float *)
Definition val32 (x : f32) : R := B2R x.
