(** Vocabulary for Gaussian volumes. *)
From Coq Require Import Reals ZArith Bool.
From Flocq Require Import Core.Core IEEE754.BinarySingleNaN.
From Verif Require Import FltModel FBoundModel.
Local Open Scope R_scope.

(** What is asked of the library's exp: at most one for arguments that are not positive (minus infinity included), and one at zero *)
Definition exp_ok (exp : flt -> flt) : Prop :=
  (forall x, x = B754_infinity true \/ (finite x = true /\ val x <= 0) -> finite (exp x) = true /\ 0 <= val (exp x) <= 1) /\
  (forall x, finite x = true -> val x = 0 -> exp x = fone) /\ (forall x, is_nan x = true -> is_nan (exp x) = true).
(** Parameters whose square is neither zero nor infinite *)
Definition usual_sigma (s : flt) : Prop := finite s = true /\ bpow radix2 (-200) <= Rabs (val s) <= bpow radix2 200.
Definition usual_sigmas (s : fvec) : Prop := usual_sigma (fx s) /\ usual_sigma (fy s) /\ usual_sigma (fz s).
Definition vfinite (p : fvec) : Prop := finite (fx p) = true /\ finite (fy p) = true /\ finite (fz p) = true.
(** Coordinates that are equal or neither extremely close to each other nor extremely far apart *)
Definition usual_gap (a b : flt) : Prop := val a - val b = 0 \/ bpow radix2 (-200) <= Rabs (val a - val b) <= bpow radix2 200.
Definition usual_gaps (a b : fvec) : Prop := usual_gap (fx a) (fx b) /\ usual_gap (fy a) (fy b) /\ usual_gap (fz a) (fz b).
(** The exponent of the Gaussian on real numbers, without its sign *)
Definition exponent (pos sigma p : fvec) : R :=
  (((val (fx pos) - val (fx p)) / val (fx sigma)) ^ 2 + ((val (fy pos) - val (fy p)) / val (fy sigma)) ^ 2 + ((val (fz pos) - val (fz p)) / val (fz sigma)) ^ 2) / 2.
(** exp never decreases, as Floats are compared. *)
Definition exp_monotone (exp : flt -> flt) : Prop := forall x y, is_nan x = false -> is_nan y = false -> flt_ltb y x = false -> flt_ltb fzero y = false -> val (exp x) <= val (exp y).
(** No coordinate of [p] is farther from that of [pos] than the one of [q]. *)
Definition nearer (pos p q : fvec) : Prop :=
  Rabs (val (fx pos) - val (fx p)) <= Rabs (val (fx pos) - val (fx q)) /\ Rabs (val (fy pos) - val (fy p)) <= Rabs (val (fy pos) - val (fy q)) /\ Rabs (val (fz pos) - val (fz p)) <= Rabs (val (fz pos) - val (fz q)).
