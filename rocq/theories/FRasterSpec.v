(** Vocabulary for raster positions in binary64. *)
From Coq Require Import List Reals ZArith.
From Verif Require Import Base FltModel FDistModel FDistSpec.
Import ListNotations.
Local Open Scope R_scope.

(** The sizes that an int can hold *)
Definition size (w : Z) : Prop := (1 <= w < 2 ^ 31)%Z.
(** A random number in [0,1], and one that keeps a distance of 2^-19 from both ends *)
Definition unit_number (u : flt) : Prop := finite u = true /\ 0 <= val u <= 1.
Definition inner (u : flt) : Prop := finite u = true /\ / 2 ^ 19 <= val u <= 1 - / 2 ^ 19.
(** A table of weights: rows of [cols] weights, whose sums do not overflow and are not all zero *)
Definition table (rows : list (list flt)) (cols : Z) : Prop :=
  (forall row, In row rows -> Z.of_nat (length row) = cols /\ weights row /\ finite (ftotal row) = true) /\
  summable (map ftotal rows).
