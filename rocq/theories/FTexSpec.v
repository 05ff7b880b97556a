(** Vocabulary for lookups in an image texture in binary64. *)
From Coq Require Import List Reals ZArith.
From Verif Require Import Base FltModel FTexModel FRasterSpec.
Import ListNotations.
Local Open Scope R_scope.

(** An image: so many values as its size asks for, their number an int *)
Definition fimage (b : fbitmap) : Prop :=
  (1 <= tw b)%Z /\ (1 <= th b)%Z /\ (1 <= tc b)%Z /\ (tw b * th b * tc b < 2 ^ 31)%Z /\ Z.of_nat (length (tdata b)) = (tw b * th b * tc b)%Z.
(** Component [k] of the texel in column [x] of row [y]: rows one after the other, in each the texels, in each the
    components *)
Definition part (b : fbitmap) (x y k : Z) : flt := nth (Z.to_nat (((y * tw b) + x) * tc b + k)) (tdata b) fzero.
Definition color (b : fbitmap) (x y : Z) : flt * flt * flt := (part b x y 0, part b x y 1, part b x y 2).
(** [x] is the cell, among [w] cells over a period of 1, that the coordinate [t] falls in, up to [d] of a cell *)
Definition falls (t : R) (w x : Z) (d : R) : Prop :=
  exists n, 0 <= t - IZR n < 1 /\ IZR x - d <= (t - IZR n) * IZR w <= IZR x + 1 + d.
