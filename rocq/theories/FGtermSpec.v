(** Vocabulary for the geometry term: what it should be, on real numbers. *)
From Coq Require Import Reals.
From Flocq Require Import Core.Core.
From Verif Require Import RngModel FltModel FDistSpec FBoundModel FBvhSpec FDirSpec FGtermModel.
Local Open Scope R_scope.

(** The vector from the first point to the second *)
Definition between (s1 s2 : fgeom) (i : nat) : R := val (fcomp (fg_p s2) i) - val (fcomp (fg_p s1) i).
(** The square of their distance *)
Definition dist2 (s1 s2 : fgeom) : R :=
  between s1 s2 0 * between s1 s2 0 + between s1 s2 1 * between s1 s2 1 + between s1 s2 2 * between s1 s2 2.
(** The cosine between the normal of [s] and the line through the two points; 1 for a point without normal *)
Definition cosine (s s1 s2 : fgeom) : R :=
  if fg_degenerated s then 1
  else Rabs (val (fx (fg_n s)) * between s1 s2 0 + val (fy (fg_n s)) * between s1 s2 1 + val (fz (fg_n s)) * between s1 s2 2) / sqrt (dist2 s1 s2).
(** A point with a position up to 2^200 in size and, unless it has none, a unit normal *)
Definition usual_point (s : fgeom) : Prop :=
  fg_infinite s = false /\ vsized 200 (fg_p s) /\ (fg_degenerated s = true \/ near_unit (fg_n s)).
(** The points are apart. *)
Definition apart (s1 s2 : fgeom) : Prop := exists i, (i < 3)%nat /\ bpow radix2 (-200) <= Rabs (between s1 s2 i).
