(** Vocabulary for conversions of densities. *)
From Coq Require Import Reals.
From Flocq Require Import Core.Core.
From Verif Require Import RngModel FltModel FBoundModel FDistSpec FDirSpec FGtermModel.
Local Open Scope R_scope.

(** A density that is not absurdly large *)
Definition usual_pdf (p : flt) : Prop := finite p = true /\ 0 <= val p <= bpow radix2 500.
(** The cosine between the normal of a point and a direction *)
Definition cosine_at (s : fgeom) (d : fvec) : R := Rabs (rdot3 (fg_n s) d).
