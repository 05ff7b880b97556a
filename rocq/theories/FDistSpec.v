(** Vocabulary for distributions over binary64 numbers. *)
From Coq Require Import List Reals.
From Verif Require Import Base FltModel FDistModel.
Import ListNotations.
Local Open Scope R_scope.

(** Weights: numbers, none negative. *)
Definition weights (ws : list flt) : Prop := forall w, In w ws -> finite w = true /\ 0 <= val w.
(** The table made of the given weights: add each, then normalize. *)
Definition fmade_of (ws : list flt) : fdist := fnorm (fold_left fadd ws fempty).
(** Their sum as a computation with Float, one after the other... *)
Definition ftotal (ws : list flt) : flt := fold_left fplus ws fzero.
(** ...and what it should be. *)
Definition exact_total (ws : list flt) : R := fold_right (fun w r => val w + r) 0 ws.
(** The sum does not overflow and is not zero. *)
Definition summable (ws : list flt) : Prop := finite (ftotal ws) = true /\ 0 < val (ftotal ws).
(** Half the distance from 1 to the next Float: the relative error of one operation. *)
Definition eps : R := / 2 ^ 53.
