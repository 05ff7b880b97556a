(** Vocabulary for sums of binary64 numbers. *)
From Coq Require Import Reals List.
From Verif Require Import RngModel FltModel FBoundModel.
Local Open Scope R_scope.

(** The exact sum of channel [i], and that of the absolute values *)
Definition sum_of (i : nat) (vs : list fvec) : R := fold_right (fun v r => val (fcomp v i) + r) 0 vs.
Definition abs_sum (i : nat) (vs : list fvec) : R := fold_right (fun v r => Rabs (val (fcomp v i)) + r) 0 vs.
Definition all_finite (i : nat) (vs : list fvec) : Prop := forall v, In v vs -> finite (fcomp v i) = true.
