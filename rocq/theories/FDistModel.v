(** Model of the discrete distribution (include/lm/math.h:310-371) with the arithmetic of Float as it is:
    the same functions as in DistModel, on binary64 numbers instead of reals. *)
From Coq Require Import List ZArith Bool.
From Verif Require Import Base RBase FltModel.
Import ListNotations.
Local Open Scope Z_scope.

(** include/lm/math.h:310-311: the cumulative sums c, never empty. *)
Notation fdist := (list flt).
(** include/lm/math.h:310-311: c holds one 0. *)
Definition fempty : fdist := [fzero].
(** c.back(): include/lm/math.h:340. *)
Definition fback (c : fdist) : flt := last c fzero.

(** include/lm/math.h:339-341 *)
Definition fadd (c : fdist) (v : flt) : fdist := c ++ [fplus (fback c) v].

(** include/lm/math.h:346-351 *)
Definition fnorm (c : fdist) : fdist := let sum := fback c in map (fun v => fdivide v sum) c.

(** include/lm/math.h:358-360. The subscripts are in range. *)
Definition fpmf (c : fdist) (i : Z) : flt :=
  if (i <? 0) || (Z.of_nat (List.length c) <=? i + 1) then fzero
  else fminus (nth (Z.to_nat (i + 1)) c fzero) (nth (Z.to_nat i) c fzero).

(** std::upper_bound as binary search on the range [first, first + len). [fuel]: at least [len].
    Used by [fsample]: include/lm/math.h:367-370. *)
Fixpoint fupper_bound (fuel : nat) (c : fdist) (u : flt) (first len : nat) : nat :=
  match fuel with
  | O => first
  | S k =>
      match len with
      | O => first
      | _ => let half := Nat.div2 len in
             if flt_ltb u (nth (first + half) c fzero) then fupper_bound k c u first half
             else fupper_bound k c u (first + half + 1) (len - half - 1)
      end
  end.

(** include/lm/math.h:367-370; std::clamp with lo > hi is undefined. *)
Definition fsample (c : fdist) (u : flt) : outcome Z :=
  let it := fupper_bound (List.length c) c u 0 (List.length c) in
  let hi := Z.of_nat (List.length c) - 2 in
  if hi <? 0 then UB else Ok (zclamp (Z.of_nat it - 1) 0 hi).
