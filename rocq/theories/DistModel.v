(** Model of the discrete distributions (include/lm/math.h:307-432). A Float is [Some r], or [None] for
    the NaN and infinities that a division by zero yields. *)
From Coq Require Import List Reals ZArith Bool.
From Verif Require Import Base RBase.
Import ListNotations.
Open Scope Z_scope.

Notation num := (option R).
(** An operation on Float that is not a number if an operand is not, for include/lm/math.h:339-360. *)
Definition nbin (f : R -> R -> R) (a b : num) : num := match a, b with Some x, Some y => Some (f x y) | _, _ => None end.
(** + on Float: include/lm/math.h:340. *)
Definition nadd := nbin Rplus.
(** - on Float: include/lm/math.h:359. *)
Definition nsub := nbin Rminus.
(** * on Float: include/lm/math.h:419. *)
Definition nmul := nbin Rmult.
(** / on Float: include/lm/math.h:346-351. *)
Definition ndiv (a b : num) : num := match a, b with Some x, Some y => fdiv x y | _, _ => None end.
(** a < b; false if one is NaN. include/lm/math.h:367-370. *)
Definition nlt (a b : num) : bool := match a, b with Some x, Some y => if Rlt_dec x y then true else false | _, _ => false end.

(** include/lm/math.h:310-311: the cumulative sums c, never empty. *)
Notation dist := (list num).
(** include/lm/math.h:310-311: c holds one 0. *)
Definition empty_dist : dist := [Some 0%R].

(** c.back(): include/lm/math.h:340. *)
Definition back (c : dist) : num := last c None.

(** include/lm/math.h:339-341 *)
Definition add (c : dist) (v : num) : dist := c ++ [nadd (back c) v].

(** include/lm/math.h:346-351 *)
Definition norm (c : dist) : dist := let sum := back c in map (fun v => ndiv v sum) c.

(** include/lm/math.h:358-360. The subscripts are in range. *)
Definition pmf (c : dist) (i : Z) : num :=
  if (i <? 0) || (Z.of_nat (List.length c) <=? i + 1) then Some 0%R
  else nsub (nth (Z.to_nat (i + 1)) c None) (nth (Z.to_nat i) c None).

(** std::upper_bound as binary search on the range [first, first + len). [fuel]: at least [len]. include/lm/math.h:368. *)
Fixpoint upper_bound (fuel : nat) (c : dist) (u : num) (first len : nat) : nat :=
  match fuel with
  | O => first
  | S k =>
      match len with
      | O => first
      | _ => let half := Nat.div2 len in
             if nlt u (nth (first + half) c None) then upper_bound k c u first half
             else upper_bound k c u (first + half + 1) (len - half - 1)
      end
  end.

(** include/lm/math.h:367-370; std::clamp with lo > hi is undefined. *)
Definition sample (c : dist) (u : num) : outcome Z :=
  let it := upper_bound (List.length c) c u 0 (List.length c) in
  let hi := Z.of_nat (List.length c) - 2 in
  if hi <? 0 then UB else Ok (zclamp (Z.of_nat it - 1) 0 hi).

(** include/lm/math.h:378-381 *)
Record dist2 := mk_dist2 { ds : list dist; m : dist; dw : Z; dh : Z }.

(** A Dist2 object as constructed (w and h indeterminate). include/lm/math.h:378-381. *)
Definition new_dist2 : dist2 := mk_dist2 [] empty_dist 0 0.

(** The inner loop (402-404); the table is read without check. *)
Fixpoint add_row (v : list num) (base : Z) (n : nat) (d : dist) : outcome dist :=
  match n with
  | O => Ok d
  | S k => match nth_error v (Z.to_nat base) with None => UB | Some x => add_row v (base + 1) k (add d x) end
  end.
(** The outer loop (400-407) from row [i], [n] rows left. *)
Fixpoint add_rows (v : list num) (w i : Z) (n : nat) (rows : list dist) (mm : dist) : outcome (list dist * dist) :=
  match n with
  | O => Ok (rows, mm)
  | S k => obind (add_row v (i * w) (Z.to_nat w) empty_dist) (fun d =>
             add_rows v w (i + 1) k (rows ++ [norm d]) (add mm (back d)))
  end.
(** include/lm/math.h:396-409. m is not cleared; a negative row count throws in assign. *)
Definition init (o : dist2) (v : list num) (cols rows : Z) : outcome dist2 :=
  if rows <? 0 then Throw ErrLength else
  obind (add_rows v cols 0 (Z.to_nat rows) [] (m o)) (fun '(l, mm) => Ok (mk_dist2 l (norm mm) cols rows)).

(** include/lm/math.h:417-420; int overflow of the conversion is not modelled. *)
Definition pdf2 (o : dist2) (u v : R) : outcome num :=
  let y := Z.min (trunc (v * IZR (dh o))) (dh o - 1) in
  if y <? 0 then UB else
  match nth_error (ds o) (Z.to_nat y) with
  | None => UB
  | Some d => Ok (nmul (nmul (nmul (pmf (m o) y) (pmf d (trunc (u * IZR (dw o))))) (Some (IZR (dw o)))) (Some (IZR (dh o))))
  end.

(** include/lm/math.h:427-431 *)
Definition sample2 (o : dist2) (u0 u1 u2 u3 : R) : outcome (R * R) :=
  obind (sample (m o) (Some u0)) (fun y =>
  match nth_error (ds o) (Z.to_nat y) with
  | None => UB
  | Some d => obind (sample d (Some u1)) (fun x => Ok (((IZR x + u2) / IZR (dw o))%R, ((IZR y + u3) / IZR (dh o))%R))
  end).
