(** Independent vocabulary: the directions that are open, averages over independent pairs of random numbers. *)
From Coq Require Import List Reals ZArith Bool.
From Verif Require Import VecBase.
Import ListNotations.
Open Scope R_scope.
(** How many of the directions are open *)
Fixpoint count_open {A} (blocked : A -> bool) (l : list A) : nat := match l with [] => O | a :: l => if blocked a then count_open blocked l else S (count_open blocked l) end.
(** An average over pairs of random numbers in the set [good] *)
Record average2 (good : vec2 -> Prop) (E : (vec2 -> R) -> R) : Prop := {
  a2_one : E (fun _ => 1) = 1;
  a2_add : forall f g, E (fun r => f r + g r) = E f + E g;
  a2_scale : forall c f, E (fun r => c * f r) = c * E f;
  a2_ext : forall f g, (forall r, good r -> f r = g r) -> E f = E g }.
(** Expected value of a function of k independent pairs *)
Fixpoint mean_of (E : (vec2 -> R) -> R) (k : nat) (F : list vec2 -> R) : R :=
  match k with O => F [] | S k => E (fun r => mean_of E k (fun l => F (r :: l))) end.
