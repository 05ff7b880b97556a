(** Expected value of a function of random numbers. *)
From Coq Require Import List Reals.
From Coquelicot Require Import Coquelicot.
Import ListNotations.
Open Scope R_scope.

(** [expected n f v]: [v] is the mean of [f] over [n] independent numbers, uniform in [0, 1): the iterated
    integral of [f], which exists. *)
Fixpoint expected (n : nat) (f : list R -> R) (v : R) : Prop :=
  match n with
  | O => v = f []
  | S n => exists g, (forall u, 0 <= u < 1 -> expected n (fun us => f (u :: us)) (g u)) /\ is_RInt g 0 1 v
  end.

(** [piecewise g a b]: between [a] and [b] the function is continuous up to finitely many points, with limits from
    both sides there: the interval consists of finitely many parts inside of which it equals a continuous function. *)
Inductive piecewise (g : R -> R) : R -> R -> Prop :=
| pw_one a b c : a <= b -> (forall t, continuous c t) -> (forall t, a < t < b -> g t = c t) -> piecewise g a b
| pw_two a b c : piecewise g a b -> piecewise g b c -> piecewise g a c.
