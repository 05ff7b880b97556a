(** Specification for the random numbers of renderings. *)
From Coq Require Import List ZArith NArith Bool.
Import ListNotations.

(** The samples among [calls] that thread [t] works on, in order, and the results it gets. *)
Fixpoint own {A} (t : nat) (calls : list (nat * Z)) (xs : list A) : list A :=
  match calls, xs with
  | (t', _) :: calls, x :: xs => if Nat.eqb t' t then x :: own t calls xs else own t calls xs
  | _, _ => []
  end.
Definition samples_of (t : nat) (calls : list (nat * Z)) : list Z := own t calls (map snd calls).
(** A generator used for one sample after another. *)
Fixpoint alone {A G} (body : Z -> G -> A * G) (g : G) (samples : list Z) : list A :=
  match samples with
  | [] => []
  | i :: r => let '(x, g) := body i g in x :: alone body g r
  end.
(** Two schedules that give every thread the same samples in the same order. *)
Definition same_work (a b : list (nat * Z)) : Prop := forall t, samples_of t a = samples_of t b.
