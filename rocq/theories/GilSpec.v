(** What a parallel loop with a Python function does *)
From Coq Require Import List.
From Verif Require Import GilModel.
Import ListNotations.

Section Spec.
  Context {E : Type}.
  (** Executing Python code: the function itself or the destruction of Python objects *)
  Definition in_python (p : pc E) : Prop := (exists i, p = Running i) \/ p = Drop.
  (** An action that is work of the loop: not a pause of the Python function, and not other threads *)
  Definition works (a : action E) (s : state E) : bool :=
    match a with
    | Step t c => match pcs s t, c with Running _, Pause => false | Paused _, _ => false | _, _ => true end
    | Barrier => true
    | OthersTake | OthersGive => false
    end.
  (** Amount of work in a history from s *)
  Fixpoint work (T n : nat) (l : list (action E)) (s : state E) : nat :=
    match l with
    | [] => 0
    | a :: r => match step T n a s with Some s' => (if works a s then 1 else 0) + work T n r s' | None => 0 end
    end.
End Spec.
