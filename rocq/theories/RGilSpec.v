(** What rendering with Python components does *)
From Coq Require Import List.
From Verif Require Import RGilModel.
Import ListNotations.

Section Spec.
  Context {E V A : Type}.
  (** Executing Python code: a method of a component or the destruction of Python objects *)
  Definition in_python (p : pc E V) : Prop := (exists k, p = Running k) \/ p = Drop.
  (** An action that is work of the renderer: not a pause of a Python method, and not other threads *)
  Definition works (a : action E V A) (s : state E V A) : bool :=
    match a with
    | Step t c => match pcs s t, c with Running _, Pause => false | Paused _, _ => false | _, _ => true end
    | Next _ => true
    | OthersTake | OthersGive => false
    end.
  (** An endless execution of the renderer p *)
  Definition endless (p : plan E V A) (h : nat -> action E V A) (w : nat -> state E V A) : Prop :=
    w 0 = init p /\ forall k, step (h k) (w k) = Some (w (S k)).
  (** Python methods under way return (with the value v), none raises; what the renderer observes is a *)
  Definition benign (v : V) (a : A) (x : action E V A) : Prop := x = Next a \/ exists t, x = Step t (Return v).
  (** Every exception of the renderer so far *)
  Definition exceptions (s : state E V A) : list E := past s ++ raised s.
End Spec.
