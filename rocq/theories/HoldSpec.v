(** Who uses a component *)
From Coq Require Import List Bool Arith.
Import ListNotations.

(** Whether the framework owns the component, and how many references Python code holds *)
Record use := mk_use { by_cpp : bool; by_python : nat }.
Definition in_use (u : use) : Prop := by_cpp u = true \/ 0 < by_python u.
Inductive event := PythonGets | PythonCopies | PythonDrops | PythonUses | CppUses | CppReleases.
(** Events possible: Python gets a reference from the framework, copies, drops and uses references it holds; the framework uses
    and releases what it owns. *)
Definition after (u : use) (o : event) : option use :=
  match o with
  | PythonGets => if by_cpp u then Some (mk_use true (S (by_python u))) else None
  | PythonCopies => match by_python u with O => None | n => Some (mk_use (by_cpp u) (S n)) end
  | PythonDrops => match by_python u with O => None | S n => Some (mk_use (by_cpp u) n) end
  | PythonUses => match by_python u with O => None | _ => Some u end
  | CppUses => if by_cpp u then Some u else None
  | CppReleases => if by_cpp u then Some (mk_use false (by_python u)) else None
  end.
Fixpoint history (u : use) (h : list event) : option use :=
  match h with [] => Some u | o :: r => match after u o with Some u' => history u' r | None => None end end.
