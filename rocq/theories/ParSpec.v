(** Independent vocabulary for the parallel loop: read off the sequence of events. *)
From Coq Require Import List ZArith.
From Verif Require Import Base ParModel.
Import ListNotations.
Open Scope Z_scope.

(** The iterations begun and completed, in order, with the thread. *)
Fixpoint started (l : list event) : list (Z * nat) :=
  match l with [] => [] | EStart i t :: r => (i, t) :: started r | _ :: r => started r end.
Fixpoint completed (l : list event) : list (Z * nat) :=
  match l with [] => [] | EEnd i t :: r => (i, t) :: completed r | _ :: r => completed r end.
(** The exceptions raised by callbacks. *)
Fixpoint thrown (l : list event) : list error :=
  match l with [] => [] | EThrow _ _ e :: r => e :: thrown r | EReportThrow _ e :: r => e :: thrown r | _ :: r => thrown r end.
(** The progress values reported. *)
Fixpoint reported (l : list event) : list Z :=
  match l with [] => [] | EReport z _ :: r => z :: reported r | _ :: r => reported r end.

(** The numbers 0 .. n-1. *)
Definition upto (n : Z) : list Z := map Z.of_nat (seq 0 (Z.to_nat n)).

Fixpoint zsum (T : nat) (f : nat -> Z) : Z := match T with O => 0 | S k => zsum k f + f k end.
