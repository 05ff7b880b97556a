(** What the Python package promises *)
From Coq Require Import List Reals ZArith.
From Verif Require Import LogModel JupModel.
Import ListNotations.

(** The largest of the reports so far and the values before it *)
Fixpoint largest (x : R) (l : list R) : R := match l with [] => x | y :: r => largest (Rmax x y) r end.

(** What the terminal logger prints for the same calls *)
Fixpoint terminal (l : list lop) (s : logger) : list text :=
  match l with
  | [] => []
  | LLog level sev h m :: r => let (s', o) := log s level sev h m in (match o with [] => [] | _ => [o] end) ++ terminal r s'
  | LIndent n :: r => terminal r (update_indentation s n)
  | LSeverity v :: r => terminal r (set_severity s v)
  end.
(** Calls as LM_INFO, LM_WARN, ... and LM_INDENT make them: one line at a time, indentation never below zero, no progress messages *)
Fixpoint orderly (l : list lop) (depth : Z) : Prop :=
  match l with
  | [] => True
  | LLog level _ h m :: r => level <> level_progress /\ level <> level_progress_end /\ ~ In newline m /\ orderly r depth
  | LIndent n :: r => (0 <= depth + n)%Z /\ orderly r (depth + n)
  | LSeverity _ :: r => orderly r depth
  end.
