(** Vocabulary for progress messages. *)
From Coq Require Import List ZArith Bool.
From Verif Require Import Base EtaModel.
Import ListNotations.
Local Open Scope Z_scope.

(** 501 milliseconds in nanoseconds: times are compared in whole milliseconds, more than 500 are asked for. *)
Definition pause : Z := 501 * 1000000.
(** Messages about progress, without the one at the end *)
Definition is_progress {F} (m : message F) : bool := match m with Completed => false | _ => true end.
Definition progress_times {F} (l : list (Z * message F)) : list Z := map fst (filter (fun x => is_progress (snd x)) l).
(** Each of the times is at least a pause after the one before, the first one after [t]. *)
Fixpoint spaced (t : Z) (l : list Z) : Prop := match l with [] => True | x :: l => t + pause <= x /\ spaced x l end.
Definition no_start {F} (l : list (Z * call F)) : Prop := forall x m t ttm, In x l -> snd x <> Start m t ttm.
