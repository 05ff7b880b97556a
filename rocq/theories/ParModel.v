(** Model of the parallel loop (src/parallel/parallel_openmp.cpp, src/parallel/parallel.cpp) as a
    small-step machine: in each step one thread makes one move. Atomics are sequentially consistent
    (std::atomic with the default order); other data is private to a thread or protected by the mutex. *)
From Coq Require Import List ZArith Bool.
From Verif Require Import Base.
Import ListNotations.
Open Scope Z_scope.

(** src/parallel/parallel_openmp.cpp:25-28: the number of threads; [hw] is the number of processors. *)
Definition construct_threads (hw : Z) (prop : option Z) : Z :=
  let n := match prop with Some n => n | None => hw end in
  if n <=? 0 then hw + n else n.

(** Where a thread is in the loop body; [i] is its iteration. src/parallel/parallel_openmp.cpp:47-93. *)
Inductive pc :=
| Idle                     (* asks for the next iteration: schedule(dynamic, 1), 48-49 *)
| Check (i : Z)            (* 51-53 *)
| Run (i : Z)              (* inside processFunc, 74 *)
| Tally (i : Z)            (* 77, ++count and comparison *)
| Flush (i : Z)            (* 78 *)
| Clear (i : Z)            (* 79 *)
| Report (i : Z)           (* 83-84, reads processed *)
| Call (i : Z) (z : Z)     (* inside progressUpdateFunc(z), 84 *)
| Catch (e : error)        (* 90, waits for the mutex *)
| Hold (e : error)         (* 91 *)
| Held                     (* 92 *)
| Release                  (* 93 *)
| Exited.                  (* at the barrier that ends the parallel region *)

(** What is observable: a call of processFunc begins or returns or raises; a progress callback begins;
    a progress callback raises. src/parallel/parallel_openmp.cpp:54-86. *)
Inductive event :=
| EStart (i : Z) (t : nat) | EEnd (i : Z) (t : nat) | EThrow (i : Z) (t : nat) (e : error)
| EReport (z : Z) (t : nat) | EReportThrow (t : nat) (e : error).

(** The variables of foreach (src/parallel/parallel_openmp.cpp:41-47) and the threads. *)
Record state := mk_state {
  next : Z;                 (* first iteration not yet handed out *)
  done : bool;              (* 42 *)
  exp : option error;       (* 43 *)
  lock : option nat;        (* 44: the thread that holds the mutex *)
  processed : Z;            (* 47 *)
  count : nat -> Z;         (* 77: thread_local, so it survives from one loop to the next *)
  pcs : nat -> pc;
  trace : list event }.     (* events in the order in which they happened *)

(** Assignment to one thread, for src/parallel/parallel_openmp.cpp:47-93. *)
Definition upd {A} (f : nat -> A) (t : nat) (x : A) : nat -> A := fun t' => if Nat.eqb t' t then x else f t'.

(** A thread goes on: src/parallel/parallel_openmp.cpp:47-93. *)
Definition goto (s : state) (t : nat) (p : pc) : state :=
  mk_state (next s) (done s) (exp s) (lock s) (processed s) (count s) (upd (pcs s) t p) (trace s).
(** An event is recorded; no counterpart, for src/parallel/parallel_openmp.cpp:54-86. *)
Definition emit (s : state) (e : event) : state :=
  mk_state (next s) (done s) (exp s) (lock s) (processed s) (count s) (pcs s) (trace s ++ [e]).

Section P.
  Variable n : Z.           (* numSamples *)
  Variable interval : Z.    (* progress_update_interval_ *)

  (** The state at the start of the loop (42-47); [c] are the counters left by earlier loops. *)
  Definition init (c : nat -> Z) : state := mk_state 0 false None None 0 c (fun _ => Idle) [].

  (** One move of thread [t]; None if it cannot move. [ch] says how the callback that [t] is in ends:
      None if it returns, Some e if it raises e. OpenMP hands out the iterations 0, 1, 2, ... one at a
      time, each to one thread. *)
  Definition step (t : nat) (ch : option error) (s : state) : option state :=
    match pcs s t with
    | Idle =>
        if next s <? n
        then Some (goto (mk_state (next s + 1) (done s) (exp s) (lock s) (processed s) (count s) (pcs s) (trace s)) t (Check (next s)))
        else Some (goto s t Exited)
    | Check i => if done s then Some (goto s t Idle) else Some (emit (goto s t (Run i)) (EStart i t))
    | Run i =>
        match ch with
        | None => Some (emit (goto s t (Tally i)) (EEnd i t))
        | Some e => Some (emit (goto s t (Catch e)) (EThrow i t e))
        end
    | Tally i =>
        let c := count s t + 1 in
        let s := mk_state (next s) (done s) (exp s) (lock s) (processed s) (upd (count s) t c) (pcs s) (trace s) in
        Some (goto s t (if interval <=? c then Flush i else Report i))
    | Flush i =>
        Some (goto (mk_state (next s) (done s) (exp s) (lock s) (processed s + count s t) (count s) (pcs s) (trace s)) t (Clear i))
    | Clear i =>
        Some (goto (mk_state (next s) (done s) (exp s) (lock s) (processed s) (upd (count s) t 0) (pcs s) (trace s)) t (Report i))
    | Report i =>
        if Nat.eqb t 0 then Some (emit (goto s t (Call i (processed s))) (EReport (processed s) t)) else Some (goto s t Idle)
    | Call i z =>
        match ch with
        | None => Some (goto s t Idle)
        | Some e => Some (emit (goto s t (Catch e)) (EReportThrow t e))
        end
    | Catch e =>
        match lock s with
        | Some _ => None
        | None => Some (goto (mk_state (next s) (done s) (exp s) (Some t) (processed s) (count s) (pcs s) (trace s)) t (Hold e))
        end
    | Hold e => Some (goto (mk_state (next s) (done s) (Some e) (lock s) (processed s) (count s) (pcs s) (trace s)) t Held)
    | Held => Some (goto (mk_state (next s) true (exp s) (lock s) (processed s) (count s) (pcs s) (trace s)) t Release)
    | Release => Some (goto (mk_state (next s) (done s) (exp s) None (processed s) (count s) (pcs s) (trace s)) t Idle)
    | Exited => None
    end.

  (** Runs of [T] threads. src/parallel/parallel_openmp.cpp:47-93. *)
  Inductive reach (T : nat) (c : nat -> Z) : list (nat * option error) -> state -> Prop :=
  | reach_init : reach T c [] (init c)
  | reach_step l s t ch s' : reach T c l s -> (t < T)%nat -> step t ch s = Some s' -> reach T c (l ++ [(t, ch)]) s'.

  (** The loop has ended: all threads are at the barrier. src/parallel/parallel_openmp.cpp:93. *)
  Definition finished (T : nat) (s : state) : Prop := forall t, (t < T)%nat -> pcs s t = Exited.

  (** 96-99: what the caller sees. *)
  Definition result (s : state) : outcome unit := match exp s with Some e => Throw e | None => Ok tt end.
End P.
