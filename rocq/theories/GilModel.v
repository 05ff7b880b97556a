(** Model of lm.parallel.foreach called from Python (src/pylm.cpp:342-351 over src/parallel/parallel_openmp.cpp:41-100): the
    worker threads, the interpreter lock (GIL) and the lock protecting the captured exception. Simplifications: a step is
    one action of one thread; what the Python function computes is left open (it returns, raises or gives up the GIL for a
    while, as the interpreter does regularly); the progress counter is ParModel's. *)
From Coq Require Import List Bool Arith.
Import ListNotations.

(** Who holds the interpreter lock: a worker of src/parallel/parallel_openmp.cpp:47, or another Python thread. *)
Inductive who := Thread (t : nat) | Others.   (* Others: further Python threads of the program *)
Section Foreach.
  (** E: exceptions; T threads, thread 0 is the caller; n iterations *)
  Context {E : Type}.
  Variables (T n : nat).
  (** Where a thread is. src/pylm.cpp:342-351, src/parallel/parallel_openmp.cpp:47-93. *)
  Inductive pc :=
  | Idle                    (* 50: about to take an iteration *)
  | Got (i : nat)           (* 52: iteration taken *)
  | Want (i : nat)          (* pylm.cpp:347: gil_scoped_acquire *)
  | Running (i : nat)       (* pylm.cpp:348: in the Python function *)
  | Paused (i : nat)        (* in the Python function, without the GIL *)
  | Raised (e : E)          (* 90: exception caught, after ~gil_scoped_acquire *)
  | Locked (e : E)          (* 91: explock held *)
  | WantDrop                (* 91: assignment destroys an earlier exception, whose destructor takes the GIL *)
  | Drop                    (* 91: destroying the earlier exception *)
  | Finished.               (* implicit barrier *)
  (** src/parallel/parallel_openmp.cpp:41-47, src/pylm.cpp:342-351. *)
  Record state := mk_state {
    gil : option who; explock : option nat;
    next : nat;              (* dynamic schedule, 49 *)
    done : bool; exp : option E;
    pcs : nat -> pc;
    returned : option (option E);   (* None: not yet; the exception rethrown if any (97-99) *)
    begun : list nat; raised : list E (* history: iterations for which the function was called, exceptions raised *) }.
  (** Assignment to the program counter of one thread, for src/parallel/parallel_openmp.cpp:47-93. *)
  Definition upd (f : nat -> pc) (t : nat) (p : pc) : nat -> pc := fun u => if Nat.eqb u t then p else f u.
  (** A thread goes on, for src/parallel/parallel_openmp.cpp:47-93. *)
  Definition go (s : state) (t : nat) (p : pc) := mk_state (gil s) (explock s) (next s) (done s) (exp s) (upd (pcs s) t p) (returned s) (begun s) (raised s).
  (** gil_scoped_acquire and its destructor: src/pylm.cpp:345-346. *)
  Definition set_gil (s : state) (g : option who) := mk_state g (explock s) (next s) (done s) (exp s) (pcs s) (returned s) (begun s) (raised s).
  (** The lock of the exception: src/parallel/parallel_openmp.cpp:62-90. *)
  Definition set_lock (s : state) (l : option nat) := mk_state (gil s) l (next s) (done s) (exp s) (pcs s) (returned s) (begun s) (raised s).

  (** What the Python function does next. src/pylm.cpp:346. *)
  Inductive choice := Return | Raise (e : E) | Pause.
  (** A move of a worker (src/parallel/parallel_openmp.cpp:47-93), the end of the region (93-99), or a move of the other Python threads. *)
  Inductive action := Step (t : nat) (c : choice) | Barrier | OthersTake | OthersGive.

  (** The action if it is possible. src/pylm.cpp:342-351, src/parallel/parallel_openmp.cpp:47-100. *)
  Definition step (a : action) (s : state) : option state :=
    match a with
    | OthersTake => match gil s with None => Some (set_gil s (Some Others)) | _ => None end
    | OthersGive => match gil s with Some Others => Some (set_gil s None) | _ => None end
    | Step t c =>
        if Nat.ltb t T then
          match pcs s t with
          | Idle => if Nat.ltb (next s) n
                    then Some (mk_state (gil s) (explock s) (S (next s)) (done s) (exp s) (upd (pcs s) t (Got (next s))) (returned s) (begun s) (raised s))
                    else Some (go s t Finished)
          | Got i => if done s then Some (go s t Idle) else Some (go s t (Want i))
          | Want i => match gil s with
                      | None => Some (mk_state (Some (Thread t)) (explock s) (next s) (done s) (exp s) (upd (pcs s) t (Running i)) (returned s) (begun s ++ [i]) (raised s))
                      | _ => None end
          | Running i => match c with
                         | Return => Some (go (set_gil s None) t Idle)
                         | Raise e => Some (mk_state None (explock s) (next s) (done s) (exp s) (upd (pcs s) t (Raised e)) (returned s) (begun s) (raised s ++ [e]))
                         | Pause => Some (go (set_gil s None) t (Paused i))
                         end
          | Paused i => match gil s with None => Some (go (set_gil s (Some (Thread t))) t (Running i)) | _ => None end
          | Raised e => match explock s with None => Some (go (set_lock s (Some t)) t (Locked e)) | _ => None end
          | Locked e => match exp s with
                        | None => Some (mk_state (gil s) None (next s) true (Some e) (upd (pcs s) t Idle) (returned s) (begun s) (raised s))
                        | Some _ => Some (mk_state (gil s) (explock s) (next s) (done s) (Some e) (upd (pcs s) t WantDrop) (returned s) (begun s) (raised s))
                        end
          | WantDrop => match gil s with None => Some (go (set_gil s (Some (Thread t))) t Drop) | _ => None end
          | Drop => Some (mk_state None None (next s) true (exp s) (upd (pcs s) t Idle) (returned s) (begun s) (raised s))
          | Finished => None
          end
        else None
    | Barrier =>   (* all threads at the barrier; pylm.cpp:350: ~gil_scoped_release takes the GIL again *)
        match returned s, gil s with
        | None, None => if forallb (fun t => match pcs s t with Finished => true | _ => false end) (seq 0 T)
                        then Some (mk_state (Some (Thread 0)) (explock s) (next s) (done s) (exp s) (pcs s) (Some (exp s)) (begun s) (raised s)) else None
        | _, _ => None
        end
    end.
  (** pylm.cpp:344: gil_scoped_release, then the parallel region starts *)
  Definition init : state := mk_state None None 0 false None (fun _ => Idle) None [] [].
  (** An execution of src/pylm.cpp:342-351. *)
  Fixpoint run (l : list action) (s : state) : option state :=
    match l with [] => Some s | a :: r => match step a s with Some s' => run r s' | None => None end end.
End Foreach.
Arguments pc : clear implicits. Arguments state : clear implicits. Arguments action : clear implicits. Arguments choice : clear implicits.
Arguments init {E}.
