(** Model of renderer.render() called from Python (src/pylm.cpp:772) with components written in Python: the call gives up the
    interpreter lock (GIL), runs serial code and parallel loops (src/parallel/parallel_openmp.cpp:41-100, src/scheduler.cpp:36-175)
    whose iterations call methods of Python components any number of times, and takes the GIL again. Simplifications: a step is
    one action of one thread; what a Python method computes is left open (it returns any value, raises, or gives up the GIL for
    a while, as the interpreter does regularly and as nested calls of lm.parallel.foreach or render do); calls of a thread that
    already has the GIL do not wait and are part of the outer call; serial code is a loop with one thread and one iteration. *)
From Coq Require Import List Bool Arith.
Import ListNotations.

(** Who holds the interpreter lock: a worker of src/parallel/parallel_openmp.cpp:47, or another Python thread. *)
Inductive who := Thread (t : nat) | Others.
Section Render.
  (** E: exceptions; V: results of Python methods; A: what the renderer observes between loops, as the clock (src/scheduler.cpp:100) *)
  Context {E V A : Type}.

  (** Code run by one thread: C++ that ends, throws, or calls a Python method and goes on with its result. Every call of a Python
      method acquires the GIL: src/pylm.cpp:308-320, 387-403 (logger and progress), 740-750 (PYBIND11_OVERLOAD, which does it
      itself), include/lm/pylm.h:308-321, 414-425. *)
  Inductive prog := End | Fail (e : E) | Call (k : V -> prog).
  (** A renderer: src/scheduler.cpp:36-175 and the code around it.
      Loop q T n body undo rest: n iterations on T threads, iteration i on thread t running body t i; then, depending on an
      observation, the rest, or undo if an exception left the loop (destructors, as that of include/lm/progress.h:103).
      q: the loop stands for a destructor, which must not throw. *)
  Inductive plan := Ret | Loop (q : bool) (T n : nat) (body : nat -> nat -> prog) (undo : plan) (rest : A -> plan).

  (** Threads of the current loop. src/parallel/parallel_openmp.cpp:48. *)
  Definition team (p : plan) : nat := match p with Ret => 0 | Loop _ T _ _ _ _ => T end.
  (** Iterations of the current loop. src/parallel/parallel_openmp.cpp:49. *)
  Definition size (p : plan) : nat := match p with Ret => 0 | Loop _ _ n _ _ _ => n end.
  (** The process function with the progress report of thread 0. src/parallel/parallel_openmp.cpp:73-85. *)
  Definition code (p : plan) : nat -> nat -> prog := match p with Ret => fun _ _ => End | Loop _ _ _ b _ _ => b end.
  (** Is the current code a destructor? include/lm/progress.h:103, 113, include/lm/logger.h:192. *)
  Definition noexc (p : plan) : bool := match p with Ret => false | Loop q _ _ _ _ _ => q end.

  (** Where a thread is. src/parallel/parallel_openmp.cpp:47-93. *)
  Inductive pc :=
  | Idle                         (* 49: about to take an iteration *)
  | Got (i : nat)                (* 51: iteration taken *)
  | Body (p : prog)              (* 74: in C++ code *)
  | Want (k : V -> prog)         (* calling a Python method: acquiring the GIL *)
  | Running (k : V -> prog)      (* in a Python method *)
  | Paused (k : V -> prog)       (* in a Python method, without the GIL *)
  | Raised (e : E)               (* 87: exception caught *)
  | Locked (e : E)               (* 90: explock held *)
  | WantDrop                     (* 91: the assignment destroys an earlier exception, whose destructor takes the GIL *)
  | Drop                         (* 91: destroying the earlier exception *)
  | Finished.                    (* implicit barrier *)

  (** How a call of render ends: src/pylm.cpp:772, returning or throwing, or by std::terminate. *)
  Inductive ending := Returned (r : option E) | Terminated.

  (** src/parallel/parallel_openmp.cpp:41-47, src/pylm.cpp:772. *)
  Record state := mk_state {
    gil : option who; explock : option nat;
    cur : plan;                     (* the loop under way and what follows *)
    next : nat;                     (* dynamic schedule, 48 *)
    done : bool; exp : option E;
    pcs : nat -> pc;
    pending : option E;             (* exception being propagated *)
    ended : option ending;
    begun : list nat;               (* history: iterations begun in this loop *)
    raised : list E; past : list E  (* history: exceptions raised in this loop and before *) }.

  (** Assignment to the program counter of one thread, for src/parallel/parallel_openmp.cpp:47-93. *)
  Definition upd (f : nat -> pc) (t : nat) (p : pc) : nat -> pc := fun u => if Nat.eqb u t then p else f u.
  (** A thread goes on, for src/parallel/parallel_openmp.cpp:47-93. *)
  Definition go (s : state) (t : nat) (p : pc) :=
    mk_state (gil s) (explock s) (cur s) (next s) (done s) (exp s) (upd (pcs s) t p) (pending s) (ended s) (begun s) (raised s) (past s).
  (** gil_scoped_acquire and its destructor: src/pylm.cpp:308-320. *)
  Definition set_gil (s : state) (g : option who) :=
    mk_state g (explock s) (cur s) (next s) (done s) (exp s) (pcs s) (pending s) (ended s) (begun s) (raised s) (past s).
  (** A thread throws: src/parallel/parallel_openmp.cpp:87. *)
  Definition throw (s : state) (t : nat) (e : E) :=
    mk_state (gil s) (explock s) (cur s) (next s) (done s) (exp s) (upd (pcs s) t (Raised e)) (pending s) (ended s) (begun s) (raised s ++ [e]) (past s).
  (** The next loop begins, with its own lock and captured exception: src/parallel/parallel_openmp.cpp:41-48. *)
  Definition enter (s : state) (p : plan) (x : option E) :=
    mk_state (gil s) None p 0 false None (fun _ => Idle) x (ended s) [] [] (past s ++ raised s).

  (** What a Python method does next. src/pylm.cpp:740-750. *)
  Inductive choice := Return (v : V) | Raise (e : E) | Pause.
  (** A move of a worker (src/parallel/parallel_openmp.cpp:47-93), the end of a loop (93-99) or of render (src/pylm.cpp:772), or a move of the other Python threads. *)
  Inductive action := Step (t : nat) (c : choice) | Next (a : A) | OthersTake | OthersGive.

  (** One thread: src/parallel/parallel_openmp.cpp:49-93. Simplification: destroying an earlier exception always takes the GIL
      (only a Python exception does). *)
  Definition move (t : nat) (c : choice) (s : state) : option state :=
    match pcs s t with
    | Idle => if Nat.ltb (next s) (size (cur s))
              then Some (mk_state (gil s) (explock s) (cur s) (S (next s)) (done s) (exp s) (upd (pcs s) t (Got (next s))) (pending s) (ended s) (begun s) (raised s) (past s))
              else Some (go s t Finished)
    | Got i => if done s then Some (go s t Idle)
               else Some (mk_state (gil s) (explock s) (cur s) (next s) (done s) (exp s) (upd (pcs s) t (Body (code (cur s) t i))) (pending s) (ended s) (begun s ++ [i]) (raised s) (past s))
    | Body End => Some (go s t Idle)
    | Body (Fail e) => Some (throw s t e)
    | Body (Call k) => Some (go s t (Want k))
    | Want k => match gil s with None => Some (go (set_gil s (Some (Thread t))) t (Running k)) | _ => None end
    | Running k => match c with
                   | Return v => Some (go (set_gil s None) t (Body (k v)))
                   | Raise e => Some (throw (set_gil s None) t e)
                   | Pause => Some (go (set_gil s None) t (Paused k))
                   end
    | Paused k => match gil s with None => Some (go (set_gil s (Some (Thread t))) t (Running k)) | _ => None end
    | Raised e => match explock s with
                  | None => Some (mk_state (gil s) (Some t) (cur s) (next s) (done s) (exp s) (upd (pcs s) t (Locked e)) (pending s) (ended s) (begun s) (raised s) (past s))
                  | _ => None end
    | Locked e => match exp s with
                  | None => Some (mk_state (gil s) None (cur s) (next s) true (Some e) (upd (pcs s) t Idle) (pending s) (ended s) (begun s) (raised s) (past s))
                  | Some _ => Some (mk_state (gil s) (explock s) (cur s) (next s) (done s) (Some e) (upd (pcs s) t WantDrop) (pending s) (ended s) (begun s) (raised s) (past s))
                  end
    | WantDrop => match gil s with None => Some (go (set_gil s (Some (Thread t))) t Drop) | _ => None end
    | Drop => Some (mk_state None None (cur s) (next s) true (exp s) (upd (pcs s) t Idle) (pending s) (ended s) (begun s) (raised s) (past s))
    | Finished => None
    end.
  (** All threads at the barrier: src/parallel/parallel_openmp.cpp:93. *)
  Definition at_barrier (s : state) : bool := forallb (fun t => match pcs s t with Finished => true | _ => false end) (seq 0 (team (cur s))).
  (** The action if it is possible. src/parallel/parallel_openmp.cpp:47-100, src/pylm.cpp:772. *)
  Definition step (a : action) (s : state) : option state :=
    match ended s with Some _ => None | None =>
    match a with
    | OthersTake => match gil s with None => Some (set_gil s (Some Others)) | _ => None end
    | OthersGive => match gil s with Some Others => Some (set_gil s None) | _ => None end
    | Step t c => if Nat.ltb t (team (cur s)) then move t c s else None
    | Next a =>
        match cur s with
        | Ret => (* ~gil_scoped_release takes the GIL again *)
            match gil s with
            | None => Some (mk_state (Some (Thread 0)) (explock s) Ret (next s) (done s) (exp s) (pcs s) (pending s) (Some (Returned (pending s))) (begun s) (raised s) (past s))
            | _ => None
            end
        | Loop q T n b undo rest =>
            if at_barrier s then
              match exp s with
              | None => Some (enter s (rest a) (pending s))
              | Some e =>   (* parallel_openmp.cpp:97: rethrown; out of a destructor or while another exception propagates: terminate *)
                  match q, pending s with
                  | false, None => Some (enter s undo (Some e))
                  | _, _ => Some (mk_state (gil s) (explock s) (cur s) (next s) (done s) (exp s) (pcs s) (pending s) (Some Terminated) (begun s) (raised s) (past s))
                  end
              end
            else None
        end
    end end.
  (** src/pylm.cpp:772: the GIL is given up, then the renderer runs. *)
  Definition init (p : plan) : state := mk_state None None p 0 false None (fun _ => Idle) None None [] [] [].
  (** An execution of src/pylm.cpp:772. *)
  Fixpoint run (l : list action) (s : state) : option state :=
    match l with [] => Some s | a :: r => match step a s with Some s' => run r s' | None => None end end.
End Render.
Arguments prog : clear implicits. Arguments plan : clear implicits.
Arguments pc : clear implicits. Arguments state : clear implicits. Arguments action : clear implicits. Arguments choice : clear implicits. Arguments ending : clear implicits.
