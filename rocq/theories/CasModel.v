(** Model of the concurrent pixel operations of the film (src/film/film_bitmap.cpp:19-55, 152-154,
    236-242): threads that update memory cells by compare-and-swap loops, one atomic operation per
    step. The cells hold values of type [V]; the comparison is exact. *)
From Coq Require Import List Arith Bool.
Import ListNotations.

Section C.
  Context {V : Type}.
  Variable veq : V -> V -> bool.

  (** An operation: replace the value of a pixel by a function of it. add(v) is [fun x => x + v],
      update(v) is [fun _ => v], update_with_func(f) is [f]. src/film/film_bitmap.cpp:40-55. *)
  Record op := mk_op { o_pix : nat; o_fun : V -> V }.

  (** A thread: the operations still to do; [None] before the load (42, 47, 52), [Some e] in the loop
      with the local variable expected = e. *)
  Record thread := mk_thread { todo : list op; expected : option V }.

  (** data_ (src/film/film_bitmap.cpp:128) and the threads. *)
  Record state := mk_state { mem : nat -> V; threads : nat -> thread }.

  (** Assignment to one cell or thread, for src/film/film_bitmap.cpp:40-55. *)
  Definition upd {A} (f : nat -> A) (t : nat) (x : A) : nat -> A := fun t' => if Nat.eqb t' t then x else f t'.

  (** One atomic step of thread [t]; None if it has nothing to do. [spurious]: compare_exchange_weak
      may fail although the values are equal; on failure it stores the current value in expected.
      src/film/film_bitmap.cpp:40-55. *)
  Definition step (t : nat) (spurious : bool) (s : state) : option state :=
    match todo (threads s t) with
    | [] => None
    | o :: r =>
        match expected (threads s t) with
        | None => Some (mk_state (mem s) (upd (threads s) t (mk_thread (o :: r) (Some (mem s (o_pix o))))))
        | Some e =>
            if negb spurious && veq (mem s (o_pix o)) e
            then Some (mk_state (upd (mem s) (o_pix o) (o_fun o e)) (upd (threads s) t (mk_thread r None)))
            else Some (mk_state (mem s) (upd (threads s) t (mk_thread (o :: r) (Some (mem s (o_pix o))))))
        end
    end.

  (** Before the operations, src/film/film_bitmap.cpp:236-242. *)
  Definition init (m : nat -> V) (progs : nat -> list op) : state :=
    mk_state m (fun t => mk_thread (progs t) None).

  (** Executions of the calls of src/film/film_bitmap.cpp:152-154, 236-242 by any number of threads. *)
  Inductive reach (m : nat -> V) (progs : nat -> list op) : list nat -> state -> Prop :=
  | reach_init : reach m progs [] (init m progs)
  | reach_step l s t sp s' : reach m progs l s -> step t sp s = Some s' -> reach m progs (l ++ [t]) s'.
End C.
