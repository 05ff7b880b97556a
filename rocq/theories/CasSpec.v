(** Independent vocabulary: doing operations one after the other. *)
From Coq Require Import List Arith.
From Verif Require Import CasModel.
Import ListNotations.

Section S.
  Context {V : Type}.
  (** The value of pixel [p] after the operations [l], each by a thread, in this order. *)
  Definition serial (p : nat) (l : list (nat * op)) (v : V) : V :=
    fold_left (fun v e => if Nat.eqb (o_pix (snd e)) p then o_fun (snd e) v else v) l v.
  (** The operations of thread [t] in [l], in order. *)
  Definition of_thread (t : nat) (l : list (nat * op)) : list (@op V) :=
    map snd (filter (fun e => Nat.eqb (fst e) t) l).
End S.
