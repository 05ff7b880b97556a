(** Which values a C++ variable of each type can hold. *)
From Coq Require Import List String ZArith.
From Verif Require Import CodecModel.
Import ListNotations.
Open Scope Z_scope.

Definition int_range (bytes : nat) (signed : bool) (z : Z) : Prop :=
  if signed then - 2 ^ (8 * Z.of_nat bytes - 1) <= z < 2 ^ (8 * Z.of_nat bytes - 1)
  else 0 <= z < 2 ^ (8 * Z.of_nat bytes).

(** Containers hold fewer than 2^64 elements. *)
Definition few {A} (l : list A) : Prop := Z.of_nat (List.length l) < 2 ^ 64.

Fixpoint valid (t : ty) : den t -> Prop :=
  match t with
  | TBool => fun _ => True
  | TInt k s => fun z => (1 <= k)%nat /\ int_range k s z
  | TF64 => fun z => int_range 8 false z
  | TStr => fun s => Z.of_nat (String.length s) < 2 ^ 64
  | TUnit => fun _ => True
  | TPair a b => fun v => valid a (fst v) /\ valid b (snd v)
  | TVec t => fun v => few v /\ Forall (valid t) v
  | TFixed n t => fun v => List.length v = n /\ Forall (valid t) v
  | TOpt t => fun v => match v with None => True | Some x => valid t x end
  | TMapS t => fun v => few v /\ NoDup (map fst v)
                 /\ Forall (fun e => Z.of_nat (String.length (fst e)) < 2 ^ 64 /\ valid t (snd e)) v
  | TMapI t => fun v => few v /\ NoDup (map fst v)
                 /\ Forall (fun e => int_range 4 true (fst e) /\ valid t (snd e)) v
  end.
