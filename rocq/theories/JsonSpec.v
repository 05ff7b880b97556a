(** Independent vocabulary for JSON parameters. *)
From Coq Require Import List String ZArith Sorting.Sorted.
From Verif Require Import Base JsonModel.
Import ListNotations.
Open Scope string_scope. Open Scope list_scope.

Definition key_lt {V} (a b : string * V) : Prop := String.compare (fst a) (fst b) = Lt.

(** The entries of a std::map: in strictly increasing key order. *)
Definition is_map {V} (m : list (string * V)) : Prop := StronglySorted key_lt m.

(** The object [j] has an entry [name] with value [x]. *)
Definition has {F} (j : json F) (name : string) (x : json F) : Prop := exists m, j = JObj m /\ In (name, x) m.
Definition lacks {F} (j : json F) (name : string) : Prop := forall x, ~ has j name x.

(** A JSON value whose object (if it is one) is a map. *)
Definition proper {F} (j : json F) : Prop := forall m, j = JObj m -> is_map m.

Section D.
  Context {F : Type}.
  Variable of_Z : Z -> F.
  Variable trunc : F -> option Z.

  Inductive float_of : json F -> F -> Prop :=
  | fo_int z : float_of (JInt z) (of_Z z)
  | fo_float x : float_of (JFloat x) x.

  (** [denotes t j v]: the JSON value [j] stands for the value [v] of type [t]. A matrix is written
      column by column. *)
  Fixpoint denotes (t : cty) : json F -> @cden F t -> Prop :=
    match t as t return json F -> @cden F t -> Prop with
    | CBool => fun j v => j = JBool v
    | CI32 => fun j v => (exists z, j = JInt z /\ (- 2 ^ 31 <= v < 2 ^ 31)%Z /\ exists k, (z = v + k * 2 ^ 32)%Z)
                         \/ (exists x, j = JFloat x /\ trunc x = Some v)
                         \/ (j = JBool true /\ v = 1%Z) \/ (j = JBool false /\ v = 0%Z)
    | CFloat => float_of
    | CStr => fun j v => j = JStr v
    | CVec n => fun j (v : list F) => exists l, j = JArr l /\ List.length l = n /\ Forall2 float_of l v
    | CMat c r => fun j (v : list (list F)) => exists l, j = JArr l /\ List.length v = c /\ Forall (fun col => List.length col = r) v
                                       /\ Forall2 float_of l (List.concat v)
    | CList t => fun j (v : list (@cden F t)) => exists l, j = JArr l /\ Forall2 (denotes t) l v
    | CJson => fun j v => j = v
    end.
End D.
