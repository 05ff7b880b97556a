(** Independent vocabulary for the conversions between Python and C++ values. *)
From Coq Require Import List String Ascii ZArith Bool Permutation.
From Verif Require Import Base JsonModel JsonSpec PyModel.
Import ListNotations.
Open Scope string_scope. Open Scope list_scope.

(** A strict codec: each string has at most one encoding, and decoding inverts it. *)
Definition codec (encode : pystr -> option string) (decode : string -> option pystr) : Prop := forall s b, encode s = Some b <-> decode b = Some s.
Section V.
  Context {F : Type}.
  Variable encode : pystr -> option string.
  Definition representable (z : Z) : Prop := (- 2147483648 <= z <= 2147483647)%Z.
  (** Python values that JSON has: no tuples, bytes or other objects; integers of 32 bits; encodable strings; the keys
      of a dict are strings and differ. *)
  Inductive plain : py F -> Prop :=
  | pl_none : plain PNone
  | pl_bool b : plain (PBool b)
  | pl_float x : plain (PFloat x)
  | pl_int z : representable z -> plain (PInt z)
  | pl_str s b : encode s = Some b -> plain (PStr s)
  | pl_list l : (forall x, In x l -> plain x) -> plain (PSeq true l)
  | pl_dict d : NoDup (map fst d) -> (forall k x, In (k, x) d -> (exists s b, k = PStr s /\ encode s = Some b) /\ plain x) -> plain (PDict d).
  (** JSON values with integers of 32 bits, whose strings are encodings and whose objects have sorted keys *)
  Inductive fits : json F -> Prop :=
  | ft_null : fits JNull
  | ft_bool b : fits (JBool b)
  | ft_float x : fits (JFloat x)
  | ft_int z : representable z -> fits (JInt z)
  | ft_str s b : encode s = Some b -> fits (JStr b)
  | ft_arr l : (forall x, In x l -> fits x) -> fits (JArr l)
  | ft_obj m : is_map m -> (forall k x, In (k, x) m -> (exists s, encode s = Some k) /\ fits x) -> fits (JObj m).
  (** Python's ==: dicts are equal if they have the same entries in any order. *)
  Inductive same : py F -> py F -> Prop :=
  | sm_none : same PNone PNone
  | sm_bool b : same (PBool b) (PBool b)
  | sm_float x : same (PFloat x) (PFloat x)
  | sm_int z : same (PInt z) (PInt z)
  | sm_str s : same (PStr s) (PStr s)
  | sm_list l l' : Forall2 same l l' -> same (PSeq true l) (PSeq true l')
  | sm_dict d d1 d' : Permutation d d1 -> Forall2 (fun a b => fst a = fst b /\ same (snd a) (snd b)) d1 d' -> same (PDict d) (PDict d').

  (** What a Python value means in JSON *)
  Definition key_is (k : py F) (b : string) : Prop := (exists s, k = PStr s /\ encode s = Some b) \/ k = PBytes b.
  Inductive means : py F -> json F -> Prop :=
  | mn_none : means PNone JNull
  | mn_bool b : means (PBool b) (JBool b)
  | mn_float x : means (PFloat x) (JFloat x)
  | mn_int z : representable z -> means (PInt z) (JInt z)
  | mn_str s b : encode s = Some b -> means (PStr s) (JStr b)
  | mn_bytes b : means (PBytes b) (JArr (map (fun c => JInt (Z.of_nat (nat_of_ascii c))) (list_ascii_of_string b)))
  | mn_seq k l js : Forall2 means l js -> means (PSeq k l) (JArr js)
  | mn_comp loc : means (PComp loc) (JStr loc)
  | mn_dict d kjs m : Forall2 (fun a b => key_is (fst a) (fst b) /\ means (snd a) (snd b)) d kjs -> is_map m ->
      (forall k j, In (k, j) m <-> exists before after, kjs = before ++ (k, j) :: after /\ ~ In k (map fst before)) -> means (PDict d) (JObj m).
  (** No part of the value is an object of a registered class that is not a component. *)
  Inductive no_foreign : py F -> Prop :=
  | nf_none : no_foreign PNone
  | nf_bool b : no_foreign (PBool b)
  | nf_float x : no_foreign (PFloat x)
  | nf_int z : no_foreign (PInt z)
  | nf_str s : no_foreign (PStr s)
  | nf_bytes b : no_foreign (PBytes b)
  | nf_seq k l : (forall x, In x l -> no_foreign x) -> no_foreign (PSeq k l)
  | nf_dict d : (forall k x, In (k, x) d -> no_foreign x) -> no_foreign (PDict d)
  | nf_comp loc : no_foreign (PComp loc)
  | nf_other : no_foreign POther.
End V.

(** ** Arrays *)
Section A.
  Context {T : Type}.
  (** Element [i] of a one-dimensional array, element [r],[c] of a two-dimensional one *)
  Definition item (a : ndarray T) (i : nat) : option T := match shape a, strides a with [n], [s] => if (i <? n)%nat then memory a (Z.of_nat i * s) else None | _, _ => None end.
  Definition item2 (a : ndarray T) (r c : nat) : option T :=
    match shape a, strides a with [n; m], [s; t] => if (r <? n)%nat && (c <? m)%nat then memory a (Z.of_nat r * s + Z.of_nat c * t) else None | _, _ => None end.
  (** Its elements are readable *)
  Definition valid (a : ndarray T) : Prop := match shape a with [n] => forall i, (i < n)%nat -> item a i <> None | [n; m] => forall r c, (r < n)%nat -> (c < m)%nat -> item2 a r c <> None | _ => False end.
  (** Elements follow one another, row by row *)
  Definition contiguous (a : ndarray T) : Prop := match shape a with [n] => strides a = [1%Z] | [n; m] => strides a = [Z.of_nat m; 1%Z] | _ => False end.
  (** The element in row [r] and column [c] of a glm matrix *)
  Definition entry (n : nat) (m : list T) (r c : nat) : option T := nth_error m (c * n + r).
End A.
