(** Model of the conversions between Python and C++ values (include/lm/pylm.h). *)
From Coq Require Import List String Ascii ZArith Bool.
From Verif Require Import Base JsonModel.
Import ListNotations.
Open Scope string_scope. Open Scope list_scope.

(** ** Python values as the casters see them, with pybind11 2.7.1 (environment.yml). Values are finite trees; a str is
    the list of its code points; a dict lists its entries in insertion order; [PSeq true] is a list, [PSeq false]
    another sequence such as a tuple or a numpy array. [PComp]: an object of a class with one registered base that is
    a component, with its locator; [PForeign]: one of another registered class; [POther]: anything else. *)
Definition pystr := list N.
(** The Python values that include/lm/pylm.h:27-146 distinguishes. *)
Inductive py (F : Type) : Type :=
| PNone | PBool (b : bool) | PFloat (x : F) | PInt (z : Z) | PStr (s : pystr) | PBytes (b : string)
| PDict (d : list (py F * py F)) | PSeq (is_list : bool) (l : list (py F)) | PComp (loc : string) | PForeign | POther.
Arguments PNone {F}. Arguments PBool {F} b. Arguments PFloat {F} x. Arguments PInt {F} z. Arguments PStr {F} s. Arguments PBytes {F} b.
Arguments PDict {F} d. Arguments PSeq {F} is_list l. Arguments PComp {F} loc. Arguments PForeign {F}. Arguments POther {F}.

(** load returns false (TypeError), pybind11::cast_error, UnicodeDecodeError. include/lm/pylm.h:27-86. *)
Definition type_error := ErrUser 1.
(** include/lm/pylm.h:27-86. *)
Definition cast_error := ErrUser 2.
(** include/lm/pylm.h:90-146. *)
Definition decode_error := ErrUser 3.
(** The range of int: include/lm/pylm.h:42-44. *)
Definition in_int (z : Z) : bool := ((- 2 ^ 31 <=? z) && (z <? 2 ^ 31))%Z.
(** Conversion to int of an integer out of range (two's complement). Used by [cast]: include/lm/pylm.h:90-146. *)
Definition wrap_int (z : Z) : Z := ((z + 2 ^ 31) mod 2 ^ 32 - 2 ^ 31)%Z.
(** nlohmann basic_json::emplace on an object: std::map::emplace does not overwrite.
    Used by [load]: include/lm/pylm.h:27-86. *)
Definition memplace {V} (k : string) (v : V) (m : list (string * V)) : list (string * V) := match mfind k m with Some _ => m | None => mset k v m end.
(** d[k] = v on a dict. Used by [cast]: include/lm/pylm.h:90-146. *)
Fixpoint dset {F} (k : pystr) (v : py F) (d : list (py F * py F)) : list (py F * py F) :=
  match d with
  | [] => [(PStr k, v)]
  | (PStr k', v') :: r => if list_eq_dec N.eq_dec k k' then (PStr k', v) :: r else (PStr k', v') :: dset k v r
  | x :: r => x :: dset k v r
  end.

Section Json.
  Context {F : Type}.
  (** UTF-8 with the strict error handler; [debug]: assert is compiled in *)
  Variables (encode : pystr -> option string) (decode : string -> option pystr) (debug : bool).
  (** make_caster<std::string>::load: str or bytes. Used by [load]: include/lm/pylm.h:27-86. *)
  Definition load_key (k : py F) : option string := match k with PStr s => encode s | PBytes b => Some b | _ => None end.
  (** pylm.h:27-86 (with convert). A bytes object is a sequence of integers. *)
  Fixpoint load (v : py F) : outcome (json F) :=
    match v with
    | PNone => Ok JNull
    | PBool b => Ok (JBool b)
    | PFloat x => Ok (JFloat x)
    | PInt z => if in_int z then Ok (JInt z) else Throw cast_error
    | PStr s => match encode s with Some b => Ok (JStr b) | None => Throw cast_error end
    | PDict d =>
        (fix entries (d : list (py F * py F)) (m : list (string * json F)) : outcome (json F) :=
           match d with
           | [] => Ok (JObj m)
           | (k, x) :: r => match load_key k with None => Throw type_error | Some k => obind (load x) (fun j => entries r (memplace k j m)) end
           end) d []
    | PSeq _ l =>
        (fix items (l : list (py F)) (acc : list (json F)) : outcome (json F) :=
           match l with
           | [] => Ok (JArr acc)
           | x :: r => obind (load x) (fun j => items r (acc ++ [j]))
           end) l []
    | PBytes b => Ok (JArr (map (fun c => JInt (Z.of_nat (nat_of_ascii c))) (list_ascii_of_string b)))
    | PComp loc => Ok (JStr loc)
    | PForeign => UB
    | POther => if debug then UB else Throw type_error
    end.
  (** pylm.h:90-146 *)
  Fixpoint cast (j : json F) : outcome (py F) :=
    match j with
    | JNull => Ok PNone
    | JBool b => Ok (PBool b)
    | JFloat x => Ok (PFloat x)
    | JInt z => Ok (PInt (wrap_int z))
    | JStr b => match decode b with Some s => Ok (PStr s) | None => Throw decode_error end
    | JObj m =>
        (fix entries (m : list (string * json F)) (d : list (py F * py F)) : outcome (py F) :=
           match m with
           | [] => Ok (PDict d)
           | (k, x) :: r => match decode k with None => Throw decode_error | Some k => obind (cast x) (fun v => entries r (dset k v d)) end
           end) m []
    | JArr l =>
        (fix items (l : list (json F)) (acc : list (py F)) : outcome (py F) :=
           match l with
           | [] => Ok (PSeq true acc)
           | x :: r => obind (cast x) (fun v => items r (acc ++ [v]))
           end) l []
    end.
End Json.

(** ** numpy arrays: whether the element type is that of the C++ type, and shape, strides and memory in elements, from
    the address of the first element; memory outside the buffer is None. Strides may be zero or negative.
    Used by [load_vec]: include/lm/pylm.h:173-202. *)
Record ndarray (T : Type) := mk_ndarray { same_type : bool; shape : list nat; strides : list Z; memory : Z -> option T }.
Arguments mk_ndarray {T} same_type shape strides memory. Arguments same_type {T} n. Arguments shape {T} n. Arguments strides {T} n. Arguments memory {T} n.
(** memcpy of [k] elements. Used by [load_vec]: include/lm/pylm.h:173-202. *)
Fixpoint copy {T} (mem : Z -> option T) (from : Z) (k : nat) : outcome (list T) :=
  match k with
  | O => Ok []
  | S k => match mem from with None => UB | Some x => obind (copy mem (from + 1) k) (fun l => Ok (x :: l)) end
  end.
(** pylm.h:173-202; the type of vectors of [N] elements is list *)
Definition load_vec {T} (N : nat) (a : ndarray T) : outcome (list T) :=
  if negb (same_type a) then Throw type_error else if negb (Nat.eqb (List.length (shape a)) 1) then Throw type_error else copy (memory a) 0 N.
(** pylm.h:205-221 *)
Definition cast_vec {T} (v : list T) : ndarray T :=
  mk_ndarray true [List.length v] [1%Z] (fun i => if (i <? 0)%Z then None else nth_error v (Z.to_nat i)).
(** glm::transpose on the elements in memory order. Used by [load_mat]: include/lm/pylm.h:234-265. *)
Definition transpose {T} (n : nat) (l : list T) : list T :=
  flat_map (fun c => flat_map (fun r => match nth_error l (r * n + c) with Some x => [x] | None => [] end) (seq 0 n)) (seq 0 n).
(** pylm.h:234-265, which compiles for square matrices only; a glm matrix is the list of its elements column by column *)
Definition load_mat {T} (n : nat) (a : ndarray T) : outcome (list T) :=
  if negb (same_type a) then Throw type_error else if negb (Nat.eqb (List.length (shape a)) 2) then Throw type_error else
  obind (copy (memory a) 0 (n * n)) (fun l => Ok (transpose n l)).
(** pylm.h:268-285 *)
Definition cast_mat {T} (n : nat) (m : list T) : ndarray T :=
  let l := transpose n m in mk_ndarray true [n; n] [Z.of_nat n; 1%Z] (fun i => if (i <? 0)%Z then None else nth_error l (Z.to_nat i)).
