(** Model of the JSON parameter helpers (include/lm/json.h). *)
From Coq Require Import List String Ascii ZArith Bool.
From Verif Require Import Base.
Import ListNotations.
Open Scope string_scope. Open Scope list_scope.

(** ** JSON values (include/lm/jsontype.h:30-39)
    basic_json over std::map. An object is the list of its entries in key order. Signed and unsigned
    integers are one constructor. [F] is the type Float; its arithmetic does not matter here. *)
Inductive json (F : Type) : Type :=
| JNull | JBool (b : bool) | JInt (z : Z) | JFloat (x : F) | JStr (s : string)
| JArr (l : list (json F)) | JObj (m : list (string * json F)).
Arguments JNull {F}. Arguments JBool {F} b. Arguments JInt {F} z. Arguments JFloat {F} x. Arguments JStr {F} s.
Arguments JArr {F} l. Arguments JObj {F} m.

(** std::map<std::string, V>: find and operator[] with assignment, entries kept in key order. *)
Section M.
  Context {V : Type}.
  (** std::map::find in an object, for include/lm/json.h:154-159. *)
  Fixpoint mfind (k : string) (m : list (string * V)) : option V :=
    match m with
    | [] => None
    | (k', v) :: r => if String.eqb k k' then Some v else mfind k r
    end.
  (** std::map::operator[] and assignment in an object, for include/lm/json.h:154-159. *)
  Fixpoint mset (k : string) (v : V) (m : list (string * V)) : list (string * V) :=
    match m with
    | [] => [(k, v)]
    | (k', v') :: r =>
        match String.compare k k' with
        | Eq => (k, v) :: r
        | Lt => (k, v) :: (k', v') :: r
        | Gt => (k', v') :: mset k v r
        end
    end.
End M.

(** An empty key in decimal for the items() of an array (nlohmann: std::to_string(index)).
    Used by [merge]: include/lm/json.h:150-161. *)
Definition digit (n : nat) : string := String (ascii_of_nat (48 + n)) "".
(** Helper of [merge]: include/lm/json.h:150-161. *)
Fixpoint dec_go (fuel n : nat) (acc : string) : string :=
  match fuel with
  | O => acc
  | S f => let acc' := (digit (Nat.modulo n 10) ++ acc)%string in
           if Nat.ltb n 10 then acc' else dec_go f (Nat.div n 10) acc'
  end.
(** Helper of [merge]: include/lm/json.h:150-161. *)
Definition dec_str (n : nat) : string := dec_go (S n) n "".

Section J.
  Context {F : Type}.
  Notation json := (json F).

  (** basic_json::find: end() for anything but objects. Used by [merge_loop]: include/lm/json.h:154-159. *)
  Definition jfind (k : string) (j : json) : option json := match j with JObj m => mfind k m | _ => None end.

  (** basic_json::items(): key and value of every element; a primitive value is one element with the
      empty key, null has none. Used by [merge]: include/lm/json.h:150-161. *)
  Fixpoint number (i : nat) (l : list json) : list (string * json) :=
    match l with [] => [] | x :: r => (dec_str i, x) :: number (S i) r end.
  (** Helper of [merge]: include/lm/json.h:150-161. *)
  Definition jitems (j : json) : list (string * json) :=
    match j with JNull => [] | JObj m => m | JArr l => number 0 l | _ => [("", j)] end.

  (** t[key] = v: null becomes an object, other non-objects raise type_error 305. *)
  Definition jset (k : string) (v : json) (j : json) : outcome json :=
    match j with
    | JNull => Ok (JObj [(k, v)])
    | JObj m => Ok (JObj (mset k v m))
    | _ => Throw ErrJsonType
    end.

  (** include/lm/json.h:154-159 *)
  Fixpoint merge_loop (t : json) (l : list (string * json)) : outcome json :=
    match l with
    | [] => Ok t
    | (k, v) :: r =>
        match jfind k t with
        | Some _ => merge_loop t r
        | None => obind (jset k v t) (fun t' => merge_loop t' r)
        end
    end.

  (** Helper of [merge]: include/lm/json.h:150-161. *)
  Definition is_object (j : json) : bool := match j with JObj _ => true | _ => false end.

  (** include/lm/json.h:150-161 merge. [asserts]: built without NDEBUG; a failing assert aborts the
      process and is modelled by [Throw ErrUser 134] (SIGABRT). *)
  Definition merge (asserts : bool) (j1 j2 : json) : outcome json :=
    if asserts && negb (is_object j1 && is_object j2) then Throw (ErrUser 134)
    else merge_loop j1 (jitems j2).

  (** ** Conversions *)

  (** Target types of the implicit conversion from JSON. Used by [jvalue]: include/lm/json.h:192-198. *)
  Inductive cty := CBool | CI32 | CFloat | CStr | CVec (n : nat) | CMat (c r : nat) | CList (t : cty) | CJson.
  (** The values of these types, for include/lm/json.h:192-198. *)
  Fixpoint cden (t : cty) : Type :=
    match t with
    | CBool => bool | CI32 => Z | CFloat => F | CStr => string
    | CVec _ => list F | CMat _ _ => list (list F) | CList t => list (cden t) | CJson => json
    end.

  (** [of_Z]: conversion of an integer to Float. [trunc]: conversion of a Float to int, None if the
      value does not fit (undefined behaviour in C++). *)
  Variable of_Z : Z -> F.
  Variable trunc : F -> option Z.

  (** static_cast<int>(int64) on the usual two's complement platforms. Used by [jvalue]: include/lm/json.h:192-198. *)
  Definition wrap32 (z : Z) : Z := ((z + 2 ^ 31) mod 2 ^ 32 - 2 ^ 31)%Z.

  (** nlohmann from_json for number_float_t: any number, else type_error 302. *)
  Definition to_float (j : json) : outcome F :=
    match j with JInt z => Ok (of_Z z) | JFloat x => Ok x | _ => Throw ErrJsonType end.

  (** Helper of [vec_from]: include/lm/json.h:47-59. *)
  Fixpoint omap {A B} (f : A -> outcome B) (l : list A) : outcome (list B) :=
    match l with
    | [] => Ok []
    | x :: r => obind (f x) (fun y => obind (omap f r) (fun ys => Ok (y :: ys)))
    end.

  (** j[i] of a const array; beyond the end is undefined behaviour. Used by [vec_from]: include/lm/json.h:47-59. *)
  Definition jat (l : list json) (i : nat) : outcome json := match nth_error l i with Some x => Ok x | None => UB end.

  (** include/lm/json.h:47-59 from_json of vectors *)
  Definition vec_from (n : nat) (j : json) : outcome (list F) :=
    match j with
    | JArr l => if Nat.eqb (List.length l) n then omap (fun i => obind (jat l i) to_float) (seq 0 n) else Throw ErrInvalidArgument
    | _ => Throw ErrInvalidArgument
    end.

  (** include/lm/json.h:74-88 from_json of matrices: a list of C columns of R entries *)
  Definition mat_from (c r : nat) (j : json) : outcome (list (list F)) :=
    match j with
    | JArr l =>
        if Nat.eqb (List.length l) (c * r)
        then omap (fun i => omap (fun k => obind (jat l (i * r + k)) to_float) (seq 0 r)) (seq 0 c)
        else Throw ErrInvalidArgument
    | _ => Throw ErrInvalidArgument
    end.

  (** operator T() of basic_json. Used by [jvalue]: include/lm/json.h:192-198. *)
  Fixpoint conv (t : cty) : json -> outcome (cden t) :=
    match t with
    | CBool => fun j => match j with JBool b => Ok b | _ => Throw ErrJsonType end
    | CI32 => fun j => match j with
        | JInt z => Ok (wrap32 z)
        | JFloat x => match trunc x with Some z => Ok z | None => UB end
        | JBool b => Ok (if b then 1 else 0)%Z
        | _ => Throw ErrJsonType end
    | CFloat => to_float
    | CStr => fun j => match j with JStr s => Ok s | _ => Throw ErrJsonType end
    | CVec n => vec_from n
    | CMat c r => mat_from c r
    | CList t => fun j => match j with JArr l => omap (conv t) l | _ => Throw ErrJsonType end
    | CJson => fun j => Ok j
    end.

  (** a[i] = x on a std::array; beyond the end is undefined behaviour. Used by [vec_to]: include/lm/json.h:40-46. *)
  Fixpoint aput {A} (l : list A) (i : nat) (x : A) : outcome (list A) :=
    match l, i with
    | [], _ => UB
    | _ :: r, O => Ok (x :: r)
    | y :: r, S i' => obind (aput r i' x) (fun r' => Ok (y :: r'))
    end.
  (** A sequence of such assignments: include/lm/json.h:40-46, 65-72. *)
  Fixpoint aputs {A} (l : list A) (w : list (nat * A)) : outcome (list A) :=
    match w with [] => Ok l | (i, x) :: r => obind (aput l i x) (fun l' => aputs l' r) end.

  (** include/lm/json.h:40-46 to_json of vectors. [v i] is v[i]; [junk] the uninitialised array. *)
  Definition vec_to (n : nat) (junk : F) (v : nat -> F) : outcome json :=
    obind (aputs (repeat junk n) (map (fun i => (i, v i)) (seq 0 n))) (fun a => Ok (JArr (map JFloat a))).

  (** include/lm/json.h:65-73 to_json of matrices. [v i k] is v[i][k]: column i, row k. *)
  Definition mat_to (c r : nat) (junk : F) (v : nat -> nat -> F) : outcome json :=
    obind (aputs (repeat junk (c * r))
                 (flat_map (fun i => map (fun k => ((i * r + k)%nat, v i k)) (seq 0 r)) (seq 0 c)))
          (fun a => Ok (JArr (map JFloat a))).

  (** ** Accessors *)

  (** include/lm/json.h:192-198 *)
  Definition jvalue (t : cty) (j : json) (name : string) : outcome (cden t) :=
    match jfind name j with Some x => conv t x | None => Throw ErrInvalidArgument end.

  (** include/lm/json.h:206-212 *)
  Definition jvalue_def (t : cty) (j : json) (name : string) (def : cden t) : outcome (cden t) :=
    match jfind name j with Some x => conv t x | None => Ok def end.

  (** include/lm/json.h:283-290 *)
  Definition jvalue_opt (t : cty) (j : json) (name : string) : outcome (option (cden t)) :=
    match jfind name j with Some x => obind (conv t x) (fun v => Ok (Some v)) | None => Ok None end.

  (** Component lookup: comp::get<T>, None if there is no such component or it has another type. It may
      raise (a component's name query may). *)
  Variable C : Type.
  Variable get : string -> outcome (option C).

  (** include/lm/json.h:225-240 *)
  Definition comp_ref (j : json) (name : string) : outcome C :=
    match jfind name j with
    | None => Throw ErrInvalidArgument
    | Some (JStr ref) => obind (get ref) (fun p => match p with Some c => Ok c | None => Throw ErrInvalidArgument end)
    | Some _ => Throw ErrInvalidArgument
    end.

  (** include/lm/json.h:253-271 *)
  Definition comp_ref_or_nullptr (j : json) (name : string) : outcome (option C) :=
    match jfind name j with
    | Some (JStr ref) => if String.eqb ref "" then Ok None else get ref
    | _ => Ok None
    end.

  (** ** Pointers in JSON (include/lm/json.h:92-108)
      libstdc++: operator<< of a void pointer writes "0x" and lower-case hex digits, "0" for null;
      operator>> reads hex digits with or without "0x". Addresses are 64-bit numbers. *)
  Definition hex_digit (n : N) : ascii := ascii_of_N (if (n <? 10)%N then 48 + n else 87 + n)%N.
  (** include/lm/json.h:94-99: the hexadecimal digits. *)
  Fixpoint hex_go (fuel : nat) (n : N) (acc : string) : string :=
    match fuel with
    | O => acc
    | S f => let acc' := String (hex_digit (n mod 16)) acc in
             if (n <? 16)%N then acc' else hex_go f (n / 16)%N acc'
    end.
  (** include/lm/json.h:94-99. *)
  Definition ptr_to (p : N) : json :=
    JStr (if (p =? 0)%N then "0" else ("0x" ++ hex_go 16 p "")%string).
  (** include/lm/json.h:102-107: the value of a hexadecimal digit. *)
  Definition hex_val (c : ascii) : option N :=
    let n := N_of_ascii c in
    if ((48 <=? n) && (n <=? 57))%N then Some (n - 48)%N
    else if ((97 <=? n) && (n <=? 102))%N then Some (n - 87)%N
    else if ((65 <=? n) && (n <=? 70))%N then Some (n - 55)%N else None.
  (** include/lm/json.h:102-107: digits up to the first other character. *)
  Fixpoint hex_read (s : string) (acc : N) : N :=
    match s with
    | "" => acc
    | String c r => match hex_val c with Some d => hex_read r (16 * acc + d)%N | None => acc end
    end.
  (** include/lm/json.h:102-107. *)
  Definition ptr_from (j : json) : outcome N :=
    match j with
    | JStr (String "0" (String "x" r)) => Ok (hex_read r 0)
    | JStr s => Ok (hex_read s 0)
    | _ => Throw ErrJsonType
    end.
End J.
