(** Byte format of the archives: include/lm/serialtype.h, include/lm/serial.h and the parts of cereal's
    portable binary archive they use (cereal itself is not in /repo; its documented format is trusted:
    little-endian fixed-width arithmetic values, 64-bit element counts, containers as count followed by
    the elements, bools as one byte). *)
From Coq Require Import List String Ascii ZArith Bool.
From Verif Require Import Base.
Import ListNotations.
Open Scope list_scope. Open Scope Z_scope. Open Scope bool_scope.

(** The bytes of a std::istream or std::ostream: include/lm/serialtype.h:75-88. *)
Definition stream := list ascii.

(** Serializable value types used by the components' serialize functions.
    [TInt k s]: k-byte integer, signed if s (int, enum, long long, uint8_t...).
    [TF64]: Float, as its 64-bit pattern. [TFixed n t]: glm vectors (n scalars) and matrices (n columns).
    [TMapS], [TMapI]: std::unordered_map with string or int keys. [TPair], [TUnit]: argument lists
    ar(a, b, ...) and structs with a serialize member. std::atomic is transparent
    (include/lm/serial.h:83-97). *)
Inductive ty :=
| TBool | TInt (bytes : nat) (signed : bool) | TF64 | TStr
| TUnit | TPair (a b : ty) | TVec (t : ty) | TFixed (n : nat) (t : ty) | TOpt (t : ty)
| TMapS (t : ty) | TMapI (t : ty).

(** Values of each type. Used by [encode]: include/lm/serial.h:29-37. *)
Fixpoint den (t : ty) : Type :=
  match t with
  | TBool => bool
  | TInt _ _ => Z
  | TF64 => Z
  | TStr => string
  | TUnit => unit
  | TPair a b => den a * den b
  | TVec t => list (den t)
  | TFixed _ t => list (den t)
  | TOpt t => option (den t)
  | TMapS t => list (string * den t)
  | TMapI t => list (Z * den t)
  end%type.

(** include/lm/serialtype.h:120-138: raw bytes of an arithmetic value, little endian. *)
Fixpoint le_bytes (k : nat) (z : Z) : stream :=
  match k with
  | O => []
  | S k' => ascii_of_N (Z.to_N (z mod 256)) :: le_bytes k' (z / 256)
  end.

(** cereal: the number of little-endian bytes, for include/lm/serialtype.h:130-138. *)
Fixpoint le_value (l : stream) : Z :=
  match l with
  | [] => 0
  | b :: l' => Z.of_N (N_of_ascii b) + 256 * le_value l'
  end.

(** cereal::PortableBinaryInputArchive::loadBinary: exactly k bytes or an exception. include/lm/serialtype.h:130-171. *)
Fixpoint take (k : nat) (s : stream) : outcome (stream * stream) :=
  match k with
  | O => Ok ([], s)
  | S k' => match s with
            | [] => Throw ErrArchive
            | b :: s' => obind (take k' s') (fun r => Ok (b :: fst r, snd r))
            end
  end.

(** 256^k, for include/lm/serialtype.h:120-138. *)
Definition pow256 (k : nat) : Z := 256 ^ Z.of_nat k.

(** include/lm/serialtype.h:120-128. *)
Definition enc_int (k : nat) (z : Z) : stream := le_bytes k (z mod pow256 k).

(** include/lm/serialtype.h:130-138. *)
Definition dec_int (k : nat) (signed : bool) (s : stream) : outcome (Z * stream) :=
  obind (take k s) (fun r =>
    let u := le_value (fst r) in
    Ok (if signed && (pow256 k <=? 2 * u) then u - pow256 k else u, snd r)).

(** include/lm/serialtype.h:146-150: cereal::SizeTag carries a 64-bit count. *)
Definition enc_size {A} (l : list A) : stream := enc_int 8 (Z.of_nat (List.length l)).
(** cereal::make_size_tag: include/lm/serialtype.h:146-150. *)
Definition dec_size (s : stream) : outcome (Z * stream) := dec_int 8 false s.

(** One byte for a bool. A byte other than 0 and 1 read into a C++ bool is undefined behaviour.
    include/lm/serialtype.h:120-138. *)
Definition enc_bool (b : bool) : stream := enc_int 1 (if b then 1 else 0).
(** Reading a bool: include/lm/serialtype.h:120-138. *)
Definition dec_bool (s : stream) : outcome (bool * stream) :=
  obind (dec_int 1 false s) (fun r =>
    if fst r =? 0 then Ok (false, snd r) else if fst r =? 1 then Ok (true, snd r) else UB).

(** std::string: count and characters (include/lm/serialtype.h:152-172, BinaryData). *)
Definition enc_str (v : string) : stream :=
  enc_size (list_ascii_of_string v) ++ list_ascii_of_string v.

(** Repeat a reading step [p] times, stopping at the first failure. Loops of the form
    for (i = 0; i < n; i++) step.
    cereal's loops over the elements of a container, for include/lm/serialtype.h:146-171. *)
Fixpoint repeat_pos {S} (p : positive) (step : S -> outcome S) (x : S) : outcome S :=
  match p with
  | xH => step x
  | xO q => obind (repeat_pos q step x) (repeat_pos q step)
  | xI q => obind (step x) (fun y => obind (repeat_pos q step y) (repeat_pos q step))
  end.
(** The same for a number of type Z, for include/lm/serialtype.h:146-171. *)
Definition repeat_z {S} (n : Z) (step : S -> outcome S) (x : S) : outcome S :=
  match n with Zpos p => repeat_pos p step x | _ => Ok x end.

(** Read n elements in order; [acc] holds the elements read so far in reverse.
    cereal, for include/lm/serialtype.h:146-171. *)
Definition dec_elems {A} (dec : stream -> outcome (A * stream)) (n : Z) (s : stream)
  : outcome (list A * stream) :=
  obind (repeat_z n (fun (st : list A * stream) =>
           obind (dec (snd st)) (fun r => Ok (fst r :: fst st, snd r))) ([], s))
        (fun st => Ok (rev (fst st), snd st)).

(** One character of a string (cereal types/string.hpp, for include/lm/serialtype.h:152-171). *)
Definition dec_char (s : stream) : outcome (ascii * stream) :=
  match s with [] => Throw ErrArchive | b :: s' => Ok (b, s') end.

(** A string: its size and characters (cereal types/string.hpp, for include/lm/serialtype.h:146-171). *)
Definition dec_str (s : stream) : outcome (string * stream) :=
  obind (dec_size s) (fun n =>
    obind (dec_elems dec_char (fst n) (snd n)) (fun r => Ok (string_of_list_ascii (fst r), snd r))).

(** std::unordered_map::emplace_hint for each loaded item: the first item of a key is kept.
    The map is modelled by its items in iteration order.
    cereal types/concepts/pair_associative_container.hpp, for src/assetgroup.cpp:17-20. *)
Definition emplace {K V} (eqb : K -> K -> bool) (m : list (K * V)) (kv : K * V) : list (K * V) :=
  if existsb (fun e => eqb (fst e) (fst kv)) m then m else m ++ [kv].
(** The map that the loaded items make, for src/assetgroup.cpp:17-20. *)
Definition build_map {K V} (eqb : K -> K -> bool) (l : list (K * V)) : list (K * V) :=
  fold_left (emplace eqb) l [].

(** ar(v) on an output archive. include/lm/serial.h:29-37 optional (nullopt flag first), 61-66 vec,
    71-76 mat (column by column); containers as in cereal. *)
Fixpoint encode (t : ty) : den t -> stream :=
  match t with
  | TBool => enc_bool
  | TInt k _ => enc_int k
  | TF64 => enc_int 8
  | TStr => enc_str
  | TUnit => fun _ => []
  | TPair a b => fun v => encode a (fst v) ++ encode b (snd v)
  | TVec t => fun v => enc_size v ++ flat_map (encode t) v
  | TFixed _ t => fun v => flat_map (encode t) v
  | TOpt t => fun v => match v with None => enc_bool true | Some x => enc_bool false ++ encode t x end
  | TMapS t => fun v => enc_size v ++ flat_map (fun e => enc_str (fst e) ++ encode t (snd e)) v
  | TMapI t => fun v => enc_size v ++ flat_map (fun e => enc_int 4 (fst e) ++ encode t (snd e)) v
  end.

(** ar(v) on an input archive. include/lm/serial.h:42-54 optional. *)
Fixpoint decode (t : ty) : stream -> outcome (den t * stream) :=
  match t with
  | TBool => dec_bool
  | TInt k sg => dec_int k sg
  | TF64 => dec_int 8 false
  | TStr => dec_str
  | TUnit => fun s => Ok (tt, s)
  | TPair a b => fun s =>
      obind (decode a s) (fun r => obind (decode b (snd r)) (fun q => Ok ((fst r, fst q), snd q)))
  | TVec t => fun s => obind (dec_size s) (fun n => dec_elems (decode t) (fst n) (snd n))
  | TFixed n t => fun s => dec_elems (decode t) (Z.of_nat n) s
  | TOpt t => fun s =>
      obind (dec_bool s) (fun b =>
        if fst b then Ok (None, snd b)
        else obind (decode t (snd b)) (fun r => Ok (Some (fst r), snd r)))
  | TMapS t => fun s =>
      obind (dec_size s) (fun n =>
        obind (dec_elems (fun s => obind (dec_str s) (fun k =>
                 obind (decode t (snd k)) (fun r => Ok ((fst k, fst r), snd r)))) (fst n) (snd n))
          (fun r => Ok (build_map String.eqb (fst r), snd r)))
  | TMapI t => fun s =>
      obind (dec_size s) (fun n =>
        obind (dec_elems (fun s => obind (dec_int 4 true s) (fun k =>
                 obind (decode t (snd k)) (fun r => Ok ((fst k, fst r), snd r)))) (fst n) (snd n))
          (fun r => Ok (build_map Z.eqb (fst r), snd r)))
  end.

(** The archive writes and reads one leading byte, 1 on a little-endian machine (constructor of the
    portable archives). Streams of other byte order are not modelled. include/lm/serialtype.h:75-88. *)
Definition open_out (s : stream) : stream := enc_int 1 1 ++ s.
(** include/lm/serialtype.h:75-88. *)
Definition open_in (s : stream) : outcome stream :=
  obind (dec_int 1 false s) (fun r => if fst r =? 1 then Ok (snd r) else UB).
