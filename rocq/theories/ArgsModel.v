(** Model of parse_positional_args (include/lm/json.h:119-130 and 176-179): command line arguments put into a template and
    parsed as JSON. Of the two libraries: fmt::format with replacement fields without contents, and the parser of
    nlohmann::json. Simplifications: replacement fields with contents are taken for errors; numbers are kept as written;
    keys are kept in the order of the text; true, false, null and \u in strings are taken for errors; characters are bytes, of
    which those from 128 on stand for themselves. *)
From Coq Require Import List Ascii Bool Arith.
From Verif Require Import Base LogModel.
Import ListNotations.
Local Open Scope char_scope. Local Open Scope nat_scope.

(** fmt::format_error, thrown in include/lm/json.h:122 *)
Definition format_error : error := ErrUser 8.
(** nlohmann::json::parse_error, thrown in include/lm/json.h:178 *)
Definition parse_error : error := ErrUser 9.
(** The characters with a meaning in JSON, for include/lm/json.h:178: quote, backslash. *)
Definition quote : ascii := ascii_of_nat 34.
(** See [quote] (include/lm/json.h:178). *)
Definition backslash : ascii := ascii_of_nat 92.

(** fmt::format(format, args...) in include/lm/json.h:122 *)
Fixpoint fmt (f : text) (args : list text) : outcome text :=
  match f with
  | [] => Ok []
  | "{" :: "{" :: r => obind (fmt r args) (fun w => Ok ("{" :: w))
  | "{" :: "}" :: r => match args with [] => Throw format_error | a :: args => obind (fmt r args) (fun w => Ok (a ++ w)) end
  | "{" :: _ => Throw format_error
  | "}" :: "}" :: r => obind (fmt r args) (fun w => Ok ("}" :: w))
  | "}" :: _ => Throw format_error
  | c :: r => obind (fmt r args) (fun w => Ok (c :: w))
  end.
(** include/lm/json.h:120-128: v[0], ..., v[n - 1] without check *)
Definition format_with (n : nat) (format : text) (v : list text) : outcome text :=
  if List.length v <? n then UB else fmt format (firstn n v).

(** ** JSON (include/lm/json.h:178) *)
(** Values: include/lm/jsontype.h:30-39 *)
Inductive jv := VStr (s : text) | VNum (t : text) | VArr (l : list jv) | VObj (m : list (text * jv)).
(** White space in include/lm/json.h:178. *)
Definition blank_char (c : ascii) : bool := Ascii.eqb c " " || (nat_of_ascii c =? 9) || (nat_of_ascii c =? 10) || (nat_of_ascii c =? 13).
(** Skips it, for include/lm/json.h:178. *)
Fixpoint skip (s : text) : text := match s with c :: r => if blank_char c then skip r else s | [] => [] end.
(** The character that follows a backslash, for include/lm/json.h:178. *)
Definition unescape (c : ascii) : option ascii :=
  if Ascii.eqb c quote then Some quote else if Ascii.eqb c backslash then Some backslash else if Ascii.eqb c "/" then Some "/"
  else if Ascii.eqb c "b" then Some (ascii_of_nat 8) else if Ascii.eqb c "f" then Some (ascii_of_nat 12) else if Ascii.eqb c "n" then Some (ascii_of_nat 10)
  else if Ascii.eqb c "r" then Some (ascii_of_nat 13) else if Ascii.eqb c "t" then Some (ascii_of_nat 9) else None.
(** The rest of a string after the quote, for include/lm/json.h:178. *)
Fixpoint str (s : text) : outcome (text * text) :=
  match s with
  | [] => Throw parse_error
  | c :: r =>
      if Ascii.eqb c quote then Ok ([], r)
      else if Ascii.eqb c backslash then
        match r with
        | [] => Throw parse_error
        | d :: r => match unescape d with None => Throw parse_error | Some d => obind (str r) (fun '(a, r) => Ok (d :: a, r)) end
        end
      else if nat_of_ascii c <? 32 then Throw parse_error
      else obind (str r) (fun '(a, r) => Ok (c :: a, r))
  end.
(** Digits, for include/lm/json.h:178. *)
Definition digit_char (c : ascii) : bool := (48 <=? nat_of_ascii c) && (nat_of_ascii c <=? 57).
(** Characters of numbers, for include/lm/json.h:178. *)
Definition num_char (c : ascii) : bool := digit_char c || Ascii.eqb c "-" || Ascii.eqb c "+" || Ascii.eqb c "." || Ascii.eqb c "e" || Ascii.eqb c "E".
(** The longest run of such characters and the rest, for include/lm/json.h:178. *)
Fixpoint span (s : text) : text * text :=
  match s with c :: r => if num_char c then let '(a, b) := span r in (c :: a, b) else ([], s) | [] => ([], []) end.
(** A run of digits and the rest, for include/lm/json.h:178. *)
Fixpoint digits (s : text) : nat * text := match s with c :: r => if digit_char c then let '(n, b) := digits r in (S n, b) else (0, s) | [] => (0, []) end.
(** The text of a number after the minus, for include/lm/json.h:178. *)
Definition unsign (t : text) : text := match t with "-" :: r => r | _ => t end.
(** Whether a fraction is well formed or absent, and what follows it, for include/lm/json.h:178. *)
Definition fraction (r : text) : bool * text := match r with "." :: r => let '(n, r) := digits r in (negb (n =? 0), r) | _ => (true, r) end.
(** The text of an exponent after the sign, for include/lm/json.h:178. *)
Definition exp_unsign (r : text) : text := match r with "+" :: r => r | "-" :: r => r | _ => r end.
(** Whether the rest of a number is an exponent or empty, for include/lm/json.h:178. *)
Definition exponent (r : text) : bool :=
  match r with
  | [] => true
  | c :: r => if Ascii.eqb c "e" || Ascii.eqb c "E"
              then let '(n, r) := digits (exp_unsign r) in negb (n =? 0) && match r with [] => true | _ => false end
              else false
  end.
(** No zero in front of other digits, for include/lm/json.h:178; [n]: how many digits there are *)
Definition lead (t : text) (n : nat) : bool := match t with "0" :: _ => n =? 1 | _ => negb (n =? 0) end.
(** The grammar of numbers (RFC 8259, section 6), for include/lm/json.h:178: minus, digits without leading zero, fraction,
    exponent *)
Definition number_ok (t : text) : bool :=
  let '(n, r) := digits (unsign t) in let '(frac, r') := fraction r in lead (unsign t) n && frac && exponent r'.
(** A value, the elements of an array and the members of an object, each with the rest of the text, for
    include/lm/json.h:178. *)
Fixpoint pvalue (n : nat) (s : text) : outcome (jv * text) :=
  match n with O => Fuel | S n =>
  match skip s with
  | [] => Throw parse_error
  | c :: r =>
      if Ascii.eqb c quote then obind (str r) (fun '(a, r) => Ok (VStr a, r))
      else if Ascii.eqb c "[" then
        match skip r with "]" :: r => Ok (VArr [], r) | _ => obind (pelems n r) (fun '(l, r) => Ok (VArr l, r)) end
      else if Ascii.eqb c "{" then
        match skip r with "}" :: r => Ok (VObj [], r) | _ => obind (pmembers n r) (fun '(l, r) => Ok (VObj l, r)) end
      else if num_char c then let '(t, r) := span (c :: r) in if number_ok t then Ok (VNum t, r) else Throw parse_error
      else Throw parse_error
  end end
with pelems (n : nat) (s : text) : outcome (list jv * text) :=
  match n with O => Fuel | S n =>
  obind (pvalue n s) (fun '(v, r) =>
  match skip r with
  | "," :: r => obind (pelems n r) (fun '(l, r) => Ok (v :: l, r))
  | "]" :: r => Ok ([v], r)
  | _ => Throw parse_error
  end) end
with pmembers (n : nat) (s : text) : outcome (list (text * jv) * text) :=
  match n with O => Fuel | S n =>
  match skip s with
  | [] => Throw parse_error
  | c :: r =>
      if Ascii.eqb c quote then
        obind (str r) (fun '(k, r) =>
        match skip r with
        | ":" :: r =>
            obind (pvalue n r) (fun '(v, r) =>
            match skip r with
            | "," :: r => obind (pmembers n r) (fun '(l, r) => Ok ((k, v) :: l, r))
            | "}" :: r => Ok ([(k, v)], r)
            | _ => Throw parse_error
            end)
        | _ => Throw parse_error
        end)
      else Throw parse_error
  end end.
(** Json::parse(s) in include/lm/json.h:178 *)
Definition parse (s : text) : outcome jv :=
  obind (pvalue (S (List.length s)) s) (fun '(v, r) => match skip r with [] => Ok v | _ => Throw parse_error end).
(** include/lm/json.h:176-179; [argv] has argc elements. Without the name of the program the range is not one. *)
Definition parse_positional_args (n : nat) (argv : list text) (temp : text) : outcome jv :=
  match argv with [] => UB | _ :: v => obind (format_with n temp v) parse end.
