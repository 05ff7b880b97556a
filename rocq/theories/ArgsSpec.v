(** Vocabulary for command line arguments: templates, and which texts are JSON texts of which values. *)
From Coq Require Import List Ascii Bool Arith.
From Verif Require Import Base LogModel ArgsModel.
Import ListNotations.
Local Open Scope char_scope. Local Open Scope nat_scope.

(** A template is a sequence of characters and places for arguments. *)
Inductive token := Lit (c : ascii) | Place.
(** How it is written: braces are doubled, places are braces. *)
Definition write1 (t : token) : text :=
  match t with Place => ["{"; "}"] | Lit c => if Ascii.eqb c "{" || Ascii.eqb c "}" then [c; c] else [c] end.
Definition written (l : list token) : text := flat_map write1 l.
(** The arguments put into the places, in order; None if there are too few *)
Fixpoint fill (l : list token) (args : list text) : option text :=
  match l with
  | [] => Some []
  | Lit c :: l => option_map (cons c) (fill l args)
  | Place :: l => match args with [] => None | a :: args => option_map (app a) (fill l args) end
  end.
(** Texts that stand for themselves between quotes *)
Definition plain (a : text) : Prop := forall c, In c a -> c <> quote /\ c <> backslash /\ 32 <= nat_of_ascii c.
(** White space: space, tab, line feed, carriage return *)
Definition blanks (s : text) : Prop := forall c, In c s -> c = " " \/ c = ascii_of_nat 9 \/ c = ascii_of_nat 10 \/ c = ascii_of_nat 13.
(** Numbers of JSON (RFC 8259, section 6) *)
Definition digit (c : ascii) : Prop := In c ["0"; "1"; "2"; "3"; "4"; "5"; "6"; "7"; "8"; "9"].
(** One digit or more *)
Definition some_digits (t : text) : Prop := t <> [] /\ forall c, In c t -> digit c.
Definition sign_part (t : text) : Prop := t = [] \/ t = ["-"].
(** No zero in front of other digits *)
Definition int_part (t : text) : Prop := t = ["0"] \/ exists c r, t = c :: r /\ c <> "0" /\ some_digits t.
Definition frac_part (t : text) : Prop := t = [] \/ exists d, t = "." :: d /\ some_digits d.
Definition exp_part (t : text) : Prop := t = [] \/ exists e s d, t = e :: s ++ d /\ (e = "e" \/ e = "E") /\ (s = [] \/ s = ["+"] \/ s = ["-"]) /\ some_digits d.
Definition number (t : text) : Prop := exists s i f e, t = s ++ i ++ f ++ e /\ sign_part s /\ int_part i /\ frac_part f /\ exp_part e.
Definition quoted (a : text) : text := quote :: a ++ [quote].

(** [w] is a JSON text of [v]: no white space around it, any amount between its parts. *)
Inductive jtext : jv -> text -> Prop :=
| T_str a : plain a -> jtext (VStr a) (quoted a)
| T_num t : number t -> jtext (VNum t) t
| T_arr0 s : blanks s -> jtext (VArr []) ("[" :: s ++ ["]"])
| T_arr l w : jelems l w -> jtext (VArr l) ("[" :: w ++ ["]"])
| T_obj0 s : blanks s -> jtext (VObj []) ("{" :: s ++ ["}"])
| T_obj l w : jmembers l w -> jtext (VObj l) ("{" :: w ++ ["}"])
with jelems : list jv -> text -> Prop :=
| E_one v w s1 s2 : jtext v w -> blanks s1 -> blanks s2 -> jelems [v] (s1 ++ w ++ s2)
| E_cons v w l w' s1 s2 : jtext v w -> blanks s1 -> blanks s2 -> jelems l w' -> jelems (v :: l) (s1 ++ w ++ s2 ++ "," :: w')
with jmembers : list (text * jv) -> text -> Prop :=
| M_one k v w s1 s2 s3 s4 : plain k -> jtext v w -> blanks s1 -> blanks s2 -> blanks s3 -> blanks s4 ->
    jmembers [(k, v)] (s1 ++ quoted k ++ s2 ++ ":" :: s3 ++ w ++ s4)
| M_cons k v w l w' s1 s2 s3 s4 : plain k -> jtext v w -> blanks s1 -> blanks s2 -> blanks s3 -> blanks s4 -> jmembers l w' ->
    jmembers ((k, v) :: l) (s1 ++ quoted k ++ s2 ++ ":" :: s3 ++ w ++ s4 ++ "," :: w').
