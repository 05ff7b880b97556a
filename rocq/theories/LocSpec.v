(** Independent vocabulary for locators. Does not mention the model. *)
From Coq Require Import List String Ascii.
From Verif Require Import Base.
Import ListNotations.
Open Scope string_scope.

(** Split a string at every dot: "a.b" gives ["a";"b"], "" gives [""], "a." gives ["a";""]. *)
Fixpoint segments (s : string) : list string :=
  match s with
  | EmptyString => [""]
  | String c r =>
      if Ascii.eqb c "."%char then "" :: segments r
      else match segments r with
           | h :: t => String c h :: t
           | [] => [String c ""]
           end
  end.

(** No dot inside the string. *)
Fixpoint dot_free (s : string) : Prop :=
  match s with
  | EmptyString => True
  | String c r => c <> "."%char /\ dot_free r
  end.

(** Follow a list of names through a name query. *)
Fixpoint walk {comp} (query : comp -> string -> outcome (option comp)) (c : comp) (l : list string)
  : outcome (option comp) :=
  match l with
  | [] => Ok (Some c)
  | n :: l' =>
      match query c n with
      | Ok (Some c') => walk query c' l'
      | other => other
      end
  end.

(** A single trailing empty segment (a trailing dot) is ignored. *)
Fixpoint drop_one_trailing_empty (l : list string) : list string :=
  match l with
  | [] => []
  | [x] => if String.eqb x "" then [] else [x]
  | x :: l' => x :: drop_one_trailing_empty l'
  end.

(** A hierarchy in which each component knows its place: the root is at "$" and whatever a component
    finds under a name has the locator (own locator).(name), the name being non-empty and dot-free. *)
Record well_located {comp} (query : comp -> string -> outcome (option comp))
       (loc : comp -> string) (root : comp) : Prop := {
  wl_root : loc root = "$";
  wl_child : forall c n c', query c n = Ok (Some c') ->
             loc c' = loc c ++ "." ++ n /\ n <> "" /\ dot_free n
}.

(** [reaches query a b]: b is found from a by repeatedly querying names. *)
Inductive reaches {comp} (query : comp -> string -> outcome (option comp)) : comp -> comp -> Prop :=
| reaches_refl c : reaches query c c
| reaches_step a b c n : reaches query a b -> query b n = Ok (Some c) -> reaches query a c.
