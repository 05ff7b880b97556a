(** Component locators: include/lm/component.h and the lookup of src/component.cpp.
    std::string is modelled by Coq's [string] (sequence of 8-bit characters). *)
From Coq Require Import List String Ascii Arith.
From Verif Require Import Base.
Import ListNotations.
Open Scope string_scope.

(** '.' in include/lm/component.h:148-184. *)
Definition dot : ascii := "."%char.

(** include/lm/component.h:180-184 [Component::make_loc(base, child)].
    The two asserts (non-empty arguments) are debug-only and not modelled. *)
Definition make_loc (base child : string) : string := base ++ "." ++ child.

(** std::string::find_last_of('.'): index of the last dot, [None] for npos.
    Used by [parent_loc]: include/lm/component.h:148-154. *)
Fixpoint find_last_dot (s : string) : option nat :=
  match s with
  | EmptyString => None
  | String c r =>
      match find_last_dot r with
      | Some i => Some (S i)
      | None => if Ascii.eqb c dot then Some 0 else None
      end
  end.

(** std::string::find_first_of('.', 0): index of the first dot, [None] for npos. *)
Fixpoint find_first_dot (s : string) : option nat :=
  match s with
  | EmptyString => None
  | String c r =>
      if Ascii.eqb c dot then Some 0
      else match find_first_dot r with Some i => Some (S i) | None => None end
  end.

(** std::string::substr(pos): suffix from [pos] (callers guarantee pos <= size).
    Used by [name_of]: include/lm/component.h:164-168. *)
Definition substr_from (pos : nat) (s : string) : string :=
  substring pos (String.length s - pos) s.

(** include/lm/component.h:148-154 [Component::parent_loc], as a function of loc(). *)
Definition parent_loc (loc : string) : string :=
  match find_last_dot loc with
  | None => ""
  | Some i => substring 0 i loc
  end.

(** include/lm/component.h:164-168 [Component::name], as a function of loc().
    Without a dot the release build computes substr(npos + 1) = substr(0). *)
Definition name_of (loc : string) : string :=
  match find_last_dot loc with
  | None => substr_from 0 loc
  | Some i => substr_from (S i) loc
  end.

(** src/component.cpp:334-340 [splitFirst]. *)
Definition split_first (s : string) : string * string :=
  match find_first_dot s with
  | None => (s, "")
  | Some i => (substring 0 i s, substr_from (S i) s)
  end.

Section Lookup.
  (** [comp] is the type of Component pointers (non-null); [underlying c name] is the virtual
      name query (include/lm/component.h:252), which may return null ([Ok None]) or raise. *)
  Variable comp : Type.
  Variable underlying : comp -> string -> outcome (option comp).

  (** src/component.cpp:350-354, the while loop of ComponentContext::get.
      Fuel bounds the number of iterations; [get] supplies enough. *)
  Fixpoint get_loop (fuel : nat) (curr : option comp) (remaining : string) : outcome (option comp) :=
    match curr with
    | None => Ok None
    | Some c =>
        if String.eqb remaining "" then Ok (Some c)
        else match fuel with
             | O => Fuel
             | S f =>
                 let (s, r) := split_first remaining in
                 obind (underlying c s) (fun next => get_loop f next r)
             end
    end.

  (** src/component.cpp:322-361 [ComponentContext::get]. Log output is not modelled. *)
  Definition get (root : option comp) (locator : string) : outcome (option comp) :=
    match root with
    | None => Ok None
    | Some r =>
        if String.eqb locator "" then Ok None
        else
          let (s0, r0) := split_first locator in
          if String.eqb s0 "$" then get_loop (String.length locator) (Some r) r0
          else Ok None
    end.
End Lookup.

(** src/component.cpp:315-320 [register_root_comp]: [loc_of p] is p->loc(). *)
Definition register_root_comp {comp : Type} (loc_of : comp -> string) (p : comp)
  : outcome (option comp) :=
  if String.eqb (loc_of p) "$" then Ok (Some p) else Throw ErrNone.
