(** Specifications of registry, plugins and contexts read off the history of calls alone. *)
From Coq Require Import List String ZArith.
From Verif Require Import Base RegModel.
Import ListNotations.
Open Scope string_scope.

(** History, oldest call first. [last_some f h]: the answer of [f] for the most recent call on which
    it has an opinion. *)
Fixpoint last_some {A B} (f : A -> option B) (h : list A) : option B :=
  match h with
  | [] => None
  | a :: r => match last_some f r with Some b => Some b | None => f a end
  end.

(** Does a call say something about key [k]?  Registered with this factory, or unregistered. *)
Definition about_key (k : string) (o : reg_op) : option (option factory) :=
  match o with
  | Reg k' _ f => if String.eqb k k' then Some (Some f) else None
  | Unreg k' _ => if String.eqb k k' then Some None else None
  end.
(** Does a call say something about the (non-empty) alias [a]? *)
Definition about_alias (a : string) (o : reg_op) : option (option string) :=
  match o with
  | Reg k a' _ => if String.eqb a a' then if String.eqb a' "" then None else Some (Some k) else None
  | Unreg _ a' => if String.eqb a a' then if String.eqb a' "" then None else Some None else None
  end.

Definition flat {A} (x : option (option A)) : option A :=
  match x with Some y => y | None => None end.

(** The factory a key denotes, and the key an alias denotes, after a history. *)
Definition denoted_factory (h : list reg_op) (k : string) : option factory := flat (last_some (about_key k) h).
Definition denoted_alias (h : list reg_op) (a : string) : option string := flat (last_some (about_alias a) h).

(** What creating by [name] must yield. *)
Definition created (h : list reg_op) (name : string) : option (string * factory) :=
  let key := match denoted_alias h name with Some k => k | None => name end in
  match denoted_factory h key with
  | Some f => Some (key, f)
  | None => None
  end.

(** Plugins: is [p] loaded after the history (oldest first)? A load succeeds if already loaded or if the
    system loads it; an unload of a loaded plugin counts if the system unloads it. *)
Fixpoint loaded_after (h : list plugin_op) (p : string) (now : bool) : bool :=
  match h with
  | [] => now
  | PLoad q ok :: r => loaded_after r p (if String.eqb p q then orb now ok else now)
  | PUnload q ok :: r => loaded_after r p (if String.eqb p q then andb now (negb ok) else now)
  | PUnloadAll _ :: r => loaded_after r p false
  end.

(** Contexts: initialized after the history? Determined by the last init or shutdown. *)
Definition about_ctx (o : ctx_op) : option (option nat) :=
  match o with
  | CInit (CrOk i) => Some (Some i)
  | CInit _ => Some None
  | CShutdown => Some None
  | CGet => None
  end.
Definition live_ctx (h : list ctx_op) : option nat := flat (last_some about_ctx h).

(** Number of instances alive after a trace of events (latest first). *)
Fixpoint alive (t : list ctx_event) : Z :=
  match t with
  | [] => 0
  | EvCreate _ :: r => alive r + 1
  | EvRelease _ :: r => alive r - 1
  end%Z.

(** User API: initialized after the history? *)
Definition about_user (o : user_op) : option bool :=
  match o with UInit _ => Some true | UShutdown => Some false | _ => None end.
Definition user_initialized (h : list user_op) : bool :=
  match last_some about_user h with Some b => b | None => false end.
