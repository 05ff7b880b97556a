(** Component registry, plugin table, context singletons and the user context.
    Models src/component.cpp, parts of include/lm/component.h and src/user.cpp. *)
From Coq Require Import List String ZArith.
From Verif Require Import Base Assoc.
Import ListNotations.
Open Scope string_scope.

(** ** Registry *)

(** src/component.cpp:137-140 [CreateAndReleaseFunctions]; functions are identified by numbers. *)
Record factory := { create_func : nat; release_func : nat }.

(** src/component.cpp:141-142: func_map_ and func_alias_map_. *)
Record registry := { func_map : list (string * factory); alias_map : list (string * string) }.

(** The context just created: src/component.cpp:134-145. *)
Definition registry_init : registry := {| func_map := []; alias_map := [] |}.

(** A created instance: include/lm/component.h:94-103 (key_, create_func_, release_func_). The
    instance itself is the one made by [inst_made_by]. *)
Record instance := { inst_key : string; inst_made_by : nat; inst_create : nat; inst_release : nat }.

(** src/component.cpp:198-210 [reg] (log output omitted). *)
Definition reg (s : registry) (key alias : string) (f : factory) : registry :=
  {| func_map := aset key f (func_map s);
     alias_map := if String.eqb alias "" then alias_map s else aset alias key (alias_map s) |}.

(** src/component.cpp:212-217 [unreg]. *)
Definition unreg (s : registry) (key alias : string) : registry :=
  {| func_map := aerase key (func_map s);
     alias_map := if String.eqb alias "" then alias_map s else aerase alias (alias_map s) |}.

(** src/component.cpp:168-196 [create_comp]. *)
Definition create_comp (s : registry) (key_ : string) : option instance :=
  let key := match alookup key_ (alias_map s) with None => key_ | Some k => k end in
  match alookup key (func_map s) with
  | None => None
  | Some f => Some {| inst_key := key; inst_made_by := create_func f;
                      inst_create := create_func f; inst_release := release_func f |}
  end.

(** src/component.cpp:309-313 [foreach_registered]: the keys visited (order unspecified in C++). *)
Definition foreach_registered (s : registry) : list string := akeys (func_map s).

(** Calls of src/component.cpp:198-217. *)
Inductive reg_op :=
| Reg (key alias : string) (f : factory)
| Unreg (key alias : string).

(** src/component.cpp:198-217. *)
Definition reg_step (s : registry) (o : reg_op) : registry :=
  match o with
  | Reg k a f => reg s k a f
  | Unreg k a => unreg s k a
  end.

(** A history of calls of src/component.cpp:198-217. *)
Definition reg_run (ops : list reg_op) : registry := fold_left reg_step ops registry_init.

(** ** Plugins *)

(** Keys of plugins_ (src/component.cpp:145) and, per path, the number of successful dlopen calls not
    yet matched by a successful dlclose (the operating system's reference count). *)
Record plugin_state := { plugins : list string; os_refs : string -> Z }.

(** The context just created: src/component.cpp:134-145. *)
Definition plugins_init : plugin_state := {| plugins := []; os_refs := fun _ => 0%Z |}.

(** plugins_.find: src/component.cpp:219-249. *)
Definition mem (p : string) (l : list string) : bool := existsb (String.eqb p) l.
(** The reference count of the operating system, for src/component.cpp:219-269. *)
Definition add_ref (p : string) (d : Z) (f : string -> Z) : string -> Z :=
  fun q => if String.eqb q p then (f q + d)%Z else f q.
(** plugins_.erase: src/component.cpp:251-269. *)
Definition remove1 (p : string) (l : list string) : list string :=
  filter (fun q => negb (String.eqb p q)) l.

(** The state after a call together with how the call ended. src/component.cpp:219-269. *)
Definition presult := (plugin_state * option error)%type.

(** src/component.cpp:219-249 [load_plugin]; [ok] is the answer of dlopen. [p] is the path after
    plugin_path (which appends "-debug" in debug builds, lines 158-165). *)
Definition load_plugin (s : plugin_state) (p : string) (ok : bool) : presult :=
  if mem p (plugins s) then (s, None)
  else if ok then ({| plugins := p :: plugins s; os_refs := add_ref p 1 (os_refs s) |}, None)
  else (s, Some ErrIOError).

(** src/component.cpp:251-269 [unload_plugin]; [ok] is the answer of dlclose. *)
Definition unload_plugin (s : plugin_state) (p : string) (ok : bool) : presult :=
  if mem p (plugins s) then
    if ok then ({| plugins := remove1 p (plugins s); os_refs := add_ref p (-1) (os_refs s) |}, None)
    else (s, Some ErrIOError)
  else (s, Some ErrIOError).

(** src/component.cpp:302-307 [unload_all_plugins]; [ok p] is the answer of dlclose for p, which the
    code ignores before clearing the table. *)
Definition unload_all_plugins (s : plugin_state) (ok : string -> bool) : plugin_state :=
  {| plugins := [];
     os_refs := fold_left (fun f p => if ok p then add_ref p (-1) f else f) (plugins s) (os_refs s) |}.

(** Calls of src/component.cpp:219-269, 302-307. *)
Inductive plugin_op :=
| PLoad (p : string) (ok : bool)
| PUnload (p : string) (ok : bool)
| PUnloadAll (ok : string -> bool).

(** src/component.cpp:219-269, 302-307. *)
Definition plugin_step (s : plugin_state) (o : plugin_op) : plugin_state :=
  match o with
  | PLoad p ok => fst (load_plugin s p ok)
  | PUnload p ok => fst (unload_plugin s p ok)
  | PUnloadAll ok => unload_all_plugins s ok
  end.
(** A history of calls of src/component.cpp:219-307. *)
Definition plugin_run (ops : list plugin_op) : plugin_state := fold_left plugin_step ops plugins_init.

(** include/lm/component.h:701-706 [ScopedLoadPlugin] constructor: loads in order; on an exception the
    object is not constructed, so the destructor does not run. Result: state, the paths_ recorded and
    the exception, if any. [ok] answers dlopen per path. *)
Fixpoint scoped_ctor (s : plugin_state) (paths : list string) (ok : string -> bool) (done : list string)
  : plugin_state * list string * option error :=
  match paths with
  | [] => (s, done, None)
  | p :: r =>
      match load_plugin s p (ok p) with
      | (s', None) => scoped_ctor s' r ok (done ++ [p])
      | (s', Some e) => (s', done, Some e)
      end
  end.

(** How leaving the scope of a [ScopedLoadPlugin] can end. include/lm/component.h:701-711. *)
Inductive guard_end :=
| GuardDone                (* destructor ran to completion *)
| GuardCtorThrew (e : error) (* construction failed, no destructor *)
| GuardTerminate.          (* an exception left the noexcept destructor: std::terminate *)

(** include/lm/component.h:707-711, the destructor. *)
Fixpoint scoped_dtor (s : plugin_state) (paths : list string) (ok : string -> bool)
  : plugin_state * guard_end :=
  match paths with
  | [] => (s, GuardDone)
  | p :: r =>
      match unload_plugin s p (ok p) with
      | (s', None) => scoped_dtor s' r ok
      | (s', Some _) => (s', GuardTerminate)
      end
  end.

(** A scope: construct the guard, run [body], leave the scope. include/lm/component.h:701-711. *)
Definition scoped (s : plugin_state) (paths : list string) (okl oku : string -> bool)
    (body : plugin_state -> plugin_state) : plugin_state * guard_end :=
  match scoped_ctor s paths okl [] with
  | (s', _, Some e) => (s', GuardCtorThrew e)
  | (s', ps, None) => scoped_dtor (body s') ps oku
  end.

(** src/component.cpp:289-299, the loop of [load_plugin_directory] over the file stems of the entries
    that are regular files and match the name pattern. Line 298 passes only the stem: the directory is
    dropped. [ok] answers dlopen per path given to it. *)
Fixpoint load_plugin_directory (s : plugin_state) (stems : list string) (ok : string -> bool) : presult :=
  match stems with
  | [] => (s, None)
  | p :: r =>
      match load_plugin s p (ok p) with
      | (s', None) => load_plugin_directory s' r ok
      | (s', Some e) => (s', Some e)
      end
  end.

(** ** Context singleton: include/lm/component.h:622-686 [ContextInstance]. *)

(** What comp::create does with the requested type (include/lm/component.h:564-590). *)
Inductive create_result :=
| CrMissing             (* no such component: null *)
| CrWrongInterface      (* the instance does not implement the interface: null, instance leaked *)
| CrConstructThrows (e : error)
| CrOk (id : nat).      (* constructed; [id] names the instance *)

(** Observable life-cycle events of context instances. include/lm/component.h:640-680. *)
Inductive ctx_event := EvCreate (id : nat) | EvRelease (id : nat).

(** [context] is the unique_ptr; [trace] the events so far, latest first. include/lm/component.h:640-680. *)
Record ctx_state := { context : option nat; trace : list ctx_event }.
(** Before the first call: include/lm/component.h:640-680. *)
Definition ctx_init_state : ctx_state := {| context := None; trace := [] |}.

(** include/lm/component.h:672-674 [shutdown]. *)
Definition ctx_shutdown (s : ctx_state) : ctx_state :=
  match context s with
  | None => s
  | Some i => {| context := None; trace := EvRelease i :: trace s |}
  end.

(** include/lm/component.h:660-667 [init]. An instance whose construct throws is released by its
    unique_ptr; instances that never become a context are not traced. *)
Definition ctx_init (s : ctx_state) (r : create_result) : ctx_state * option error :=
  let s1 := match context s with Some _ => ctx_shutdown s | None => s end in
  match r with
  | CrMissing | CrWrongInterface => (s1, None)
  | CrConstructThrows e => (s1, Some e)
  | CrOk i => ({| context := Some i; trace := EvCreate i :: trace s1 |}, None)
  end.

(** include/lm/component.h:642-648 [get]. *)
Definition ctx_get (s : ctx_state) : outcome nat :=
  match context s with
  | None => Throw ErrUninitialized
  | Some i => Ok i
  end.

(** Calls of include/lm/component.h:642-680. *)
Inductive ctx_op := CInit (r : create_result) | CShutdown | CGet.
(** include/lm/component.h:642-680. *)
Definition ctx_step (s : ctx_state) (o : ctx_op) : ctx_state :=
  match o with
  | CInit r => fst (ctx_init s r)
  | CShutdown => ctx_shutdown s
  | CGet => s
  end.
(** A history of calls of include/lm/component.h:642-680. *)
Definition ctx_run (ops : list ctx_op) : ctx_state := fold_left ctx_step ops ctx_init_state.

(** ** User context: src/user.cpp:23-113. *)
Record user_state := { initialized : bool; root_assets : option nat (* id of the root asset group *) }.
(** Before the first call: src/user.cpp:23-43. *)
Definition user_init_state : user_state := {| initialized := false; root_assets := None |}.

(** User API calls; [g] numbers the asset group a successful creation yields (line 101), the creation
    of "asset_group::default" is assumed to succeed. *)
Inductive user_op :=
| UInit (g : nat) | UShutdown | UReset (g : nat) | UInfo | UAssets | ULoadAsset | USaveState | ULoadState.

(** What the caller observes. Used by [user_step]: src/user.cpp:45-112, include/lm/user.h:86-88. *)
Inductive user_obs := OVoid | OAssets (g : option nat).

(** src/user.cpp:45-112 and include/lm/user.h:86-88 ([lm::load] dereferences assets() unchecked).
    Subsystem contexts are modelled separately ([ctx_state]). *)
Definition user_step (s : user_state) (o : user_op) : user_state * outcome user_obs :=
  match o with
  | UInit g => ({| initialized := true; root_assets := Some g |}, Ok OVoid)
  | UShutdown =>
      if initialized s then ({| initialized := false; root_assets := root_assets s |}, Ok OVoid)
      else (s, Throw ErrUninitialized)
  | UReset g => ({| initialized := initialized s; root_assets := Some g |}, Ok OVoid)
  | UInfo => if initialized s then (s, Ok OVoid) else (s, Throw ErrUninitialized)
  | UAssets => (s, Ok (OAssets (root_assets s)))
  | ULoadAsset | USaveState | ULoadState =>
      match root_assets s with
      | Some _ => (s, Ok OVoid)
      | None => (s, UB)
      end
  end.
(** A history of calls of src/user.cpp:45-112. *)
Definition user_run (ops : list user_op) : user_state :=
  fold_left (fun s o => fst (user_step s o)) ops user_init_state.
