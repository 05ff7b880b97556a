(** C03 (registry), C04 (plugins), C05 (contexts). *)
From Coq Require Import List String ZArith.
From Verif Require Import Base RegModel RegSpec RegProofs.
Import ListNotations.
Open Scope string_scope.

(** C03: after any history, creation by name gives an instance of the factory the history denotes. *)
Theorem C03_create_last_registered : forall h name,
  create_comp (reg_run h) name =
  match created h name with
  | Some (key, f) => Some {| inst_key := key; inst_made_by := create_func f;
                             inst_create := create_func f; inst_release := release_func f |}
  | None => None
  end.
Proof. exact create_spec. Qed.
Print Assumptions C03_create_last_registered.

Theorem C03_enumeration : forall h k,
  In k (foreach_registered (reg_run h)) <-> denoted_factory h k <> None.
Proof. exact registered_keys. Qed.
Print Assumptions C03_enumeration.

Theorem C03_enumeration_no_duplicates : forall h, NoDup (foreach_registered (reg_run h)).
Proof. exact registered_nodup. Qed.
Print Assumptions C03_enumeration_no_duplicates.

(** Unregistering does not affect names that resolve to another key. *)
Theorem C03_unregister_frame : forall h k a name key f,
  created h name = Some (key, f) -> key <> k -> name <> a ->
  created (h ++ [Unreg k a]) name = Some (key, f).
Proof. exact unreg_frame. Qed.
Print Assumptions C03_unregister_frame.

(** Finding: unregistering an implementation that was overridden under the same key removes the
    overriding one, although that one was never unregistered. *)
Theorem C03_unregister_frame_refuted :
  exists h name key f,
    created h name = Some (key, f) /\
    exists f0, f0 <> f /\ In (Reg key "" f0) h /\ In (Reg key "" f) h /\
    created (h ++ [Unreg key ""]) name = None /\ (forall k a, ~ In (Unreg k a) h).
Proof. exact unreg_interferes. Qed.
Print Assumptions C03_unregister_frame_refuted.

Example C03_example :
  let f i := {| create_func := i; release_func := i |} in
  let h := [Reg "a" "x" (f 1); Reg "b" "" (f 2); Reg "b" "y" (f 3); Unreg "a" ""] in
  created h "b" = Some ("b", f 3) /\ created h "y" = Some ("b", f 3)
  /\ created h "x" = None /\ created h "a" = None.
Proof. repeat split. Qed.

(** C04: the plugin table reflects the history. *)
Theorem C04_loaded_iff_history : forall h p,
  In p (plugins (plugin_run h)) <-> loaded_after h p false = true.
Proof. exact plugin_run_spec. Qed.
Print Assumptions C04_loaded_iff_history.

Theorem C04_load_failure_no_change : forall s p ok e,
  snd (load_plugin s p ok) = Some e -> fst (load_plugin s p ok) = s /\ e = ErrIOError.
Proof. exact load_fail_nochange. Qed.
Print Assumptions C04_load_failure_no_change.

Theorem C04_unload_failure_no_change : forall s p ok e,
  snd (unload_plugin s p ok) = Some e -> fst (unload_plugin s p ok) = s /\ e = ErrIOError.
Proof. exact unload_fail_nochange. Qed.
Print Assumptions C04_unload_failure_no_change.

Theorem C04_load_twice_noop : forall s p ok, In p (plugins s) -> load_plugin s p ok = (s, None).
Proof. exact load_twice_noop. Qed.
Print Assumptions C04_load_twice_noop.

(** The system's reference counts agree with the table if unload-all meets no failing system call. *)
Theorem C04_reference_counts : forall h,
  (forall o, In o h -> no_failed_close o) ->
  NoDup (plugins (plugin_run h)) /\
  forall p, os_refs (plugin_run h) p = if mem p (plugins (plugin_run h)) then 1%Z else 0%Z.
Proof. exact refs_run. Qed.
Print Assumptions C04_reference_counts.

(** Finding: unload-all forgets a library whose closing failed. *)
Theorem C04_reference_counts_refuted :
  exists h p, os_refs (plugin_run h) p = 1%Z /\ ~ In p (plugins (plugin_run h)).
Proof. exact unload_all_leaks. Qed.
Print Assumptions C04_reference_counts_refuted.

(** The scope guard restores the table when its plugins are distinct, not loaded yet, and all system
    calls succeed ... *)
Theorem C04_scope_guard_partial : forall s paths okl oku body,
  NoDup paths -> (forall p, In p paths -> ~ In p (plugins s)) ->
  (forall p, okl p = true) -> (forall p, oku p = true) ->
  (forall s1, plugins (body s1) = plugins s1) ->
  exists s', scoped s paths okl oku body = (s', GuardDone)
             /\ forall q, In q (plugins s') <-> In q (plugins s).
Proof. exact scoped_restores. Qed.
Print Assumptions C04_scope_guard_partial.

(** ... but not in general. Finding 1: when a later load fails the earlier plugins stay loaded. *)
Theorem C04_scope_guard_refuted :
  exists paths okl s' e, scoped plugins_init paths okl (fun _ => true) (fun s => s) = (s', GuardCtorThrew e)
                         /\ plugins s' <> [].
Proof. exact scoped_leaks_on_failure. Qed.
Print Assumptions C04_scope_guard_refuted.

(** Finding 2: a guard over an already loaded plugin unloads it. *)
Theorem C04_scope_guard_preloaded_refuted :
  exists s paths s', In "a" (plugins s)
    /\ scoped s paths (fun _ => true) (fun _ => true) (fun s => s) = (s', GuardDone)
    /\ ~ In "a" (plugins s').
Proof. exact scoped_unloads_preloaded. Qed.
Print Assumptions C04_scope_guard_preloaded_refuted.

(** Finding 3: nesting two guards for one plugin ends in std::terminate. *)
Theorem C04_scope_guard_nested_refuted :
  exists s', scoped plugins_init ["a"] (fun _ => true) (fun _ => true)
               (fun s => fst (scoped s ["a"] (fun _ => true) (fun _ => true) (fun s => s)))
             = (s', GuardTerminate).
Proof. exact scoped_nested_terminates. Qed.
Print Assumptions C04_scope_guard_nested_refuted.

(** Directory loading loads everything when all loads succeed ... *)
Theorem C04_directory_partial : forall s stems ok,
  (forall p, In p stems -> ok p = true) ->
  snd (load_plugin_directory s stems ok) = None
  /\ forall q, In q (plugins (fst (load_plugin_directory s stems ok))) <-> In q (plugins s) \/ In q stems.
Proof. exact load_dir_all. Qed.
Print Assumptions C04_directory_partial.

(** ... but a failure is not ignored: it aborts the loop with an exception (finding). *)
Theorem C04_directory_refuted :
  exists stems ok p, In p stems /\ ok p = true
    /\ snd (load_plugin_directory plugins_init stems ok) = Some ErrIOError
    /\ ~ In p (plugins (fst (load_plugin_directory plugins_init stems ok))).
Proof. exact load_dir_aborts. Qed.
Print Assumptions C04_directory_refuted.

Example C04_example :
  In "a" (plugins (plugin_run [PLoad "a" true; PLoad "b" false; PLoad "a" false; PUnload "b" true]))
  /\ loaded_after [PLoad "a" true; PUnload "a" true] "a" false = false
  /\ (forall o, In o [PLoad "a" true; PUnloadAll (fun _ => true)] -> no_failed_close o)
  /\ NoDup ["a"; "b"].
Proof.
  split; [cbn; tauto|]. split; [reflexivity|]. split.
  - intros o [<-|[<-|[]]]; cbn; trivial.
  - repeat constructor; cbn; intuition discriminate.
Qed.

(** C05: a subsystem is usable exactly when its last init succeeded and no shutdown followed. *)
Theorem C05_access_iff_initialized : forall h,
  ctx_get (ctx_run h) = match live_ctx h with Some i => Ok i | None => Throw ErrUninitialized end.
Proof. exact ctx_get_spec. Qed.
Print Assumptions C05_access_iff_initialized.

(** At every moment of every history at most one context instance is alive. *)
Theorem C05_at_most_one_alive : forall h t1 t2,
  trace (ctx_run h) = (t1 ++ t2)%list -> (0 <= alive t2 <= 1)%Z.
Proof. exact ctx_one_alive. Qed.
Print Assumptions C05_at_most_one_alive.

(** The checked user calls report use before initialization. *)
Theorem C05_user_checked_calls : forall h o,
  o = UShutdown \/ o = UInfo ->
  snd (user_step (user_run h) o) = if user_initialized h then Ok OVoid else Throw ErrUninitialized.
Proof. exact user_checked. Qed.
Print Assumptions C05_user_checked_calls.

(** Finding: loading an asset before initialization is not reported; it dereferences a null pointer. *)
Theorem C05_user_load_refuted : snd (user_step (user_run []) ULoadAsset) = UB.
Proof. exact user_unchecked_ub. Qed.
Print Assumptions C05_user_load_refuted.

(** Finding: after shutdown the asset calls are still accepted. *)
Theorem C05_user_after_shutdown_refuted :
  exists h, user_initialized h = false /\ snd (user_step (user_run h) ULoadAsset) = Ok OVoid.
Proof. exact user_unchecked_after_shutdown. Qed.
Print Assumptions C05_user_after_shutdown_refuted.

Example C05_example :
  let h := [CInit (CrOk 1); CInit (CrOk 2); CGet] in
  ctx_get (ctx_run h) = Ok 2
  /\ trace (ctx_run h) = [EvCreate 2; EvRelease 1; EvCreate 1]
  /\ ctx_get (ctx_run (h ++ [CInit CrMissing])) = Throw ErrUninitialized.
Proof. repeat split. Qed.
