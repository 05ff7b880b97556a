From Coq Require Import List String ZArith Lia Bool.
From Verif Require Import Base Assoc RegModel RegSpec.
Import ListNotations.
Open Scope string_scope.

Lemma last_some_app {A B} (f : A -> option B) h o :
  last_some f (h ++ [o]) = match f o with Some b => Some b | None => last_some f h end.
Proof.
  induction h as [|a h IH]; cbn; [now destruct (f o)|].
  rewrite IH. destruct (f o); [reflexivity|]. now destruct (last_some f h).
Qed.

Lemma run_app {S O} (step : S -> O -> S) h o s :
  fold_left step (h ++ [o]) s = step (fold_left step h s) o.
Proof. now rewrite fold_left_app. Qed.

(** ** Registry *)
Lemma reg_run_lookup h k : alookup k (func_map (reg_run h)) = denoted_factory h k.
Proof.
  unfold reg_run, denoted_factory. induction h as [|o h IH] using rev_ind; [reflexivity|].
  rewrite run_app, last_some_app.
  destruct o as [k' a f|k' a]; cbn -[String.eqb].
  - rewrite alookup_set. destruct (String.eqb k k'); [reflexivity | exact IH].
  - rewrite alookup_erase. destruct (String.eqb k k'); [reflexivity | exact IH].
Qed.

Lemma reg_run_alias h a : alookup a (alias_map (reg_run h)) = denoted_alias h a.
Proof.
  unfold reg_run, denoted_alias. induction h as [|o h IH] using rev_ind; [reflexivity|].
  rewrite run_app, last_some_app.
  destruct o as [k' a' f|k' a']; cbn -[String.eqb];
    destruct (String.eqb_spec a' "") as [->|Hne].
  - destruct (String.eqb a ""); exact IH.
  - rewrite alookup_set. destruct (String.eqb a a'); [reflexivity | exact IH].
  - destruct (String.eqb a ""); exact IH.
  - rewrite alookup_erase. destruct (String.eqb a a'); [reflexivity | exact IH].
Qed.

Lemma create_spec h name :
  create_comp (reg_run h) name =
  match created h name with
  | Some (key, f) => Some {| inst_key := key; inst_made_by := create_func f;
                             inst_create := create_func f; inst_release := release_func f |}
  | None => None
  end.
Proof.
  unfold create_comp, created. rewrite reg_run_alias, reg_run_lookup.
  destruct (denoted_factory h _); reflexivity.
Qed.

Lemma registered_keys h k : In k (foreach_registered (reg_run h)) <-> denoted_factory h k <> None.
Proof.
  unfold foreach_registered. rewrite <- reg_run_lookup.
  destruct (alookup k (func_map (reg_run h))) as [f|] eqn:E.
  - split; [discriminate|]. intros _. eapply alookup_in, E.
  - apply alookup_none in E. tauto.
Qed.

Lemma registered_nodup h : NoDup (foreach_registered (reg_run h)).
Proof.
  unfold foreach_registered, reg_run. induction h as [|o h IH] using rev_ind; [constructor|].
  rewrite run_app. destruct o; cbn; [now apply nodup_set | now apply nodup_erase].
Qed.

Lemma unreg_frame h k a name key f :
  created h name = Some (key, f) -> key <> k -> name <> a ->
  created (h ++ [Unreg k a]) name = Some (key, f).
Proof.
  intros H Hk Ha.
  assert (Hal : denoted_alias (h ++ [Unreg k a]) name = denoted_alias h name).
  { unfold denoted_alias. rewrite last_some_app. cbn [about_alias].
    destruct (String.eqb_spec name a) as [->|_]; [contradiction|reflexivity]. }
  unfold created in *. rewrite Hal.
  set (key' := match denoted_alias h name with Some x => x | None => name end) in *.
  destruct (denoted_factory h key') as [g|] eqn:E; [|discriminate].
  injection H as E1 E2. subst key g.
  assert (Hf : denoted_factory (h ++ [Unreg k a]) key' = denoted_factory h key').
  { unfold denoted_factory. rewrite last_some_app. cbn [about_key].
    destruct (String.eqb_spec key' k) as [->|_]; [contradiction|reflexivity]. }
  now rewrite Hf, E.
Qed.

Lemma unreg_interferes :
  exists h name key f,
    created h name = Some (key, f) /\
    (* another implementation than f is unregistered ... *)
    exists f0, f0 <> f /\ In (Reg key "" f0) h /\ In (Reg key "" f) h /\
    (* ... and the name no longer works although f was never unregistered *)
    created (h ++ [Unreg key ""]) name = None /\ (forall k a, ~ In (Unreg k a) h).
Proof.
  exists [Reg "k" "" {| create_func := 0; release_func := 0 |};
          Reg "k" "" {| create_func := 1; release_func := 1 |}], "k", "k",
         {| create_func := 1; release_func := 1 |}.
  split; [reflexivity|]. exists {| create_func := 0; release_func := 0 |}.
  repeat split; try (cbn; tauto); try discriminate.
  intros k a [H|[H|[]]]; discriminate.
Qed.

(** ** Plugins *)
Lemma mem_spec p l : mem p l = true <-> In p l.
Proof.
  unfold mem. rewrite existsb_exists. split.
  - intros (x & Hx & E). apply String.eqb_eq in E. now subst.
  - intros H. exists p. split; [exact H | apply String.eqb_refl].
Qed.

Lemma mem_cons p q l : mem p (q :: l) = String.eqb p q || mem p l.
Proof. reflexivity. Qed.

Lemma mem_remove1 p q l : mem p (remove1 q l) = negb (String.eqb p q) && mem p l.
Proof.
  apply eq_iff_eq_true. rewrite mem_spec. unfold remove1. rewrite filter_In, andb_true_iff, mem_spec, negb_true_iff, negb_true_iff.
  rewrite (String.eqb_sym q p). tauto.
Qed.

Definition plug_ok (s : plugin_state) : Prop := NoDup (plugins s).

Lemma step_mem s o p :
  mem p (plugins (plugin_step s o)) = loaded_after [o] p (mem p (plugins s)).
Proof.
  destruct o as [q ok|q ok|ok]; cbn [plugin_step loaded_after].
  - unfold load_plugin. destruct (mem q (plugins s)) eqn:E.
    + cbn [fst]. destruct (String.eqb_spec p q) as [->|]; [now rewrite E|reflexivity].
    + destruct ok; cbn [fst plugins].
      * rewrite mem_cons. destruct (String.eqb_spec p q) as [->|]; [now rewrite orb_true_r|reflexivity].
      * destruct (String.eqb_spec p q) as [->|]; [now rewrite orb_false_r|reflexivity].
  - unfold unload_plugin. destruct (mem q (plugins s)) eqn:E.
    + destruct ok; cbn [fst plugins].
      * rewrite mem_remove1. destruct (String.eqb_spec p q) as [->|]; cbn; [now rewrite andb_false_r|reflexivity].
      * destruct (String.eqb_spec p q) as [->|]; [now rewrite andb_true_r|reflexivity].
    + cbn [fst]. destruct (String.eqb_spec p q) as [->|]; [now rewrite E|reflexivity].
  - reflexivity.
Qed.

Lemma loaded_after_cons o h p b : loaded_after (o :: h) p b = loaded_after h p (loaded_after [o] p b).
Proof. destruct o; reflexivity. Qed.

Lemma plugin_run_gen h s p :
  mem p (plugins (fold_left plugin_step h s)) = loaded_after h p (mem p (plugins s)).
Proof.
  revert s. induction h as [|o h IH]; intros s; [reflexivity|].
  rewrite loaded_after_cons, <- step_mem. apply IH.
Qed.

Lemma plugin_run_spec h p : In p (plugins (plugin_run h)) <-> loaded_after h p false = true.
Proof. rewrite <- mem_spec. unfold plugin_run. now rewrite plugin_run_gen. Qed.

Lemma load_fail_nochange s p ok e : snd (load_plugin s p ok) = Some e -> fst (load_plugin s p ok) = s /\ e = ErrIOError.
Proof.
  unfold load_plugin. destruct (mem p (plugins s)); [discriminate|].
  destruct ok; [discriminate|]. cbn. now intros [= <-].
Qed.
Lemma unload_fail_nochange s p ok e : snd (unload_plugin s p ok) = Some e -> fst (unload_plugin s p ok) = s /\ e = ErrIOError.
Proof.
  unfold unload_plugin. destruct (mem p (plugins s)); [destruct ok|]; cbn; try discriminate; now intros [= <-].
Qed.
Lemma load_twice_noop s p ok : In p (plugins s) -> load_plugin s p ok = (s, None).
Proof. intros H. apply mem_spec in H. unfold load_plugin. now rewrite H. Qed.
Lemma load_ok s p ok :
  snd (load_plugin s p ok) = None -> In p (plugins (fst (load_plugin s p ok))).
Proof.
  unfold load_plugin. destruct (mem p (plugins s)) eqn:E; cbn.
  - intros _. now apply mem_spec.
  - destruct ok; cbn; [now left | discriminate].
Qed.

(** Reference counts agree with the table as long as unload_all meets no dlclose failure. *)
Definition no_failed_close (o : plugin_op) : Prop :=
  match o with PUnloadAll ok => forall p, ok p = true | _ => True end.

Definition refs_agree (s : plugin_state) : Prop :=
  NoDup (plugins s) /\ forall p, os_refs s p = if mem p (plugins s) then 1%Z else 0%Z.

Lemma fold_refs ok l f p :
  (forall q, ok q = true) -> NoDup l ->
  fold_left (fun f p => if ok p then add_ref p (-1) f else f) l f p
  = (f p - (if mem p l then 1 else 0))%Z.
Proof.
  intros Hok. revert f. induction l as [|q l IH]; intros f Hnd; cbn [fold_left]; [cbn; lia|].
  inversion Hnd as [|? ? Hn Hr]; subst. rewrite Hok, IH by assumption.
  unfold add_ref. rewrite mem_cons. destruct (String.eqb_spec p q) as [->|]; cbn [orb]; [|lia].
  destruct (mem q l) eqn:E; [apply mem_spec in E; contradiction|lia].
Qed.

Lemma refs_step s o : refs_agree s -> no_failed_close o -> refs_agree (plugin_step s o).
Proof.
  intros [Hnd Hr] Ho. destruct o as [q ok|q ok|ok]; cbn [plugin_step].
  - unfold load_plugin. destruct (mem q (plugins s)) eqn:E; [now split|].
    destruct ok; [|now split]. cbn [fst]. split; cbn [plugins os_refs].
    + constructor; [|exact Hnd]. intros H. apply mem_spec in H. congruence.
    + intros p. rewrite mem_cons. unfold add_ref. rewrite Hr.
      destruct (String.eqb_spec p q) as [->|]; cbn; [rewrite E; lia | reflexivity].
  - unfold unload_plugin. destruct (mem q (plugins s)) eqn:E; [|now split].
    destruct ok; [|now split]. cbn [fst]. split; cbn [plugins os_refs].
    + now apply NoDup_filter.
    + intros p. rewrite mem_remove1. unfold add_ref. rewrite Hr.
      destruct (String.eqb_spec p q) as [->|]; cbn; [rewrite E; lia | reflexivity].
  - cbn in Ho. split; cbn [plugins os_refs unload_all_plugins]; [constructor|].
    intros p. cbn [mem existsb]. rewrite fold_refs, Hr by assumption. destruct (mem p (plugins s)); lia.
Qed.

Lemma refs_run h : (forall o, In o h -> no_failed_close o) -> refs_agree (plugin_run h).
Proof.
  unfold plugin_run. intros H. induction h as [|o h IH] using rev_ind.
  - split; [constructor | reflexivity].
  - rewrite run_app. apply refs_step; [|apply H, in_or_app; right; now left].
    apply IH. intros o' Ho'. apply H, in_or_app. now left.
Qed.

Lemma unload_all_leaks :
  exists h p, os_refs (plugin_run h) p = 1%Z /\ ~ In p (plugins (plugin_run h)).
Proof. exists [PLoad "p" true; PUnloadAll (fun _ => false)], "p". split; [reflexivity | tauto]. Qed.

(** Scope guard *)
Lemma scoped_ctor_ok s paths ok done s' ps :
  scoped_ctor s paths ok done = (s', ps, None) -> ps = (done ++ paths)%list.
Proof.
  revert s done. induction paths as [|p r IH]; intros s done; cbn.
  - intros [= <- <-]. now rewrite app_nil_r.
  - destruct (load_plugin s p (ok p)) as [s1 [e|]]; [discriminate|].
    intros H. apply IH in H. now rewrite <- app_assoc in H.
Qed.

Lemma load_fresh s p : ~ In p (plugins s) ->
  load_plugin s p true = ({| plugins := p :: plugins s; os_refs := add_ref p 1 (os_refs s) |}, None).
Proof.
  intros H. unfold load_plugin. destruct (mem p (plugins s)) eqn:E; [apply mem_spec in E; contradiction|reflexivity].
Qed.

Lemma scoped_ctor_fresh s paths ok done :
  NoDup paths -> (forall p, In p paths -> ~ In p (plugins s)) -> (forall p, ok p = true) ->
  exists s', scoped_ctor s paths ok done = (s', (done ++ paths)%list, None)
             /\ plugins s' = (rev paths ++ plugins s)%list.
Proof.
  revert s done. induction paths as [|p r IH]; intros s done Hnd Hf Hok; cbn [scoped_ctor].
  - exists s. now rewrite app_nil_r.
  - inversion Hnd as [|? ? Hn Hr]; subst. rewrite Hok, load_fresh by (apply Hf; now left).
    edestruct (IH {| plugins := p :: plugins s; os_refs := add_ref p 1 (os_refs s) |} (done ++ [p])%list)
      as (s' & E & Hp); [exact Hr| |exact Hok|].
    + cbn. intros q Hq [->|Hin]; [contradiction|]. apply (Hf q); [now right|exact Hin].
    + exists s'. rewrite E. rewrite <- app_assoc. split; [reflexivity|].
      rewrite Hp. cbn. now rewrite <- app_assoc.
Qed.

Lemma in_remove1 p q l : In p (remove1 q l) <-> In p l /\ p <> q.
Proof.
  unfold remove1. rewrite filter_In, negb_true_iff, String.eqb_neq. split; intros [A B]; split; auto.
Qed.

Lemma scoped_dtor_ok s paths ok :
  NoDup paths -> (forall p, In p paths -> In p (plugins s)) -> (forall p, ok p = true) ->
  exists s', scoped_dtor s paths ok = (s', GuardDone)
             /\ forall q, In q (plugins s') <-> In q (plugins s) /\ ~ In q paths.
Proof.
  revert s. induction paths as [|p r IH]; intros s Hnd Hin Hok; cbn [scoped_dtor].
  - exists s. split; [reflexivity|]. intros q. cbn. tauto.
  - inversion Hnd as [|? ? Hn Hr]; subst.
    unfold unload_plugin. rewrite (proj2 (mem_spec p (plugins s))) by (apply Hin; now left).
    rewrite Hok.
    edestruct (IH {| plugins := remove1 p (plugins s); os_refs := add_ref p (-1) (os_refs s) |})
      as (s' & E & Hs'); [exact Hr| |exact Hok|].
    + cbn. intros q Hq. apply in_remove1. split; [apply Hin; now right|]. now intros ->.
    + exists s'. split; [exact E|]. intros q. rewrite Hs'. cbn [plugins]. rewrite in_remove1. cbn. intuition congruence.
Qed.

(** A guard over distinct plugins that are not loaded yet, with all system calls succeeding and a body
    that keeps them loaded, unloads exactly its plugins. *)
Lemma scoped_restores s paths okl oku body :
  NoDup paths -> (forall p, In p paths -> ~ In p (plugins s)) ->
  (forall p, okl p = true) -> (forall p, oku p = true) ->
  (forall s1, plugins (body s1) = plugins s1) ->
  exists s', scoped s paths okl oku body = (s', GuardDone)
             /\ forall q, In q (plugins s') <-> In q (plugins s).
Proof.
  intros Hnd Hf Hl Hu Hb. unfold scoped.
  destruct (scoped_ctor_fresh s paths okl [] Hnd Hf Hl) as (s1 & E1 & Hp1). rewrite E1. cbn [app].
  destruct (scoped_dtor_ok (body s1) paths oku Hnd) as (s2 & E2 & Hp2); [|exact Hu|].
  - intros p Hp. rewrite Hb, Hp1. apply in_or_app. left. now apply -> in_rev.
  - exists s2. split; [exact E2|]. intros q. rewrite Hp2, Hb, Hp1, in_app_iff, <- in_rev.
    split; [|intros H]. { tauto. } split; [tauto|]. intros Hq. exact (Hf q Hq H).
Qed.

Lemma scoped_leaks_on_failure :
  exists paths okl s' e, scoped plugins_init paths okl (fun _ => true) (fun s => s) = (s', GuardCtorThrew e)
                         /\ plugins s' <> [].
Proof.
  exists ["a"; "b"], (fun p => String.eqb p "a"), (fst (load_plugin plugins_init "a" true)), ErrIOError.
  split; [reflexivity | discriminate].
Qed.

Lemma scoped_unloads_preloaded :
  exists s paths s', In "a" (plugins s)
    /\ scoped s paths (fun _ => true) (fun _ => true) (fun s => s) = (s', GuardDone)
    /\ ~ In "a" (plugins s').
Proof.
  exists (plugin_run [PLoad "a" true]), ["a"]. eexists.
  split; [now left|]. split; [reflexivity|]. cbn. tauto.
Qed.

Lemma scoped_nested_terminates :
  exists s', scoped plugins_init ["a"] (fun _ => true) (fun _ => true)
               (fun s => fst (scoped s ["a"] (fun _ => true) (fun _ => true) (fun s => s)))
             = (s', GuardTerminate).
Proof. eexists. reflexivity. Qed.

(** Directory loading *)
Lemma load_dir_all s stems ok :
  (forall p, In p stems -> ok p = true) ->
  snd (load_plugin_directory s stems ok) = None
  /\ forall q, In q (plugins (fst (load_plugin_directory s stems ok))) <-> In q (plugins s) \/ In q stems.
Proof.
  revert s. induction stems as [|p r IH]; intros s Hok; cbn [load_plugin_directory].
  - split; [reflexivity|]. cbn. tauto.
  - assert (Hp : ok p = true) by (apply Hok; now left).
    assert (Hr : forall q, In q r -> ok q = true) by (intros q Hq; apply Hok; now right).
    unfold load_plugin. destruct (mem p (plugins s)) eqn:E.
    + destruct (IH s Hr) as [H1 H2]. split; [exact H1|]. intros q. rewrite H2.
      apply mem_spec in E. cbn. intuition (subst; tauto).
    + rewrite Hp. edestruct IH as [H1 H2]; [exact Hr|]. split; [exact H1|].
      intros q. rewrite H2. cbn. tauto.
Qed.

Lemma load_dir_aborts :
  exists stems ok p, In p stems /\ ok p = true
    /\ snd (load_plugin_directory plugins_init stems ok) = Some ErrIOError
    /\ ~ In p (plugins (fst (load_plugin_directory plugins_init stems ok))).
Proof.
  exists ["bad"; "good"], (fun p => String.eqb p "good"), "good".
  repeat split; [cbn; tauto | cbn; tauto].
Qed.

(** ** Contexts *)
Lemma ctx_run_context h : context (ctx_run h) = live_ctx h.
Proof.
  unfold ctx_run, live_ctx. induction h as [|o h IH] using rev_ind; [reflexivity|].
  rewrite run_app, last_some_app.
  set (s := fold_left ctx_step h ctx_init_state) in *.
  destruct o as [r| |]; cbn [ctx_step about_ctx flat].
  - assert (Hs : context (match context s with Some _ => ctx_shutdown s | None => s end) = None).
    { unfold ctx_shutdown. destruct (context s) eqn:E; [reflexivity | exact E]. }
    destruct r; cbn; try exact Hs; reflexivity.
  - unfold ctx_shutdown. destruct (context s) eqn:E; [reflexivity | exact E].
  - exact IH.
Qed.

Lemma ctx_get_spec h :
  ctx_get (ctx_run h) = match live_ctx h with Some i => Ok i | None => Throw ErrUninitialized end.
Proof. unfold ctx_get. now rewrite ctx_run_context. Qed.

(** Every suffix of the trace (every moment) has at most one live instance. *)
Definition ctx_inv (s : ctx_state) : Prop :=
  alive (trace s) = (match context s with Some _ => 1 | None => 0 end)%Z
  /\ forall t1 t2, trace s = (t1 ++ t2)%list -> (0 <= alive t2 <= 1)%Z.

Lemma inv_shutdown s : ctx_inv s -> ctx_inv (ctx_shutdown s) /\ context (ctx_shutdown s) = None.
Proof.
  intros [H1 H2]. unfold ctx_shutdown. destruct (context s) eqn:E; [|split; [|exact E]; split; [now rewrite E|exact H2]].
  split; [|reflexivity]. split; cbn; [lia|].
  intros t1 t2 Ht. destruct t1 as [|x t1]; cbn in Ht.
  - subst t2. cbn. lia.
  - injection Ht as _ Ht. exact (H2 _ _ Ht).
Qed.

Lemma inv_ctx_step s o : ctx_inv s -> ctx_inv (ctx_step s o).
Proof.
  intros H. destruct o as [r| |]; cbn [ctx_step]; [|now apply inv_shutdown|exact H].
  set (s1 := match context s with Some _ => ctx_shutdown s | None => s end).
  assert (Hs1 : ctx_inv s1 /\ context s1 = None).
  { subst s1. destruct (context s) eqn:E; [now apply inv_shutdown | now split]. }
  destruct Hs1 as [[H1 H2] Hc]. unfold ctx_init. fold s1.
  destruct r; cbn [fst]; try (split; [exact H1|exact H2]).
  rewrite Hc in H1. split; cbn; [lia|].
  intros t1 t2 Ht. destruct t1 as [|x t1]; cbn in Ht.
  - subst t2. cbn. lia.
  - injection Ht as _ Ht. exact (H2 _ _ Ht).
Qed.

Lemma inv_ctx_run h : ctx_inv (ctx_run h).
Proof.
  unfold ctx_run. induction h as [|o h IH] using rev_ind.
  - split; [reflexivity|]. intros t1 t2 Ht. symmetry in Ht. apply app_eq_nil in Ht. destruct Ht as [_ ->]. cbn. lia.
  - rewrite run_app. now apply inv_ctx_step.
Qed.

Lemma ctx_one_alive h t1 t2 : trace (ctx_run h) = (t1 ++ t2)%list -> (0 <= alive t2 <= 1)%Z.
Proof. apply inv_ctx_run. Qed.

(** ** User context *)
Lemma user_run_init h : initialized (user_run h) = user_initialized h.
Proof.
  unfold user_run, user_initialized. induction h as [|o h IH] using rev_ind; [reflexivity|].
  rewrite run_app, last_some_app.
  set (s := fold_left _ h user_init_state) in *.
  destruct o; cbn; try exact IH; try (destruct (initialized s) eqn:E; cbn; congruence);
    destruct (root_assets s); exact IH.
Qed.

Lemma user_checked h o :
  o = UShutdown \/ o = UInfo ->
  snd (user_step (user_run h) o) = if user_initialized h then Ok OVoid else Throw ErrUninitialized.
Proof.
  rewrite <- user_run_init. intros [->| ->]; cbn; destruct (initialized (user_run h)); reflexivity.
Qed.

Lemma user_unchecked_ub : snd (user_step (user_run []) ULoadAsset) = UB.
Proof. reflexivity. Qed.

Lemma user_unchecked_after_shutdown :
  exists h, user_initialized h = false /\ snd (user_step (user_run h) ULoadAsset) = Ok OVoid.
Proof. exists [UInit 0; UShutdown]. split; reflexivity. Qed.
