(** C06 (asset group as ordered map), C07 (no stale references), C08 (failing loads). *)
From Coq Require Import List String Ascii Arith Lia Bool.
From Verif Require Import Base Assoc LocModel LocSpec AssetModel AssetSpec AssetProofs AssetLoadProofs AssetExamples.
Import ListNotations.
Open Scope string_scope. Open Scope list_scope. Open Scope nat_scope. Open Scope bool_scope.

(** ** C06 *)

(** Every history has its ordered list of entries, with distinct names. *)
Theorem C06_entries_exist : forall h, exists l, entries h l /\ NoDup (map fst l).
Proof. intros h. destruct (entries_total h) as [l H]. exists l. split; [exact H|]. exact (entries_nodup h l H). Qed.
Print Assumptions C06_entries_exist.

(** Queries answer according to that list, and visiting goes through it in order. *)
Theorem C06_query : forall h l n, entries h l ->
  g_underlying (g_run h) n = Ok (match find_entry n l with Some p => p | None => None end).
Proof. exact g_query. Qed.
Print Assumptions C06_query.

Theorem C06_order : forall h l, entries h l -> g_foreach (g_run h) = map snd l.
Proof. exact g_order. Qed.
Print Assumptions C06_order.

(** The instance most recently loaded under a name is found, whatever happens to other names. *)
Theorem C06_latest_load : forall h1 n id e h2,
  ok_name n -> (forall id' e', ~ In (GLoad n (Created id' e')) h2) ->
  g_underlying (g_run (h1 ++ GLoad n (Created id e) :: h2)) n = Ok (Some id).
Proof. exact g_latest. Qed.
Print Assumptions C06_latest_load.

Theorem C06_never_loaded : forall h n,
  (forall id e, ~ In (GLoad n (Created id e)) h) -> (forall p e, ~ In (GLoadSerialized n p e) h) ->
  g_underlying (g_run h) n = Ok None.
Proof. exact g_never. Qed.
Print Assumptions C06_never_loaded.

(** Positions never change; new names are appended. *)
Theorem C06_positions_stable : forall h1 h2 l2, entries (h1 ++ h2) l2 ->
  exists l1 t, entries h1 l1 /\ map fst l2 = (map fst l1 ++ t)%list.
Proof. exact entries_positions_stable. Qed.
Print Assumptions C06_positions_stable.

Theorem C06_invalid_name_rejected : forall s n c, ~ ok_name n -> g_load s n c = (s, Ok None).
Proof. exact g_rejected_unchanged. Qed.
Print Assumptions C06_invalid_name_rejected.

Theorem C06_failed_creation_unchanged : forall s n, g_load s n Missing = (s, Ok None).
Proof. exact g_missing_unchanged. Qed.
Print Assumptions C06_failed_creation_unchanged.

Theorem C06_no_undefined_behaviour : forall h o, snd (g_step (g_run h) o) <> UB.
Proof. exact g_never_ub. Qed.
Print Assumptions C06_no_undefined_behaviour.

(** Finding: a load whose construction failed is nevertheless what the name gives. *)
Theorem C06_last_successful_refuted :
  exists h n id e, ok_name n /\ In (GLoad n (Created id (Some e))) h /\
    snd (g_step (g_run []) (GLoad n (Created id (Some e)))) = Throw e /\
    g_underlying (g_run h) n = Ok (Some id).
Proof.
  exists [GLoad "a" (Created 0 (Some ErrInvalidArgument))], "a", 0, ErrInvalidArgument.
  split; [now apply valid_asset_name_spec|]. split; [now left|]. split; reflexivity.
Qed.
Print Assumptions C06_last_successful_refuted.

(** Finding: loading a serialized asset does not check the name. *)
Theorem C06_serialized_name_refuted :
  exists n p, ~ ok_name n /\ g_underlying (g_run [GLoadSerialized n (Some p) None]) n = Ok (Some p).
Proof. exists "a.b", 0. split; [now apply valid_asset_name_false|reflexivity]. Qed.
Print Assumptions C06_serialized_name_refuted.

Example C06_example :
  entries [GLoad "a" (Created 1 None); GLoad "b" (Created 2 None); GLoad "a.c" (Created 9 None); GLoad "a" (Created 3 None)]
          [("a", Some 3); ("b", Some 2)].
Proof.
  change [GLoad "a" (Created 1 None); GLoad "b" (Created 2 None); GLoad "a.c" (Created 9 None); GLoad "a" (Created 3 None)]
    with (((([] ++ [GLoad "a" (Created 1 None)]) ++ [GLoad "b" (Created 2 None)]) ++ [GLoad "a.c" (Created 9 None)]) ++ [GLoad "a" (Created 3 None)]).
  change [("a", Some 3); ("b", Some 2)] with (upsert "a" (Some 3) (upsert "b" (Some 2) (upsert "a" (Some 1) []))).
  repeat (first [apply en_load; [|now apply valid_asset_name_spec] | apply en_reject; [|now apply valid_asset_name_false] | apply en_nil]).
Qed.

(** ** C07 *)

(** Replacing an asset: afterwards nothing reported is stale, the released instance is not kept alive
    by anything, and every reported reference held outside the new asset was refreshed through its
    locator. *)
Theorem C07_replace_leaves_no_stale_reference :
  forall fuel root h g go name i sl old id impl construct h2 h3 r,
  wf h root -> no_stale h root -> live h root g ->
  h g = Some go -> o_names go name = ASlot i -> nth_error (o_slots go) i = Some sl -> s_ptr sl = Some old ->
  h id = None ->
  construct (replace_entry h g i id (new_instance (o_loc go) name impl)) = (h2, None) ->
  constructs root id (replace_entry h g i id (new_instance (o_loc go) name impl)) h2 ->
  (forall p o, star (owns h) old p -> h p = Some o -> o_loc o <> "") ->
  ok_name name ->
  load_asset fuel root h g name (HCreated id impl construct) = (h3, Ok r) ->
  r = Some id /\ no_stale h3 root
  /\ (forall p, star (owns h) old p -> ~ live h3 root p)
  /\ live h3 root id
  /\ (forall c j s0 s, visited h3 root id c -> reports h c j s0 -> slot_at h3 c j = Some s ->
        refreshed h3 root (s_type s0) (s_ptr s0) (s_ptr s)).
Proof. exact load_replace. Qed.
Print Assumptions C07_replace_leaves_no_stale_reference.

(** Loading under a new name keeps all reported references alive and unchanged. *)
Theorem C07_new_asset_keeps_references : forall fuel root h g go name id impl construct h2 r,
  wf h root -> no_stale h root -> live h root g ->
  h g = Some go -> o_names go name = ANull -> h id = None ->
  construct (append_entry h g go name id (new_instance (o_loc go) name impl)) = (h2, None) ->
  constructs root id (append_entry h g go name id (new_instance (o_loc go) name impl)) h2 ->
  ok_name name ->
  load_asset fuel root h g name (HCreated id impl construct) = (h2, Ok r) ->
  r = Some id /\ no_stale h2 root /\ live h2 root id
  /\ (forall c, live h root c -> live h2 root c)
  /\ (forall c j s, reports h c j s -> reports h2 c j s).
Proof. exact load_new. Qed.
Print Assumptions C07_new_asset_keeps_references.

(** The traversal terminates when ownership is well founded. *)
Theorem C07_traversal_terminates : forall root (rank : nat -> nat) h2 id,
  (forall a b, shows h2 a b -> rank b < rank a) ->
  forall fuel, rank root < fuel -> snd (update_refs fuel root id h2 root) <> Fuel.
Proof. exact load_terminates. Qed.
Print Assumptions C07_traversal_terminates.

(** The example hierarchy meets all hypotheses: the model "m" with its mesh is replaced, and the two
    references of the scene follow. *)
Example C07_example :
  wf (ex_heap ANull) 0 /\ no_stale (ex_heap ANull) 0 /\ live (ex_heap ANull) 0 1
  /\ constructs 0 5 (ex_h1 ANull) (ex_h2 "mesh" ANull)
  /\ exists h3, load_asset 9 0 (ex_heap ANull) 1 "m" (HCreated 5 all_impl (ex_construct "mesh" ANull None)) = (h3, Ok (Some 5))
     /\ slot_at h3 4 0 = Some (weak 1 6) /\ slot_at h3 4 1 = Some (weak 1 5).
Proof.
  split; [apply ex_wf; discriminate|]. split; [apply ex_no_stale|]. split; [apply ex_live; lia|].
  split; [apply ex_constructs; [discriminate|discriminate|repeat split; discriminate]|].
  eexists. split; [reflexivity|]. split; reflexivity.
Qed.
Example C07_example_released_located :
  forall p o, star (owns (ex_heap ANull)) 2 p -> ex_heap ANull p = Some o -> o_loc o <> "".
Proof.
  intros p o _. do 5 (destruct p as [|p]; [cbn; intros [= <-]; discriminate|]). discriminate.
Qed.

(** Finding: when the new asset's name query raises for an unknown name (as the OBJ model does), the
    update stops with that exception and reported references keep pointing into the released
    instance. *)
Theorem C07_lookup_exception_refuted :
  exists h g id construct h3 e,
    wf h 0 /\ no_stale h 0 /\ live h 0 g /\ h id = None /\
    load_asset 9 0 h g "m" (HCreated id all_impl construct) = (h3, Throw e) /\
    (exists h1 h2, construct h1 = (h2, None) /\ constructs 0 id h1 h2) /\
    exists c s old p, reports h3 c 0 s /\ s_ptr s = Some p /\ slot_at h g 0 = Some (own old) /\ star (owns h) old p.
Proof.
  exists (ex_heap (ARaise ErrOutOfRange)), 1, 5, (ex_construct "other" (ARaise ErrOutOfRange) None). do 2 eexists.
  split; [apply ex_wf; discriminate|]. split; [apply ex_no_stale|]. split; [apply ex_live; lia|].
  split; [reflexivity|]. split; [reflexivity|]. split.
  { exists (ex_h1 (ARaise ErrOutOfRange)), (ex_h2 "other" (ARaise ErrOutOfRange)). split; [reflexivity|].
    apply ex_constructs; [discriminate|discriminate|repeat split; discriminate]. }
  exists 4, (weak 1 3), 2, 3. split; [repeat split|]. split; [reflexivity|]. split; [reflexivity|].
  apply star_step with 2; [constructor|]. exists 0, (own 3). auto.
Qed.
Print Assumptions C07_lookup_exception_refuted.

(** ** C08 *)

(** Loads that fail before construction change nothing. *)
Theorem C08_failed_creation_changes_nothing_partial : forall fuel root h g go name cr,
  h g = Some go -> ~ ok_name name \/ cr = HMissing -> load_asset fuel root h g name cr = (h, Ok None).
Proof.
  intros fuel root h g go name cr Hg H. unfold load_asset. rewrite Hg.
  destruct (valid_asset_name name) eqn:E; cbn [negb]; [|reflexivity].
  destruct H as [H| ->]; [|reflexivity]. apply valid_asset_name_false in H. congruence.
Qed.
Print Assumptions C08_failed_creation_changes_nothing_partial.

(** A failing construction propagates its exception; components other than the group and the asset are
    untouched if construct touches none. Missing from the property: the group entry is changed. *)
Theorem C08_failed_construct_frame_partial : forall fuel root h g go name i id impl construct h2 e,
  h g = Some go -> ok_name name -> o_names go name = ASlot i -> h id = None ->
  construct (replace_entry h g i id (new_instance (o_loc go) name impl)) = (h2, Some e) ->
  (forall c, c <> id -> replace_entry h g i id (new_instance (o_loc go) name impl) c <> None ->
             h2 c = replace_entry h g i id (new_instance (o_loc go) name impl) c) ->
  load_asset fuel root h g name (HCreated id impl construct) = (h2, Throw e)
  /\ forall c o, c <> g -> h c = Some o -> h2 c = Some o.
Proof.
  intros fuel root h g go name i id impl construct h2 e Hg Hok Hn Hid Hc Hf. split.
  - unfold load_asset. rewrite Hg, (proj2 (valid_asset_name_spec name) Hok). cbn [negb]. rewrite Hn. cbv zeta. now rewrite Hc.
  - intros c o Hcg Hco. assert (Hci : c <> id) by congruence.
    assert (E : replace_entry h g i id (new_instance (o_loc go) name impl) c = Some o).
    { unfold replace_entry, upd. destruct (Nat.eqb_spec c id); [contradiction|].
      unfold set_slot. rewrite Hg. destruct (nth_error (o_slots go) i); [|exact Hco].
      unfold upd. destruct (Nat.eqb_spec c g); [contradiction|exact Hco]. }
    rewrite Hf; [exact E|exact Hci|congruence].
Qed.
Print Assumptions C08_failed_construct_frame_partial.

Example C08_frame_example :
  exists go, ex_heap ANull 1 = Some go /\ ok_name "m" /\ o_names go "m" = ASlot 0 /\ ex_heap ANull 5 = None
  /\ forall c, c <> 5 -> ex_h1 ANull c <> None -> fst (ex_construct "mesh" ANull (Some ErrInvalidArgument) (ex_h1 ANull)) c = ex_h1 ANull c.
Proof.
  eexists. split; [reflexivity|]. split; [now apply valid_asset_name_spec|]. split; [reflexivity|]. split; [reflexivity|].
  exact (cs_frame _ _ _ _ (ex_constructs "mesh" ANull ltac:(discriminate) ltac:(discriminate) ltac:(repeat split; discriminate))).
Qed.

(** Finding: a failing construction on replacement leaves the half-constructed instance registered and
    the references of other components pointing into the released old instance. *)
Theorem C08_failed_construct_refuted :
  exists h g id construct h3 e,
    wf h 0 /\ no_stale h 0 /\ live h 0 g /\
    load_asset 9 0 h g "m" (HCreated id all_impl construct) = (h3, Throw e) /\
    query h g "m" <> query h3 g "m" /\ query h3 g "m" = Ok (Some id) /\
    exists c s old p, reports h3 c 0 s /\ s_ptr s = Some p /\ query h g "m" = Ok (Some old) /\ star (owns h) old p.
Proof.
  exists (ex_heap ANull), 1, 5, (ex_construct "mesh" ANull (Some ErrInvalidArgument)). do 2 eexists.
  split; [apply ex_wf; discriminate|]. split; [apply ex_no_stale|]. split; [apply ex_live; lia|].
  split; [reflexivity|]. split; [discriminate|]. split; [reflexivity|].
  exists 4, (weak 1 3), 2, 3. split; [repeat split|]. split; [reflexivity|]. split; [reflexivity|].
  apply star_step with 2; [constructor|]. exists 0, (own 3). auto.
Qed.
Print Assumptions C08_failed_construct_refuted.

(** Finding: a failing construction under a new name leaves the name occupied. *)
Theorem C08_failed_construct_new_refuted :
  exists h g name id construct h3 e,
    query h g name = Ok None /\
    load_asset 9 0 h g name (HCreated id all_impl construct) = (h3, Throw e) /\ query h3 g name = Ok (Some id).
Proof.
  exists (ex_heap ANull), 1, "new", 5, (fun h => (h, Some ErrInvalidArgument)). do 2 eexists.
  split; [reflexivity|]. split; reflexivity.
Qed.
Print Assumptions C08_failed_construct_new_refuted.
