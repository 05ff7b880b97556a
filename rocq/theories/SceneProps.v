(** C15 (node creation), C16 (well-formedness), C17 (traversal), C18 (child links), C19 (lights),
    C20 (model import). *)
From Coq Require Import List String ZArith Bool Lia Relations Sorting.Sorted Reals Lra.
From Verif Require Import Base JsonModel JsonSpec SceneModel SceneSpec SceneProofs SceneOpsProofs RBase SelectModel SelectProofs.
Import ListNotations.
Close Scope R_scope.
Open Scope string_scope. Open Scope list_scope. Open Scope nat_scope.

(** A world for the examples: transforms are words (so that the order of composition shows), six
    assets, and a model that holds a group with a mesh below it. *)
Definition xget (loc : string) : outcome (option nat) :=
  Ok (if String.eqb loc "m" then Some 0 else if String.eqb loc "a" then Some 1 else if String.eqb loc "l" then Some 2
      else if String.eqb loc "e" then Some 3 else if String.eqb loc "c" then Some 4 else if String.eqb loc "d" then Some 5
      else if String.eqb loc "o" then Some 6 else None).
Definition xkind (k : kind) (i : nat) : bool :=
  match k, i with
  | KMesh, 0 | KMaterial, 1 | KLight, 2 | KLight, 3 | KCamera, 4 | KMedium, 5 | KModel, 6 => true
  | _, _ => false
  end.
Definition xenv (i : nat) : bool := Nat.eqb i 3.
Definition xnodes : list (node (list nat)) :=
  [NGroup 0 [1; 2]%Z false None; NGroup 1 [2]%Z false (Some [7]); NPrim 2 (mk_prim (Some 0) (Some 1) None None None)].
Definition xmodel (m : nat) : list (node (list nat)) * option error := (xnodes, None).
Definition xprims (m : nat) : list (option nat * option nat * option nat) * option error := ([(Some 0, Some 1, None); (Some 0, Some 1, Some 2)], None).
Definition xprop (l : list (string * string)) : json unit := JObj (map (fun e => (fst e, JStr (snd e))) l).
Notation xrun := (run (F:=unit) (@nil nat) (@app nat) xget xkind xenv xprims xmodel (Some 9)).

(** C15: whatever the parameters, creating a primitive node returns an index or leaves the scene
    unchanged. *)
Theorem C15_atomic : forall M F get is_kind is_env (prop : json F) (s : scene M),
  (exists i, fst (create_primitive_node get is_kind is_env prop s) = Ok i)
  \/ snd (create_primitive_node get is_kind is_env prop s) = s.
Proof. intros. apply create_atomic. Qed.
Print Assumptions C15_atomic.

(** C15: if the references can be looked up at all, the call raises exactly for the four reasons; else
    it appends one node with the assets referred to, and records camera, environment light and medium. *)
Theorem C15_exact : forall M F get is_kind is_env (prop : json F) (s : scene M), proper prop -> readable get prop ->
  exists p, refers_to get is_kind prop "mesh" KMesh (p_mesh p) /\ refers_to get is_kind prop "material" KMaterial (p_material p)
    /\ refers_to get is_kind prop "light" KLight (p_light p) /\ refers_to get is_kind prop "camera" KCamera (p_camera p)
    /\ refers_to get is_kind prop "medium" KMedium (p_medium p)
    /\ (invalid is_env s p -> create_primitive_node get is_kind is_env prop s = (Throw ErrInvalidArgument, s))
    /\ (~ invalid is_env s p -> exists s',
          create_primitive_node get is_kind is_env prop s = (Ok (Z.of_nat (List.length (s_nodes s))), s')
          /\ s_nodes s' = s_nodes s ++ [NPrim (Z.of_nat (List.length (s_nodes s))) p]
          /\ s_camera s' = (if isS (p_camera p) then Some (size s) else s_camera s)
          /\ s_env s' = (match p_light p with Some l => if is_env l then Some (size s) else s_env s | None => s_env s end)
          /\ s_medium s' = (if isS (p_medium p) then Some (size s) else s_medium s)
          /\ s_lights s' = s_lights s /\ s_lmap s' = s_lmap s /\ s_accel s' = s_accel s).
Proof. intros. now apply create_exact. Qed.
Print Assumptions C15_exact.

Example C15_example : proper (xprop [("light", "e"); ("material", "a"); ("mesh", "m")])
  /\ readable xget (xprop [("light", "e"); ("material", "a"); ("mesh", "m")])
  /\ let s := construct (Some 9) : scene (list nat) in
     let p := mk_prim (Some 0) (Some 1) (Some 3) None None in
     ~ invalid xenv s p /\ fst (create_primitive_node xget xkind xenv (xprop [("light", "e"); ("material", "a"); ("mesh", "m")]) s) = Ok 1%Z.
Proof.
  split; [|split; [|split]].
  - intros m [= <-]. repeat constructor.
  - intros name x Hn (m & [= <-] & Hx). cbn in Hx. destruct Hx as [[= <- <-]|[[= <- <-]|[[= <- <-]|[]]]]; eexists; eexists; split; reflexivity.
  - cbv. intros [(H & _)|[(H & _)|[(H & _)|[(_ & H)|(l & _ & _ & H)]]]]; try discriminate; now apply H.
  - reflexivity.
Qed.

(** Finding: a reference that names nothing, or an asset of the wrong kind, is dropped silently when
    another reference is good. The light "nosuch" does not exist, and "m" is a mesh. *)
Theorem C15_bad_reference_refuted :
  exists s', create_primitive_node xget xkind xenv (xprop [("light", "nosuch"); ("material", "a"); ("medium", "m"); ("mesh", "m")]) (construct (Some 9) : scene (list nat))
             = (Ok 1%Z, s') /\ nth_error (s_nodes s') 1 = Some (NPrim 1 (mk_prim (Some 0) (Some 1) None None None)).
Proof. eexists. split; reflexivity. Qed.
Print Assumptions C15_bad_reference_refuted.

(** Finding: adding a transformed primitive is not atomic: when the primitive is rejected, the group
    made for its transform stays behind as an unreachable node. *)
Theorem C15_add_primitive_refuted :
  let s := construct (Some 9) : scene (list nat) in
  fst (add_transformed_primitive xget xkind xenv xprims [7] (xprop [("mesh", "m")]) s) = Throw ErrInvalidArgument
  /\ List.length (s_nodes (snd (add_transformed_primitive xget xkind xenv xprims [7] (xprop [("mesh", "m")]) s))) = 2.
Proof. split; reflexivity. Qed.
Print Assumptions C15_add_primitive_refuted.

(** C16: after any history of calls, on models whose nodes are numbered by position. *)
Theorem C16_well_formed : forall M F (one : M) mul get is_kind is_env prims mnodes accel (h : list (op (M:=M) (F:=F))),
  models_numbered mnodes -> well_formed is_env (run one mul get is_kind is_env prims mnodes accel h).
Proof. intros. now apply run_wf. Qed.
Print Assumptions C16_well_formed.

(** Only groups have children: adding a child below a primitive (or below nothing) only logs. *)
Theorem C16_only_groups_have_children : forall M (p c : Z) (s : scene M),
  (forall x ch inst loc, ~ has_node (s_nodes s) p (NGroup x ch inst loc)) ->
  add_child p c s = log_error s.
Proof.
  intros M p c s H. destruct (add_child_cases p c s) as [E|(x & ch & inst & loc & Hn & _)]; [assumption|]. now apply H in Hn.
Qed.
Print Assumptions C16_only_groups_have_children.

Definition x_history : list (op (M:=list nat) (F:=unit)) :=
  [OGroup [1]; OInstance; OPrim (xprop [("light", "l"); ("material", "a"); ("mesh", "m")]); OPrim (xprop [("camera", "c")]);
   OPrim (xprop [("light", "e")]); OPrim (xprop [("light", "e")]); OChild 0 1; OChild 1 2; OChild 2 3; OChild 0 2; OChild 3 4; OChild 0 4; OChild 0 5;
   OGroupModel "o"; OAdd [8] (xprop [("model", "o")]); OChild 0 6].
Example C16_example : models_numbered xmodel /\ s_camera (xrun x_history) = Some 4%Z /\ s_env (xrun x_history) = Some 5%Z
  /\ logged (xrun x_history) = 1 /\ List.length (s_nodes (xrun x_history)) = 12.
Proof. split; [|repeat split; reflexivity]. intros m [|[|[|k]]] n; cbn; intros [= <-] || intros H; try reflexivity. now destruct k. Qed.

(** Finding: the environment light of an imported model is not recorded, so the scene then accepts a
    second one and does not use the first. *)
Theorem C16_imported_env_light_refuted :
  let mn := fun _ : nat => ([NGroup 0 [1]%Z false None; NPrim 1 (mk_prim None None (Some 3) None None)], None) in
  let s := run (F:=unit) (@nil nat) (@app nat) xget xkind xenv xprims mn (Some 9) [OGroupModel "o"; OPrim (xprop [("light", "e")])] in
  map light_of (s_nodes s) = [None; None; Some 3; Some 3] /\ s_env s = Some 3%Z.
Proof. split; reflexivity. Qed.
Print Assumptions C16_imported_env_light_refuted.

(** C17: a completed traversal calls the visitor once for each path from the root, in depth-first
    order, with the composed transform. *)
Theorem C17_each_path_once : forall M (one : M) mul fuel s calls,
  traverse one mul fuel s = (calls, Ok tt) ->
  exists paths, StronglySorted before paths
    /\ (forall p, In p paths <-> exists j Ls, path (s_nodes s) 0 p j Ls)
    /\ Forall2 (fun p c => exists j Ls, path (s_nodes s) 0 p j Ls /\ has_node (s_nodes s) j (fst c) /\ snd c = fold_left mul Ls one) paths calls.
Proof. intros M one mul fuel s calls H. exact (visit_spec mul _ _ _ _ _ H). Qed.
Print Assumptions C17_each_path_once.

(** The same for the calls with primitive nodes alone. *)
Theorem C17_primitives : forall M (one : M) mul fuel s calls,
  traverse one mul fuel s = (calls, Ok tt) ->
  exists paths, StronglySorted before paths
    /\ (forall p, In p paths <-> exists j Ls i pr, path (s_nodes s) 0 p j Ls /\ has_node (s_nodes s) j (NPrim i pr))
    /\ Forall2 (fun p c => exists j Ls, path (s_nodes s) 0 p j Ls /\ has_node (s_nodes s) j (fst c) /\ snd c = fold_left mul Ls one)
         paths (filter (fun c => is_prim (fst c)) calls).
Proof.
  intros M one mul fuel s calls H. destruct (visit_spec mul _ _ _ _ _ H) as (paths & Sp & Ip & Fp).
  destruct (filter_related before _ (fun c => is_prim (fst c)) _ _ Sp Fp) as (paths' & S' & F' & I' & P' & Q').
  exists paths'. split; [assumption|]. split; [|assumption]. intros p. split.
  - intros Hp. destruct (P' p Hp) as ([[i pr|] T] & Hin & (j & Ls & Hpath & Hno & HT) & Hl); [|discriminate]. cbn in Hno. exists j, Ls, i, pr. auto.
  - intros (j & Ls & i & pr & Hpath & Hno). apply Q'.
    + apply Ip. eauto.
    + intros [n' T'] (j' & Ls' & Hpath' & Hno' & _). destruct (path_fun _ _ _ _ _ _ _ Hpath Hpath') as [<- <-].
      cbn in Hno'. assert (E' := has_node_fun _ _ _ _ Hno Hno'). subst n'. reflexivity.
Qed.
Print Assumptions C17_primitives.

(** The traversal ends exactly on graphs that have no cycle and no missing child below the root. *)
Theorem C17_terminates : forall M (one : M) mul s,
  (exists fuel, snd (traverse one mul fuel s) = Ok tt) <-> traversable (s_nodes s) 0.
Proof.
  intros M one mul s. split.
  - intros [f H]. exact (visit_traversable mul _ _ _ _ H).
  - intros H. exists (S (S (List.length (s_nodes s)))). now apply visit_terminates.
Qed.
Print Assumptions C17_terminates.

(** The root with two groups, one below both: the shared primitive is visited once for each path. *)
Definition x_shared : scene (list nat) :=
  set_nodes (construct (Some 9)) [NGroup 0 [1; 2; 3]%Z false None; NGroup 1 [2; 3]%Z false (Some [1; 2]); NGroup 2 [3]%Z false (Some [3]);
                                  NPrim 3 (mk_prim (Some 0) (Some 1) (Some 2) None None)].
Example C17_example : snd (traverse [] (@app nat) 9 x_shared) = Ok tt
  /\ map snd (filter (fun c => is_prim (fst c)) (fst (traverse [] (@app nat) 9 x_shared))) = [[1; 2; 3]; [1; 2]; [3]; []].
Proof. split; reflexivity. Qed.

(** Finding: the visitor documented to be called for primitive nodes is called for group nodes too. *)
Theorem C17_only_primitives_refuted :
  exists c, In c (fst (traverse [] (@app nat) 9 x_shared)) /\ is_prim (fst c) = false.
Proof. exists (NGroup 0 [1; 2; 3]%Z false None, []). split; [vm_compute; left; reflexivity|reflexivity]. Qed.
Print Assumptions C17_only_primitives_refuted.

(** C18, as far as it holds: a link to an existing node that the parent does not descend from keeps
    the graph sound. Missing: links to nodes that do not exist and links that close a cycle are
    accepted without a message, see below. *)
Theorem C18_sound_links_partial : forall M (p c : Z) (s : scene M),
  children_exist (s_nodes s) -> acyclic (s_nodes s) ->
  (exists n, has_node (s_nodes s) c n) -> ~ descendant (s_nodes s) c p ->
  children_exist (s_nodes (add_child p c s)) /\ acyclic (s_nodes (add_child p c s)).
Proof. intros. now apply add_child_sound. Qed.
Print Assumptions C18_sound_links_partial.

Example C18_example :
  let s := set_nodes (construct (Some 9) : scene (list nat)) [NGroup 0 [] false None; NGroup 1 [] false (Some [1])] in
  children_exist (s_nodes s) /\ acyclic (s_nodes s) /\ (exists n, has_node (s_nodes s) 1 n) /\ ~ descendant (s_nodes s) 1 0
  /\ child (s_nodes (add_child 0 1 s)) 0 1.
Proof.
  set (s := set_nodes _ _). cbv zeta.
  assert (N : forall i c, ~ child (s_nodes s) i c).
  { intros i c (k & x & ch & inst & loc & [Hi Hn] & Hk). cbn in Hn. destruct (Z.to_nat i) as [|[|[|n]]]; cbn in Hn; try discriminate; injection Hn as <- <- <- <-; destruct k; discriminate. }
  assert (T : forall i c, clos_trans Z (child (s_nodes s)) i c -> False).
  { intros i c H. apply clos_trans_t1n in H. destruct H as [? H|? ? H]; exact (N _ _ H). }
  split; [|split; [|split; [|split]]].
  - intros i c H. now apply N in H.
  - intros i H. now apply T in H.
  - eexists. split; [lia|reflexivity].
  - intros H. apply clos_rt_rt1n in H. inversion H; subst. now apply N in H0.
  - exists 0, 0%Z, [1%Z], false, None. repeat split; reflexivity.
Qed.

(** Finding: a child that does not exist is accepted without a message, and traversing then raises;
    a cycle is accepted without a message, and traversing then never ends. *)
Theorem C18_missing_child_refuted :
  let s := add_child 0 57 (construct (Some 9) : scene (list nat)) in
  logged s = 0 /\ child (s_nodes s) 0 57 /\ (forall n, ~ has_node (s_nodes s) 57 n)
  /\ snd (traverse [] (@app nat) 5 s) = Throw ErrOutOfRange.
Proof.
  split; [reflexivity|]. split; [exists 0, 0%Z, [57%Z], false, None; repeat split; reflexivity|]. split; [|reflexivity].
  intros n [_ H]. vm_compute in H. discriminate.
Qed.
Print Assumptions C18_missing_child_refuted.

Theorem C18_cycle_refuted :
  let s := add_child 0 0 (construct (Some 9) : scene (list nat)) in
  logged s = 0 /\ child (s_nodes s) 0 0 /\ forall fuel, snd (traverse [] (@app nat) fuel s) <> Ok tt.
Proof.
  split; [reflexivity|]. split; [exists 0, 0%Z, [0%Z], false, None; repeat split; reflexivity|].
  intros f H. destruct (visit_traversable (@app nat) _ _ _ _ H) as [Ha _]. apply (Ha 0%Z); [apply rt_refl|].
  apply t_step. exists 0, 0%Z, [0%Z], false, None. repeat split; reflexivity.
Qed.
Print Assumptions C18_cycle_refuted.

(** C19: on a well-numbered scene that can be traversed, the lights are the light-carrying primitives,
    one for each path from the root, in depth-first order, with the composed transforms. *)
Theorem C19_lights : forall M (one : M) mul fuel s, numbered (s_nodes s) -> snd (traverse one mul fuel s) = Ok tt ->
  exists paths, StronglySorted before paths
    /\ (forall p, In p paths <-> exists j Ls n, path (s_nodes s) 0 p j Ls /\ has_node (s_nodes s) j n /\ light_of n <> None)
    /\ Forall2 (fun p l => exists Ls, path (s_nodes s) 0 p (snd l) Ls /\ fst l = fold_left mul Ls one) paths (s_lights (snd (build one mul fuel s))).
Proof. intros. now apply build_lights. Qed.
Print Assumptions C19_lights.

(** Looking up the index of a node gives the position of its last light, and an error if it has none. *)
Theorem C19_index_of_last : forall M (one : M) mul fuel s node,
  match light_index_at (snd (build one mul fuel s)) node with
  | Ok i => exists T, light_primitive_index_at (snd (build one mul fuel s)) i = Ok (T, node)
            /\ forall j T', light_primitive_index_at (snd (build one mul fuel s)) j = Ok (T', node) -> (j <= i)%Z
  | Throw e => e = ErrOutOfRange /\ forall j T', light_primitive_index_at (snd (build one mul fuel s)) j <> Ok (T', node)
  | _ => False
  end.
Proof.
  intros M one mul fuel s k. assert (H := build_index one mul fuel s k). unfold light_index_at, light_primitive_index_at.
  set (l := s_lights _) in *. destruct (zfind k _) as [i|].
  - destruct H as (T & H1 & H2 & H3). exists T. rewrite H2. destruct (Z.ltb_spec i 0); [lia|]. split; [reflexivity|].
    intros j T' Hj. destruct (Z.ltb_spec j 0); [discriminate|]. destruct (nth_error l (Z.to_nat j)) as [q|] eqn:E; [|discriminate].
    injection Hj as ->. apply H3 in E. lia.
  - split; [reflexivity|]. intros j T' Hj. destruct (j <? 0)%Z; [discriminate|]. destruct (nth_error l (Z.to_nat j)) as [q|] eqn:E; [|discriminate].
    injection Hj as ->. exact (H _ _ E).
Qed.
Print Assumptions C19_index_of_last.

(** So the lookup inverts the list if no light node is reached by two paths. *)
Theorem C19_lookup_inverse : forall M (one : M) mul fuel s i T node,
  NoDup (map snd (s_lights (snd (build one mul fuel s)))) ->
  light_primitive_index_at (snd (build one mul fuel s)) i = Ok (T, node) ->
  light_index_at (snd (build one mul fuel s)) node = Ok i.
Proof.
  intros M one mul fuel s i T k Hnd Hi. assert (H := C19_index_of_last _ one mul fuel s k).
  unfold light_index_at in *. destruct (zfind k _) as [j|]; [|now destruct H as [_ H]; apply H in Hi].
  destruct H as (T' & Hj & _). f_equal. unfold light_primitive_index_at in *.
  destruct (Z.ltb_spec i 0); [discriminate|]. destruct (Z.ltb_spec j 0); [discriminate|].
  set (l := s_lights _) in *.
  destruct (nth_error l (Z.to_nat i)) as [a|] eqn:Ea; [|discriminate]. injection Hi as ->.
  destruct (nth_error l (Z.to_nat j)) as [b|] eqn:Eb; [|discriminate]. injection Hj as ->.
  assert (E : Z.to_nat j = Z.to_nat i); [|lia].
  apply (proj1 (NoDup_nth_error (map snd l)) Hnd).
  - apply nth_error_Some. rewrite nth_error_map, Eb. discriminate.
  - rewrite !nth_error_map, Ea, Eb. reflexivity.
Qed.
Print Assumptions C19_lookup_inverse.

Definition x_lights : scene (list nat) :=
  set_nodes (construct (Some 9)) [NGroup 0 [1; 3]%Z false None; NGroup 1 [2]%Z false (Some [1; 2]); NPrim 2 (mk_prim (Some 0) (Some 1) (Some 2) None None);
                                  NPrim 3 (mk_prim None None (Some 3) None None)].
Example C19_example : snd (traverse [] (@app nat) 9 x_lights) = Ok tt
  /\ s_lights (snd (build [] (@app nat) 9 x_lights)) = [([1; 2], 2%Z); ([], 3%Z)]
  /\ NoDup (map snd (s_lights (snd (build [] (@app nat) 9 x_lights)))).
Proof. split; [reflexivity|]. split; [reflexivity|]. vm_compute. constructor; [intros [H|[]]; discriminate|]. constructor; [intros []|constructor]. Qed.

(** Finding: with a light instanced twice, the first instance's node gives back the second instance. *)
Theorem C19_instanced_lookup_refuted :
  let s := snd (build [] (@app nat) 9 x_shared) in
  light_primitive_index_at s 0 = Ok ([1; 2; 3], 3%Z) /\ light_index_at s 3 = Ok 3%Z.
Proof. split; reflexivity. Qed.
Print Assumptions C19_instanced_lookup_refuted.

Open Scope R_scope.
(** C19: the index chosen is a light, its probability is 1/n, and the evaluated probability agrees. *)
Theorem C19_selection_valid : forall n u, (0 < n)%nat -> 0 <= u < 1 ->
  (0 <= fst (sample_light_selection n u) < Z.of_nat n)%Z
  /\ snd (sample_light_selection n u) = Some (1 / INR n)
  /\ pdf_light_selection n (fst (sample_light_selection n u)) = snd (sample_light_selection n u).
Proof. exact select_valid. Qed.
Print Assumptions C19_selection_valid.

(** Light k is chosen exactly on the interval [k/n, (k+1)/n), which lies in [0,1] and has length 1/n. *)
Theorem C19_selection_uniform : forall n k, (0 < n)%nat -> (0 <= k < Z.of_nat n)%Z ->
  exists a b, 0 <= a /\ b <= 1 /\ b - a = 1 / INR n
    /\ forall u, 0 <= u < 1 -> fst (sample_light_selection n u) = k <-> a <= u < b.
Proof.
  intros n k Hn Hk. exists (IZR k / INR n), ((IZR k + 1) / INR n). destruct (select_inside n k Hn Hk) as [H1 H2].
  split; [assumption|]. split; [assumption|]. split; [now apply select_length|]. intros u Hu. now apply select_preimage.
Qed.
Print Assumptions C19_selection_uniform.

Example C19_selection_example : fst (sample_light_selection 4 (1 / 2)) = 2%Z.
Proof. apply select_preimage; [lia|lra|]. cbn. lra. Qed.

(** Finding: without lights the selected index is -1 and the probability infinite. *)
Theorem C19_no_lights_refuted : forall u, fst (sample_light_selection 0 u) = (-1)%Z /\ snd (sample_light_selection 0 u) = None.
Proof.
  intros u. unfold sample_light_selection. cbn [fst snd]. split; [unfold zclamp; cbn; lia|].
  unfold fdiv. cbn. destruct (Req_EM_T 0 0); [reflexivity|contradiction].
Qed.
Print Assumptions C19_no_lights_refuted.
Close Scope R_scope.

(** C20: importing a model appends a copy of its nodes and leaves the others; the returned node is the
    copy of the model's root, and below it the traversal shows the same nodes with the same assets and
    transforms, in the same order, as below the model's root. *)
Theorem C20_import : forall M mul get is_kind mnodes loc (s : scene M) m l,
  get loc = Ok (Some m) -> is_kind KModel m = true -> mnodes m = (l, None) -> children_exist l ->
  exists s', create_group_from_model get is_kind mnodes loc s = (Ok (Z.of_nat (List.length (s_nodes s))), s')
    /\ firstn (List.length (s_nodes s)) (s_nodes s') = s_nodes s
    /\ List.length (s_nodes s') = List.length (s_nodes s) + List.length l
    /\ forall fuel T, visit mul (s_nodes s') fuel (Z.of_nat (List.length (s_nodes s))) T
         = (map (relabel (Z.of_nat (List.length (s_nodes s)))) (fst (visit mul l fuel 0 T)), snd (visit mul l fuel 0 T)).
Proof.
  intros M mul get is_kind mnodes loc s m l Hg Hk Hm He. unfold create_group_from_model, get_as. rewrite Hg. cbn [obind cast]. rewrite Hk, Hm.
  eexists. split; [reflexivity|]. rewrite import_nodes. split; [|split].
  - rewrite firstn_app, Nat.sub_diag, firstn_all. cbn. apply app_nil_r.
  - now rewrite app_length, map_length.
  - intros fuel T. assert (H := visit_import mul (s_nodes s) l He fuel 0 T). rewrite Z.add_0_l in H. unfold size. now apply H.
Qed.
Print Assumptions C20_import.

(** The copy holds the same nodes one by one, with all node numbers moved. *)
Theorem C20_import_nodes : forall M get is_kind mnodes loc (s : scene M) m l,
  get loc = Ok (Some m) -> is_kind KModel m = true -> mnodes m = (l, None) ->
  forall k n, nth_error l k = Some n ->
  has_node (s_nodes (snd (create_group_from_model get is_kind mnodes loc s))) (Z.of_nat k + Z.of_nat (List.length (s_nodes s)))
    (moved (Z.of_nat (List.length (s_nodes s))) n).
Proof.
  intros M get is_kind mnodes loc s m l Hg Hk Hm k n Hn. unfold create_group_from_model, get_as. rewrite Hg. cbn [obind cast]. rewrite Hk, Hm.
  cbn [snd]. rewrite import_nodes. split; [lia|]. rewrite nth_error_app2 by lia.
  replace (Z.to_nat _ - _) with k by lia. rewrite nth_error_map, Hn. destruct n; reflexivity.
Qed.
Print Assumptions C20_import_nodes.

(** Adding a model's primitives below a group appends one node for each, in order, as children of that
    group, and changes nothing else. *)
Theorem C20_add_child_from_model : forall M get is_kind prims p loc (s : scene M) m l x ch inst local,
  get loc = Ok (Some m) -> is_kind KModel m = true -> prims m = (l, None) ->
  has_node (s_nodes s) p (NGroup x ch inst local) ->
  exists s', add_child_from_model get is_kind prims p loc s = (Ok tt, s')
    /\ List.length (s_nodes s') = List.length (s_nodes s) + List.length l
    /\ has_node (s_nodes s') p (NGroup x (ch ++ map Z.of_nat (seq (List.length (s_nodes s)) (List.length l))) inst local)
    /\ (forall i n, i <> p -> has_node (s_nodes s) i n -> has_node (s_nodes s') i n)
    /\ (forall k a b c, nth_error l k = Some (a, b, c) ->
          has_node (s_nodes s') (Z.of_nat (List.length (s_nodes s) + k))
            (NPrim (Z.of_nat (List.length (s_nodes s) + k)) (mk_prim (cast is_kind KMesh a) (cast is_kind KMaterial b) (cast is_kind KLight c) None None))).
Proof.
  intros M get is_kind prims p loc s m l x ch inst local Hg Hk Hm Hp. unfold add_child_from_model, get_as. rewrite Hg. cbn [obind cast]. rewrite Hk, Hm.
  destruct (has_node_lt _ _ _ Hp) as [H0 H1]. unfold size. destruct (Z.ltb_spec p 0); [lia|]. destruct (Z.leb_spec (Z.of_nat (List.length (s_nodes s))) p); [lia|].
  cbn [orb]. eexists. split; [reflexivity|]. rewrite (add_prims_nodes is_kind _ _ _ _ _ _ _ Hp).
  assert (L : List.length (prims_from (M:=M) is_kind (List.length (s_nodes s)) l) = List.length l).
  { unfold prims_from. rewrite map_length, combine_length, seq_length. apply Nat.min_id. }
  split; [|split; [|split]].
  - now rewrite app_length, put_length, L.
  - apply has_app. rewrite (has_put _ _ _ _ _ _ Hp). auto.
  - intros i n Hne Hi. apply has_app. rewrite (has_put _ _ _ _ _ _ Hp). auto.
  - intros k a b c Hc. split; [lia|]. rewrite Nat2Z.id, nth_error_app2 by (rewrite put_length; lia). rewrite put_length.
    replace (_ + k - _) with k by lia. unfold prims_from. rewrite nth_error_map.
    assert (E : nth_error (combine (seq (List.length (s_nodes s)) (List.length l)) l) k = Some (List.length (s_nodes s) + k, (a, b, c))); [|now rewrite E].
    clear -Hc. generalize (List.length (s_nodes s)) as z. revert k Hc.
    induction l as [|y l IH]; intros [|k] Hc z; cbn in *; try discriminate.
    + injection Hc as ->. rewrite Nat.add_0_r. reflexivity.
    + rewrite (IH k Hc (S z)). do 2 f_equal. lia.
Qed.
Print Assumptions C20_add_child_from_model.

Example C20_example : children_exist xnodes
  /\ map snd (fst (visit (@app nat) (s_nodes (xrun [OGroup [1]; OGroupModel "o"])) 5 2 [5])) = [[5]; [5]; [5; 7]; [5]].
Proof.
  split; [|reflexivity]. intros i c (k & x & ch & inst & loc & [Hi Hn] & Hk).
  destruct (Z.to_nat i) as [|[|[|n]]]; cbn in Hn; try discriminate; [| |destruct n; discriminate]; injection Hn as <- <- <- <-;
    destruct k as [|[|k]]; cbn in Hk; try discriminate; try (destruct k; discriminate); injection Hk as <-; eexists; (split; [lia|reflexivity]).
Qed.
