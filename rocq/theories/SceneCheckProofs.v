From Coq Require Import List String ZArith Bool Lia.
From Verif Require Import Base JsonModel SceneModel SceneSpec SceneProofs SceneOpsProofs.
Import ListNotations.
Open Scope string_scope. Open Scope list_scope. Open Scope nat_scope.

Section L.
  Context {M F : Type}.
  Variable one : M.
  Variable mul : M -> M -> M.
  Variable get : string -> outcome (option nat).
  Variable is_kind : kind -> nat -> bool.
  Variable is_env : nat -> bool.
  Variable prims : nat -> list (option nat * option nat * option nat) * option error.
  Variable mnodes : nat -> list (node M) * option error.
  Notation scene := (scene M).
  Implicit Types s : scene.

  (** The primitives and the list of lights stay. *)
  Definition kept s s' : Prop :=
    (forall i x p, has_node (s_nodes s) i (NPrim x p) -> has_node (s_nodes s') i (NPrim x p)) /\ s_lights s' = s_lights s.
  Lemma kept_refl s : kept s s. Proof. split; auto. Qed.
  Lemma kept_trans a b c : kept a b -> kept b c -> kept a c.
  Proof. intros [A1 A2] [B1 B2]. split; [auto|congruence]. Qed.
  Lemma kept_push s n : kept s (push s n).
  Proof. split; [|reflexivity]. intros i x p H. now apply has_app. Qed.
  Lemma kept_child p c s : kept s (add_child p c s).
  Proof.
    destruct (add_child_cases p c s) as [->|(x & ch & inst & loc & Hn & ->)]; [split; auto|]. split; [|reflexivity]. intros i y q H. cbn [set_nodes s_nodes].
    rewrite (has_put _ _ _ _ _ _ Hn). right. split; [|assumption]. intros ->. assert (E := has_node_fun _ _ _ _ H Hn). discriminate.
  Qed.
  Lemma kept_create prop s : kept s (snd (create_primitive_node (F:=F) get is_kind is_env prop s)).
  Proof.
    unfold create_primitive_node. set (R := obind _ _).
    destruct R as [p|e| |]; cbn [fst snd]; try apply kept_refl.
    destruct (negb _ && _ && _ && _ && _); cbn [snd]; try apply kept_refl.
    destruct (isS (p_camera p) && isS (p_light p)) eqn:Ecl; cbn [snd]; try apply kept_refl.
    destruct (_ || _); cbn [snd]; try apply kept_refl.
    assert (K : forall q : scene, s_nodes q = s_nodes s -> s_lights q = s_lights s -> forall n, kept s (push q n)).
    { intros q E1 E2 n. split; [|exact E2]. intros i x p' H. cbn. rewrite E1. now apply has_app. }
    destruct (p_light p) as [l|]; [destruct (is_env l)|].
    - destruct (isS (p_camera p)), (s_env _); cbn [snd]; try (split; [auto|reflexivity]); destruct (isS (p_medium p)); apply K; reflexivity.
    - destruct (isS (p_camera p)), (isS (p_medium p)); apply K; reflexivity.
    - destruct (isS (p_camera p)), (isS (p_medium p)); apply K; reflexivity.
  Qed.
  Lemma kept_prims p l : forall s, kept s (add_prims is_kind p l s).
  Proof.
    induction l as [|[[a b] c] l IH]; intros s; cbn; [apply kept_refl|]. eapply kept_trans; [|apply IH]. eapply kept_trans; [apply kept_push|apply kept_child].
  Qed.
  Lemma kept_import off l : forall s, kept s (fold_left (import_node off) l s).
  Proof.
    induction l as [|n l IH]; intros s; cbn; [apply kept_refl|]. eapply kept_trans; [|apply IH]. unfold import_node.
    destruct (shift_node off n) as [i p|]; [destruct (isS (p_camera p))|]; apply kept_push.
  Qed.
  Lemma kept_model p loc s : kept s (snd (add_child_from_model get is_kind prims p loc s)).
  Proof.
    unfold add_child_from_model. destruct (_ || _); [split; auto|]. destruct (get_as get is_kind KModel loc) as [[m|]|e| |]; cbn [snd]; try apply kept_refl.
    destruct (prims m) as [l e]. cbn [snd]. apply kept_prims.
  Qed.

  (** Every call of the visitor is for a node of the scene. *)
  Lemma vlist_in (v : Z -> list (node M * M) * outcome unit) (P : node M * M -> Prop) l :
    (forall i c, In c (fst (v i)) -> P c) -> forall c, In c (fst (vlist v l)) -> P c.
  Proof.
    intros Hv. induction l as [|d l IH]; intros c; [intros []|]. cbn. destruct (snd (v d)); cbn [fst]; try apply Hv.
    intros H. apply in_app_or in H. destruct H as [H|H]; [eapply Hv, H|now apply IH].
  Qed.
  Lemma visit_in ns f : forall i T c, In c (fst (visit mul ns f i T)) -> exists j, has_node ns j (fst c).
  Proof.
    induction f as [|f IH]; intros i T c; [intros []|]. rewrite visit_S. destruct (node_at ns i) as [[x p|x ch inst loc]|e| |] eqn:E; cbn [fst]; try (intros []; fail).
    - apply node_at_ok in E. intros [<-|[]]. eauto.
    - apply node_at_ok in E. cbn zeta. cbn [fst]. intros [<-|H]; [eauto|]. revert c H. refine (vlist_in _ (fun c => exists j, has_node ns j (fst c)) ch _). intros j d. apply IH.
  Qed.

  Definition lights_ok s : Prop := forall T i, In (T, i) (s_lights s) -> exists n l, has_node (s_nodes s) i n /\ light_of n = Some l.
  Lemma kept_lights s s' : kept s s' -> lights_ok s -> lights_ok s'.
  Proof.
    intros [K E] H T i Hi. rewrite E in Hi. destruct (H T i Hi) as (n & l & Hn & Hl). exists n, l. split; [|assumption]. destruct n; [now apply K|discriminate].
  Qed.
  Lemma collect_ok ns calls : numbered ns -> (forall c, In c calls -> exists j, has_node ns j (fst c)) ->
    forall acc : list (M * Z) * list (Z * Z), (forall T i, In (T, i) (fst acc) -> exists n l, has_node ns i n /\ light_of n = Some l) ->
    forall T i, In (T, i) (fst (fold_left collect calls acc)) -> exists n l, has_node ns i n /\ light_of n = Some l.
  Proof.
    intros Hn. induction calls as [|[n T0] calls IH]; intros Hc acc Ha T i; cbn [fold_left]; [apply Ha|]. apply IH; [intros; apply Hc; now right|].
    clear T i. intros T i. unfold collect. destruct n as [k p|]; [|apply Ha]. destruct (p_light p) as [l|] eqn:El; [|apply Ha]. cbn [isS fst]. intros H. apply in_app_or in H.
    destruct H as [H|[H|[]]]; [now apply (Ha T)|]. injection H as <- <-. destruct (Hc (NPrim k p, T0)) as [j Hj]; [now left|]. cbn [fst] in Hj.
    assert (E : n_index (NPrim (M:=M) k p) = j). { destruct Hj as [Hj1 Hj2]. rewrite (Hn _ _ Hj2). lia. }
    cbn in E. subst j. exists (NPrim k p), l. split; assumption.
  Qed.
  Lemma run_lights accel h : models_numbered mnodes -> lights_ok (run (F:=F) one mul get is_kind is_env prims mnodes accel h).
  Proof.
    intros Hm. induction h as [|o h IH] using rev_ind; [intros T i []|]. unfold run in *. rewrite fold_left_app. cbn [fold_left].
    assert (W := run_wf one mul get is_kind is_env prims mnodes accel h Hm : well_formed is_env (run (F:=F) one mul get is_kind is_env prims mnodes accel h)). unfold run in W.
    set (s := fold_left _ h _) in *. destruct o; cbn [apply].
    - intros T i [].
    - eapply kept_lights; [apply kept_create|assumption].
    - eapply kept_lights; [apply kept_push|assumption].
    - eapply kept_lights; [apply kept_push|assumption].
    - eapply kept_lights; [apply kept_child|assumption].
    - eapply kept_lights; [apply kept_model|assumption].
    - eapply kept_lights; [|exact IH]. unfold create_group_from_model. destruct (get_as get is_kind KModel loc) as [[m|]|e| |]; cbn [snd]; try apply kept_refl.
      + destruct (mnodes m) as [l e]. cbn [snd]. apply kept_import.
      + split; auto.
    - eapply kept_lights; [|exact IH]. unfold add_transformed_primitive. cbn [create_group_node].
      set (s1 := push s _). assert (K1 : kept s s1) by apply kept_push. set (X := match jfind "model" prop with Some _ => _ | None => _ end).
      assert (K2 : kept s1 (snd X)); [subst X|destruct X as [[u|e| |] s2]; cbn [snd] in *; (eapply kept_trans; [exact K1|]); try exact K2; eapply kept_trans; [exact K2|apply kept_child]].
      destruct (jfind "model" prop) as [[| | | |loc| |]|]; cbn [snd]; try apply kept_refl; [apply kept_model|].
      assert (W1 := kept_create prop s1). destruct (create_primitive_node get is_kind is_env prop s1) as [[i|e| |] s2]; cbn [snd] in *; try exact W1. eapply kept_trans; [exact W1|apply kept_child].
    - unfold build. destruct (traverse one mul fuel s) as [calls e] eqn:E. intros T i Hi. cbn [snd set_lights s_lights s_nodes] in *.
      apply (collect_ok (s_nodes s) calls (proj1 W)) in Hi; [assumption| |intros ? ? []]. intros c Hc. apply (visit_in (s_nodes s) fuel 0 one). unfold traverse in E. rewrite E. exact Hc.
    - unfold set_accel. destruct (get_as get is_kind KAccel loc) as [a|e| |]; exact IH.
  Qed.
End L.
