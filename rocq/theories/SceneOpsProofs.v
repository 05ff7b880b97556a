From Coq Require Import List String ZArith Bool Lia Relations Sorting.Sorted.
From Verif Require Import Base JsonModel JsonSpec JsonProofs SceneModel SceneSpec SceneProofs.
Import ListNotations.
Open Scope string_scope. Open Scope list_scope. Open Scope nat_scope.

(** ** Filtering related lists *)
Lemma filter_related {A B} (lt : A -> A -> Prop) (R : A -> B -> Prop) (f : B -> bool) l1 l2 :
  StronglySorted lt l1 -> Forall2 R l1 l2 ->
  exists l1', StronglySorted lt l1' /\ Forall2 R l1' (filter f l2) /\ incl l1' l1
    /\ (forall x, In x l1' -> exists y, In y l2 /\ R x y /\ f y = true)
    /\ (forall x, In x l1 -> (forall y, R x y -> f y = true) -> In x l1').
Proof.
  intros S H. induction H as [|x y l1 l2 Hxy H IH]; cbn.
  - exists []. split; [constructor|]. split; [constructor|]. split; [intros x []|]. split; intros x [].
  - inversion S as [|? ? S1 Hx]; subst. destruct (IH S1) as (l1' & S' & F' & I' & P' & Q'). destruct (f y) eqn:E.
    + exists (x :: l1'). split; [|split; [|split; [|split]]].
      * constructor; [assumption|]. rewrite Forall_forall in *. intros z Hz. apply Hx, I', Hz.
      * constructor; assumption.
      * intros z [<-|Hz]; [now left|right; apply I', Hz].
      * intros z [<-|Hz]; [exists y; auto|]. destruct (P' z Hz) as (w & Hw & HR & Hf). exists w. auto.
      * intros z [<-|Hz] Hf; [now left|right; auto].
    + exists l1'. split; [assumption|]. split; [assumption|]. split; [intros z Hz; right; apply I', Hz|]. split.
      * intros z Hz. destruct (P' z Hz) as (w & Hw & HR & Hf). exists w. auto.
      * intros z [<-|Hz] Hf; [|auto]. rewrite (Hf y Hxy) in E. discriminate.
Qed.

Section O.
  Context {M F : Type}.
  Variable one : M.
  Variable mul : M -> M -> M.
  Variable get : string -> outcome (option nat).
  Variable is_kind : kind -> nat -> bool.
  Variable is_env : nat -> bool.
  Variable prims : nat -> list (option nat * option nat * option nat) * option error.
  Variable mnodes : nat -> list (node M) * option error.
  Notation node := (node M).
  Notation scene := (scene M).
  Implicit Types (ns : list node) (s : scene).

  Notation create := (create_primitive_node (F:=F) get is_kind is_env).

  (** ** Creating a primitive node *)
  Lemma create_atomic prop s : (exists i, fst (create prop s) = Ok i) \/ snd (create prop s) = s.
  Proof.
    unfold create_primitive_node. set (R := obind _ _).
    destruct R as [p|e| |]; cbn [fst snd]; auto.
    destruct (negb _ && _ && _ && _ && _); cbn [snd]; auto.
    destruct (isS (p_camera p) && isS (p_light p)) eqn:Ecl; cbn [snd]; auto.
    destruct (_ || _); cbn [snd]; auto.
    destruct (p_light p) as [l|] eqn:El; [|left; eexists; reflexivity].
    cbn in Ecl. rewrite andb_true_r in Ecl. rewrite Ecl.
    destruct (is_env l); [|left; eexists; reflexivity].
    destruct (s_env s) as [e|]; [right; reflexivity|left; eexists; reflexivity].
  Qed.

  Lemma asset_ref_ok (prop : json F) name k : proper prop -> readable get prop -> In name five ->
    exists a, asset_ref get prop name = Ok a /\ refers_to get is_kind prop name k (cast is_kind k a).
  Proof.
    intros Hp Hr Hn. unfold asset_ref. destruct (jfind name prop) as [x|] eqn:E.
    - assert (Hx := E). apply jfind_has in Hx; [|assumption]. destruct (Hr name x Hn Hx) as (loc & r & -> & Hg).
      exists r. split; [assumption|]. intros c. split.
      + destruct r as [i|]; cbn; [|discriminate]. destruct (is_kind k i) eqn:Ek; [|discriminate]. intros [= <-]. eauto.
      + intros (loc' & Hl & Hg' & Hk). apply jfind_has in Hl; [|assumption]. rewrite Hl in E. injection E as ->.
        rewrite Hg in Hg'. injection Hg' as ->. cbn. now rewrite Hk.
    - exists None. split; [reflexivity|]. intros c. split; [discriminate|]. intros (loc & Hl & _).
      apply jfind_has in Hl; [|assumption]. congruence.
  Qed.

  Lemma create_exact (prop : json F) s : proper prop -> readable get prop ->
    exists p, refers_to get is_kind prop "mesh" KMesh (p_mesh p) /\ refers_to get is_kind prop "material" KMaterial (p_material p)
      /\ refers_to get is_kind prop "light" KLight (p_light p) /\ refers_to get is_kind prop "camera" KCamera (p_camera p)
      /\ refers_to get is_kind prop "medium" KMedium (p_medium p)
      /\ (invalid is_env s p -> create prop s = (Throw ErrInvalidArgument, s))
      /\ (~ invalid is_env s p -> exists s', create prop s = (Ok (Z.of_nat (List.length (s_nodes s))), s')
            /\ s_nodes s' = s_nodes s ++ [NPrim (Z.of_nat (List.length (s_nodes s))) p]
            /\ s_camera s' = (if isS (p_camera p) then Some (size s) else s_camera s)
            /\ s_env s' = (match p_light p with Some l => if is_env l then Some (size s) else s_env s | None => s_env s end)
            /\ s_medium s' = (if isS (p_medium p) then Some (size s) else s_medium s)
            /\ s_lights s' = s_lights s /\ s_lmap s' = s_lmap s /\ s_accel s' = s_accel s).
  Proof.
    intros Hp Hr.
    destruct (asset_ref_ok prop "mesh" KMesh Hp Hr) as (a1 & E1 & R1); [cbn; auto|].
    destruct (asset_ref_ok prop "material" KMaterial Hp Hr) as (a2 & E2 & R2); [cbn; auto|].
    destruct (asset_ref_ok prop "light" KLight Hp Hr) as (a3 & E3 & R3); [cbn; auto|].
    destruct (asset_ref_ok prop "camera" KCamera Hp Hr) as (a4 & E4 & R4); [cbn; auto|].
    destruct (asset_ref_ok prop "medium" KMedium Hp Hr) as (a5 & E5 & R5); [cbn; auto 6|].
    exists (mk_prim (cast is_kind KMesh a1) (cast is_kind KMaterial a2) (cast is_kind KLight a3) (cast is_kind KCamera a4) (cast is_kind KMedium a5)).
    cbn [p_mesh p_material p_light p_camera p_medium]. do 5 (split; [assumption|]).
    unfold create_primitive_node. rewrite E1, E2, E3, E4, E5. cbn [obind]. clear E1 E2 E3 E4 E5 R1 R2 R3 R4 R5.
    unfold invalid, none_given. cbn [p_mesh p_material p_light p_camera p_medium].
    generalize (cast is_kind KMesh a1) (cast is_kind KMaterial a2) (cast is_kind KLight a3) (cast is_kind KCamera a4) (cast is_kind KMedium a5).
    clear a1 a2 a3 a4 a5. intros m1 m2 l c d.
    destruct m1, m2, l as [l|], c, d; cbn [isS negb andb orb];
      repeat (match goal with |- context [is_env ?x] => destruct (is_env x) eqn:? end);
      cbn [set_camera set_env set_medium s_env]; destruct (s_env s) as [e|] eqn:Ee; cbn [s_env];
      rewrite ?Ee;
      (split; [intros H; try reflexivity; exfalso
              |intros H; try (eexists; split; [reflexivity|]; cbn; rewrite ?Ee; repeat split; reflexivity); exfalso; apply H]);
      try solve [ repeat (destruct H as [H|H]);
                  (destruct H as (? & ? & ? & ? & ?) || destruct H as (? & ? & ? & ?) || destruct H as (? & ? & ?) || destruct H as (? & ?)); congruence ];
      try solve [ left; repeat split; reflexivity ];
      try solve [ right; left; split; discriminate ];
      try solve [ right; right; left; split; (reflexivity || discriminate) ];
      try solve [ right; right; right; left; split; (reflexivity || discriminate) ];
      try solve [ right; right; right; right; eexists; split; [reflexivity|split; [assumption|discriminate]] ].
  Qed.

  (** ** Well-formedness *)
  Lemma has_app ns ns' i n : has_node ns i n -> has_node (ns ++ ns') i n.
  Proof. intros [H1 H2]. split; [assumption|]. rewrite nth_error_app1; [assumption|]. apply nth_error_Some. congruence. Qed.
  Lemma has_last ns n : has_node (ns ++ [n]) (Z.of_nat (List.length ns)) n.
  Proof. split; [lia|]. rewrite Nat2Z.id, nth_error_app2 by lia. rewrite Nat.sub_diag. reflexivity. Qed.
  Lemma numbered_app ns n : numbered ns -> n_index n = Z.of_nat (List.length ns) -> numbered (ns ++ [n]).
  Proof.
    intros H Hn k m Hk. destruct (Nat.lt_ge_cases k (List.length ns)) as [Hl|Hl].
    - rewrite nth_error_app1 in Hk by assumption. now apply H.
    - rewrite nth_error_app2 in Hk by assumption. destruct (k - List.length ns) as [|d] eqn:E; [|destruct d; discriminate].
      injection Hk as <-. rewrite Hn. f_equal. lia.
  Qed.

  Lemma push_wf s n : well_formed is_env s -> n_index n = size s -> well_formed is_env (push s n).
  Proof.
    intros (H1 & (ch & H2) & H3 & H4 & H5) Hn. unfold push, set_nodes, well_formed. cbn [s_nodes s_camera s_env s_medium].
    split; [now apply numbered_app|]. split; [exists ch; now apply has_app|].
    split; [|split]; intros i Hi.
    - destruct (H3 i Hi) as (m & c & Hm & Hc). exists m, c. split; [now apply has_app|assumption].
    - destruct (H4 i Hi) as (m & c & Hm & Hc). exists m, c. split; [now apply has_app|assumption].
    - destruct (H5 i Hi) as (m & c & Hm & Hc). exists m, c. split; [now apply has_app|assumption].
  Qed.

  Lemma log_wf s : well_formed is_env s -> well_formed is_env (log_error s).
  Proof. intros H. exact H. Qed.

  Lemma nth_put {A} (l : list A) i x k : nth_error (put l i x) k =
    if Nat.eqb k i then (match nth_error l i with Some _ => Some x | None => None end) else nth_error l k.
  Proof.
    revert i k. induction l as [|y l IH]; intros i k; cbn.
    - rewrite !(proj2 (nth_error_None [] _)) by (cbn; lia). now destruct (k =? i).
    - destruct i as [|i], k as [|k]; cbn; try reflexivity. apply IH.
  Qed.
  Lemma put_length {A} (l : list A) i x : List.length (put l i x) = List.length l.
  Proof. revert i. induction l as [|y l IH]; intros [|i]; cbn; auto. Qed.

  Lemma has_put ns p n n' i m : has_node ns p n -> has_node (put ns (Z.to_nat p) n') i m <-> (i = p /\ m = n') \/ (i <> p /\ has_node ns i m).
  Proof.
    intros [Hp Hn]. unfold has_node. rewrite nth_put. destruct (Nat.eqb_spec (Z.to_nat i) (Z.to_nat p)) as [E|E].
    - rewrite Hn. split; [intros [Hi [= <-]]; left; split; [lia|reflexivity]|intros [[-> ->]|[H1 [H2 H3]]]; [auto|lia]].
    - split; [intros [H1 H2]; right; split; [lia|auto]|intros [[-> ->]|[_ H]]; [lia|assumption]].
  Qed.

  Lemma add_child_cases p c s :
    add_child p c s = log_error s \/
    exists x ch inst loc, has_node (s_nodes s) p (NGroup x ch inst loc)
      /\ add_child p c s = set_nodes s (put (s_nodes s) (Z.to_nat p) (NGroup x (ch ++ [c]) inst loc)).
  Proof.
    unfold add_child. destruct (Z.ltb_spec p 0); cbn [orb]; [auto|]. destruct (Z.leb_spec (size s) p); [auto|].
    destruct (nth_error (s_nodes s) (Z.to_nat p)) as [[x q|x ch inst loc]|] eqn:E; auto.
    right. exists x, ch, inst, loc. split; [split; assumption|reflexivity].
  Qed.

  Lemma add_child_wf p c s : well_formed is_env s -> well_formed is_env (add_child p c s).
  Proof.
    intros Hw. destruct (add_child_cases p c s) as [->|(x & ch & inst & loc & Hn & ->)]; [now apply log_wf|].
    destruct Hw as (H1 & (ch0 & H2) & H3 & H4 & H5). unfold well_formed, set_nodes. cbn [s_nodes s_camera s_env s_medium].
    assert (K : forall i n, has_node (s_nodes s) i n -> is_prim n = true -> has_node (put (s_nodes s) (Z.to_nat p) (NGroup x (ch ++ [c]) inst loc)) i n).
    { intros i n Hi Hp. rewrite (has_put _ _ _ _ _ _ Hn). right. split; [|assumption]. intros ->.
      assert (E := has_node_fun _ _ _ _ Hi Hn). subst n. discriminate. }
    split; [|split; [|split; [|split]]].
    - intros k n Hk. rewrite nth_put in Hk. destruct (Nat.eqb_spec k (Z.to_nat p)) as [->|Hne]; [|now apply H1].
      destruct Hn as [Hp Hn]. rewrite Hn in Hk. injection Hk as <-. exact (H1 _ _ Hn).
    - destruct (Z.eq_dec p 0) as [->|Hne].
      + assert (E := has_node_fun _ _ _ _ Hn H2). injection E as -> -> -> ->. exists (ch0 ++ [c]). rewrite (has_put _ _ _ _ _ _ Hn). auto.
      + exists ch0. rewrite (has_put _ _ _ _ _ _ Hn). right. split; [lia|assumption].
    - intros i Hi. destruct (H3 i Hi) as (n & a & Hm & Ha). exists n, a. split; [|assumption]. apply K; [assumption|]. destruct n; [reflexivity|discriminate].
    - intros i Hi. destruct (H4 i Hi) as (n & a & Hm & Ha & He). exists n, a. split; [|auto]. apply K; [assumption|]. destruct n; [reflexivity|discriminate].
    - intros i Hi. destruct (H5 i Hi) as (n & a & Hm & Ha). exists n, a. split; [|assumption]. apply K; [assumption|]. destruct n; [reflexivity|discriminate].
  Qed.

  Lemma create_wf prop s : well_formed is_env s -> well_formed is_env (snd (create prop s)).
  Proof.
    intros Hw. unfold create_primitive_node. set (R := obind _ _).
    destruct R as [p|e| |]; cbn [fst snd]; auto.
    destruct (negb _ && _ && _ && _ && _); cbn [snd]; auto.
    destruct (isS (p_camera p) && isS (p_light p)) eqn:Ecl; cbn [snd]; auto.
    destruct (_ || _); cbn [snd]; auto.
    destruct Hw as (H1 & (ch0 & H2) & H3 & H4 & H5).
    assert (L := has_last (s_nodes s) (NPrim (size s) p)).
    destruct (p_light p) as [l|] eqn:El.
    - cbn in Ecl. rewrite andb_true_r in Ecl. rewrite Ecl.
      destruct (is_env l) eqn:Ev; [destruct (s_env s) as [e|] eqn:Ee; cbn [snd]; [repeat split; try assumption; [now exists ch0|rewrite Ee; assumption]|]|];
      cbn [snd]; unfold well_formed; cbn [push set_nodes s_nodes s_camera s_env s_medium];
      (split; [destruct (isS (p_medium p)); apply numbered_app; auto|]);
      (split; [exists ch0; destruct (isS (p_medium p)); now apply has_app|]);
      (split; [|split]).
      + intros i Hi. assert (Hi' : s_camera s = Some i) by (destruct (isS (p_medium p)); exact Hi).
        destruct (H3 i Hi') as (n & a & Hm & Ha). exists n, a. split; [destruct (isS (p_medium p)); now apply has_app|assumption].
      + intros i Hi. assert (Hi' : i = size s) by (destruct (isS (p_medium p)); cbn in Hi; congruence). subst i.
        exists (NPrim (size s) p), l. split; [destruct (isS (p_medium p)); exact L|]. split; [exact El|assumption].
      + intros i Hi. destruct (p_medium p) as [d|] eqn:Ed; cbn in Hi |- *.
        * injection Hi as <-. exists (NPrim (size s) p), d. split; [exact L|]. exact Ed.
        * destruct (H5 i Hi) as (n & a & Hm & Ha). exists n, a. split; [now apply has_app|assumption].
      + intros i Hi. assert (Hi' : s_camera s = Some i) by (destruct (isS (p_medium p)); exact Hi).
        destruct (H3 i Hi') as (n & a & Hm & Ha). exists n, a. split; [destruct (isS (p_medium p)); now apply has_app|assumption].
      + intros i Hi. assert (Hi' : s_env s = Some i) by (destruct (isS (p_medium p)); exact Hi).
        destruct (H4 i Hi') as (n & a & Hm & Ha & He). exists n, a. split; [destruct (isS (p_medium p)); now apply has_app|auto].
      + intros i Hi. destruct (p_medium p) as [d|] eqn:Ed; cbn in Hi |- *.
        * injection Hi as <-. exists (NPrim (size s) p), d. split; [exact L|]. exact Ed.
        * destruct (H5 i Hi) as (n & a & Hm & Ha). exists n, a. split; [now apply has_app|assumption].
    - cbn [snd]. unfold well_formed.
      destruct (p_camera p) as [cm|] eqn:Ec; destruct (p_medium p) as [d|] eqn:Ed; cbn [isS push set_nodes set_camera set_medium s_nodes s_camera s_env s_medium];
      (split; [apply numbered_app; auto|]);
      (split; [exists ch0; now apply has_app|]);
      (split; [|split]); intros i Hi;
      try (destruct (H3 i Hi) as (n & a & Hm & Ha); exists n, a; split; [now apply has_app|assumption]);
      try (destruct (H4 i Hi) as (n & a & Hm & Ha & He); exists n, a; split; [now apply has_app|auto]);
      try (destruct (H5 i Hi) as (n & a & Hm & Ha); exists n, a; split; [now apply has_app|assumption]);
      injection Hi as <-; eexists; eexists; (split; [exact L|]); eassumption.
  Qed.

  Lemma add_prims_wf p l : forall s, well_formed is_env s -> well_formed is_env (add_prims is_kind p l s).
  Proof.
    induction l as [|[[a b] c] l IH]; intros s Hw; cbn; [assumption|]. apply IH, add_child_wf, push_wf; [assumption|reflexivity].
  Qed.

  Lemma import_wf off l : forall s k, well_formed is_env s -> size s = (off + Z.of_nat k)%Z ->
    (forall t n, nth_error l t = Some n -> n_index n = Z.of_nat (k + t)) ->
    well_formed is_env (fold_left (import_node off) l s).
  Proof.
    induction l as [|n l IH]; intros s k Hw Hs Hl; cbn; [assumption|].
    assert (Hn : n_index (shift_node off n) = size s).
    { assert (E := Hl 0 n eq_refl). destruct n; cbn in *; rewrite Hs; lia. }
    assert (Hw' : well_formed is_env (push s (shift_node off n))) by now apply push_wf.
    assert (Hw2 : well_formed is_env (import_node off s n)).
    { unfold import_node. destruct n as [i p|i ch inst loc]; cbn [shift_node] in *; [|assumption].
      destruct (isS (p_camera p)) eqn:Ec; [|assumption].
      destruct Hw' as (H1 & H2 & H3 & H4 & H5). unfold well_formed. cbn [set_camera s_nodes s_camera s_env s_medium].
      split; [assumption|]. split; [assumption|]. split; [|split; assumption]. intros j [= <-]. destruct (p_camera p) as [c|] eqn:Ep; [|discriminate].
      exists (NPrim (i + off) p), c. split; [|exact Ep]. cbn in Hn. rewrite Hn. exact (has_last (s_nodes s) _). }
    apply (IH _ (S k)); [assumption| |].
    - assert (E : size (import_node off s n) = (size s + 1)%Z).
      { unfold import_node, size. destruct (shift_node off n); [destruct (isS (p_camera p))|]; cbn [push set_nodes set_camera s_nodes]; rewrite app_length; cbn [List.length]; lia. }
      rewrite E, Hs. lia.
    - intros t m Ht. rewrite (Hl (S t) m Ht). f_equal. lia.
  Qed.

  Lemma apply_wf o s : models_numbered mnodes -> well_formed is_env s ->
    well_formed is_env (apply (F:=F) one mul get is_kind is_env prims mnodes s o).
  Proof.
    intros Hm Hw. destruct o; cbn [apply].
    - unfold reset, well_formed. cbn [s_nodes s_camera s_env s_medium]. split; [|split; [|split; [|split]]]; try discriminate.
      + intros [|[|k]] n; cbn; try discriminate. intros [= <-]. reflexivity.
      + exists []. split; [lia|reflexivity].
    - now apply create_wf.
    - now apply push_wf.
    - now apply push_wf.
    - now apply add_child_wf.
    - unfold add_child_from_model. destruct (_ || _); [now apply log_wf|].
      destruct (get_as get is_kind KModel loc) as [[m|]|e| |]; cbn [snd]; auto.
      destruct (prims m) as [l e]. cbn [snd]. now apply add_prims_wf.
    - unfold create_group_from_model. destruct (get_as get is_kind KModel loc) as [[m|]|e| |]; cbn [snd]; auto.
      assert (Hn := Hm m). destruct (mnodes m) as [l e]. cbn [snd fst] in *. apply (import_wf _ _ _ 0); [assumption|lia|]. intros t n Ht. now apply Hn.
    - unfold add_transformed_primitive. cbn [create_group_node].
      set (s1 := push s _). assert (W1 : well_formed is_env s1) by now apply push_wf.
      set (X := match jfind "model" prop with Some _ => _ | None => _ end).
      assert (W2 : well_formed is_env (snd X)); [subst X|destruct X as [[u|e| |] s2]; cbn [snd] in *; auto; now apply add_child_wf].
      destruct (jfind "model" prop) as [[| | | |loc| |]|]; cbn [snd]; auto.
      + unfold add_child_from_model. destruct (_ || _); [now apply log_wf|].
        destruct (get_as get is_kind KModel loc) as [[m|]|e| |]; cbn [snd]; auto.
        destruct (prims m) as [l e]. cbn [snd]. now apply add_prims_wf.
      + assert (W := create_wf prop s1 W1). destruct (create prop s1) as [[i|e| |] s2]; cbn [snd] in *; auto. now apply add_child_wf.
    - unfold build. destruct (traverse one mul fuel s) as [calls e]. exact Hw.
    - unfold set_accel. destruct (get_as get is_kind KAccel loc) as [a|e| |]; exact Hw.
  Qed.

  Lemma run_wf accel h : models_numbered mnodes -> well_formed is_env (run (F:=F) one mul get is_kind is_env prims mnodes accel h).
  Proof.
    intros Hm. unfold run.
    assert (W0 : well_formed is_env (construct accel : scene)).
    { unfold construct, reset, well_formed. cbn [s_nodes s_camera s_env s_medium]. split; [|split; [|split; [|split]]]; try discriminate.
      - intros [|[|k]] n; cbn; try discriminate. intros [= <-]. reflexivity.
      - exists []. split; [lia|reflexivity]. }
    revert W0. generalize (construct accel : scene). induction h as [|o h IH]; intros s Hs; cbn [fold_left]; [assumption|].
    apply IH. now apply apply_wf.
  Qed.

  (** ** Adding a child *)
  Lemma child_put ns p x ch inst loc c i d : has_node ns p (NGroup x ch inst loc) ->
    child (put ns (Z.to_nat p) (NGroup x (ch ++ [c]) inst loc)) i d <-> child ns i d \/ (i = p /\ d = c).
  Proof.
    intros Hn. split.
    - intros (k & y & ch' & inst' & loc' & H & Hk). rewrite (has_put _ _ _ _ _ _ Hn) in H. destruct H as [[-> [= -> -> -> ->]]|[Hne H]].
      + destruct (Nat.lt_ge_cases k (List.length ch)).
        * rewrite nth_error_app1 in Hk by assumption. left. exists k. do 4 eexists. split; eassumption.
        * rewrite nth_error_app2 in Hk by assumption. destruct (k - List.length ch) as [|z]; [|destruct z; discriminate].
          injection Hk as <-. auto.
      + left. exists k. do 4 eexists. split; eassumption.
    - intros [(k & y & ch' & inst' & loc' & H & Hk)|[-> ->]].
      + destruct (Z.eq_dec i p) as [->|Hne].
        * assert (E := has_node_fun _ _ _ _ H Hn). injection E as -> -> -> ->. exists k, x, (ch ++ [c]), inst, loc. split.
          { rewrite (has_put _ _ _ _ _ _ Hn). auto. }
          { rewrite nth_error_app1; [assumption|]. apply nth_error_Some. congruence. }
        * exists k, y, ch', inst', loc'. split; [|assumption]. rewrite (has_put _ _ _ _ _ _ Hn). auto.
      + exists (List.length ch), x, (ch ++ [c]), inst, loc. split; [rewrite (has_put _ _ _ _ _ _ Hn); auto|].
        rewrite nth_error_app2 by lia. rewrite Nat.sub_diag. reflexivity.
  Qed.

  Lemma add_child_sound p c s : children_exist (s_nodes s) -> acyclic (s_nodes s) ->
    (exists n, has_node (s_nodes s) c n) -> ~ descendant (s_nodes s) c p ->
    children_exist (s_nodes (add_child p c s)) /\ acyclic (s_nodes (add_child p c s)).
  Proof.
    intros He Ha [nc Hc] Hd. destruct (add_child_cases p c s) as [->|(x & ch & inst & loc & Hn & ->)]; [split; assumption|].
    cbn [set_nodes s_nodes]. set (ns' := put _ _ _).
    assert (Hput : forall i d, child ns' i d <-> child (s_nodes s) i d \/ (i = p /\ d = c)) by (intros; now apply child_put).
    assert (Hex : forall i n, has_node (s_nodes s) i n -> exists n', has_node ns' i n').
    { intros i n Hi. unfold ns'. destruct (Z.eq_dec i p) as [->|Hne].
      - eexists. rewrite (has_put _ _ _ _ _ _ Hn). left. auto.
      - exists n. rewrite (has_put _ _ _ _ _ _ Hn). auto. }
    split.
    - intros i d Hi. apply Hput in Hi. destruct Hi as [Hi|[-> ->]]; [|eauto]. destruct (He _ _ Hi) as [n Hn']. eauto.
    - assert (G : forall a b, clos_trans Z (child ns') a b ->
        clos_trans Z (child (s_nodes s)) a b \/ (descendant (s_nodes s) a p /\ descendant (s_nodes s) c b)).
      { intros a b H. apply clos_trans_t1n in H. induction H as [a b H|a d b H _ IH]; apply Hput in H.
        - destruct H as [H|[-> ->]]; [left; now apply t_step|right; split; apply rt_refl].
        - destruct H as [H|[-> ->]].
          + destruct IH as [IH|[I1 I2]]; [left; eapply t_trans; [apply t_step; eassumption|assumption]|right].
            split; [eapply rt_trans; [apply rt_step; eassumption|assumption]|assumption].
          + right. split; [apply rt_refl|]. destruct IH as [IH|[I1 I2]].
            * clear -IH. induction IH; [now apply rt_step|eapply rt_trans; eassumption].
            * assumption. }
      intros i Hi. apply G in Hi. destruct Hi as [Hi|[H1 H2]]; [exact (Ha i Hi)|].
      apply Hd. eapply rt_trans; eassumption.
  Qed.

  (** ** Import from a model *)
  Lemma import_nodes off l : forall s, s_nodes (fold_left (import_node off) l s) = s_nodes s ++ map (shift_node off) l.
  Proof.
    induction l as [|n l IH]; intros s; cbn; [now rewrite app_nil_r|]. rewrite IH.
    assert (E : s_nodes (import_node off s n) = s_nodes s ++ [shift_node off n]).
    { unfold import_node. destruct (shift_node off n); [destruct (isS (p_camera p))|]; reflexivity. }
    rewrite E, <- app_assoc. reflexivity.
  Qed.

  Lemma node_at_shift ns l i : (0 <= i)%Z ->
    node_at (ns ++ map (shift_node (Z.of_nat (List.length ns))) l) (i + Z.of_nat (List.length ns))
    = obind (node_at l i) (fun n => Ok (shift_node (Z.of_nat (List.length ns)) n)).
  Proof.
    intros Hi. unfold node_at. destruct (Z.ltb_spec (i + Z.of_nat (List.length ns)) 0); [lia|]. destruct (Z.ltb_spec i 0); [lia|].
    rewrite nth_error_app2 by lia. replace (Z.to_nat (i + Z.of_nat (List.length ns)) - List.length ns) with (Z.to_nat i) by lia.
    rewrite nth_error_map. destruct (nth_error l (Z.to_nat i)); reflexivity.
  Qed.

  Lemma visit_import ns l : children_exist l -> forall f i T, (0 <= i)%Z ->
    visit mul (ns ++ map (shift_node (Z.of_nat (List.length ns))) l) f (i + Z.of_nat (List.length ns)) T
    = (map (relabel (Z.of_nat (List.length ns))) (fst (visit mul l f i T)), snd (visit mul l f i T)).
  Proof.
    intros He. induction f as [|f IH]; intros i T Hi; [reflexivity|]. rewrite !visit_S, node_at_shift by assumption.
    destruct (node_at l i) as [[x p|x ch inst loc]| | |] eqn:En; try reflexivity.
    cbn [obind shift_node]. cbv zeta. cbn [fst snd map]. apply node_at_ok in En.
    assert (Hch : forall c, In c ch -> (0 <= c)%Z).
    { intros c Hc. apply In_nth_error in Hc. destruct Hc as [k Hk]. destruct (He i c) as [n [Hn _]]; [|assumption].
      exists k, x, ch, inst, loc. auto. }
    unfold here. generalize (match loc with Some L => mul T L | None => T end). intros T'.
    set (A := ns ++ _) in *. unfold relabel at 1. cbn [fst snd shift_node].
    assert (E : vlist (fun c => visit mul A f c T') (map (fun c => (c + Z.of_nat (List.length ns))%Z) ch)
      = (map (relabel (Z.of_nat (List.length ns))) (fst (vlist (fun c => visit mul l f c T') ch)), snd (vlist (fun c => visit mul l f c T') ch))).
    { clear En. induction ch as [|c ch IHc]; [reflexivity|]. cbn [map vlist]. rewrite IH by (apply Hch; now left). cbn [fst snd].
      destruct (snd (visit mul l f c T')); cbn [fst snd]; try reflexivity.
      rewrite IHc by (intros; apply Hch; now right). cbn [fst snd]. now rewrite map_app. }
    rewrite E. reflexivity.
  Qed.

  Lemma put_app {A} (l l' : list A) i x : i < List.length l -> put (l ++ l') i x = put l i x ++ l'.
  Proof. revert i. induction l as [|y l IH]; intros [|i] H; cbn in *; try lia; [reflexivity|]. now rewrite IH by lia. Qed.
  Lemma put_put {A} (l : list A) i x y : put (put l i x) i y = put l i y.
  Proof. revert i. induction l as [|z l IH]; intros [|i]; cbn; try reflexivity. now rewrite IH. Qed.

  Definition prims_from (k : nat) (l : list (option nat * option nat * option nat)) : list node :=
    map (fun e => let '(j, (a, b, c)) := e in
                  NPrim (Z.of_nat j) (mk_prim (cast is_kind KMesh a) (cast is_kind KMaterial b) (cast is_kind KLight c) None None))
        (combine (seq k (List.length l)) l).

  Lemma add_prims_nodes p l : forall s x ch inst loc, has_node (s_nodes s) p (NGroup x ch inst loc) ->
    s_nodes (add_prims is_kind p l s) =
      put (s_nodes s) (Z.to_nat p) (NGroup x (ch ++ map Z.of_nat (seq (List.length (s_nodes s)) (List.length l))) inst loc)
      ++ prims_from (List.length (s_nodes s)) l.
  Proof.
    induction l as [|[[a b] c] l IH]; intros s x ch inst loc H.
    - cbn. rewrite !app_nil_r. destruct H as [_ H]. revert H. generalize (Z.to_nat p). generalize (s_nodes s). clear.
      induction l as [|y l IH]; intros [|k] H; cbn in *; try discriminate; [congruence|]. now rewrite <- IH.
    - cbn [add_prims]. cbv zeta. set (s1 := push s _).
      assert (H1 : has_node (s_nodes s1) p (NGroup x ch inst loc)) by (apply has_app, H).
      destruct (has_node_lt _ _ _ H) as [Hp0 Hp1].
      assert (E : add_child p (size s) s1 = set_nodes s1 (put (s_nodes s1) (Z.to_nat p) (NGroup x (ch ++ [size s]) inst loc))).
      { unfold add_child. destruct H1 as [_ H1]. rewrite H1. destruct (Z.ltb_spec p 0); [lia|]. destruct (Z.leb_spec (size s1) p); [|reflexivity].
        unfold size, s1, push, set_nodes in *. cbn [s_nodes] in *. rewrite app_length in *. cbn in *. lia. }
      rewrite E. set (n1 := NGroup x (ch ++ [size s]) inst loc). set (s2 := set_nodes s1 _).
      assert (H2 : has_node (s_nodes s2) p n1) by (unfold s2; cbn [set_nodes s_nodes]; rewrite (has_put _ _ _ _ _ _ H1); auto).
      rewrite (IH s2 _ _ _ _ H2). unfold s2. cbn [set_nodes s_nodes]. rewrite put_put, put_length.
      unfold s1, push, set_nodes. cbn [s_nodes]. rewrite app_length. cbn [List.length].
      rewrite put_app by lia. rewrite <- !app_assoc. unfold prims_from. cbn [List.length seq combine map app].
      rewrite Nat.add_1_r. unfold size. reflexivity.
  Qed.

  (** ** Lights *)
  Definition is_light_call (c : node * M) : bool := isS (light_of (fst c)).

  Lemma collect_lights calls : forall acc, fst (fold_left collect calls acc) =
    fst acc ++ map (fun c => (snd c, n_index (fst c))) (filter is_light_call calls).
  Proof.
    induction calls as [|[[i p|i ch inst loc] T] calls IH]; intros acc; cbn [fold_left filter].
    - now rewrite app_nil_r.
    - rewrite IH. unfold is_light_call at 2. cbn [collect fst light_of]. destruct (isS (p_light p)); cbn [fst map]; [|reflexivity].
      now rewrite <- app_assoc.
    - rewrite IH. reflexivity.
  Qed.

  Lemma zfind_zset k v k' m : zfind k (zset k' v m) = if (k =? k')%Z then Some v else zfind k m.
  Proof.
    induction m as [|[a b] m IH]; cbn.
    - destruct (k =? k')%Z; reflexivity.
    - destruct (Z.eqb_spec k' a) as [->|Hne]; cbn.
      + destruct (k =? a)%Z; reflexivity.
      + rewrite IH. destruct (Z.eqb_spec k a) as [->|]; [|reflexivity]. destruct (Z.eqb_spec a k'); [congruence|reflexivity].
  Qed.

  (** The map holds, for each node, the position of its last instance in the light list. *)
  Definition last_pos (l : list (M * Z)) (m : list (Z * Z)) : Prop :=
    forall k, match zfind k m with
              | Some i => exists T, (0 <= i)%Z /\ nth_error l (Z.to_nat i) = Some (T, k)
                          /\ forall j T', nth_error l j = Some (T', k) -> (Z.of_nat j <= i)%Z
              | None => forall j T', nth_error l j <> Some (T', k)
              end.

  Lemma collect_map calls : forall acc, last_pos (fst acc) (snd acc) -> last_pos (fst (fold_left collect calls acc)) (snd (fold_left collect calls acc)).
  Proof.
    induction calls as [|[[i p|i ch inst loc] T] calls IH]; intros acc Ha; cbn [fold_left]; [assumption| |now apply IH].
    apply IH. cbn [collect]. destruct (isS (p_light p)); [|assumption]. cbn [fst snd]. intros k. rewrite zfind_zset.
    destruct (Z.eqb_spec k i) as [->|Hne].
    - exists T. split; [lia|]. rewrite Nat2Z.id. split; [rewrite nth_error_app2 by lia; rewrite Nat.sub_diag; reflexivity|].
      intros j T' Hj. assert (nth_error (fst acc ++ [(T, i)]) j <> None) by congruence. apply nth_error_Some in H. rewrite app_length in H. cbn in H. lia.
    - assert (L : forall j T', nth_error (fst acc ++ [(T, i)]) j = Some (T', k) -> nth_error (fst acc) j = Some (T', k)).
      { intros j T' Hj. destruct (Nat.lt_ge_cases j (List.length (fst acc))); [now rewrite nth_error_app1 in Hj|].
        rewrite nth_error_app2 in Hj by assumption. destruct (j - List.length (fst acc)) as [|z]; [|destruct z; discriminate]. injection Hj as _ ->. contradiction. }
      specialize (Ha k). destruct (zfind k (snd acc)) as [q|].
      + destruct Ha as (T1 & H1 & H2 & H3). exists T1. split; [assumption|]. split.
        * rewrite nth_error_app1; [assumption|]. apply nth_error_Some. congruence.
        * intros j T' Hj. eapply H3. apply L. eassumption.
      + intros j T' Hj. apply L in Hj. exact (Ha _ _ Hj).
  Qed.

  Lemma path_fun ns i p j Ls j' Ls' : path ns i p j Ls -> path ns i p j' Ls' -> j = j' /\ Ls = Ls'.
  Proof.
    intros H. revert j' Ls'. induction H as [i n Hn|i k c p j Ls x ch inst loc Hn Hk Hp IH]; intros j' Ls' H'; inversion H'; subst; [auto|].
    match goal with A : has_node ns i _, B : has_node ns i _ |- _ => assert (E := has_node_fun _ _ _ _ A B); injection E as <- <- <- <- end.
    match goal with A : nth_error ch k = Some ?u, B : nth_error ch k = Some ?v |- _ => assert (u = v) by congruence; subst end.
    match goal with A : path ns _ p j' _ |- _ => destruct (IH _ _ A) as [-> ->] end. auto.
  Qed.

  Lemma build_lights f s : numbered (s_nodes s) -> snd (traverse one mul f s) = Ok tt ->
    exists paths, StronglySorted before paths
      /\ (forall p, In p paths <-> exists j Ls n, path (s_nodes s) 0 p j Ls /\ has_node (s_nodes s) j n /\ light_of n <> None)
      /\ Forall2 (fun p l => exists Ls, path (s_nodes s) 0 p (snd l) Ls /\ fst l = fold_left mul Ls one) paths (s_lights (snd (build one mul f s))).
  Proof.
    intros Hn Ht. unfold build. destruct (traverse one mul f s) as [calls e] eqn:E. cbn in Ht. subst e. cbn [snd set_lights s_lights].
    rewrite collect_lights. cbn [fst app]. unfold traverse in E.
    destruct (visit_spec mul _ _ _ _ _ E) as (paths & Sp & Ip & Fp).
    destruct (filter_related before _ is_light_call _ _ Sp Fp) as (paths' & S' & F' & I' & P' & Q').
    exists paths'. split; [assumption|]. split.
    - intros p. split.
      + intros Hp. destruct (P' p Hp) as ([n T] & Hin & (j & Ls & Hpath & Hno & HT) & Hl). cbn in Hno.
        exists j, Ls, n. split; [assumption|]. split; [assumption|]. unfold is_light_call in Hl. cbn in Hl. destruct (light_of n); [discriminate|discriminate].
      + intros (j & Ls & n & Hpath & Hno & Hl). apply Q'.
        * apply Ip. eauto.
        * intros [n' T'] (j' & Ls' & Hpath' & Hno' & _). destruct (path_fun _ _ _ _ _ _ _ Hpath Hpath') as [<- <-].
          cbn in Hno'. assert (E' := has_node_fun _ _ _ _ Hno Hno'). subst n'. unfold is_light_call. cbn. destruct (light_of n); [reflexivity|contradiction].
    - clear -F' Hn. induction F' as [|p [n T] pl cl (j & Ls & Hp & Hno & HT) _ IH]; cbn; constructor; [|assumption].
      exists Ls. cbn [fst snd] in *. split; [|assumption]. destruct Hno as [Hj Hno]. rewrite (Hn _ _ Hno), Z2Nat.id by lia. assumption.
  Qed.

  Lemma build_index f s : last_pos (s_lights (snd (build one mul f s))) (s_lmap (snd (build one mul f s))).
  Proof.
    unfold build. destruct (traverse one mul f s) as [calls e]. cbn [snd set_lights s_lights s_lmap].
    apply collect_map. intros k. cbn. intros [|j] T'; discriminate.
  Qed.

  Lemma build_nodes f s : s_nodes (snd (build one mul f s)) = s_nodes s.
  Proof. unfold build. destruct (traverse one mul f s) as [calls e]. reflexivity. Qed.
End O.
