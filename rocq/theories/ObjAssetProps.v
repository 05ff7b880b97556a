(** C76: an OBJ model makes one primitive per mesh, with the material and the light of its MTL entry. *)
From Coq Require Import List ZArith Bool Ascii String Reals Lra Lia DecimalString DecimalNat.
From Verif Require Import Base LogModel ObjModel ObjSpec ObjProofs ObjProps SurfModel ObjAssetModel ObjAssetSpec.
Import ListNotations.
Local Open Scope nat_scope. Local Open Scope list_scope.

Lemma text_eqb_true a b : text_eqb a b = true <-> a = b.
Proof. unfold text_eqb. destruct (list_eq_dec ascii_dec a b); split; auto; discriminate. Qed.
Lemma lookup_cons_ne n k v l : k <> n -> lookup n ((k, v) :: l) = lookup n l.
Proof. intros H. cbn. destruct (text_eqb k n) eqn:E; [apply text_eqb_true in E; contradiction|reflexivity]. Qed.
Lemma lookup_cons_eq n v l : lookup n ((n, v) :: l) = Some v.
Proof. cbn. destruct (text_eqb n n) eqn:E; [reflexivity|]. assert (text_eqb n n = true) by now apply text_eqb_true. congruence. Qed.

Lemma emits_iff m : emits (m_Ke R m) = true <-> luminous m.
Proof.
  unfold emits, luminous. destruct (m_Ke R m) as [[x y] z]. destruct (Rlt_dec 0 (Rmax (Rmax x y) z)) as [H|H].
  - split; [intros _|reflexivity]. unfold Rmax in H. destruct (Rle_dec x y), (Rle_dec _ z); lra.
  - split; [discriminate|]. intros Q. exfalso. apply H. unfold Rmax. destruct (Rle_dec x y), (Rle_dec _ z); lra.
Qed.

(** A state that has everything [s] has, except that names in [K] may mean something else. *)
Definition grown (K : text -> Prop) (s s' : model) : Prop :=
  (exists l, assets s' = assets s ++ l) /\ forall n, ~ K n -> lookup n (names s') = lookup n (names s).
Lemma grown_refl K s : grown K s s.
Proof. split; [exists []; now rewrite app_nil_r|auto]. Qed.
Lemma grown_trans K s1 s2 s3 : grown K s1 s2 -> grown K s2 s3 -> grown K s1 s3.
Proof.
  intros [[l A] B] [[l' A'] B']. split; [exists (l ++ l'); now rewrite A', A, app_assoc|]. intros n H. now rewrite B', B.
Qed.
Lemma grown_push (K : text -> Prop) n a s : K n -> grown K s (push n a s).
Proof. intros H. split; [now exists [a]|]. intros m Hm. cbn [push names]. apply lookup_cons_ne. intros <-. contradiction. Qed.
Lemma nth_grown K s s' i a : grown K s s' -> nth_error (assets s) i = Some a -> nth_error (assets s') i = Some a.
Proof. intros [[l ->] _] H. rewrite nth_error_app1; [exact H|]. apply nth_error_Some. congruence. Qed.
Lemma found_grown K s s' n a : grown K s s' -> ~ K n -> found s n = Some a -> found s' n = Some a.
Proof.
  intros G H F. unfold found in *. rewrite (proj2 G n H). destruct (lookup n (names s)); [|discriminate]. now apply (nth_grown K s s').
Qed.
Lemma found_push n a s : found (push n a s) n = Some a.
Proof.
  unfold found. cbn [push names assets]. rewrite lookup_cons_eq. rewrite nth_error_app2, Nat.sub_diag by lia. reflexivity.
Qed.

Section Build.
Variable makes : asset -> bool.
Variable o : options.
Hypothesis can : forall a, makes a = true.

Lemma add_ok n a s : add makes n a s = Some (push n a s).
Proof using can. unfold add. now rewrite can. Qed.

(** ** Materials *)

Lemma made_ok find m tex : base_material o = None -> (tex = None -> m_map R m = []) ->
  (forall t, tex = Some t -> m_map R m <> [] /\ find t = Some (ATexture (m_map R m))) ->
  made find o m (make_material o m tex).
Proof using.
  intros B T1 T2. unfold make_material.
  assert (Rx : roughness m (rough_x m) (rough_y m)).
  { assert (Q : (0 <= Rmax 0 (1 - m_an R m * (9 / 10)))%R) by apply Rmax_l. exists (stretch m). unfold stretch, safe_sqrt.
    split; [apply sqrt_pos|]. split; [rewrite sqrt_sqrt by exact Q; f_equal; lra|]. unfold rough_x, rough_y, rough, stretch, safe_sqrt.
    split; f_equal; lra. }
  destruct (Z.eqb_spec (m_illum R m) 5) as [E5|N5]; cbn [orb].
  - destruct (skip_specular o) eqn:S; [now apply made_black; auto|].
    destruct (Z.eqb_spec (m_illum R m) 7) as [E7|N7]; [congruence|now apply made_mirror].
  - destruct (Z.eqb_spec (m_illum R m) 7) as [E7|N7]; cbn [orb].
    + destruct (skip_specular o) eqn:S; [now apply made_black; auto|now apply made_glass].
    + destruct tex as [t|]; [destruct (T2 t eq_refl)|].
      * now apply made_textured.
      * now apply made_plain; auto.
Qed.

Definition tex_of (m : mtlR) : option text := match m_map R m with [] => None | p => Some (texture_name p) end.
Definition entry (m : mtlR) : material :=
  match base_material o with Some ref => MProxy ref | None => make_material o m (tex_of m) end.

(** What the model has for the materials [done]; its names are theirs and those of their textures. *)
Definition keys (done texs : list mtlR) (s : model) : Prop :=
  forall n, found s n <> None \/ lookup n (names s) <> None ->
    (exists m, In m done /\ n = m_name R m) \/ (exists m, In m texs /\ m_map R m <> [] /\ n = texture_name (m_map R m)).
Definition textures (texs : list mtlR) (s : model) : Prop :=
  base_material o = None -> forall m, In m texs -> m_map R m <> [] -> found s (texture_name (m_map R m)) = Some (ATexture (m_map R m)).
Definition has (s : model) (done texs : list mtlR) : Prop :=
  (forall m, In m done -> found s (m_name R m) = Some (AMaterial (entry m)))
  /\ textures texs s /\ keys done texs s /\ groups s = [].

Lemma stem_name p q : texture_name p = texture_name q -> stem p = stem q.
Proof using. unfold texture_name. apply app_inv_head. Qed.
Lemma texture_begins p : begins_with (str "texture_") (texture_name p).
Proof using. now exists (stem p). Qed.

Definition named_apart (done : list mtlR) (m : mtlR) : Prop :=
  (forall m', In m' done -> m_name R m' <> m_name R m) /\ forall p, texture_name p <> m_name R m.

Lemma push_material done texs m s : has s done texs -> named_apart done m ->
  has (push (m_name R m) (AMaterial (entry m)) s) (done ++ [m]) texs.
Proof using.
  intros (H1 & H2 & H3 & H4) (N1 & N2).
  assert (G : grown (fun n => n = m_name R m) s (push (m_name R m) (AMaterial (entry m)) s)) by now apply grown_push.
  split; [|split; [|split]].
  - intros m' I. apply in_app_or in I as [I|[<-|[]]]; [|apply found_push].
    apply (found_grown _ _ _ _ _ G); [now apply N1|now apply H1].
  - intros B m' I T. apply (found_grown _ _ _ _ _ G); [apply N2|now apply H2].
  - intros n Hn. destruct (list_eq_dec ascii_dec n (m_name R m)) as [->|N].
    + left. exists m. split; [apply in_or_app; right; now left|reflexivity].
    + assert (Q : found s n <> None \/ lookup n (names s) <> None).
      { right. destruct Hn as [Hn|Hn].
        - unfold found in Hn. rewrite (proj2 G n N) in Hn. destruct (lookup n (names s)); [discriminate|contradiction].
        - now rewrite (proj2 G n N) in Hn. }
      destruct (H3 n Q) as [(m' & I & E)|E]; [left; exists m'; split; [apply in_or_app; now left|exact E]|now right].
  - exact H4.
Qed.

Lemma push_texture done texs m s : has s done texs -> m_map R m <> [] -> lookup (texture_name (m_map R m)) (names s) = None ->
  has (push (texture_name (m_map R m)) (ATexture (m_map R m)) s) done (texs ++ [m]).
Proof using.
  intros (H1 & H2 & H3 & H4) T L. set (id := texture_name (m_map R m)) in *.
  assert (G : grown (fun n => n = id) s (push id (ATexture (m_map R m)) s)) by now apply grown_push.
  assert (NF : forall n a, found s n = Some a -> n <> id) by (intros n a F ->; unfold found in F; rewrite L in F; discriminate).
  split; [|split; [|split]].
  - intros m' I. assert (F := H1 m' I). apply (found_grown _ _ _ _ _ G); [now apply (NF _ _ F)|exact F].
  - intros B m' I T'. apply in_app_or in I as [I|[<-|[]]]; [|apply found_push].
    assert (F := H2 B m' I T'). apply (found_grown _ _ _ _ _ G); [now apply (NF _ _ F)|exact F].
  - intros n Hn. destruct (list_eq_dec ascii_dec n id) as [->|N].
    + right. exists m. split; [apply in_or_app; right; now left|split; [exact T|reflexivity]].
    + assert (Q : found s n <> None \/ lookup n (names s) <> None).
      { right. destruct Hn as [Hn|Hn].
        - unfold found in Hn. rewrite (proj2 G n N) in Hn. destruct (lookup n (names s)); [discriminate|contradiction].
        - now rewrite (proj2 G n N) in Hn. }
      destruct (H3 n Q) as [E|(m' & I & E)]; [now left|right; exists m'; split; [apply in_or_app; now left|exact E]].
  - exact H4.
Qed.

(** A texture of the same stem is there already. *)
Lemma keep_texture done texs m s : has s done texs -> (forall m', In m' done -> m_name R m' <> texture_name (m_map R m)) ->
  (forall m', In m' texs -> stem (m_map R m') = stem (m_map R m) -> m_map R m' = m_map R m) ->
  (m_map R m <> [] -> lookup (texture_name (m_map R m)) (names s) <> None) -> has s done (texs ++ [m]).
Proof using.
  intros (H1 & H2 & H3 & H4) N St L. split; [exact H1|]. split; [|split; [|exact H4]].
  - intros B m' I T. apply in_app_or in I as [I|[<-|[]]]; [now apply H2|].
    destruct (H3 (texture_name (m_map R m)) (or_intror (L T))) as [(m' & I & E)|(m' & I & T' & E)]; [destruct (N m' I (eq_sym E))|].
    assert (E' : m_map R m' = m_map R m) by (apply St; [exact I|]; symmetry; now apply stem_name).
    rewrite <- E'. now apply H2.
  - intros n Hn. destruct (H3 n Hn) as [E|(m' & I & E)]; [now left|right; exists m'; split; [apply in_or_app; now left|exact E]].
Qed.

Lemma has_app_nil s done texs m : has s done texs -> m_map R m = [] -> has s done (texs ++ [m]).
Proof using.
  intros (H1 & H2 & H3 & H4) T. split; [exact H1|]. split; [|split; [|exact H4]].
  - intros B m' I T'. apply in_app_or in I as [I|[<-|[]]]; [now apply H2|contradiction].
  - intros n Hn. destruct (H3 n Hn) as [E|(m' & I & E)]; [now left|right; exists m'; split; [apply in_or_app; now left|exact E]].
Qed.
Lemma has_base s done texs m ref : has s done texs -> base_material o = Some ref -> has s done (texs ++ [m]).
Proof using.
  intros (H1 & H2 & H3 & H4) B. split; [exact H1|]. split; [|split; [|exact H4]].
  - intros B'. congruence.
  - intros n Hn. destruct (H3 n Hn) as [E|(m' & I & E)]; [now left|right; exists m'; split; [apply in_or_app; now left|exact E]].
Qed.

Lemma step_material done m s : has s done done -> clear_names (done ++ [m]) ->
  exists s', process_material makes o m s = Some s' /\ has s' (done ++ [m]) (done ++ [m]).
Proof using can.
  intros H (C1 & C2 & C3).
  assert (Im : In m (done ++ [m])) by (apply in_or_app; right; now left).
  assert (Id : forall m', In m' done -> In m' (done ++ [m])) by (intros; apply in_or_app; now left).
  assert (Ap : named_apart done m).
  { split.
    - intros m' I E. rewrite map_app in C1. apply NoDup_remove_2 in C1. apply C1. rewrite app_nil_r, <- E. now apply in_map.
    - intros p E. apply (proj2 (C2 m Im)). rewrite <- E. apply texture_begins. }
  unfold process_material. destruct (base_material o) as [ref|] eqn:B.
  - rewrite add_ok. eexists. split; [reflexivity|]. replace (MProxy ref) with (entry m) by (unfold entry; now rewrite B).
    apply push_material; [now apply (has_base _ _ _ _ ref)|exact Ap].
  - destruct (m_map R m) as [|c p] eqn:T.
    + rewrite add_ok. eexists. split; [reflexivity|]. replace (make_material o m None) with (entry m) by (unfold entry, tex_of; now rewrite B, T).
      apply push_material; [now apply has_app_nil|exact Ap].
    + rewrite <- T. assert (T' : m_map R m <> []) by congruence.
      assert (En : make_material o m (Some (texture_name (m_map R m))) = entry m).
      { unfold entry, tex_of. rewrite B. destruct (m_map R m); [contradiction|reflexivity]. }
      destruct (lookup (texture_name (m_map R m)) (names s)) as [i|] eqn:L.
      * rewrite add_ok. eexists. split; [reflexivity|]. rewrite En.
        apply push_material; [|exact Ap]. apply keep_texture; auto.
        -- intros m' I E. apply (proj2 (C2 m' (Id m' I))). rewrite E. apply texture_begins.
        -- intros _. congruence.
      * rewrite !add_ok. eexists. split; [reflexivity|]. rewrite En.
        apply push_material; [|exact Ap]. now apply push_texture.
Qed.

Lemma all_materials ms : forall done s, has s done done -> clear_names (done ++ ms) ->
  exists s', all (process_material makes o) ms s = Some s' /\ has s' (done ++ ms) (done ++ ms).
Proof using can.
  induction ms as [|m ms IH]; intros done s H C; cbn [all].
  - rewrite app_nil_r. eauto.
  - assert (C' : clear_names (done ++ [m])).
    { destruct C as (C1 & C2 & C3). split; [|split].
      - rewrite map_app in C1. cbn [map] in C1. replace (map (m_name R) done ++ m_name R m :: map (m_name R) ms) with ((map (m_name R) (done ++ [m])) ++ map (m_name R) ms) in C1 by (rewrite map_app, <- app_assoc; reflexivity).
        clear - C1. revert C1. generalize (map (m_name R) (done ++ [m])) as l. induction l as [|x l IHl]; cbn; intros N; [constructor|].
        inversion N; subst. constructor; [intros Q; apply H1; apply in_or_app; now left|now apply IHl].
      - intros m' I. apply C2. apply in_app_or in I as [I|[<-|[]]]; apply in_or_app; [now left|right; now left].
      - intros m1 m2 I1 I2. apply C3; [apply in_app_or in I1 as [I|[<-|[]]]|apply in_app_or in I2 as [I|[<-|[]]]]; apply in_or_app; try (now left); right; now left. }
    destruct (step_material done m s H C') as (s1 & -> & H1).
    replace (done ++ m :: ms) with ((done ++ [m]) ++ ms) in * by (now rewrite <- app_assoc). now apply IH.
Qed.

(** ** Meshes *)

Lemma str_inj a b : str a = str b -> a = b.
Proof using. unfold str. intros H. rewrite <- (string_of_list_ascii_of_string a), <- (string_of_list_ascii_of_string b). now rewrite H. Qed.
Lemma decimal_inj a b : decimal_text a = decimal_text b -> a = b.
Proof using.
  unfold decimal_text. intros H. apply str_inj in H.
  assert (Q : forall n, NilZero.uint_of_string (NilZero.string_of_uint (Nat.to_uint n)) = Some (Nat.to_uint n))
    by (intros n; apply NilZero.usu; intros E; assert (F := DecimalNat.Unsigned.of_to n); rewrite E in F; cbn in F; subst n; discriminate).
  apply DecimalNat.Unsigned.to_uint_inj. assert (Qa := Q a). rewrite H, Q in Qa. now injection Qa.
Qed.
Lemma decimal_digits n : ~ In "_"%char (decimal_text n).
Proof using.
  unfold decimal_text, str. assert (H : forall d, ~ In "_"%char (list_ascii_of_string (NilEmpty.string_of_uint d))).
  { induction d; cbn; try tauto; intros [E|E]; try discriminate; contradiction. }
  unfold NilZero.string_of_uint. destruct (Nat.to_uint n); try apply H. cbn. intros [E|[]]. discriminate.
Qed.
Lemma mesh_inj a b : mesh_name a = mesh_name b -> a = b.
Proof using. unfold mesh_name. intros H. apply app_inv_head in H. now apply decimal_inj. Qed.
Lemma mesh_light a b : mesh_name a <> light_name b.
Proof using.
  unfold light_name, mesh_name. rewrite <- app_assoc. intros H. apply app_inv_head in H. apply (decimal_digits a). rewrite H.
  apply in_or_app. right. now left.
Qed.

(** A group that gives the primitive of [x]. *)
Definition group_ok (s : model) (x : list findex * mtlR) (g : nat * nat * option nat) : Prop :=
  let '(i, j, l) := g in
  nth_error (assets s) i = Some (AMesh (fst x)) /\ nth_error (assets s) j = Some (AMaterial (entry (snd x)))
  /\ if emits (m_Ke R (snd x))
     then exists k, l = Some k /\ nth_error (assets s) k = Some (ALight (m_Ke R (snd x)) (mesh_name i)) /\ found s (mesh_name i) = Some (AMesh (fst x))
     else l = None.
Definition meshy (k : nat) (n : text) : Prop := n = mesh_name k \/ n = light_name k.
Lemma group_grown s s' x g : grown (meshy (List.length (assets s))) s s' -> group_ok s x g -> group_ok s' x g.
Proof using.
  intros G. destruct g as [[i j] l]. unfold group_ok. intros (A & B & C).
  assert (I : i < List.length (assets s)) by (apply nth_error_Some; congruence).
  split; [now apply (nth_grown _ _ _ _ _ G)|]. split; [now apply (nth_grown _ _ _ _ _ G)|].
  destruct (emits (m_Ke R (snd x))); [|exact C]. destruct C as (k & -> & D & E). exists k. split; [reflexivity|].
  split; [now apply (nth_grown _ _ _ _ _ G)|]. apply (found_grown _ _ _ _ _ G); [|exact E].
  intros [Q|Q]; [apply mesh_inj in Q; lia|now apply mesh_light in Q].
Qed.

Section Meshes.
Variable ms : list mtlR.
Hypothesis clear : clear_names ms.

Definition ready_for (s : model) (done : list (list findex * mtlR)) : Prop :=
  (forall m, In m ms -> found s (m_name R m) = Some (AMaterial (entry m))) /\ textures ms s
  /\ Forall2 (group_ok s) done (groups s).

Lemma not_meshy m k : In m ms -> ~ meshy k (m_name R m).
Proof using clear.
  intros I [E|E]; apply (proj1 (proj1 (proj2 clear) m I)); rewrite E; unfold light_name, mesh_name; [eexists; reflexivity|].
  rewrite <- app_assoc. eexists. reflexivity.
Qed.
Lemma texture_not_meshy p k : ~ meshy k (texture_name p).
Proof using. intros [E|E]; discriminate. Qed.

Lemma ready_grown s s' done : grown (meshy (List.length (assets s))) s s' -> groups s' = groups s -> ready_for s done -> ready_for s' done.
Proof using clear.
  intros G E (A & B & C). split; [|split].
  - intros m I. apply (found_grown _ _ _ _ _ G); [now apply not_meshy|now apply A].
  - intros Bm m I T. apply (found_grown _ _ _ _ _ G); [apply texture_not_meshy|now apply B].
  - rewrite E. clear - C G. induction C as [|x g l gs H C IH]; constructor; [now apply (group_grown s)|exact IH].
Qed.

Lemma found_lookup s n a : found s n = Some a -> exists i, lookup n (names s) = Some i /\ nth_error (assets s) i = Some a.
Proof using. unfold found. destruct (lookup n (names s)) as [i|]; [eauto|discriminate]. Qed.

Lemma step_mesh fs m s done : In m ms -> ready_for s done ->
  exists s', process_mesh makes fs m s = Some s' /\ ready_for s' (done ++ [(fs, m)]).
Proof using can clear.
  intros I Rd. unfold process_mesh. set (k := List.length (assets s)). rewrite add_ok.
  set (s1 := push (mesh_name k) (AMesh fs) s).
  assert (K1 : meshy k (mesh_name k)) by now left. assert (K2 : meshy k (light_name k)) by now right.
  assert (G1 : grown (meshy k) s s1) by now apply grown_push.
  assert (F1 : found s1 (mesh_name k) = Some (AMesh fs)) by apply found_push.
  assert (L1 : lookup (mesh_name k) (names s1) = Some k) by apply lookup_cons_eq.
  assert (N1 : nth_error (assets s1) k = Some (AMesh fs)) by (unfold found in F1; now rewrite L1 in F1).
  assert (Main : forall s2 light, grown (meshy k) s s2 -> grown (fun n => n = light_name k) s1 s2 -> groups s2 = groups s ->
    (if emits (m_Ke R m) then exists i, light = Some i /\ nth_error (assets s2) i = Some (ALight (m_Ke R m) (mesh_name k)) else light = None) ->
    exists s', (let '(mesh, s3) := index_of (mesh_name k) s2 in let '(mat, s4) := index_of (m_name R m) s3 in
      Some (mk_model (assets s4) (names s4) (groups s4 ++ [(mesh, mat, light)]))) = Some s' /\ ready_for s' (done ++ [(fs, m)])).
  { intros s2 light G2 G12 Gr Lt.
    assert (Rd2 : ready_for s2 done) by now apply (ready_grown s).
    destruct Rd2 as (A & B & C). destruct (found_lookup _ _ _ (A m I)) as (j & Lj & Nj).
    assert (Lm : lookup (mesh_name k) (names s2) = Some k) by (rewrite (proj2 G12); [exact L1|intros Q; now apply mesh_light in Q]).
    assert (Nk : nth_error (assets s2) k = Some (AMesh fs)) by exact (nth_grown _ _ _ _ _ G12 N1).
    unfold index_of. rewrite Lm, Lj. eexists. split; [reflexivity|]. split; [exact A|]. split; [exact B|]. cbn [groups].
    apply Forall2_app; [exact C|]. constructor; [|constructor]. cbn [group_ok fst snd assets]. split; [exact Nk|]. split; [exact Nj|].
    destruct (emits (m_Ke R m)); [|exact Lt]. destruct Lt as (i & -> & Ni). exists i. split; [reflexivity|]. split; [exact Ni|].
    unfold found. cbn [names assets]. now rewrite Lm. }
  destruct (emits (m_Ke R m)) eqn:Em.
  - rewrite add_ok. apply Main.
    + apply (grown_trans _ _ s1); [exact G1|now apply grown_push].
    + now apply grown_push.
    + reflexivity.
    + eexists. split; [reflexivity|]. cbn [push assets]. rewrite nth_error_app2, Nat.sub_diag by lia. reflexivity.
  - apply Main; [exact G1|apply grown_refl|reflexivity|reflexivity].
Qed.

Lemma all_meshes meshes : forall done s, (forall x, In x meshes -> In (snd x) ms) -> ready_for s done ->
  exists s', all (fun x => process_mesh makes (fst x) (snd x)) meshes s = Some s' /\ ready_for s' (done ++ meshes).
Proof using can clear.
  induction meshes as [|[fs m] l IH]; intros done s I Rd; cbn [all].
  - rewrite app_nil_r. eauto.
  - cbn [fst snd]. destruct (step_mesh fs m s done (I _ (or_introl eq_refl)) Rd) as (s1 & -> & R1).
    replace (done ++ (fs, m) :: l) with ((done ++ [(fs, m)]) ++ l) by (now rewrite <- app_assoc).
    apply IH; [|exact R1]. intros x Hx. apply I. now right.
Qed.

Lemma primitives s meshes : (forall x, In x meshes -> In (snd x) ms) -> ready_for s meshes ->
  exists ps, create_primitives s = Ok ps /\ Forall2 (fun x p => primitive_of (found s) o (fst x) (snd x) p) meshes ps.
Proof using.
  intros I (A & B & C). unfold create_primitives. induction C as [|[fs m] [[i j] l] meshes gs H C IH]; [exists []; split; [reflexivity|constructor]|].
  destruct IH as (ps & E & F). { intros x Hx. apply I. now right. }
  unfold group_ok in H. cbn [fst snd] in H. destruct H as (Hi & Hj & Hl). rewrite Hi, Hj.
  assert (Im : In m ms) by exact (I _ (or_introl eq_refl)).
  assert (Md : exists x, AMaterial (entry m) = AMaterial x /\ made (found s) o m x).
  { exists (entry m). split; [reflexivity|]. unfold entry. destruct (base_material o) as [ref|] eqn:Bm; [now constructor|].
    apply made_ok; [exact Bm| |].
    - unfold tex_of. now destruct (m_map R m).
    - unfold tex_of. intros t Et. destruct (m_map R m) as [|c p] eqn:T; [discriminate|]. injection Et as <-. split; [discriminate|].
      rewrite <- T. apply B; auto. congruence. }
  destruct (emits (m_Ke R m)) eqn:Em.
  - destruct Hl as (k & -> & Hk & Hf). rewrite Hk. cbn [option_map]. rewrite E. cbn [obind]. eexists. split; [reflexivity|]. constructor; [|exact F].
    cbn [fst snd primitive_of]. split; [reflexivity|]. split; [exact Md|]. split; [eauto|]. intros N. apply emits_iff in Em. contradiction.
  - subst l. rewrite E. cbn [obind]. eexists. split; [reflexivity|]. constructor; [|exact F].
    cbn [fst snd primitive_of]. split; [reflexivity|]. split; [exact Md|]. split; [|auto]. intros N. apply emits_iff in N. congruence.
Qed.
End Meshes.
End Build.

(** The primitives of a model are made from the calls of the loader: one per mesh, in order, with its faces, the
    material and texture of its MTL entry, and a light on this mesh exactly if the entry emits. *)
Theorem C76_primitives_partial : forall makes o ms meshes, (forall a, makes a = true) -> clear_names ms -> (forall x, In x meshes -> In (snd x) ms) ->
  exists s ps, process makes o ms meshes = Ok s /\ create_primitives s = Ok ps
    /\ Forall2 (fun x p => primitive_of (found s) o (fst x) (snd x) p) meshes ps.
Proof.
  intros makes o ms meshes can C I. unfold process.
  assert (H0 : has o new_model [] []).
  { split; [contradiction|]. split; [intros _ m []|]. split; [|reflexivity]. intros n [H|H]; now destruct H. }
  destruct (all_materials makes o can ms [] new_model H0 C) as (s1 & -> & (A & B & _ & D)). cbn [app] in *.
  assert (R1 : ready_for o ms s1 []) by (split; [exact A|split; [exact B|rewrite D; constructor]]).
  destruct (all_meshes makes o can ms C meshes [] s1 I R1) as (s2 & -> & R2).
  destruct (primitives o ms s2 meshes I R2) as (ps & E & F). eauto.
Qed.
Print Assumptions C76_primitives_partial.

Lemma load_materials zero num one open file geo ms meshes : load R zero num one open file = Ok (Some (geo, ms, meshes)) ->
  forall x, In x meshes -> In (snd x) ms.
Proof.
  unfold load. destruct file as [content|]; [|discriminate].
  destruct (obj_lines R zero num open _ _) as [[s|]| | |]; cbn [obind]; try discriminate.
  set (m := match ObjModel.ms R (mt R s) with [] => _ | l => l end).
  assert (H : forall l acc, (forall x, In x acc -> In (snd x) m) ->
    (fix go (l : list prim) (acc : list (list findex * mtlR)) : outcome (option (ObjModel.geom R * list mtlR * list (list findex * mtlR))) :=
       match l with
       | [] => Ok (Some (g R s, m, acc))
       | p :: l' => match nth_error m (material_index p) with
                    | None => Throw ErrOutOfRange
                    | Some x => go l' (acc ++ [(fs p, x)])
                    end
       end) l acc = Ok (Some (geo, ms, meshes)) -> forall x, In x meshes -> In (snd x) ms).
  { induction l as [|p l IH]; intros acc A.
    - intros E. injection E as _ <- <-. exact A.
    - destruct (nth_error m (material_index p)) as [y|] eqn:N; [|discriminate]. apply IH. intros x Hx.
      apply in_app_or in Hx as [Hx|[<-|[]]]; [now apply A|]. cbn [snd]. now apply nth_error_In in N. }
  apply H. intros x [].
Qed.

Lemma map_eq_Forall2 {A B C} (f : A -> C) (g : B -> C) a b : map f a = map g b -> Forall2 (fun x y => f x = g y) a b.
Proof.
  revert b. induction a as [|x a IH]; intros [|y b] H; try discriminate; [constructor|]. cbn in H. injection H as H1 H2.
  constructor; [exact H1|now apply IH].
Qed.
Lemma Forall2_chain {A B C} (P : A -> B -> Prop) (Q : B -> C -> Prop) a b c : Forall2 P a b -> Forall2 Q b c ->
  Forall2 (fun x z => exists y, P x y /\ Q y z) a c.
Proof. intros H. revert c. induction H; intros [|z c] H'; inversion H'; subst; constructor; eauto. Qed.

Lemma Forall2_weaken {A B} (P Q : A -> B -> Prop) a b : (forall x y, P x y -> Q x y) -> Forall2 P a b -> Forall2 Q a b.
Proof. intros H F. induction F; constructor; auto. Qed.

(** The primitives of a file: its triangles in their order, each in a primitive with the material and the light of the
    MTL entry in force where its face stands. *)
Theorem C76_file_partial : forall makes o zero one num open lib content ls sts e out, (forall a, makes a = true) ->
  library R zero num open lib -> file_of ls content -> Forall short ls -> Forall2 (says R num) sts ls -> means R lib (start R) sts e out ->
  clear_names (materials R zero one e) ->
  exists s ps, construct makes o zero one num open (Some content) = Ok s /\ create_primitives s = Ok ps
    /\ Forall2 (fun x q => fst x = fst q /\ exists m fs, nth_error (materials R zero one e) (snd x) = Some m
         /\ primitive_of (found s) o fs m (snd q))
       out (List.concat (map (fun p => map (fun t => (t, p)) (faces_of p)) ps)).
Proof.
  intros makes o zero one num open lib content ls sts e out can L Hf Hs Hy Hm Hc.
  destruct (C47_simple_partial R zero one num open lib content ls sts e out L Hf Hs Hy Hm) as (geo & meshes & E & _ & _ & _ & T & _).
  destruct (C76_primitives_partial makes o _ meshes can Hc (load_materials _ _ _ _ _ _ _ _ E)) as (s & ps & P & C & F).
  exists s, ps. unfold construct. rewrite E. cbn [obind]. split; [exact P|]. split; [exact C|].
  symmetry in T. apply map_eq_Forall2 in T.
  assert (G : Forall2 (fun (y : tri * mtlR) q => fst y = fst q /\ exists fs, primitive_of (found s) o fs (snd y) (snd q))
    (List.concat (map (fun m => map (fun t => (t, snd m)) (triples (fst m))) meshes))
    (List.concat (map (fun p => map (fun t => (t, p)) (faces_of p)) ps))).
  { clear - F. induction F as [|[fs m] p meshes ps H F IH]; [constructor|]. cbn [map List.concat fst snd]. apply Forall2_app; [|exact IH].
    cbn [fst snd] in H. destruct p as [[a b] c]. assert (Ea : a = AMesh fs) by apply H. subst a. cbn [faces_of].
    induction (triples fs) as [|t l IHl]; cbn [map]; constructor; [|exact IHl]. cbn [fst snd]. eauto. }
  assert (X := Forall2_chain _ _ _ _ _ T G). eapply Forall2_weaken; [|exact X]. cbn beta.
  intros x q (y & Exy & Eq & fs & Hp). injection Exy as E1 E2. split; [exact (eq_trans E1 Eq)|]. exists (snd y), fs. now split.
Qed.
Print Assumptions C76_file_partial.

(** Nothing that could not be created is in the model, and a component that cannot be created ends the construction
    with an input-output error. *)
Lemma all_created {A} makes (f : A -> model -> option model) : (forall x s s', f x s = Some s' -> Forall (fun a => makes a = true) (assets s) ->
    Forall (fun a => makes a = true) (assets s')) ->
  forall l s s', all f l s = Some s' -> Forall (fun a => makes a = true) (assets s) -> Forall (fun a => makes a = true) (assets s').
Proof.
  intros H. induction l as [|x l IH]; cbn [all]; intros s s' E F; [now injection E as <-|].
  destruct (f x s) as [s1|] eqn:Ex; [|discriminate]. apply (IH s1); [exact E|]. now apply (H x s).
Qed.
Lemma add_created makes n a s s' : add makes n a s = Some s' -> Forall (fun a => makes a = true) (assets s) -> Forall (fun a => makes a = true) (assets s').
Proof. unfold add. destruct (makes a) eqn:E; [|discriminate]. intros H F. injection H as <-. cbn [push assets]. apply Forall_app. auto. Qed.
Lemma index_assets n s : assets (snd (index_of n s)) = assets s.
Proof. unfold index_of. now destruct (lookup n (names s)). Qed.

Theorem C76_created : forall makes o ms meshes,
  (exists s, process makes o ms meshes = Ok s /\ forall a, In a (assets s) -> makes a = true)
  \/ process makes o ms meshes = Throw ErrIOError /\ exists a, makes a = false.
Proof.
  intros makes o ms meshes.
  assert (A : forall s s', all (process_material makes o) ms s = Some s' -> Forall (fun a => makes a = true) (assets s) -> Forall (fun a => makes a = true) (assets s')).
  { apply all_created. intros m s s' E F. unfold process_material in E. destruct (base_material o) as [ref|]; [now apply (add_created _ _ _ _ _ E)|].
    destruct (m_map R m) as [|c p]; [now apply (add_created _ _ _ _ _ E)|].
    destruct (lookup _ (names s)); [now apply (add_created _ _ _ _ _ E)|].
    destruct (add makes _ (ATexture _) s) as [s1|] eqn:E1; [|discriminate].
    apply (add_created _ _ _ _ _ E). now apply (add_created _ _ _ _ _ E1). }
  assert (B : forall s s', all (fun x => process_mesh makes (fst x) (snd x)) meshes s = Some s' -> Forall (fun a => makes a = true) (assets s) -> Forall (fun a => makes a = true) (assets s')).
  { apply all_created. intros [fs m] s s' E F. cbn [fst snd] in E. unfold process_mesh in E.
    destruct (add makes _ (AMesh fs) s) as [s1|] eqn:E1; [|discriminate]. assert (F1 := add_created _ _ _ _ _ E1 F).
    destruct (if emits _ then _ else _) as [[s2 light]|] eqn:E2; [|discriminate].
    assert (F2 : Forall (fun a => makes a = true) (assets s2)).
    { destruct (emits _); [|now injection E2 as <- _]. destruct (add makes (light_name _) _ s1) as [s3|] eqn:E3; [|discriminate].
      injection E2 as <- _. now apply (add_created _ _ _ _ _ E3). }
    assert (I1 := index_assets (mesh_name (List.length (assets s))) s2). destruct (index_of (mesh_name _) s2) as [i s3].
    assert (I2 := index_assets (m_name R m) s3). destruct (index_of (m_name R m) s3) as [j s4]. injection E as <-. cbn [assets snd] in *.
    now rewrite I2, I1. }
  assert (N : all (process_material makes o) ms new_model = None \/ (exists s, all (fun x => process_mesh makes (fst x) (snd x)) meshes s = None) -> exists a, makes a = false).
  { assert (Aa : forall n a s, add makes n a s = None -> exists a, makes a = false).
    { intros n a s. unfold add. destruct (makes a) eqn:E; [discriminate|eauto]. }
    assert (Al : forall A (f : A -> model -> option model), (forall x s, f x s = None -> exists a, makes a = false) -> forall l s, all f l s = None -> exists a, makes a = false).
    { intros T f H. induction l as [|x l IH]; cbn [all]; intros s E; [discriminate|]. destruct (f x s) eqn:Ex; eauto. }
    intros [E|[s E]]; revert E.
    - apply Al. intros m s E. unfold process_material in E. destruct (base_material o); [eauto|]. destruct (m_map R m); [eauto|].
      destruct (lookup _ _); [eauto|]. destruct (add makes _ (ATexture _) s) eqn:E1; eauto.
    - apply Al. intros [fs m] s1 E. cbn [fst snd] in E. unfold process_mesh in E. destruct (add makes _ (AMesh fs) s1) eqn:E1; [|eauto].
      destruct (emits _).
      + destruct (add makes (light_name _) _ _) eqn:E3; [|eauto]. destruct (index_of _ m1). destruct (index_of _ m2). discriminate.
      + destruct (index_of _ m0). destruct (index_of _ m1). discriminate. }
  unfold process. destruct (all (process_material makes o) ms new_model) as [s1|] eqn:E1; [|right; split; auto].
  destruct (all _ meshes s1) as [s2|] eqn:E2; [|right; split; eauto]. left. exists s2. split; [reflexivity|].
  apply Forall_forall. apply (B s1); [exact E2|]. apply (A new_model); [exact E1|constructor].
Qed.
Print Assumptions C76_created.

(** A material that has the name the model gives to a mesh is replaced by this mesh: the primitive has a mesh in place
    of its material. *)
Theorem C76_mesh_name_refuted : forall makes o m fs, (forall a, makes a = true) -> m_name R m = str "mesh_1" -> m_map R m = [] -> ~ luminous m ->
  exists s, process makes o [m] [(fs, m)] = Ok s /\ create_primitives s = Ok [(AMesh fs, AMesh fs, None)].
Proof.
  intros makes o m fs can N T D. unfold process. cbn [all fst snd].
  assert (E : exists a, process_material makes o m new_model = Some (push (m_name R m) a new_model)).
  { unfold process_material. rewrite T, N. destruct (base_material o); rewrite add_ok by exact can; eauto. }
  destruct E as [a ->]. unfold process_mesh. assert (Em : emits (m_Ke R m) = false).
  { destruct (emits (m_Ke R m)) eqn:Em; [|reflexivity]. apply emits_iff in Em. contradiction. }
  rewrite Em, N, add_ok by exact can. eexists. split; reflexivity.
Qed.
Print Assumptions C76_mesh_name_refuted.

(** Two entries of one name: the faces of the first have the emission of the first and the material of the second. *)
Theorem C76_same_name_refuted : forall makes o m m' fs, (forall a, makes a = true) -> m_name R m = m_name R m' -> ~ begins_with (str "mesh_") (m_name R m) ->
  base_material o = None -> m_map R m = [] -> m_map R m' = [] -> luminous m ->
  exists s, process makes o [m; m'] [(fs, m)] = Ok s
    /\ create_primitives s = Ok [(AMesh fs, AMaterial (make_material o m' None), Some (ALight (m_Ke R m) (mesh_name 2)))].
Proof.
  intros makes o m m' fs can N B Bm T T' D. unfold process. cbn [all fst snd]. unfold process_material. rewrite Bm, T, T', !add_ok by exact can.
  unfold process_mesh. assert (Em : emits (m_Ke R m) = true) by now apply emits_iff. rewrite Em, N.
  assert (Q : forall k, mesh_name k <> m_name R m' /\ light_name k <> m_name R m').
  { intros k. rewrite <- N. split; intros E; apply B; rewrite <- E; unfold light_name, mesh_name; [|rewrite <- app_assoc]; eexists; reflexivity. }
  rewrite !add_ok by exact can. unfold index_of. cbn [push names assets new_model app List.length].
  rewrite lookup_cons_ne, lookup_cons_eq by (intros E; symmetry in E; now apply mesh_light in E).
  cbn [push names assets new_model]. rewrite !lookup_cons_ne by apply Q. rewrite lookup_cons_eq. eexists. split; reflexivity.
Qed.
Print Assumptions C76_same_name_refuted.

(** Two entries whose texture files have one name in different directories share the texture of the first. *)
Theorem C76_stem_refuted : forall makes o m m' s, (forall a, makes a = true) -> base_material o = None -> m_map R m <> [] ->
  lookup (texture_name (m_map R m)) (names s) = None -> m_name R m <> texture_name (m_map R m) ->
  m_map R m' <> [] -> m_map R m' <> m_map R m -> stem (m_map R m') = stem (m_map R m) ->
  m_illum R m' <> 5%Z -> m_illum R m' <> 7%Z -> m_name R m' <> texture_name (m_map R m) ->
  exists s1 s2, process_material makes o m s = Some s1 /\ process_material makes o m' s1 = Some s2
    /\ exists ax ay tex, found s2 (m_name R m') = Some (AMaterial (MMixture (m_Kd R m') (Some tex) (m_Ks R m') ax ay (skip_specular o)))
    /\ found s2 tex = Some (ATexture (m_map R m)).
Proof.
  intros makes o m m' s can Bm T L N T' Df St I5 I7 N'. unfold process_material. rewrite Bm.
  assert (E : texture_name (m_map R m') = texture_name (m_map R m)) by (unfold texture_name; now rewrite St).
  destruct (m_map R m) as [|c p] eqn:Em; [contradiction|]. destruct (m_map R m') as [|c' p'] eqn:Em'; [contradiction|].
  rewrite L, !add_ok by exact can. eexists. eexists. split; [reflexivity|]. rewrite E. cbn [push names].
  rewrite lookup_cons_ne, lookup_cons_eq by exact N. rewrite add_ok by exact can. split; [reflexivity|].
  eexists. eexists. exists (texture_name (c :: p)). split.
  - rewrite found_push. unfold make_material. destruct (Z.eqb_spec (m_illum R m') 5); [contradiction|]. destruct (Z.eqb_spec (m_illum R m') 7); [contradiction|].
    cbn [orb]. reflexivity.
  - unfold found. cbn [push names assets]. rewrite lookup_cons_ne by exact N'. rewrite lookup_cons_ne by exact N. rewrite lookup_cons_eq.
    rewrite <- !app_assoc. rewrite nth_error_app2, Nat.sub_diag by lia. reflexivity.
Qed.
Print Assumptions C76_stem_refuted.

(** ** Examples *)
Definition o0 : options := mk_options None false.
Definition e_wall : mtlR := mk_mtl R (str "wall") 2 (1, 0, 0)%R (0, 0, 0)%R (0, 0, 0)%R (str "a/brick.png") 0%R 0%R 0%R.
Definition e_lamp : mtlR := mk_mtl R (str "lamp") 2 (0, 0, 0)%R (0, 0, 0)%R (5, 5, 5)%R [] 0%R 0%R 0%R.
Definition e_pane : mtlR := mk_mtl R (str "pane") 7 (0, 0, 0)%R (0, 0, 0)%R (0, 0, 0)%R [] (3 / 2)%R 0%R 0%R.
Definition e_ms : list mtlR := [e_wall; e_lamp; e_pane].
Definition e_f : list findex := [mk_findex 0 (-1) (-1); mk_findex 1 (-1) (-1); mk_findex 2 (-1) (-1)].

Lemma e_clear : clear_names e_ms.
Proof.
  split; [|split].
  - cbn. repeat constructor; cbn; intuition discriminate.
  - intros m [<-|[<-|[<-|[]]]]; split; intros [r E]; discriminate.
  - intros m m' [<-|[<-|[<-|[]]]] [<-|[<-|[<-|[]]]] E; try reflexivity; discriminate.
Qed.
Example C76_primitives_example : clear_names e_ms /\ (forall x, In x [(e_f, e_wall); (e_f ++ e_f, e_lamp); (e_f, e_pane)] -> In (snd x) e_ms)
  /\ luminous e_lamp /\ ~ luminous e_wall.
Proof.
  split; [exact e_clear|]. split; [intros x [<-|[<-|[<-|[]]]]; cbn; auto|]. split; [left; lra|intros [H|[H|H]]; lra].
Qed.
Lemma e_dark : emits (0, 0, 0)%R = false.
Proof. unfold emits. destruct (Rlt_dec 0 (Rmax (Rmax 0 0) 0)) as [H|H]; [|reflexivity]. rewrite (Rmax_left 0 0) in H by lra. rewrite Rmax_left in H by lra. lra. Qed.
Lemma e_light : emits (5, 5, 5)%R = true.
Proof. unfold emits. destruct (Rlt_dec 0 (Rmax (Rmax 5 5) 5)) as [H|H]; [reflexivity|]. rewrite (Rmax_left 5 5) in H by lra. rewrite Rmax_left in H by lra. lra. Qed.
Example C76_values_example : exists s, process (fun _ => true) o0 e_ms [(e_f, e_wall); (e_f, e_lamp); (e_f, e_pane)] = Ok s
  /\ create_primitives s = Ok
    [(AMesh e_f, AMaterial (MMixture (1, 0, 0)%R (Some (str "texture_brick")) (0, 0, 0)%R (rough_x e_wall) (rough_y e_wall) false), None);
     (AMesh e_f, AMaterial (MMixture (0, 0, 0)%R None (0, 0, 0)%R (rough_x e_lamp) (rough_y e_lamp) false), Some (ALight (5, 5, 5)%R (str "mesh_5")));
     (AMesh e_f, AMaterial (MGlass (3 / 2)), None)]
  /\ found s (str "texture_brick") = Some (ATexture (str "a/brick.png")).
Proof.
  unfold process. cbn [all e_ms fst snd]. unfold process_material, process_mesh. cbn [m_Ke e_wall e_lamp e_pane]. rewrite e_dark, e_light.
  eexists. split; [reflexivity|]. split; reflexivity.
Qed.
Example C76_created_example : process (fun a => match a with ATexture _ => false | _ => true end) o0 e_ms [] = Throw ErrIOError.
Proof. reflexivity. Qed.
Example C76_mesh_name_example : exists m, m_name R m = str "mesh_1" /\ m_map R m = [] /\ ~ luminous m.
Proof. exists (mk_mtl R (str "mesh_1") 2 (1, 0, 0)%R (0, 0, 0)%R (0, 0, 0)%R [] 0%R 0%R 0%R). repeat split. intros [H|[H|H]]; cbn in H; lra. Qed.
Example C76_same_name_example : exists m, m_name R e_lamp = m_name R m /\ m_map R m = [] /\ m_Ke R m <> m_Ke R e_lamp /\ m_Kd R m <> m_Kd R e_lamp.
Proof.
  exists (mk_mtl R (str "lamp") 2 (1, 0, 0)%R (0, 0, 0)%R (0, 0, 0)%R [] 0%R 0%R 0%R). cbn. repeat split; intros E; injection E; lra.
Qed.
Example C76_stem_example : exists m', m_map R m' <> m_map R e_wall /\ stem (m_map R m') = stem (m_map R e_wall) /\ m_illum R m' = 2%Z
  /\ lookup (texture_name (m_map R e_wall)) (names new_model) = None.
Proof. exists (mk_mtl R (str "floor") 2 (1, 0, 0)%R (0, 0, 0)%R (0, 0, 0)%R (str "b/brick.png") 0%R 0%R 0%R). repeat split. discriminate. Qed.

(** A file. *)
Definition rnum (t : text) : R := IZR (atoi t).
Definition r_mtl : list text := map str ["newmtl lamp"; "Ke 5 5 5"]%string.
Definition r_obj : list text := map str ["mtllib m.mtl"; "v 0 0 0"; "v 1 0 0"; "v 0 1 0"; "usemtl lamp"; "f 1 2 3"]%string.
Definition r_open (n : text) : option text := if text_eqb n (str "m.mtl") then Some (file r_mtl) else None.
Definition r_lamp : mtlR := mk_mtl R (str "lamp") 0 (0, 0, 0)%R (0, 0, 0)%R (5, 5, 5)%R [] 0%R 0%R 0%R.
Definition r_lib (n : text) : option (list mtlR) := if text_eqb n (str "m.mtl") then Some [r_lamp] else None.
Definition r_msts : list (mstmt R) := [MNew R (str "lamp"); MKe R (5, 5, 5)%R].
Definition r_sts : list (stmt R) :=
  [SLib R (str "m.mtl"); SVertex R 0%R 0%R 0%R; SVertex R 1%R 0%R 0%R; SVertex R 0%R 1%R 0%R; SUse R (str "lamp"); SFace R [(1, None, None); (2, None, None); (3, None, None)]%Z].
Definition r_out : list (tri * nat) := [((mk_findex 0 (-1) (-1), mk_findex 1 (-1) (-1), mk_findex 2 (-1) (-1)), 0)].
Ltac nw' := apply number_ok; [reflexivity|discriminate].
Lemma r_three a b c x y z : number_word a -> number_word b -> number_word c -> rnum a = x -> rnum b = y -> rnum c = z ->
  three R rnum (join [a; b; c]) x y z.
Proof. intros Ha Hb Hc <- <- <-. now apply x_three. Qed.
Ltac r3 := apply r_three; [nw'|nw'|nw'|reflexivity|reflexivity|reflexivity].
Lemma r_msays : Forall2 (msays R rnum) r_msts r_mtl.
Proof.
  unfold r_msts, r_mtl. cbn [map]. repeat apply Forall2_cons; [..|apply Forall2_nil].
  - exact (ms_new R rnum (str "lamp") _ (str "lamp") (cmd_line "newmtl" (str "lamp")) (join_sep [str "lamp"]) ltac:(apply name_ok; [reflexivity|discriminate|cbn; lia])).
  - refine (ms_Ke R rnum (join [str "5"; str "5"; str "5"]) _ 5%R 5%R 5%R (cmd_line "Ke" _) _). r3.
Qed.
Lemma r_says : Forall2 (says R rnum) r_sts r_obj.
Proof.
  unfold r_sts, r_obj. cbn [map]. repeat apply Forall2_cons; [..|apply Forall2_nil].
  - exact (says_mtllib R rnum (str "m.mtl") _ (str "m.mtl") (cmd_line "mtllib" _) (join_sep [str "m.mtl"]) ltac:(apply name_ok; [reflexivity|discriminate|cbn; lia])).
  - refine (says_v R rnum (join [str "0"; str "0"; str "0"]) _ 0%R 0%R 0%R (cmd_line "v" _) _). r3.
  - refine (says_v R rnum (join [str "1"; str "0"; str "0"]) _ 1%R 0%R 0%R (cmd_line "v" _) _). r3.
  - refine (says_v R rnum (join [str "0"; str "1"; str "0"]) _ 0%R 1%R 0%R (cmd_line "v" _) _). r3.
  - exact (says_usemtl R rnum (str "lamp") _ (str "lamp") (cmd_line "usemtl" _) (join_sep [str "lamp"]) ltac:(apply name_ok; [reflexivity|discriminate|cbn; lia])).
  - refine (says_f R rnum (join [str "1"; str "2"; str "3"]) _ [(1, None, None); (2, None, None); (3, None, None)]%Z _ (cmd_line "f" _) (join_sep [str "1"; str "2"; str "3"]) _ (or_introl eq_refl)).
    repeat apply Forall2_cons; [..|apply Forall2_nil]; apply vt_p; [apply (integer_digit 1)|apply (integer_digit 2)|apply (integer_digit 3)]; lia.
Qed.
Lemma r_library : library R 0%R rnum r_open r_lib.
Proof.
  intros n new H. unfold r_lib in H. destruct (text_eqb n (str "m.mtl")) eqn:E; [|discriminate]. injection H as <-.
  exists (file r_mtl), r_mtl, r_msts. unfold r_open. rewrite E. split; [reflexivity|]. split; [split; [apply x_no_newline; reflexivity|reflexivity]|].
  split; [apply x_short; reflexivity|]. split; [exact r_msays|]. split; [exact I|reflexivity].
Qed.
Definition r_env : env R := mk_env R [(0, 0, 0); (1, 0, 0); (0, 1, 0)]%R [] [] [r_lamp] 0.
Lemma r_means : means R r_lib (start R) r_sts r_env r_out.
Proof.
  unfold r_sts. eapply me_lib; [reflexivity|]. do 3 apply me_v. cbn [e_ps e_ns e_ts e_mats e_cur app start].
  eapply (me_use _ _ _ _ 0).
  { split; [exists r_lamp; split; reflexivity|]. intros [|k] m Hk Hm; [lia|destruct k; discriminate]. }
  change r_out with (map (fun t => (t, 0)) (triangles_of [mk_findex 0 (-1) (-1); mk_findex 1 (-1) (-1); mk_findex 2 (-1) (-1)]) ++ []).
  apply me_f. { repeat constructor; cbn; lia. }
  apply me_nil.
Qed.
Example C76_file_example : library R 0%R rnum r_open r_lib /\ file_of r_obj (file r_obj) /\ Forall short r_obj
  /\ Forall2 (says R rnum) r_sts r_obj /\ means R r_lib (start R) r_sts r_env r_out /\ clear_names (materials R 0%R 1%R r_env) /\ luminous r_lamp.
Proof.
  split; [exact r_library|]. split; [split; [apply x_no_newline; reflexivity|reflexivity]|].
  split; [apply x_short; reflexivity|]. split; [exact r_says|]. split; [exact r_means|]. split; [|left; lra].
  split; [|split].
  - cbn. repeat constructor; cbn; intuition discriminate.
  - intros m [<-|[]]; split; intros [r E]; discriminate.
  - intros m m' [<-|[]] [<-|[]] _. reflexivity.
Qed.
