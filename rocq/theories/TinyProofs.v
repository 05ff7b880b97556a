From Coq Require Import List ZArith Bool Lia.
From Verif Require Import Base LogModel TinyModel TinySpec.
Import ListNotations.
Local Open Scope Z_scope.

Definition flat3 (l : list (tindex * tindex * tindex)) : list tindex := flat_map (fun t => let '(a, b, c) := t in [a; b; c]) l.
Lemma tris_flat l : tris (flat3 l) = l.
Proof. induction l as [|[[a b] c] l IH]; [reflexivity|]. cbn. now f_equal. Qed.
Lemma flat_snoc l a b c : flat3 l ++ [a; b; c] = flat3 (l ++ [(a, b, c)]).
Proof. unfold flat3. rewrite flat_map_app. cbn. reflexivity. Qed.
Definition corners (l : list triangle) : list tindex := flat_map (fun t => let '(a, b, c, _) := t in [a; b; c]) l.
Lemma corners_length l : List.length (corners l) = (3 * List.length l)%nat.
Proof. induction l as [|[[[a b] c] m] l IH]; [reflexivity|]. cbn [corners flat_map]. fold (corners l). rewrite app_length. cbn [List.length]. lia. Qed.
Lemma corner_at (dn : list triangle) a b c m (l : list triangle) k : nth_error (corners (dn ++ (a, b, c, m) :: l)) (3 * List.length dn + k) = nth_error ([a; b; c] ++ corners l) k.
Proof.
  assert (A : corners (dn ++ (a, b, c, m) :: l) = corners dn ++ [a; b; c] ++ corners l) by (unfold corners; now rewrite flat_map_app). assert (L := corners_length dn).
  rewrite A, nth_error_app2 by lia. rewrite L. replace (3 * List.length dn + k - 3 * List.length dn)%nat with k by lia. reflexivity.
Qed.
Lemma at_length {A} (dn : list A) x l : nth_error (dn ++ x :: l) (List.length dn) = Some x.
Proof. rewrite nth_error_app2, Nat.sub_diag by lia. reflexivity. Qed.
Lemma map_at {A B} (f : A -> B) dn x l : nth_error (map f (dn ++ x :: l)) (List.length dn) = Some (f x).
Proof. now rewrite nth_error_map, at_length. Qed.

Section Ok.
Context {F : Type}.
Variable accept : list (event F) -> event F -> bool.
Hypothesis all : forall tr e, accept tr e = true.
Variable ps : list (params F).
Definition with_material (l : list triangle) : list ((tindex * tindex * tindex) * option (params F)) := map (fun t => (fst t, material_of ps (snd t))) l.
Definition plain_meshes (tr : list (event F)) : Prop := declared tr = [].
Definition opt (l : list ((tindex * tindex * tindex) * params F)) : list ((tindex * tindex * tindex) * option (params F)) := map (fun x => (fst x, Some (snd x))) l.
Lemma handed_app (a b : list (event F)) : handed (a ++ b) = handed a ++ handed b. Proof. apply flat_map_app. Qed.
Lemma declared_app (a b : list (event F)) : declared (a ++ b) = declared a ++ declared b. Proof. apply flat_map_app. Qed.
Lemma opt_app a b : opt (a ++ b) = opt a ++ opt b. Proof. apply map_app. Qed.
Lemma hand_ok tr l id : Z.max 0 id < Z.of_nat (List.length ps) ->
  exists p, material_of ps id = Some p /\ hand accept ps tr (flat3 l) id = Ok (tr ++ [Mesh (flat3 l) p], true) /\ opt (handed [Mesh (flat3 l) p]) = map (fun t => (t, material_of ps id)) l.
Proof.
  intros K. unfold material_of, hand. replace (Z.to_nat id) with (Z.to_nat (Z.max 0 id)) by lia. destruct (nth_error ps (Z.to_nat (Z.max 0 id))) as [p|] eqn:E.
  - exists p. rewrite all. split; [reflexivity|]. split; [reflexivity|]. cbn. rewrite app_nil_r, tris_flat. unfold opt. rewrite map_map. reflexivity.
  - apply nth_error_None in E. lia.
Qed.
Lemma faces_ok l : forall dn prev acc tr, known ps l -> Z.max 0 prev < Z.of_nat (List.length ps) ->
  exists tr' prev' acc', faces accept (shape_of (dn ++ l)) ps (List.length l) (List.length dn) prev (flat3 acc) tr = Ok (tr ++ tr', Some (prev', flat3 acc')) /\
    declared tr' = [] /\ Z.max 0 prev' < Z.of_nat (List.length ps) /\
    opt (handed tr') ++ map (fun t => (t, material_of ps prev')) acc' = map (fun t => (t, material_of ps prev)) acc ++ with_material (repeated prev l).
Proof.
  induction l as [|[[[a b] c] m] l IH]; intros dn prev acc tr K P.
  - exists [], prev, acc. cbn. rewrite !app_nil_r. repeat split. exact P.
  - assert (K' : known ps l) by (intros t I; apply K; now right). assert (Km : Z.max 0 m < Z.of_nat (List.length ps)) by (apply (K (a, b, c, m)); now left).
    cbn [List.length faces shape_of num_face_vertices material_ids indices]. rewrite !map_at. cbn [negb Z.eqb Pos.eqb snd]. destruct (Z.eqb_spec m prev) as [-> |N]; cbn [negb].
    + assert (H0 := corner_at dn a b c prev l 0). assert (H1 := corner_at dn a b c prev l 1). assert (H2 := corner_at dn a b c prev l 2). rewrite Nat.add_0_r in H0. cbn [nth_error app] in H0, H1, H2.
      match goal with |- context [match nth_error ?x ?i with Some _ => match nth_error ?x ?j with Some _ => match nth_error ?x ?k with Some _ => _ | None => _ end | None => _ end | None => _ end] =>
        replace (nth_error x i) with (Some a) by (symmetry; exact H0); replace (nth_error x j) with (Some b) by (symmetry; exact H1); replace (nth_error x k) with (Some c) by (symmetry; exact H2) end.
      rewrite flat_snoc.
      destruct (IH (dn ++ [(a, b, c, prev)]) prev (acc ++ [(a, b, c)]) tr K' P) as (tr' & prev' & acc' & A & B & C & D). rewrite <- app_assoc, app_length, Nat.add_1_r in A. exists tr', prev', acc'. split; [exact A|]. split; [exact B|]. split; [exact C|]. rewrite D, map_app, <- app_assoc. cbn [repeated snd map with_material app fst]. rewrite Z.eqb_refl. reflexivity.
    + destruct (hand_ok tr acc prev P) as (p & Ep & Eh & Ed). rewrite Eh. cbn [obind negb].
      destruct (IH (dn ++ [(a, b, c, m)]) m [] (tr ++ [Mesh (flat3 acc) p]) K' Km) as (tr' & prev' & acc' & A & B & C & D). rewrite <- (app_assoc dn), app_length, Nat.add_1_r in A. exists ([Mesh (flat3 acc) p] ++ tr'), prev', acc'.
      rewrite <- app_assoc in A. split; [exact A|]. split; [now rewrite declared_app, B|]. split; [exact C|]. rewrite handed_app, opt_app, <- app_assoc, D, Ed. cbn [map app repeated snd]. destruct (Z.eqb_spec m prev); [contradiction|]. reflexivity.
Qed.
Lemma shape_ok l tr : l <> [] -> known ps l -> exists tr', one_shape accept (shape_of l) ps tr = Ok (tr ++ tr', true) /\ declared tr' = [] /\ opt (handed tr') = with_material (kept l).
Proof.
  intros N K. destruct l as [|t l]; [contradiction|]. unfold one_shape. cbn [shape_of material_ids map nth_error num_face_vertices]. assert (Kt : Z.max 0 (snd t) < Z.of_nat (List.length ps)) by (apply K; now left).
  destruct (faces_ok (t :: l) [] (snd t) [] tr K Kt) as (tr' & prev' & acc' & A & B & C & D). cbn [app List.length flat3 flat_map] in A. cbn [List.length]. rewrite map_length. rewrite A. cbn [obind map app] in *. fold (kept (t :: l)) in D.
  destruct acc' as [|[[a b] c] acc'].
  - exists tr'. split; [reflexivity|]. split; [exact B|]. rewrite <- D. cbn. now rewrite app_nil_r.
  - destruct (hand_ok (tr ++ tr') ((a, b, c) :: acc') prev' C) as (p & Ep & Eh & Ed). exists (tr' ++ [Mesh (flat3 ((a, b, c) :: acc')) p]). cbn [flat3 flat_map app] in *. rewrite Eh, app_assoc. split; [reflexivity|]. split; [now rewrite declared_app, B|].
    rewrite handed_app, opt_app, Ed. exact D.
Qed.
Lemma shapes_ok ls : forall tr, (forall l, In l ls -> l <> [] /\ known ps l) ->
  exists tr', all_shapes accept (map shape_of ls) ps tr = Ok (tr ++ tr', true) /\ declared tr' = [] /\ opt (handed tr') = flat_map (fun l => with_material (kept l)) ls.
Proof.
  induction ls as [|l ls IH]; intros tr H; [exists []; now rewrite app_nil_r|]. cbn [map all_shapes]. destruct (H l ltac:(now left)) as [N K]. destruct (shape_ok l tr N K) as (t1 & A & B & C). rewrite A. cbn [obind].
  destruct (IH (tr ++ t1) ltac:(intros x I; apply H; now right)) as (t2 & A2 & B2 & C2). exists (t1 ++ t2). rewrite A2, app_assoc. split; [reflexivity|]. split; [now rewrite declared_app, B, B2|]. cbn [flat_map]. now rewrite handed_app, opt_app, C, C2.
Qed.
Lemma process_ok qs : forall tr, process accept tr qs = (tr ++ map Mat qs, true).
Proof. induction qs as [|q qs IH]; intros tr; cbn [process map]; [now rewrite app_nil_r|]. rewrite all, IH, <- app_assoc. reflexivity. Qed.
End Ok.

(** ** Any callbacks: nothing is called after the first that fails. *)
Section Any.
Context {F : Type}.
Variable accept : list (event F) -> event F -> bool.
(** All calls were accepted. *)
Definition accepted (tr : list (event F)) : Prop := forall pre e post, tr = pre ++ e :: post -> accept pre e = true.
(** All but the last *)
Definition ended (tr : list (event F)) : Prop := forall pre e post, tr = pre ++ e :: post -> post <> [] -> accept pre e = true.
Definition fine (tr : list (event F)) (b : bool) : Prop := ended tr /\ (b = true -> accepted tr).
Lemma nothing : accepted []. Proof. intros pre e post H. destruct pre; discriminate. Qed.
Lemma accepted_ended tr : accepted tr -> ended tr. Proof. intros A pre e post E _. exact (A _ _ _ E). Qed.
Lemma one_more tr e : accepted tr -> fine (tr ++ [e]) (accept tr e).
Proof.
  intros A. assert (G : forall pre x post, tr ++ [e] = pre ++ x :: post -> (post = [] /\ pre = tr /\ x = e) \/ exists post', tr = pre ++ x :: post').
  { intros pre x post E. destruct post as [|y post] using rev_ind; [left; change (pre ++ [x]) with (pre ++ [x]) in E; apply app_inj_tail in E as [-> ->]; auto|]. right. exists post. rewrite app_comm_cons, app_assoc in E. apply app_inj_tail in E. apply E. }
  split.
  - intros pre x post E N. destruct (G _ _ _ E) as [(-> & _)|[q ->]]; [contradiction|]. exact (A pre x q eq_refl).
  - intros B pre x post E. destruct (G _ _ _ E) as [(_ & -> & ->)|[q ->]]; [exact B|]. exact (A pre x q eq_refl).
Qed.
Lemma process_fine qs : forall tr tr' b, accepted tr -> process accept tr qs = (tr', b) -> fine tr' b.
Proof.
  induction qs as [|q qs IH]; intros tr tr' b A; cbn [process]; [intros [= <- <-]; split; [now apply accepted_ended|auto]|]. destruct (one_more tr (Mat q) A) as [E G]. destruct (accept tr (Mat q)).
  - apply IH. now apply G.
  - intros [= <- <-]. now split.
Qed.
Lemma hand_fine ps tr fs id tr' b : accepted tr -> hand accept ps tr fs id = Ok (tr', b) -> fine tr' b.
Proof. intros A. unfold hand. destruct (nth_error _ _); [|discriminate]. intros [= <- <-]. now apply one_more. Qed.
Lemma faces_fine sh ps n : forall fi prev fs tr tr' r, accepted tr -> faces accept sh ps n fi prev fs tr = Ok (tr', r) -> fine tr' (match r with Some _ => true | None => false end).
Proof.
  induction n as [|n IH]; intros fi prev fs tr tr' r A; cbn [faces]; [intros [= <- <-]; split; [now apply accepted_ended|auto]|].
  destruct (nth_error (num_face_vertices sh) fi); [|discriminate]. destruct (negb (z =? 3)); [intros [= <- <-]; split; [now apply accepted_ended|discriminate]|]. destruct (nth_error (material_ids sh) fi); [|discriminate].
  destruct (negb (z0 =? prev)).
  - destruct (hand accept ps tr fs prev) as [[t1 ok]| | |] eqn:H; cbn [obind]; try discriminate. destruct (hand_fine _ _ _ _ _ _ A H) as [E G]. destruct ok; cbn [negb]; [apply IH; now apply G|intros [= <- <-]; now split].
  - destruct (nth_error _ (3 * fi)); [|discriminate]. destruct (nth_error _ (3 * fi + 1)); [|discriminate]. destruct (nth_error _ (3 * fi + 2)); [|discriminate]. now apply IH.
Qed.
Lemma shape_fine sh ps tr tr' b : accepted tr -> one_shape accept sh ps tr = Ok (tr', b) -> fine tr' b.
Proof.
  intros A. unfold one_shape. destruct (nth_error _ 0); [|discriminate]. destruct (faces _ _ _ _ _ _ _ _) as [[t1 r]| | |] eqn:H; cbn [obind]; try discriminate. assert (G := faces_fine _ _ _ _ _ _ _ _ _ A H). destruct r as [[prev [|f fs]]|].
  - now intros [= <- <-].
  - intros E. apply (hand_fine _ _ _ _ _ _ (proj2 G eq_refl) E).
  - now intros [= <- <-].
Qed.
Lemma shapes_fine ps l : forall tr tr' b, accepted tr -> all_shapes accept l ps tr = Ok (tr', b) -> fine tr' b.
Proof.
  induction l as [|sh l IH]; intros tr tr' b A; cbn [all_shapes]; [intros [= <- <-]; split; [now apply accepted_ended|auto]|]. destruct (one_shape accept sh ps tr) as [[t1 ok]| | |] eqn:H; cbn [obind]; try discriminate.
  assert (G := shape_fine _ _ _ _ _ A H). destruct ok; [apply IH, G; reflexivity|now intros [= <- <-]].
Qed.
End Any.

(** ** The geometry *)
Lemma triples_ok {F} (l : list (F * F * F)) : triples (flat_map (fun v => let '(x, y, z) := v in [x; y; z]) l) = Ok l.
Proof. induction l as [|[[x y] z] l IH]; [reflexivity|]. cbn. fold (flat_map (fun v : F * F * F => let '(x, y, z) := v in [x; y; z]) l). now rewrite IH. Qed.
Lemma pairs_ok {F} (l : list (F * F)) : pairs (flat_map (fun v => let '(x, y) := v in [x; y]) l) = Ok l.
Proof. induction l as [|[x y] l IH]; [reflexivity|]. cbn. now rewrite IH. Qed.
