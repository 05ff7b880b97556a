(** A concrete hierarchy used to show that the hypotheses of the asset theorems can be met, and the
    witnesses of the refutations. *)
From Coq Require Import List String Ascii Arith Lia Bool.
From Verif Require Import Base LocModel LocSpec AssetModel AssetSpec AssetProofs.
Import ListNotations.
Open Scope string_scope. Open Scope list_scope. Open Scope nat_scope. Open Scope bool_scope.

Definition own (p : nat) : slot := {| s_owned := true; s_reported := true; s_type := 0; s_ptr := Some p |}.
Definition weak (ty p : nat) : slot := {| s_owned := false; s_reported := true; s_type := ty; s_ptr := Some p |}.
Definition all_impl (ty : nat) : bool := true.

(** A name query from an association list. [def] answers unknown names. *)
Definition names (l : list (string * nat)) (def : answer) (n : string) : answer :=
  match Assoc.alookup n l with Some i => ASlot i | None => def end.

Arguments names : simpl never.

Definition mk loc slots l def : obj :=
  {| o_loc := loc; o_impl := all_impl; o_slots := slots; o_names := names l def |}.

(** 0 root, 1 assets, 2 model "m" with mesh 3, 4 scene "s" referring weakly to 3 and 2.
    [def] is the model's answer to unknown names (src/model/model_wavefrontobj.cpp:71 raises). *)
Definition ex_heap (def : answer) : heap := fun c =>
  match c with
  | 0 => Some (mk "$" [own 1] [("assets", 0)] ANull)
  | 1 => Some (mk "$.assets" [own 2; own 4] [("m", 0); ("s", 1)] ANull)
  | 2 => Some (mk "$.assets.m" [own 3] [("mesh", 0)] def)
  | 3 => Some (mk "$.assets.m.mesh" [] [] ANull)
  | 4 => Some (mk "$.assets.s" [weak 1 3; weak 1 2] [] ANull)
  | _ => None
  end.

(** Construct of the replacement model 5: creates a mesh 6 under [child]. *)
Definition ex_construct (child : string) (def : answer) (e : option error) (h : heap) : heap * option error :=
  (upd (upd h 5 (mk "$.assets.m" [own 6] [(child, 0)] def)) 6 (mk ("$.assets.m." ++ child)%string [] [] ANull), e).

(** Case analysis on small component numbers. *)
Ltac small c := do 8 (try (destruct c as [|c]; cbn in *; try discriminate; try congruence)).

Lemma alookup_cases {V} n (l : list (string * V)) i : Assoc.alookup n l = Some i -> In (n, i) l.
Proof.
  induction l as [|[m v] l IH]; cbn; [discriminate|].
  destruct (String.eqb_spec n m) as [->|]; [intros [= ->]; now left|right; auto].
Qed.
Lemma names_slot l def n i : (forall j, def <> ASlot j) -> names l def n = ASlot i -> In (n, i) l.
Proof.
  unfold names. intros Hd. destruct (Assoc.alookup n l) as [v|] eqn:E; [|intros H; now apply Hd in H].
  intros [= ->]. now apply alookup_cases.
Qed.

(** Decidable description of a finite heap: all pointers with owner and position. *)
Section Finite.
  Variable h : heap.
  Variable dom : list nat.
  Hypothesis Hdom : forall c, h c <> None -> In c dom.
  Variable objs : list (nat * (string * list slot * list (string * nat))).
  Hypothesis Hobjs : forall c o, h c = Some o ->
    exists l, In (c, (o_loc o, o_slots o, l)) objs /\ (forall n i, o_names o n = ASlot i -> In (n, i) l).
  Hypothesis Hobjs2 : forall c loc sl l, In (c, (loc, sl, l)) objs -> exists o, h c = Some o /\ o_loc o = loc /\ o_slots o = sl.

  Definition all_slots : list (nat * nat * slot) :=
    flat_map (fun e => match e with (c, (_, sl, _)) =>
      map (fun js => (c, fst js, snd js)) (combine (seq 0 (List.length sl)) sl) end) objs.

  Lemma in_combine_seq {A} (sl : list A) k j s : nth_error sl j = Some s -> In (k + j, s) (combine (seq k (List.length sl)) sl).
  Proof.
    revert k j. induction sl as [|x sl IH]; intros k j H; [destruct j; discriminate|].
    destruct j as [|j]; cbn in *.
    - injection H as <-. left. now rewrite Nat.add_0_r.
    - right. rewrite Nat.add_succ_r. change (S (k + j)) with (S k + j). now apply IH.
  Qed.

  Lemma slot_in c j s : slot_at h c j = Some s -> In (c, j, s) all_slots.
  Proof.
    unfold slot_at. destruct (h c) as [o|] eqn:E; [|discriminate]. intros Hs.
    destruct (Hobjs _ _ E) as (l & Hin & _). unfold all_slots. apply in_flat_map.
    eexists. split; [exact Hin|]. cbn. apply in_map_iff. exists (j, s). split; [reflexivity|].
    exact (in_combine_seq _ 0 j s Hs).
  Qed.
End Finite.

Definition def_ok (def : answer) : Prop := forall j, def <> ASlot j.

Lemma ex_wf def : def_ok def -> wf (ex_heap def) 0.
Proof.
  intros Hd.
  assert (HnN : forall j, ANull <> ASlot j) by discriminate.
  assert (Hs : forall c j s, slot_at (ex_heap def) c j = Some s ->
    In (c, j, s) [(0,0,own 1); (1,0,own 2); (1,1,own 4); (2,0,own 3); (4,0,weak 1 3); (4,1,weak 1 2)]).
  { intros c j s. unfold slot_at. do 5 (destruct c as [|c]; [cbn; do 3 (destruct j as [|j]; cbn; [intros [= <-]; tauto|]); try discriminate; destruct j; discriminate|]).
    cbn. discriminate. }
  assert (Hn : forall c o n i, ex_heap def c = Some o -> o_names o n = ASlot i ->
     In (c, n, i) [(0,"assets",0); (1,"m",0); (1,"s",1); (2,"mesh",0)]).
  { intros c o n i. do 5 (destruct c as [|c]; [cbn; intros [= <-]; cbn; intros H; apply names_slot in H; try assumption; cbn in *; intuition congruence|]).
    discriminate. }
  constructor.
  - eexists. reflexivity.
  - intros c o n i E En. specialize (Hn _ _ _ _ E En). cbn in Hn.
    destruct Hn as [H|[H|[H|[H|[]]]]]; injection H as <- <- <-; cbn in E; injection E as <-; cbn; eexists; split; reflexivity.
  - constructor; [reflexivity|]. intros c n c' Hq.
    unfold query in Hq. destruct (ex_heap def c) as [o|] eqn:E; [|discriminate].
    destruct (o_names o n) as [i| |] eqn:En; try discriminate.
    specialize (Hn _ _ _ _ E En). cbn in Hn.
    destruct Hn as [H|[H|[H|[H|[]]]]]; injection H as <- <- <-; cbn in E; injection E as <-; cbn in Hq; injection Hq as <-; cbn;
      (split; [reflexivity|split; [discriminate|repeat split; discriminate]]).
  - intros c i s p H Hp. specialize (Hs _ _ _ H). cbn in Hs.
    repeat (destruct Hs as [Hs|Hs]; [injection Hs as <- <- <-; cbn in Hp; injection Hp as <-; eexists; reflexivity|]). contradiction.
  - intros a i s a' i' s' b H Ho Hp H' Ho' Hp'. apply Hs in H. apply Hs in H'. cbn in H, H'.
    repeat (destruct H as [H|H]; [injection H as <- <- <-; cbn in *;
      repeat (destruct H' as [H'|H']; [injection H' as <- <- <-; cbn in *; try congruence; auto|]); try contradiction|]); contradiction.
  - intros a (i & s & H & Ho & Hp). apply Hs in H. cbn in H.
    repeat (destruct H as [H|H]; [injection H as <- <- <-; cbn in *; congruence|]). contradiction.
Qed.

Lemma ex_live def : forall c, c < 5 -> live (ex_heap def) 0 c.
Proof.
  intros c Hc.
  assert (H0 : live (ex_heap def) 0 0) by constructor.
  assert (H1 : live (ex_heap def) 0 1) by (apply star_step with 0; [exact H0|exists 0, (own 1); auto]).
  assert (H2 : live (ex_heap def) 0 2) by (apply star_step with 1; [exact H1|exists 0, (own 2); auto]).
  assert (H3 : live (ex_heap def) 0 3) by (apply star_step with 2; [exact H2|exists 0, (own 3); auto]).
  assert (H4 : live (ex_heap def) 0 4) by (apply star_step with 1; [exact H1|exists 1, (own 4); auto]).
  do 5 (destruct c as [|c]; [assumption|]). lia.
Qed.

Lemma ex_no_stale def : no_stale (ex_heap def) 0.
Proof.
  intros c i s p _ (H & _) Hp. apply ex_live.
  do 5 (destruct c as [|c]; [unfold slot_at in H; cbn in H; do 3 (destruct i as [|i]; cbn in H; [try (injection H as <-; cbn in Hp; injection Hp as <-; lia); discriminate|]); try discriminate; destruct i; discriminate|]).
  discriminate.
Qed.

Definition ex_new : obj := new_instance "$.assets" "m" all_impl.
Definition ex_h1 (def : answer) : heap := replace_entry (ex_heap def) 1 0 5 ex_new.
Definition ex_h2 (child : string) (def : answer) : heap := fst (ex_construct child def None (ex_h1 def)).

Lemma ex_h2_slots child def c j s : slot_at (ex_h2 child def) c j = Some s ->
  In (c, j, s) [(0,0,own 1); (1,0,own 5); (1,1,own 4); (2,0,own 3); (4,0,weak 1 3); (4,1,weak 1 2); (5,0,own 6)].
Proof.
  unfold slot_at. do 7 (destruct c as [|c]; [cbn; do 3 (destruct j as [|j]; cbn; [intros [= <-]; cbn; tauto|]); try discriminate; destruct j; discriminate|]).
  cbn. discriminate.
Qed.

Lemma ex_constructs child def : def_ok def -> child <> "" -> dot_free child ->
  constructs 0 5 (ex_h1 def) (ex_h2 child def).
Proof.
  intros Hd Hch Hdf.
  assert (HnN : forall j, ANull <> ASlot j) by discriminate.
  assert (Hs := ex_h2_slots child def).
  assert (Hn : forall c o n i, ex_h2 child def c = Some o -> o_names o n = ASlot i ->
     In (c, n, i) [(0,"assets",0); (1,"m",0); (1,"s",1); (2,"mesh",0); (5,child,0)]).
  { intros c o n i. do 7 (destruct c as [|c]; [cbn; intros [= <-]; cbn; intros H; apply names_slot in H; try assumption; cbn in *; intuition congruence|]).
    discriminate. }
  constructor.
  - intros c Hc H. unfold ex_h2, ex_construct, upd. cbn [fst].
    destruct (Nat.eqb_spec c 6) as [->|]; [|destruct (Nat.eqb_spec c 5); [contradiction|reflexivity]].
    exfalso. apply H. reflexivity.
  - do 2 eexists. split; [reflexivity|]. split; [reflexivity|]. split; reflexivity.
  - constructor.
    + eexists. reflexivity.
    + intros c o n i E En. specialize (Hn _ _ _ _ E En). cbn in Hn.
      destruct Hn as [H|[H|[H|[H|[H|[]]]]]]; injection H as <- <- <-; cbn in E; injection E as <-; cbn; eexists; split; reflexivity.
    + constructor; [reflexivity|]. intros c n c' Hq.
      unfold query in Hq. destruct (ex_h2 child def c) as [o|] eqn:E; [|discriminate].
      destruct (o_names o n) as [i| |] eqn:En; try discriminate.
      specialize (Hn _ _ _ _ E En). cbn in Hn.
      destruct Hn as [H|[H|[H|[H|[H|[]]]]]]; injection H as <- <- <-; cbn in E; injection E as <-; cbn in Hq; injection Hq as <-; cbn;
        (split; [reflexivity|split; [try discriminate; assumption|try assumption; repeat split; discriminate]]).
    + intros c i s p H Hp. specialize (Hs _ _ _ H). cbn in Hs.
      repeat (destruct Hs as [Hs|Hs]; [injection Hs as <- <- <-; cbn in Hp; injection Hp as <-; eexists; reflexivity|]). contradiction.
    + intros a i s a' i' s' b H Ho Hp H' Ho' Hp'. apply Hs in H. apply Hs in H'. cbn in H, H'.
      repeat (destruct H as [H|H]; [injection H as <- <- <-; cbn in *;
        repeat (destruct H' as [H'|H']; [injection H' as <- <- <-; cbn in *; try congruence; auto|]); try contradiction|]); contradiction.
    + intros a (i & s & H & Ho & Hp). apply Hs in H. cbn in H.
      repeat (destruct H as [H|H]; [injection H as <- <- <-; cbn in *; congruence|]). contradiction.
  - intros c d Hc (i & s & H & Ho & Hp). apply Hs in H. cbn in H.
    repeat (destruct H as [H|H]; [injection H as <- <- <-; cbn in *; destruct Hc as [Hc|Hc]; try discriminate; try (injection Hp as <-; reflexivity)|]). contradiction.
  - intros c i s p Hc (H & Ho & _) Hp.
    assert (Hc' : c = 5 \/ c = 6).
    { clear -Hc Hs. induction Hc as [|b c Hb IH (j & s & H & Ho & Hp)]; [now left|].
      apply Hs in H. cbn in H. destruct IH as [->| ->];
      repeat (destruct H as [H|H]; [inversion H; subst; try discriminate; cbn in Hp; injection Hp as <-; auto|]); contradiction. }
    apply Hs in H. cbn in H. destruct Hc' as [->| ->];
    repeat (destruct H as [H|H]; [inversion H; subst; try discriminate|]); contradiction.
Qed.
