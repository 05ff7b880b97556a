From Coq Require Import List String Ascii Arith Lia Bool.
From Verif Require Import Base Assoc LocModel LocSpec LocProofs AssetModel AssetSpec AssetProofs.
Import ListNotations.
Open Scope string_scope. Open Scope list_scope. Open Scope nat_scope. Open Scope bool_scope.

(** ** Lookup depends on the query only *)
Lemma walk_ext {C} (q1 q2 : C -> string -> outcome (option C)) c l :
  (forall c n, q1 c n = q2 c n) -> walk q1 c l = walk q2 c l.
Proof.
  intros H. revert c. induction l as [|n l IH]; intros c; cbn; [reflexivity|].
  rewrite H. destruct (q2 c n) as [[c'|]| | |]; auto.
Qed.

Lemma get_ext {C} (q1 q2 : C -> string -> outcome (option C)) r l :
  (forall c n, q1 c n = q2 c n) -> get C q1 r l = get C q2 r l.
Proof.
  intros H. rewrite !get_spec. destruct r; [|reflexivity]. destruct (segments l); [reflexivity|].
  destruct (String.eqb _ _); [|reflexivity]. now apply walk_ext.
Qed.

Lemma walk_reaches {C} (q : C -> string -> outcome (option C)) c l d :
  walk q c l = Ok (Some d) -> reaches q c d.
Proof.
  intros H. assert (G : forall a, reaches q a c -> reaches q a d).
  { revert c H. induction l as [|n l IH]; intros c H a Ha; cbn in H.
    - now injection H as <-.
    - destruct (q c n) as [[c'|]| | |] eqn:E; try discriminate.
      eapply IH; [exact H|]. econstructor; eassumption. }
  apply G. constructor.
Qed.

Lemma get_reaches {C} (q : C -> string -> outcome (option C)) r l d :
  get C q (Some r) l = Ok (Some d) -> reaches q r d.
Proof.
  rewrite get_spec. destruct (segments l); [discriminate|].
  destruct (String.eqb _ _); [|discriminate]. apply walk_reaches.
Qed.

(** ** Skeleton: everything but the weak pointers *)
Definition slot_skel (s s' : slot) : Prop :=
  s_owned s = s_owned s' /\ s_reported s = s_reported s' /\ s_type s = s_type s'
  /\ (s_owned s = true -> s_ptr s = s_ptr s').

Definition obj_skel (o o' : obj) : Prop :=
  o_loc o = o_loc o' /\ o_impl o = o_impl o' /\ o_names o = o_names o' /\ Forall2 slot_skel (o_slots o) (o_slots o').

Definition skel (h h' : heap) : Prop :=
  forall c, match h c, h' c with
            | Some o, Some o' => obj_skel o o'
            | None, None => True
            | _, _ => False
            end.

Lemma slot_skel_refl s : slot_skel s s.
Proof. repeat split. Qed.
Lemma slot_skel_trans a b c : slot_skel a b -> slot_skel b c -> slot_skel a c.
Proof.
  intros (A1 & A2 & A3 & A4) (B1 & B2 & B3 & B4). repeat split; try congruence.
  intros H. rewrite A4 by exact H. apply B4. congruence.
Qed.
Lemma F2_refl l : Forall2 slot_skel l l.
Proof. induction l; constructor; auto using slot_skel_refl. Qed.
Lemma F2_trans a b c : Forall2 slot_skel a b -> Forall2 slot_skel b c -> Forall2 slot_skel a c.
Proof.
  intros H. revert c. induction H as [|x y a b Hxy H IH]; intros c Hc; inversion Hc; subst; constructor.
  - eapply slot_skel_trans; eassumption.
  - auto.
Qed.
Lemma skel_refl h : skel h h.
Proof. intros c. destruct (h c); [|trivial]. repeat split; auto using F2_refl. Qed.
Lemma skel_trans a b c : skel a b -> skel b c -> skel a c.
Proof.
  intros H1 H2 x. specialize (H1 x); specialize (H2 x).
  destruct (a x), (b x), (c x); try tauto.
  destruct H1 as (A1 & A2 & A3 & A4), H2 as (B1 & B2 & B3 & B4).
  repeat split; try congruence. eapply F2_trans; eassumption.
Qed.

Lemma F2_nth (R : slot -> slot -> Prop) l l' i s : Forall2 R l l' -> nth_error l i = Some s ->
  exists s', nth_error l' i = Some s' /\ R s s'.
Proof.
  intros H. revert i. induction H as [|x y l l' Hxy H IH]; intros i Hi; [destruct i; discriminate|].
  destruct i as [|i]; cbn in *; [injection Hi as <-; eauto|]. now apply IH.
Qed.
Lemma F2_sym l l' : Forall2 slot_skel l l' -> Forall2 slot_skel l' l.
Proof.
  induction 1 as [|x y l l' (A & B & C & D) H IH]; constructor; auto.
  repeat split; try congruence. intros E. symmetry. apply D. congruence.
Qed.
Lemma skel_sym h h' : skel h h' -> skel h' h.
Proof.
  intros H c. specialize (H c). destruct (h c), (h' c); try tauto.
  destruct H as (A & B & C & D). repeat split; try congruence. now apply F2_sym.
Qed.

Lemma skel_slot h h' c i s : skel h h' -> slot_at h c i = Some s ->
  exists s', slot_at h' c i = Some s' /\ slot_skel s s'.
Proof.
  intros H. specialize (H c). unfold slot_at. destruct (h c), (h' c); try tauto; try discriminate.
  destruct H as (_ & _ & _ & H). now apply F2_nth.
Qed.

Lemma skel_owns h h' a b : skel h h' -> owns h a b -> owns h' a b.
Proof.
  intros H (i & s & Hs & Ho & Hp). destruct (skel_slot _ _ _ _ _ H Hs) as (s' & Hs' & A & B & C & D).
  exists i, s'. repeat split; [exact Hs'|congruence|]. rewrite <- D; assumption.
Qed.
Lemma skel_shows h h' a b : skel h h' -> shows h a b -> shows h' a b.
Proof.
  intros H (i & s & Hs & Ho & Hr & Hp). destruct (skel_slot _ _ _ _ _ H Hs) as (s' & Hs' & A & B & C & D).
  exists i, s'. repeat split; [exact Hs'|congruence|congruence|]. rewrite <- D; assumption.
Qed.

Lemma star_impl {A} (R S : A -> A -> Prop) a b : (forall x y, R x y -> S x y) -> star R a b -> star S a b.
Proof. intros H. induction 1 as [|b c H1 IH H2]; [constructor|]. apply star_step with b; auto. Qed.
Lemma star_trans {A} (R : A -> A -> Prop) a b c : star R a b -> star R b c -> star R a c.
Proof. intros H1 H2. revert H1. induction H2 as [|x c H2 IH Hx]; intros H1; [exact H1|]. apply star_step with x; auto. Qed.

Definition names_owned (h : heap) : Prop :=
  forall c o n i, h c = Some o -> o_names o n = ASlot i ->
  exists s, nth_error (o_slots o) i = Some s /\ s_owned s = true.

Lemma skel_query h h' c n : names_owned h -> skel h h' -> query h c n = query h' c n.
Proof.
  intros Hn H. specialize (H c). unfold query. destruct (h c) as [o|] eqn:E, (h' c) as [o'|]; try tauto.
  destruct H as (A & B & C & D). rewrite <- C. destruct (o_names o n) as [i| |e] eqn:En; try reflexivity.
  destruct (Hn _ _ _ _ E En) as (s & Hs & Ho).
  destruct (F2_nth _ _ _ _ _ D Hs) as (s' & Hs' & _ & _ & _ & Hp). rewrite Hs, Hs'. now rewrite Hp.
Qed.

Lemma skel_get h h' root l : names_owned h -> skel h h' -> comp_get h root l = comp_get h' root l.
Proof. intros Hn H. apply get_ext. intros c n. now apply skel_query. Qed.

Lemma skel_cast h h' ty p : skel h h' -> cast h ty p = cast h' ty p.
Proof.
  intros H. destruct p as [q|]; [|reflexivity]. cbn. specialize (H q).
  destruct (h q), (h' q); try tauto. destruct H as (_ & B & _). now rewrite B.
Qed.

Lemma skel_update_ref h h' root a s : names_owned h -> skel h h' ->
  update_ref h root a s = update_ref h' root a s.
Proof.
  intros Hn H. unfold update_ref. destruct (s_ptr s) as [p|]; [|reflexivity].
  rewrite <- (skel_cast h h') by exact H. destruct (p =? a); [reflexivity|].
  pose proof (H p) as Hp. destruct (h p), (h' p); try tauto.
  destruct Hp as (A & _). rewrite A, (skel_get h h' root _ Hn H).
  destruct (String.eqb _ _); [reflexivity|].
  destruct (comp_get h' root _) as [q| | |]; try reflexivity. cbn. now apply skel_cast.
Qed.

Lemma F2_replace l i s s' : nth_error l i = Some s -> slot_skel s s' -> Forall2 slot_skel l (replace_nth i s' l).
Proof.
  revert i. induction l as [|x l IH]; intros i H Hs; [destruct i; discriminate|].
  destruct i as [|i]; cbn in *; constructor; auto using slot_skel_refl, F2_refl.
  injection H as ->. exact Hs.
Qed.

Lemma skel_set_slot h c i s p : slot_at h c i = Some s -> s_owned s = false -> skel h (set_slot h c i p).
Proof.
  unfold slot_at, set_slot. intros H Ho. destruct (h c) as [o|] eqn:E; [|discriminate]. rewrite H.
  intros d. unfold upd. destruct (Nat.eqb_spec d c) as [->|].
  - rewrite E. repeat split; auto. cbn. eapply F2_replace; [exact H|].
    repeat split. intros E2. congruence.
  - destruct (h d); [|trivial]. repeat split; auto using F2_refl.
Qed.

Lemma slot_at_set h c i p d j : slot_at (set_slot h c i p) d j =
  match slot_at h d j with
  | Some s => Some (if (d =? c) && (j =? i) then with_ptr s p else s)
  | None => None
  end.
Proof.
  unfold slot_at, set_slot. destruct (h c) as [o|] eqn:E.
  - destruct (nth_error (o_slots o) i) as [s|] eqn:Es.
    + unfold upd. destruct (Nat.eqb_spec d c) as [->|]; cbn [andb].
      * rewrite E. cbn [o_slots with_slots]. rewrite nth_error_replace.
        destruct (Nat.eqb_spec j i) as [->|]; cbn [andb].
        -- rewrite Es. assert (Hl : i < List.length (o_slots o)) by (apply nth_error_Some; congruence).
           now rewrite (proj2 (Nat.ltb_lt _ _) Hl).
        -- destruct (nth_error (o_slots o) j); reflexivity.
      * destruct (h d) as [od|]; [|reflexivity]. destruct (nth_error (o_slots od) j); reflexivity.
    + destruct (Nat.eqb_spec d c) as [->|]; cbn [andb].
      * rewrite E. destruct (Nat.eqb_spec j i) as [->|].
        -- now rewrite Es.
        -- destruct (nth_error (o_slots o) j); reflexivity.
      * destruct (h d) as [od|]; [|reflexivity]. destruct (nth_error (o_slots od) j); reflexivity.
  - destruct (Nat.eqb_spec d c) as [->|]; cbn [andb]; [now rewrite E|].
    destruct (h d) as [od|]; [|reflexivity]. destruct (nth_error (o_slots od) j); reflexivity.
Qed.

(** ** The traversal *)
Section Traverse.
  Variables (root asset : nat) (h0 : heap).
  Hypothesis Hwf : wf h0 root.

  Let Hnames : names_owned h0 := wf_names _ _ Hwf.

  Definition U (s : slot) (q : option nat) : Prop := update_ref h0 root asset s = Ok q.

  Lemma cast_idem ty p q : cast h0 ty p = Ok q -> cast h0 ty q = Ok q.
  Proof.
    destruct p as [p|]; cbn; [|intros [= <-]; reflexivity].
    destruct (h0 p) as [o|] eqn:E; [|discriminate]. destruct (o_impl o ty) eqn:Ei; intros [= <-]; cbn; [|reflexivity].
    now rewrite E, Ei.
  Qed.
  Lemma cast_some ty p q : cast h0 ty p = Ok (Some q) -> p = Some q.
  Proof.
    destruct p as [p|]; cbn; [|discriminate]. destruct (h0 p) as [o|]; [|discriminate].
    destruct (o_impl o ty); intros [= <-]; reflexivity.
  Qed.

  (** Updating twice is updating once. *)
  Lemma U_idem s q : U s q -> U (with_ptr s q) q.
  Proof.
    unfold U, update_ref. cbn [s_ptr s_type with_ptr]. destruct (s_ptr s) as [p|]; [|now intros [= <-]].
    destruct q as [q|]; [|intros _; reflexivity].
    destruct (Nat.eqb_spec p asset) as [->|Hpa].
    - intros H. pose proof (cast_some _ _ _ H) as [= ->]. now rewrite Nat.eqb_refl.
    - destruct (h0 p) as [po|] eqn:Ep; [|discriminate].
      destruct (String.eqb_spec (o_loc po) "") as [Hl|Hl].
      + intros H. pose proof (cast_some _ _ _ H) as [= ->].
        destruct (Nat.eqb_spec q asset); [contradiction|]. rewrite Ep, Hl. exact H.
      + destruct (comp_get h0 root (o_loc po)) as [r| | |] eqn:Eg; try discriminate. cbn [obind].
        intros H. pose proof (cast_some _ _ _ H) as ->.
        destruct (Nat.eqb_spec q asset) as [->|]; [exact H|].
        assert (Hq := H). cbn in Hq. destruct (h0 q) as [oq|] eqn:Eq; [|discriminate].
        pose proof (get_own_loc _ _ _ root q (wf_located _ _ Hwf) (get_reaches _ _ _ _ Eg)) as Hown.
        cbv beta in Hown. rewrite Eq in Hown.
        destruct (String.eqb_spec (o_loc oq) "") as [Hle|Hle]; [rewrite Hle in Hown; discriminate|].
        unfold comp_get. rewrite Hown. exact H.
  Qed.

  Definition Inv (h : heap) : Prop :=
    skel h0 h /\
    forall d i s0 s, slot_at h0 d i = Some s0 -> slot_at h d i = Some s ->
      s_ptr s = s_ptr s0 \/ (s_owned s0 = false /\ s_reported s0 = true /\ U s0 (s_ptr s)).

  Definition Done (h : heap) (d : nat) : Prop :=
    forall i s0 s, slot_at h0 d i = Some s0 -> slot_at h d i = Some s ->
      s_owned s0 = false -> s_reported s0 = true -> U s0 (s_ptr s).

  Lemma slot_eta s s0 : slot_skel s0 s -> s = with_ptr s0 (s_ptr s).
  Proof. intros (A & B & C & D). destruct s; cbn in *. unfold with_ptr. now rewrite A, B, C. Qed.

  (** Value written for a slot [s] that satisfies the invariant w.r.t. [s0]. *)
  Lemma U_value h s0 s q : skel h0 h -> slot_skel s0 s ->
    (s_ptr s = s_ptr s0 \/ U s0 (s_ptr s)) ->
    update_ref h root asset s = Ok q -> U s0 q.
  Proof.
    intros Hsk Hss Hor Hu. rewrite <- (skel_update_ref h0 h) in Hu by assumption.
    rewrite (slot_eta _ _ Hss) in Hu. destruct Hor as [E|E].
    - rewrite E in Hu. unfold U. destruct s0; exact Hu.
    - pose proof (U_idem _ _ E) as E2. unfold U in E2. rewrite E2 in Hu. injection Hu as <-. exact E.
  Qed.

  Lemma Inv_set h c i s0 q : Inv h -> slot_at h0 c i = Some s0 -> s_owned s0 = false -> s_reported s0 = true ->
    U s0 q -> Inv (set_slot h c i q).
  Proof.
    intros [Hsk Hi] Hs0 Ho Hr Hu.
    destruct (skel_slot _ _ _ _ _ Hsk Hs0) as (s & Hs & Hss).
    split.
    - eapply skel_trans; [exact Hsk|]. eapply skel_set_slot; [exact Hs|]. destruct Hss as (A & _). congruence.
    - intros d j t0 t Ht0 Ht. rewrite slot_at_set in Ht.
      destruct (slot_at h d j) as [t'|] eqn:Et; [|discriminate]. injection Ht as <-.
      destruct ((d =? c) && (j =? i)) eqn:E; [|eapply Hi; eassumption].
      apply andb_true_iff in E. destruct E as [E1 E2]. apply Nat.eqb_eq in E1, E2. subst d j.
      rewrite Hs0 in Ht0. injection Ht0 as <-. right. auto.
  Qed.

  Lemma Done_set h c i s0 q d : Inv h -> slot_at h0 c i = Some s0 -> U s0 q -> Done h d -> Done (set_slot h c i q) d.
  Proof.
    intros [Hsk Hi] Hs0 Hu Hd j t0 t Ht0 Ht Ho Hr. rewrite slot_at_set in Ht.
    destruct (slot_at h d j) as [t'|] eqn:Et; [|discriminate]. injection Ht as <-.
    destruct ((d =? c) && (j =? i)) eqn:E; [|eapply Hd; eassumption].
    apply andb_true_iff in E. destruct E as [E1 E2]. apply Nat.eqb_eq in E1, E2. subst d j.
    rewrite Hs0 in Ht0. injection Ht0 as <-. exact Hu.
  Qed.

  (** Single slot done. *)
  Definition SDone (h : heap) (d i : nat) : Prop :=
    forall s0 s, slot_at h0 d i = Some s0 -> slot_at h d i = Some s ->
      s_owned s0 = false -> s_reported s0 = true -> U s0 (s_ptr s).

  Lemma SDone_set h c i s0 q d j : slot_at h0 c i = Some s0 -> U s0 q -> SDone h d j -> SDone (set_slot h c i q) d j.
  Proof.
    intros Hs0 Hu Hd t0 t Ht0 Ht Ho Hr. rewrite slot_at_set in Ht.
    destruct (slot_at h d j) as [t'|] eqn:Et; [|discriminate]. injection Ht as <-.
    destruct ((d =? c) && (j =? i)) eqn:E; [|eapply Hd; eassumption].
    apply andb_true_iff in E. destruct E as [E1 E2]. apply Nat.eqb_eq in E1, E2. subst d j.
    rewrite Hs0 in Ht0. injection Ht0 as <-. exact Hu.
  Qed.

  Definition vedge (a b : nat) : Prop := shows h0 a b /\ b <> asset.

  (** Contract of a (recursive) traversal. *)
  Definition contract (rec : heap -> nat -> res) : Prop :=
    forall h c h', Inv h -> rec h c = (h', Ok tt) ->
      Inv h' /\ (forall d j, SDone h d j -> SDone h' d j)
      /\ (forall d j, star vedge c d -> SDone h' d j).

  Lemma star_inv_first {A} (R : A -> A -> Prop) a d : star R a d -> a = d \/ exists b, R a b /\ star R b d.
  Proof.
    induction 1 as [|b c H IH Hbc]; [now left|]. right.
    destruct IH as [->|(x & Hx & Hxb)].
    - exists c. split; [exact Hbc|constructor].
    - exists x. split; [exact Hx|econstructor; eassumption].
  Qed.

  Lemma foreach_slot_ok rec c : contract rec ->
    forall slots k h h', Inv h ->
      (forall j s, nth_error slots j = Some s -> exists s0, slot_at h0 c (k + j) = Some s0 /\ slot_skel s0 s
                   /\ (s_ptr s = s_ptr s0 \/ (s_owned s0 = false /\ s_reported s0 = true /\ U s0 (s_ptr s)))) ->
      foreach_slot rec root asset c k slots h = (h', Ok tt) ->
      Inv h' /\ (forall d j, SDone h d j -> SDone h' d j)
      /\ (forall j, j < List.length slots -> SDone h' c (k + j))
      /\ (forall j s b, nth_error slots j = Some s -> s_owned s = true -> s_reported s = true -> s_ptr s = Some b ->
            b <> asset -> forall d i, star vedge b d -> SDone h' d i).
  Proof.
    intros Hrec. induction slots as [|s r IH]; intros k h h' HI Hsl H; cbn [foreach_slot] in H.
    { injection H as <-. repeat split; auto; try apply HI; cbn; intros; try lia; now destruct j. }
    destruct (Hsl 0 s eq_refl) as (s0 & Hs0 & Hss & Hor). rewrite Nat.add_0_r in Hs0.
    assert (Hsl' : forall j t, nth_error r j = Some t -> exists s0, slot_at h0 c (S k + j) = Some s0 /\ slot_skel s0 t
                   /\ (s_ptr t = s_ptr s0 \/ (s_owned s0 = false /\ s_reported s0 = true /\ U s0 (s_ptr t)))).
    { intros j t Hj. destruct (Hsl (S j) t Hj) as (x & Hx & Hy). rewrite Nat.add_succ_r in Hx. eauto. }
    (* result of treating this slot *)
    match type of H with (let '(_, _) := ?X in _) = _ => remember X as R eqn:ER end.
    destruct R as [h1 o1]. destruct o1 as [[]| | |]; try (injection H as _ H; discriminate).
    assert (Step : Inv h1 /\ (forall d j, SDone h d j -> SDone h1 d j) /\ SDone h1 c k
                   /\ (forall b, s_owned s = true -> s_reported s = true -> s_ptr s = Some b -> b <> asset ->
                        forall d i, star vedge b d -> SDone h1 d i)).
    { destruct Hss as (So & Sr & St & Sp).
      destruct (s_reported s) eqn:Er; cbn [negb] in ER.
      - destruct (s_owned s) eqn:Eo.
        + assert (HD : SDone h c k) by (intros t0 t Ht0 _ Ho; rewrite Hs0 in Ht0; injection Ht0 as <-; congruence).
          destruct (s_ptr s) as [b|] eqn:Ep.
          * destruct (Nat.eqb_spec b asset) as [->|Hb].
            -- injection ER as ->. repeat split; auto; try apply HI. intros b _ _ [= <-] Hb. now contradiction Hb.
            -- symmetry in ER. destruct (Hrec _ _ _ HI ER) as (I1 & I2 & I3).
               split; [exact I1|]. split; [exact I2|]. split; [auto|]. intros b' _ _ [= <-] _. exact I3.
          * injection ER as ->. repeat split; auto; try apply HI. discriminate.
        + destruct (update_ref h root asset s) as [q| | |] eqn:Eu; try discriminate.
          injection ER as ->.
          assert (Hu : U s0 q).
          { apply (U_value h s0 s q).
            - apply HI.
            - repeat split; auto; congruence.
            - destruct Hor as [E|(_ & _ & E)]; [left; exact E|right; exact E].
            - exact Eu. }
          split; [eapply Inv_set; eauto; congruence|]. split; [intros d j; now apply SDone_set with (s0 := s0)|].
          split; [|congruence].
          intros t0 t Ht0 Ht Ho Hr. rewrite Hs0 in Ht0. injection Ht0 as <-.
          rewrite slot_at_set in Ht. destruct (slot_at h c k); [|discriminate].
          rewrite !Nat.eqb_refl in Ht. injection Ht as <-. exact Hu.
      - injection ER as ->. split; [exact HI|]. split; [auto|]. split; [|congruence].
        intros t0 t Ht0 _ _ Hr. rewrite Hs0 in Ht0. injection Ht0 as <-. congruence. }
    destruct Step as (I1 & I2 & I3 & I4).
    destruct (IH (S k) h1 h' I1 Hsl' H) as (J1 & J2 & J3 & J4).
    split; [exact J1|]. split; [auto|]. split.
    - intros j Hj. destruct j as [|j]; [rewrite Nat.add_0_r; auto|].
      rewrite Nat.add_succ_r. apply J3. cbn in Hj. lia.
    - intros j t b Hj Ho Hr Hp Hb d i Hd. destruct j as [|j]; cbn in Hj.
      + injection Hj as <-. apply J2. eapply I4; eassumption.
      + eapply J4; eassumption.
  Qed.

  Lemma update_refs_contract fuel : contract (update_refs fuel root asset).
  Proof.
    induction fuel as [|fuel IH]; intros h c h' HI H; cbn [update_refs] in H; [discriminate|].
    destruct (h c) as [o|] eqn:Ec; [|discriminate].
    assert (Hsl : forall j s, nth_error (o_slots o) j = Some s -> exists s0, slot_at h0 c (0 + j) = Some s0 /\ slot_skel s0 s
                   /\ (s_ptr s = s_ptr s0 \/ (s_owned s0 = false /\ s_reported s0 = true /\ U s0 (s_ptr s)))).
    { intros j s Hj. assert (Hs : slot_at h c j = Some s) by (unfold slot_at; now rewrite Ec).
      destruct HI as [Hsk Hi]. destruct (skel_slot _ _ _ _ _ (skel_sym _ _ Hsk) Hs) as (s0 & Hs0 & Hss).
      exists s0. split; [exact Hs0|]. split.
      - destruct Hss as (A & B & C & D). repeat split; try congruence. intros E. symmetry. apply D. congruence.
      - eapply Hi; eassumption. }
    destruct (foreach_slot_ok _ c IH _ _ _ _ HI Hsl H) as (J1 & J2 & J3 & J4).
    split; [exact J1|]. split; [exact J2|]. intros d j Hd.
    destruct (star_inv_first _ _ _ Hd) as [<-|(b & (Hsh & Hb) & Hbd)].
    - destruct (Nat.lt_ge_cases j (List.length (o_slots o))) as [Hj|Hj]; [exact (J3 j Hj)|].
      intros s0 s Hs0 _ _ _. destruct HI as [Hsk _].
      destruct (skel_slot _ _ _ _ _ Hsk Hs0) as (s' & Hs' & _). unfold slot_at in Hs'. rewrite Ec in Hs'.
      apply nth_error_None in Hj. congruence.
    - destruct Hsh as (i & s0 & Hs0 & Ho & Hr & Hp). destruct HI as [Hsk _].
      destruct (skel_slot _ _ _ _ _ Hsk Hs0) as (s & Hs & Hss). unfold slot_at in Hs. rewrite Ec in Hs.
      destruct Hss as (A & B & C & D).
      refine (J4 i s b Hs _ _ _ Hb d j Hbd); [congruence|congruence|rewrite <- D; assumption].
  Qed.

  Lemma Inv_refl : Inv h0.
  Proof. split; [apply skel_refl|]. intros d i s0 s E1 E2. left. congruence. Qed.

  Lemma update_refs_ok fuel c h' : update_refs fuel root asset h0 c = (h', Ok tt) ->
    skel h0 h' /\
    (forall d i s0 s, star vedge c d -> slot_at h0 d i = Some s0 -> slot_at h' d i = Some s ->
       s_owned s0 = false -> s_reported s0 = true -> U s0 (s_ptr s)) /\
    (forall d i s0 s, slot_at h0 d i = Some s0 -> slot_at h' d i = Some s ->
       s_ptr s = s_ptr s0 \/ (s_owned s0 = false /\ s_reported s0 = true /\ U s0 (s_ptr s))).
  Proof.
    intros H. destruct (update_refs_contract fuel _ _ _ Inv_refl H) as ([Hsk Hi] & _ & HD).
    split; [exact Hsk|]. split; [|exact Hi].
    intros d i s0 s Hd Hs0 Hs Ho Hr. exact (HD d i Hd s0 s Hs0 Hs Ho Hr).
  Qed.

  (** Termination: if ownership is well founded, enough fuel exists and is bounded by the rank. *)
  Lemma foreach_slot_fuel rec c slots k h :
    (forall h b j s, nth_error slots j = Some s -> s_owned s = true -> s_reported s = true -> s_ptr s = Some b -> skel h0 h -> snd (rec h b) <> Fuel) ->
    (forall h b, skel h0 h -> skel h0 (fst (rec h b))) ->
    skel h0 h -> (forall j s, nth_error slots j = Some s -> exists s0, slot_at h0 c (k + j) = Some s0 /\ slot_skel s0 s) ->
    (forall h s, skel h0 h -> update_ref h root asset s <> Fuel) ->
    snd (foreach_slot rec root asset c k slots h) <> Fuel /\ skel h0 (fst (foreach_slot rec root asset c k slots h)).
  Proof.
    revert k h. induction slots as [|s r IH]; intros k h Hrec Hsk Hh Hsl Hu; cbn [foreach_slot].
    { split; [discriminate|exact Hh]. }
    assert (Hsl' : forall j t, nth_error r j = Some t -> exists s0, slot_at h0 c (S k + j) = Some s0 /\ slot_skel s0 t).
    { intros j t Hj. destruct (Hsl (S j) t Hj) as (x & Hx & Hy). rewrite Nat.add_succ_r in Hx. eauto. }
    assert (Hrec' : forall h b j s, nth_error r j = Some s -> s_owned s = true -> s_reported s = true -> s_ptr s = Some b -> skel h0 h -> snd (rec h b) <> Fuel).
    { intros h1 b j t Hj. exact (Hrec h1 b (S j) t Hj). }
    destruct (s_reported s) eqn:Er; cbn [negb]; [|now apply IH].
    destruct (s_owned s) eqn:Eo.
    - destruct (s_ptr s) as [b|] eqn:Ep; [|now apply IH].
      destruct (b =? asset); [now apply IH|].
      pose proof (Hrec h b 0 s eq_refl Eo Er Ep Hh) as Hf. pose proof (Hsk h b Hh) as Hk.
      destruct (rec h b) as [h1 o1]. cbn [fst snd] in *. destruct o1; try (split; [discriminate|exact Hk]); [now apply IH|congruence].
    - destruct (Hsl 0 s eq_refl) as (s0 & Hs0 & Hss). rewrite Nat.add_0_r in Hs0.
      pose proof (Hu h s Hh) as Huf.
      destruct (update_ref h root asset s) as [q| | |]; try (split; [discriminate|exact Hh]); [|congruence].
      apply IH; auto. eapply skel_trans; [exact Hh|].
      destruct (skel_slot _ _ _ _ _ Hh Hs0) as (s' & Hs' & A & _).
      eapply skel_set_slot; [exact Hs'|]. destruct Hss as (B & _). congruence.
  Qed.

  Lemma update_ref_no_fuel h s : update_ref h root asset s <> Fuel.
  Proof.
    assert (Hc : forall ty p, cast h ty p <> Fuel) by (intros ty [p|]; cbn; [destruct (h p)|]; discriminate).
    unfold update_ref. destruct (s_ptr s) as [p|]; [|discriminate].
    destruct (p =? asset); [apply Hc|]. destruct (h p); [|discriminate].
    destruct (String.eqb _ _); [apply Hc|].
    pose proof (get_never_fuel nat (query h) (Some root) (o_loc o)) as Hg.
    unfold comp_get. destruct (get nat (query h) (Some root) (o_loc o)); cbn; try discriminate; [apply Hc|].
    exfalso. apply Hg; [|reflexivity]. intros c n. unfold query. destruct (h c) as [oc|]; [|discriminate].
    destruct (o_names oc n) as [i| |e]; try discriminate. destruct (nth_error (o_slots oc) i); discriminate.
  Qed.

  Lemma update_refs_fuel (rank : nat -> nat) :
    (forall a b, shows h0 a b -> rank b < rank a) ->
    forall fuel h c, skel h0 h ->
      (rank c < fuel -> snd (update_refs fuel root asset h c) <> Fuel) /\ skel h0 (fst (update_refs fuel root asset h c)).
  Proof.
    intros Hrank. induction fuel as [|fuel IH]; intros h c Hh; cbn [update_refs].
    { split; [lia|exact Hh]. }
    destruct (h c) as [o|] eqn:Ec; [|split; [discriminate|exact Hh]].
    assert (Hsl : forall j s, nth_error (o_slots o) j = Some s -> exists s0, slot_at h0 c (0 + j) = Some s0 /\ slot_skel s0 s).
    { intros j s Hj. assert (Hs : slot_at h c j = Some s) by (unfold slot_at; now rewrite Ec).
      destruct (skel_slot _ _ _ _ _ (skel_sym _ _ Hh) Hs) as (s0 & Hs0 & Hss).
      exists s0. split; [exact Hs0|]. destruct Hss as (A & B & C & D). repeat split; try congruence. intros E. symmetry. apply D. congruence. }
    destruct (Nat.lt_ge_cases (rank c) (S fuel)) as [Hlt|Hge].
    - match goal with |- (_ -> snd ?X <> _) /\ _ => assert (G : snd X <> Fuel /\ skel h0 (fst X)) end.
      { apply foreach_slot_fuel; auto.
        - intros h1 b j s Hj Ho Hr Hp Hh1. apply IH; [exact Hh1|].
          enough (rank b < rank c) by lia. apply Hrank.
          destruct (Hsl j s Hj) as (s0 & Hs0 & A & B & C & D). exists j, s0.
          repeat split; [exact Hs0|congruence|congruence|rewrite D; [exact Hp|congruence]].
        - intros h1 b Hh1. now apply IH.
        - intros. apply update_ref_no_fuel. }
      tauto.
    - split; [lia|].
      (* skeleton preservation does not need the bound *)
      assert (Hsk : forall slots k h, skel h0 h ->
                (forall j s, nth_error slots j = Some s -> exists s0, slot_at h0 c (k + j) = Some s0 /\ slot_skel s0 s) ->
                skel h0 (fst (foreach_slot (update_refs fuel root asset) root asset c k slots h))).
      { clear -IH. induction slots as [|s r IHs]; intros k h Hh Hsl; cbn [foreach_slot]; [exact Hh|].
        assert (Hsl' : forall j t, nth_error r j = Some t -> exists s0, slot_at h0 c (S k + j) = Some s0 /\ slot_skel s0 t).
        { intros j t Hj. destruct (Hsl (S j) t Hj) as (x & Hx & Hy). rewrite Nat.add_succ_r in Hx. eauto. }
        destruct (s_reported s) eqn:Er; cbn [negb]; [|now apply IHs].
        destruct (s_owned s) eqn:Eo.
        - destruct (s_ptr s) as [b|]; [|now apply IHs]. destruct (b =? asset); [now apply IHs|].
          destruct (IH h b Hh) as [_ Hk]. destruct (update_refs fuel root asset h b) as [h1 o1].
          cbn [fst snd] in *. destruct o1; try exact Hk. now apply IHs.
        - destruct (Hsl 0 s eq_refl) as (s0 & Hs0 & Hss). rewrite Nat.add_0_r in Hs0.
          destruct (update_ref h root asset s) as [q| | |]; try exact Hh.
          apply IHs; auto. eapply skel_trans; [exact Hh|].
          destruct (skel_slot _ _ _ _ _ Hh Hs0) as (s' & Hs' & A & _).
          eapply skel_set_slot; [exact Hs'|]. destruct Hss as (B & _). congruence. }
      now apply Hsk.
  Qed.
End Traverse.
