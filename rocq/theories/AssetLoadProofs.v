From Coq Require Import List String Ascii Arith Lia Bool.
From Verif Require Import Base Assoc LocModel LocSpec LocProofs AssetModel AssetSpec AssetProofs AssetHeapProofs.
Import ListNotations.
Open Scope string_scope. Open Scope list_scope. Open Scope nat_scope. Open Scope bool_scope.

(** ** Ownership *)
Lemma one_owner h root a a' b : wf h root -> owns h a b -> owns h a' b -> a = a'.
Proof.
  intros Hwf (i & s & H1 & H2 & H3) (i' & s' & H1' & H2' & H3').
  now destruct (wf_one_owner _ _ Hwf _ _ _ _ _ _ _ H1 H2 H3 H1' H2' H3').
Qed.

(** Nothing kept alive by the root owns itself, even indirectly. *)
Lemma no_cycle h root c : wf h root -> live h root c -> forall d, star (owns h) c d -> ~ owns h d c.
Proof.
  intros Hwf H. induction H as [|b c H IH Hbc]; intros d Hd Hdc.
  - exact (wf_root_unowned _ _ Hwf _ Hdc).
  - assert (d = b) by (eapply one_owner; eassumption). subst d.
    inversion Hd as [E1|y z Hy Hyb E1]; subst.
    + (* c = b *) apply (IH b); [constructor|exact Hbc].
    + apply (IH y); [|exact Hyb]. apply star_trans with c; [|exact Hy].
      apply star_step with b; [constructor|exact Hbc].
Qed.

(** Two subtrees that share a component are nested. *)
Lemma nested h root a b p : wf h root -> star (owns h) a p -> star (owns h) b p ->
  star (owns h) a b \/ star (owns h) b a.
Proof.
  intros Hwf Ha. revert b. induction Ha as [|x p Hax IH Hxp]; intros b Hb.
  - now right.
  - inversion Hb as [E1|z w Hbz Hzp E1]; subst.
    + left. apply star_step with x; assumption.
    + assert (z = x) by (eapply one_owner; eassumption). subst z. now apply IH.
Qed.

(** ** From reaching by names to being owned *)
Lemma query_owns h root c n d : wf h root -> query h c n = Ok (Some d) -> owns h c d.
Proof.
  intros Hwf. unfold query. destruct (h c) as [o|] eqn:E; [|discriminate].
  destruct (o_names o n) as [i| |e] eqn:En; try discriminate.
  destruct (wf_names _ _ Hwf _ _ _ _ E En) as (s & Hs & Ho). rewrite Hs. intros [= Hp].
  exists i, s. unfold slot_at. now rewrite E.
Qed.
Lemma reaches_live h root c : wf h root -> reaches (query h) root c -> live h root c.
Proof.
  intros Hwf H. induction H as [c|a b c n H IH Hq]; [constructor|].
  apply star_step with b; [now apply IH|]. eapply query_owns; eassumption.
Qed.
Lemma get_live h root l q : wf h root -> comp_get h root l = Ok (Some q) -> live h root q.
Proof. intros Hwf H. apply reaches_live; [exact Hwf|]. eapply get_reaches. exact H. Qed.

(** ** Replacing an entry *)
Section Replace.
  Variables (root g i id old : nat) (go p0 : obj) (sl : slot) (h h2 : heap).
  Hypothesis Hwf : wf h root.
  Hypothesis Hstale : no_stale h root.
  Hypothesis Hg : live h root g.
  Hypothesis Ego : h g = Some go.
  Hypothesis Hsl : nth_error (o_slots go) i = Some sl.
  Hypothesis Hso : s_owned sl = true.
  Hypothesis Hsp : s_ptr sl = Some old.
  Hypothesis Hid : h id = None.
  Hypothesis Hslots0 : o_slots p0 = [].
  Let h1 := replace_entry h g i id p0.
  Hypothesis Hcs : constructs root id h1 h2.
  Hypothesis Hloc : forall p o, star (owns h) old p -> h p = Some o -> o_loc o <> "".

  Lemma g_ne_id : g <> id.
  Proof. intros ->. congruence. Qed.
  Lemma root_ne_id : root <> id.
  Proof. intros ->. destruct (wf_root _ _ Hwf). congruence. Qed.

  Lemma slot_at_g : slot_at h g i = Some sl.
  Proof. unfold slot_at. now rewrite Ego. Qed.

  Lemma h1_slot c j : c <> id -> slot_at h1 c j =
    match slot_at h c j with
    | Some s => Some (if (c =? g) && (j =? i) then with_ptr s (Some id) else s)
    | None => None
    end.
  Proof.
    intros Hc. unfold h1, replace_entry. unfold slot_at at 1. unfold upd.
    destruct (Nat.eqb_spec c id); [contradiction|]. exact (slot_at_set h g i (Some id) c j).
  Qed.
  Lemma h1_id j : slot_at h1 id j = None.
  Proof.
    unfold h1, replace_entry, slot_at, upd. rewrite Nat.eqb_refl, Hslots0. now destruct j.
  Qed.

  Lemma h1_alloc c : h c <> None -> h1 c <> None.
  Proof.
    intros H. unfold h1, replace_entry, upd. destruct (c =? id); [discriminate|].
    unfold set_slot. rewrite Ego, Hsl. unfold upd. now destruct (c =? g).
  Qed.
  Lemma h1_alloc_inv c : h1 c <> None -> c = id \/ h c <> None.
  Proof.
    unfold h1, replace_entry, upd. destruct (Nat.eqb_spec c id); [now left|]. right.
    revert H. unfold set_slot. rewrite Ego, Hsl. unfold upd. destruct (Nat.eqb_spec c g) as [->|]; [congruence|auto].
  Qed.

  Lemma h2_frame c : h c <> None -> h2 c = h1 c.
  Proof.
    intros H. apply (cs_frame _ _ _ _ Hcs); [intros ->; congruence|now apply h1_alloc].
  Qed.

  Lemma h2_slot c j : h c <> None -> slot_at h2 c j =
    match slot_at h c j with
    | Some s => Some (if (c =? g) && (j =? i) then with_ptr s (Some id) else s)
    | None => None
    end.
  Proof.
    intros H. rewrite <- h1_slot by (intros ->; congruence). unfold slot_at. now rewrite h2_frame.
  Qed.

  (** The only owner of [old] in [h] is [g], at entry [i]. *)
  Lemma owns_h_h2 a b : owns h a b -> b <> old -> owns h2 a b.
  Proof.
    intros (j & s & Hs & Ho & Hp) Hb.
    assert (Ha : h a <> None) by (unfold slot_at in Hs; destruct (h a); congruence).
    exists j. rewrite h2_slot by exact Ha. rewrite Hs.
    destruct ((a =? g) && (j =? i)) eqn:E.
    - apply andb_true_iff in E. destruct E as [E1 E2]. apply Nat.eqb_eq in E1, E2. subst a j.
      rewrite slot_at_g in Hs. injection Hs as <-. congruence.
    - eauto.
  Qed.

  Lemma owns_old a : owns h a old -> a = g.
  Proof.
    intros H. eapply one_owner; [exact Hwf|exact H|]. exists i, sl. split; [exact slot_at_g|]. auto.
  Qed.

  Lemma live_h_h2 c : live h root c -> ~ star (owns h) old c -> live h2 root c.
  Proof.
    intros H. induction H as [|b c H IH Hbc]; intros Hn; [constructor|].
    apply star_step with b.
    - apply IH; try assumption. intros Hb. apply Hn. apply star_step with b; assumption.
    - apply owns_h_h2; [exact Hbc|]. intros ->. apply Hn. constructor.
  Qed.

  Lemma g_not_in_old : ~ star (owns h) old g.
  Proof.
    intros H.
    assert (Hlo : live h root old) by (apply star_step with g; [exact Hg|]; exists i, sl; split; [exact slot_at_g|auto]).
    apply (no_cycle h root old Hwf Hlo g H). exists i, sl. split; [exact slot_at_g|auto].
  Qed.

  Lemma live_g2 : live h2 root g.
  Proof. apply live_h_h2; [exact Hg|exact g_not_in_old]. Qed.

  Lemma live_id2 : live h2 root id.
  Proof.
    apply star_step with g; [exact live_g2|]. exists i, (with_ptr sl (Some id)).
    rewrite h2_slot by congruence. rewrite slot_at_g, !Nat.eqb_refl. cbn. auto.
  Qed.

  (** Visited components existed before and keep their other pointers. *)
  Lemma visited_old c : visited h2 root id c -> h c <> None /\ seen h root c.
  Proof.
    intros H. induction H as [|b c H IH [Hbc Hne]].
    - split; [|constructor]. destruct (wf_root _ _ Hwf). congruence.
    - destruct IH as [Hb Hs]; try assumption.
      destruct Hbc as (j & s & Hsj & Ho & Hr & Hp). rewrite h2_slot in Hsj by exact Hb.
      destruct (slot_at h b j) as [s'|] eqn:E; [|discriminate]. injection Hsj as Hsj.
      destruct ((b =? g) && (j =? i)).
      + subst s. cbn in Hp. congruence.
      + subst s'. split.
        * destruct (wf_closed _ _ Hwf _ _ _ _ E Hp). congruence.
        * apply star_step with b; [exact Hs|]. exists j, s. auto.
  Qed.

  Lemma weak_slot_same c j s : h c <> None -> s_owned s = false ->
    (slot_at h2 c j = Some s <-> slot_at h c j = Some s).
  Proof.
    intros Hc Ho. rewrite h2_slot by exact Hc.
    destruct ((c =? g) && (j =? i)) eqn:E.
    - apply andb_true_iff in E. destruct E as [E1 E2]. apply Nat.eqb_eq in E1, E2. subst c j.
      rewrite slot_at_g. split; intros [= <-]; cbn in Ho; congruence.
    - destruct (slot_at h c j); split; auto.
  Qed.

  Lemma seen_split c : seen h2 root c -> visited h2 root id c \/ star (owns h2) id c.
  Proof.
    intros H. induction H as [|b c H IH Hbc]; [left; constructor|].
    assert (Ho : owns h2 b c) by (destruct Hbc as (j & s & A & B & C & D); exists j, s; auto).
    destruct IH as [Hv|Hv]; try assumption.
    - destruct (Nat.eq_dec c id) as [->|Hc]; [right; constructor|].
      left. apply star_step with b; auto.
    - right. apply star_step with b; auto.
  Qed.

  (** [old] has no owner after construct. *)
  Lemma old_unowned a : ~ owns h2 a old.
  Proof.
    intros Ho.
    assert (Hold : h old <> None).
    { destruct (wf_closed _ _ Hwf _ _ _ _ slot_at_g Hsp). congruence. }
    destruct (h a) as [oa|] eqn:Ea.
    - destruct Ho as (j & s & Hs & Hos & Hp). rewrite h2_slot in Hs by congruence.
      destruct (slot_at h a j) as [s'|] eqn:E; [|discriminate]. injection Hs as Hs.
      destruct ((a =? g) && (j =? i)) eqn:Eij; [subst s; cbn in Hp; congruence|]. subst s'.
      destruct (wf_one_owner _ _ Hwf _ _ _ _ _ _ _ E Hos Hp slot_at_g Hso Hsp) as [-> ->].
      rewrite !Nat.eqb_refl in Eij. discriminate.
    - assert (Hnew : a = id \/ h1 a = None).
      { destruct (h1 a) eqn:E1; [|now right]. left.
        destruct (h1_alloc_inv a) as [H|H]; [congruence|exact H|congruence]. }
      apply (h1_alloc old Hold). exact (cs_own _ _ _ _ Hcs _ _ Hnew Ho).
  Qed.

  Lemma released_not_live p : star (owns h) old p -> ~ live h2 root p.
  Proof.
    intros Hp Hl.
    assert (Hp2 : star (owns h2) old p).
    { assert (G : forall q, star (owns h) old q -> star (owns h2) old q); [|now apply G].
      intros q Hq. induction Hq as [|y z Hxy IH Hyz]; [constructor|].
      apply star_step with y; [now apply IH|]. apply owns_h_h2; [exact Hyz|].
      intros ->. apply owns_old in Hyz. subst y. exact (g_not_in_old Hxy). }
    assert (Hwf2 := cs_wf _ _ _ _ Hcs).
    destruct (nested _ _ _ _ _ Hwf2 Hl Hp2) as [H|H].
    - inversion H as [E1|y z Hxy Hyz E1]; subst.
      + (* root = old, but old is owned in h *)
        apply (wf_root_unowned _ _ Hwf g). exists i, sl. split; [exact slot_at_g|auto].
      + exact (old_unowned _ Hyz).
    - inversion H as [E1|y z Hxy Hyz E1]; subst.
      + apply (wf_root_unowned _ _ Hwf g). exists i, sl. split; [exact slot_at_g|auto].
      + exact (wf_root_unowned _ _ Hwf2 _ Hyz).
  Qed.

  Variables (fuel : nat) (h3 : heap).
  Hypothesis Hupd : update_refs fuel root id h2 root = (h3, Ok tt).

  Let Hwf2 : wf h2 root := cs_wf _ _ _ _ Hcs.

  Lemma skel23 : skel h2 h3.
  Proof. now destruct (update_refs_ok root id h2 Hwf2 _ _ _ Hupd). Qed.

  Lemma live_23 c : live h2 root c <-> live h3 root c.
  Proof.
    split; apply star_impl; intros x y; apply skel_owns; [exact skel23|apply skel_sym, skel23].
  Qed.

  Lemma ptr_not_id c j s : visited h2 root id c -> reports h2 c j s -> s_ptr s <> Some id.
  Proof.
    intros Hv (Hs & Ho & Hr) Hp. destruct (visited_old c Hv) as [Hc _].
    apply (weak_slot_same c j s Hc Ho) in Hs. destruct (wf_closed _ _ Hwf _ _ _ _ Hs Hp). congruence.
  Qed.

  Lemma visited_ref c j s0 s : visited h2 root id c -> reports h2 c j s0 -> slot_at h3 c j = Some s ->
    refreshed h3 root (s_type s0) (s_ptr s0) (s_ptr s).
  Proof.
    intros Hv Hrep Hs. pose proof (ptr_not_id _ _ _ Hv Hrep) as Hnid.
    destruct Hrep as (Hs0 & Ho & Hr).
    destruct (update_refs_ok root id h2 Hwf2 _ _ _ Hupd) as (Hsk & HU & _).
    assert (Hu := HU c j s0 s Hv Hs0 Hs Ho Hr). unfold U in Hu.
    rewrite (skel_update_ref h2 h3) in Hu; [|exact (wf_names _ _ Hwf2)|exact Hsk].
    unfold update_ref in Hu. destruct (s_ptr s0) as [p|] eqn:Ep; [|injection Hu as <-; constructor].
    destruct (Nat.eqb_spec p id) as [->|Hpid]; [congruence|].
    destruct (h3 p) as [po|] eqn:Epo; [|discriminate].
    destruct (String.eqb_spec (o_loc po) "") as [El|El].
    - cbn in Hu. rewrite Epo in Hu. destruct (o_impl po (s_type s0)) eqn:Ei; injection Hu as <-.
      + eapply rf_noloc; eassumption.
      + eapply rf_noloc_other; eassumption.
    - destruct (comp_get h3 root (o_loc po)) as [[q|]| | |] eqn:Eg; cbn in Hu; try discriminate.
      + destruct (h3 q) as [oq|] eqn:Eq; [|discriminate].
        destruct (o_impl oq (s_type s0)) eqn:Ei; injection Hu as <-.
        * eapply rf_found; eassumption.
        * eapply rf_other; eassumption.
      + injection Hu as <-. eapply rf_gone; eassumption.
  Qed.

  Lemma no_stale_after : no_stale h3 root.
  Proof.
    intros c j s p Hseen (Hs & Ho & Hr) Hp. apply live_23.
    destruct (update_refs_ok root id h2 Hwf2 _ _ _ Hupd) as (Hsk & HU & Hor).
    assert (Hseen2 : seen h2 root c) by (revert Hseen; apply star_impl; intros x y; apply skel_shows, skel_sym, Hsk).
    destruct (skel_slot _ _ _ _ _ (skel_sym _ _ Hsk) Hs) as (s0 & Hs0 & Hss).
    assert (Ho0 : s_owned s0 = false) by (destruct Hss as (A & B & C & D); congruence).
    assert (Hr0 : s_reported s0 = true) by (destruct Hss as (A & B & C & D); congruence).
    assert (Hcase : forall q, U root id h2 s0 (Some q) -> (s_ptr s0 <> Some id) ->
       (forall o, s_ptr s0 = Some q -> h2 q = Some o -> o_loc o = "" -> live h2 root q) -> live h2 root q).
    { intros q Hu Hnid Hempty. unfold U, update_ref in Hu.
      destruct (s_ptr s0) as [p0'|] eqn:Ep0; [|discriminate].
      destruct (Nat.eqb_spec p0' id) as [->|]; [congruence|].
      destruct (h2 p0') as [po|] eqn:Epo; [|discriminate].
      destruct (String.eqb_spec (o_loc po) "") as [El|El].
      - apply cast_some in Hu. injection Hu as ->. eapply Hempty; eauto.
      - destruct (comp_get h2 root (o_loc po)) as [r| | |] eqn:Eg; try discriminate. cbn [obind] in Hu.
        apply cast_some in Hu. subst r. eapply get_live; eassumption. }
    destruct (seen_split c Hseen2) as [Hv|Hv].
    - (* visited: updated *)
      assert (Hrep0 : reports h2 c j s0) by (split; auto).
      pose proof (ptr_not_id _ _ _ Hv Hrep0) as Hnid.
      assert (Hu := HU c j s0 s Hv Hs0 Hs Ho0 Hr0). rewrite Hp in Hu.
      apply (Hcase p Hu Hnid). intros o Hp0 Epo El.
      destruct (visited_old c Hv) as [Hc Hseen0].
      apply (weak_slot_same c j s0 Hc Ho0) in Hs0.
      assert (Hl : live h root p) by (eapply Hstale; [exact Hseen0|split; eauto|exact Hp0]).
      apply live_h_h2; [exact Hl|]. intros Hin.
      destruct (wf_closed _ _ Hwf _ _ _ _ Hs0 Hp0) as [oh Eoh].
      apply (Hloc p oh Hin Eoh).
      (* same object in h2 up to slots *)
      assert (E2 := h2_frame p). rewrite Epo in E2. specialize (E2 ltac:(congruence)).
      unfold h1, replace_entry, upd in E2. destruct (Nat.eqb_spec p id) as [->|]; [congruence|].
      unfold set_slot in E2. rewrite Ego, Hsl in E2. unfold upd in E2.
      destruct (Nat.eqb_spec p g) as [->|].
      + injection E2 as ->. cbn in El. congruence.
      + congruence.
    - (* inside the new asset: either untouched or updated *)
      destruct (Hor c j s0 s Hs0 Hs) as [E|(_ & _ & Hu)].
      + eapply (cs_refs _ _ _ _ Hcs); [exact Hv|split; eauto|congruence].
      + rewrite Hp in Hu.
        destruct (s_ptr s0) as [p0'|] eqn:Ep0; [|unfold U, update_ref in Hu; rewrite Ep0 in Hu; discriminate].
        assert (Hl0 : live h2 root p0') by (eapply (cs_refs _ _ _ _ Hcs); [exact Hv|split; eauto|exact Ep0]).
        destruct (Nat.eq_dec p0' id) as [->|Hne].
        * unfold U, update_ref in Hu. rewrite Ep0, Nat.eqb_refl in Hu. apply cast_some in Hu. now injection Hu as ->.
        * apply (Hcase p Hu); [congruence|]. intros o [= ->] _ _. exact Hl0.
  Qed.
End Replace.

(** ** The call *)
Lemma load_replace fuel root h g go name i sl old id impl construct h2 h3 r :
  wf h root -> no_stale h root -> live h root g ->
  h g = Some go -> o_names go name = ASlot i -> nth_error (o_slots go) i = Some sl -> s_ptr sl = Some old ->
  h id = None ->
  construct (replace_entry h g i id (new_instance (o_loc go) name impl)) = (h2, None) ->
  constructs root id (replace_entry h g i id (new_instance (o_loc go) name impl)) h2 ->
  (forall p o, star (owns h) old p -> h p = Some o -> o_loc o <> "") ->
  ok_name name ->
  load_asset fuel root h g name (HCreated id impl construct) = (h3, Ok r) ->
  r = Some id /\ no_stale h3 root
  /\ (forall p, star (owns h) old p -> ~ live h3 root p)
  /\ live h3 root id
  /\ (forall c j s0 s, visited h3 root id c -> reports h c j s0 -> slot_at h3 c j = Some s ->
        refreshed h3 root (s_type s0) (s_ptr s0) (s_ptr s)).
Proof.
  intros Hwf Hst Hg Ego Hn Hsl Hsp Hid Hc Hcs Hloc Hok H.
  assert (Hso : s_owned sl = true).
  { destruct (wf_names _ _ Hwf _ _ _ _ Ego Hn) as (s & Hs & Ho). congruence. }
  unfold load_asset in H. rewrite Ego, (proj2 (valid_asset_name_spec name) Hok) in H. cbn [negb] in H.
  rewrite Hn in H. cbv zeta in H. rewrite Hc in H.
  destruct (update_refs fuel root id h2 root) as [h3' o] eqn:Eu.
  destruct o as [[]| | |]; try discriminate. injection H as -> <-.
  split; [reflexivity|].
  assert (Hsk : skel h2 h3) by (eapply skel23; eassumption).
  split; [|split; [|split]].
  - eapply no_stale_after; try eassumption; try reflexivity.
  - intros p Hp Hl. eapply released_not_live; try eassumption; try reflexivity.
    revert Hl. apply star_impl. intros x y. apply skel_owns, skel_sym, Hsk.
  - assert (Hl : live h2 root id) by (eapply live_id2; try eassumption; try reflexivity).
    revert Hl. apply star_impl. intros x y. apply skel_owns, Hsk.
  - intros c j s0 s Hv (Hs0 & Ho & Hr) Hs.
    assert (Hv2 : visited h2 root id c).
    { revert Hv. apply star_impl. intros x y [A B]. split; [|exact B]. eapply skel_shows; [apply skel_sym, Hsk|exact A]. }
    eapply visited_ref; try eassumption; try reflexivity.
    split; [|auto]. assert (Hc2 : h c <> None) by (unfold slot_at in Hs0; destruct (h c); congruence).
    eapply weak_slot_same; try eassumption; try reflexivity.
Qed.

(** With well-founded ownership the traversal terminates. *)
Lemma load_terminates root (rank : nat -> nat) h2 id :
  (forall a b, shows h2 a b -> rank b < rank a) ->
  forall fuel, rank root < fuel -> snd (update_refs fuel root id h2 root) <> Fuel.
Proof. intros Hr fuel Hf. apply (update_refs_fuel root id h2 rank Hr fuel h2 root); [apply skel_refl|exact Hf]. Qed.

(** Loading under a new name keeps all references alive. *)
Lemma load_new fuel root h g go name id impl construct h2 r :
  wf h root -> no_stale h root -> live h root g ->
  h g = Some go -> o_names go name = ANull -> h id = None ->
  construct (append_entry h g go name id (new_instance (o_loc go) name impl)) = (h2, None) ->
  constructs root id (append_entry h g go name id (new_instance (o_loc go) name impl)) h2 ->
  ok_name name ->
  load_asset fuel root h g name (HCreated id impl construct) = (h2, Ok r) ->
  r = Some id /\ no_stale h2 root /\ live h2 root id
  /\ (forall c, live h root c -> live h2 root c)
  /\ (forall c j s, reports h c j s -> reports h2 c j s).
Proof.
  intros Hwf Hst Hg Ego Hn Hid Hc Hcs Hok H.
  set (h1 := append_entry h g go name id (new_instance (o_loc go) name impl)) in *.
  unfold load_asset in H. rewrite Ego, (proj2 (valid_asset_name_spec name) Hok) in H. cbn [negb] in H.
  rewrite Hn in H. cbv zeta in H. fold h1 in H. rewrite Hc in H. injection H as <-.
  assert (Hgid : g <> id) by congruence.
  assert (Halloc : forall c, h c <> None -> h1 c <> None).
  { intros c. unfold h1, append_entry, upd. destruct (c =? id); [discriminate|]. destruct (c =? g); congruence. }
  assert (Hslot : forall c j s, slot_at h c j = Some s -> slot_at h2 c j = Some s).
  { intros c j s Hs. assert (Hcn : h c <> None) by (unfold slot_at in Hs; destruct (h c); congruence).
    unfold slot_at. rewrite (cs_frame _ _ _ _ Hcs c); [|congruence|now apply Halloc].
    unfold h1, append_entry, upd. destruct (Nat.eqb_spec c id); [congruence|].
    destruct (Nat.eqb_spec c g) as [->|]; [|exact Hs].
    cbn. unfold slot_at in Hs. rewrite Ego in Hs. rewrite nth_error_app1; [exact Hs|].
    apply nth_error_Some. congruence. }
  assert (Hown : forall a b, owns h a b -> owns h2 a b).
  { intros a b (j & s & Hs & Ho & Hp). exists j, s. auto. }
  assert (Hlive : forall c, live h root c -> live h2 root c) by (intros c; now apply star_impl).
  assert (Hgid2 : slot_at h2 g (List.length (o_slots go)) = Some (asset_slot id)).
  { unfold slot_at. rewrite (cs_frame _ _ _ _ Hcs g); [|congruence|apply Halloc; congruence].
    unfold h1, append_entry, upd. destruct (Nat.eqb_spec g id); [congruence|]. rewrite Nat.eqb_refl. cbn.
    rewrite nth_error_app2, Nat.sub_diag by lia. reflexivity. }
  assert (Hlid : live h2 root id).
  { apply star_step with g; [now apply Hlive|]. exists (List.length (o_slots go)), (asset_slot id). auto. }
  split; [reflexivity|]. split; [|split; [exact Hlid|split; [exact Hlive|]]].
  2: { intros c j s (A & B & C). split; auto. }
  intros c j s p Hseen Hrep Hp.
  (* seen in h or inside the new asset *)
  assert (Hsplit : (h c <> None /\ seen h root c) \/ star (owns h2) id c).
  { clear Hrep. induction Hseen as [|b c Hab IH Hbc].
    - left. split; [|constructor]. destruct (wf_root _ _ Hwf). congruence.
    - destruct Hbc as (k & t & Ht & Ho & Hr & Hpt).
      destruct IH as [[Hb Hsb]|Hb]; try assumption.
      + destruct (slot_at h b k) as [t'|] eqn:E.
        * pose proof (Hslot _ _ _ E) as E2. rewrite Ht in E2. injection E2 as <-.
          left. split; [destruct (wf_closed _ _ Hwf _ _ _ _ E Hpt); congruence|].
          apply star_step with b; [exact Hsb|]. exists k, t. auto.
        * right. assert (Hbid : b <> id) by congruence.
          unfold slot_at in Ht. rewrite (cs_frame _ _ _ _ Hcs b) in Ht; [|exact Hbid|now apply Halloc].
          unfold h1, append_entry, upd in Ht. destruct (Nat.eqb_spec b id); [congruence|].
          unfold slot_at in E. destruct (Nat.eqb_spec b g) as [->|].
          -- cbn in Ht. rewrite Ego in E. rewrite nth_error_snoc, E in Ht.
             destruct (k =? List.length (o_slots go)); [|discriminate]. injection Ht as <-. cbn in Hpt.
             injection Hpt as <-. constructor.
          -- destruct (h b); [congruence|discriminate].
      + right. apply star_step with b; [exact Hb|]. exists k, t. auto. }
  destruct Hsplit as [[Hcn Hsc]|Hin].
  - destruct Hrep as (A & B & C).
    assert (Hs : slot_at h c j = Some s).
    { destruct (slot_at h c j) as [s'|] eqn:E.
      - pose proof (Hslot _ _ _ E). congruence.
      - exfalso. assert (Hbid : c <> id) by congruence.
        unfold slot_at in A. rewrite (cs_frame _ _ _ _ Hcs c) in A; [|exact Hbid|now apply Halloc].
        unfold h1, append_entry, upd in A. destruct (Nat.eqb_spec c id); [congruence|].
        unfold slot_at in E. destruct (Nat.eqb_spec c g) as [->|].
        + cbn in A. rewrite Ego in E. rewrite nth_error_snoc, E in A.
          destruct (j =? List.length (o_slots go)); [|discriminate]. injection A as <-. discriminate.
        + destruct (h c); [congruence|discriminate]. }
    apply Hlive. eapply Hst; [exact Hsc|split; eauto|exact Hp].
  - eapply (cs_refs _ _ _ _ Hcs); eassumption.
Qed.
