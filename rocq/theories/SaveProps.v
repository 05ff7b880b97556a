(** C75: saving succeeds exactly if every owned component is found under its locator. *)
From Coq Require Import List String Ascii ZArith Lia.
From Verif Require Import Base LocModel LocSpec LocProofs Assoc CodecModel CodecSpec SerialModel SerialSpec SerialProofs SaveModel SaveSpec.
Import ListNotations.
Open Scope string_scope. Open Scope list_scope. Open Scope nat_scope.

Lemma begins_iff r l : starts_with r l = true <-> begins r l.
Proof.
  split.
  - intros H. eexists. exact (starts_with_true _ _ H).
  - intros [x ->]. apply starts_with_app.
Qed.

Lemma rel_loc_iff r l : r <> "" -> (exists rl, rel_loc r l = Ok rl) <-> begins r l.
Proof.
  intros Hr. unfold rel_loc. destruct (String.eqb_spec r ""); [contradiction|]. rewrite <- begins_iff.
  destruct (starts_with r l); split; intros H; eauto; try discriminate. now destruct H.
Qed.

Lemma check_found_iff Out oid look id loc : loc <> "" ->
  check_found Out oid look id loc = Ok tt <-> found oid look loc id.
Proof.
  intros Hl. unfold check_found. destruct (String.eqb_spec loc ""); [contradiction|].
  split.
  - destruct (look loc) as [[[o|c]|]| | |] eqn:E; cbn; try discriminate.
    + destruct (Nat.eqb_spec (oid o) id); [|discriminate]. intros _. left. eauto.
    + destruct c; cbn; try discriminate. destruct (Nat.eqb_spec id0 id); [|discriminate]. subst. intros _. right. eauto 8.
  - intros [(o & -> & <-)|(rep & key & l & b & ->)]; cbn; now rewrite Nat.eqb_refl.
Qed.

Section Iff.
Variables (Out : Type) (oid : Out -> nat) (loc_of : nat -> string) (look : string -> outcome (option (Out + body))) (r : string).
Hypothesis Hr : r <> "".

Definition storable (b : body) : Prop :=
  (forall id key l x, owns b id key l x -> begins r l /\ found oid look l id)
  /\ forall p, points_to b p -> begins r (loc_of p).

Lemma owns_step b d x id key l c : sub_at b [d] = Some x -> owns x id key l c -> owns b id key l c.
Proof using.
  intros H (place & rep & E). exists (d :: place), rep. cbn in H |- *. destruct b, d; try discriminate; injection H as <-; exact E.
Qed.
Lemma points_step b d x p : sub_at b [d] = Some x -> points_to x p -> points_to b p.
Proof using.
  intros H (place & rep & E). exists (d :: place), rep. cbn in H |- *. destruct b, d; try discriminate; injection H as <-; exact E.
Qed.
Lemma settled_step b d x : settled b -> sub_at b [d] = Some x -> settled x.
Proof using.
  intros S H place rep l E. apply (S (d :: place) rep l). cbn in H |- *. destruct b, d; try discriminate; injection H as <-; exact E.
Qed.
Lemma storable_step b d x : storable b -> sub_at b [d] = Some x -> storable x.
Proof using.
  intros [A B] H. split.
  - intros id key l c O. exact (A _ _ _ _ (owns_step _ _ _ _ _ _ _ H O)).
  - intros p P. exact (B _ (points_step _ _ _ _ H P)).
Qed.

(** What a node holds itself, and what its parts hold. *)
Lemma storable_parts b :
  (forall rep id key l x, b = BOwn rep id key l x -> begins r l /\ found oid look l id) ->
  (forall rep p, b = BWeak rep (WTo p) -> begins r (loc_of p)) ->
  (forall d x, sub_at b [d] = Some x -> storable x) -> storable b.
Proof using.
  intros A B C. split.
  - intros id key l x (place & rep & E). destruct place as [|d place].
    + cbn in E. injection E as ->. eapply A. reflexivity.
    + assert (exists y, sub_at b [d] = Some y /\ sub_at y place = Some (BOwn rep id key l x)) as (y & Hy & Ey)
        by (cbn in E |- *; destruct b, d; try discriminate; eauto).
      exact (proj1 (C d y Hy) id key l x (ex_intro _ place (ex_intro _ rep Ey))).
  - intros p (place & rep & E). destruct place as [|d place].
    + cbn in E. injection E as ->. eapply B. reflexivity.
    + assert (exists y, sub_at b [d] = Some y /\ sub_at y place = Some (BWeak rep (WTo p))) as (y & Hy & Ey)
        by (cbn in E |- *; destruct b, d; try discriminate; eauto).
      exact (proj2 (C d y Hy) p (ex_intro _ place (ex_intro _ rep Ey))).
Qed.

Lemma begins_nonempty l : begins r l -> l <> "".
Proof using Hr. intros [x ->]. destruct r; [contradiction|discriminate]. Qed.

Lemma save_body_iff b : settled b -> (exists s, save_body Out oid loc_of look r b = Ok s) <-> storable b.
Proof using Hr.
  induction b as [t v| |a IHa b IHb|e IHe| |a IHa b IHb|rep|rep id key loc b IHb|rep w]; intros St; cbn [save_body].
  - split; [intros _|eauto]. apply storable_parts; intros; try discriminate; destruct d; discriminate.
  - split; [intros _|eauto]. apply storable_parts; intros; try discriminate; destruct d; discriminate.
  - specialize (IHa (settled_step _ DL a St eq_refl)). specialize (IHb (settled_step _ DR b St eq_refl)). split.
    + intros [s H]. destruct (save_body Out oid loc_of look r a) as [s1| | |]; try discriminate. cbn in H.
      destruct (save_body Out oid loc_of look r b) as [s2| | |]; try discriminate.
      apply storable_parts; intros; try discriminate.
      destruct d; try discriminate; injection H0 as <-; [apply IHa|apply IHb]; eauto.
    + intros S. assert (Sa := storable_step _ DL a S eq_refl). assert (Sb := storable_step _ DR b S eq_refl).
      apply IHa in Sa as [s1 ->]. apply IHb in Sb as [s2 ->]. cbn. eauto.
  - specialize (IHe (settled_step _ DVec e St eq_refl)). split.
    + intros [s H]. destruct (save_body Out oid loc_of look r e) as [s1| | |]; try discriminate.
      apply storable_parts; intros; try discriminate.
      destruct d; try discriminate; injection H0 as <-; apply IHe; eauto.
    + intros S. assert (Sa := storable_step _ DVec e S eq_refl). apply IHe in Sa as [s1 ->]. cbn. eauto.
  - split; [intros _|eauto]. apply storable_parts; intros; try discriminate; destruct d; discriminate.
  - specialize (IHa (settled_step _ DL a St eq_refl)). specialize (IHb (settled_step _ DR b St eq_refl)). split.
    + intros [s H]. destruct (save_body Out oid loc_of look r a) as [s1| | |]; try discriminate. cbn in H.
      destruct (save_body Out oid loc_of look r b) as [s2| | |]; try discriminate.
      apply storable_parts; intros; try discriminate.
      destruct d; try discriminate; injection H0 as <-; [apply IHa|apply IHb]; eauto.
    + intros S. assert (Sa := storable_step _ DL a S eq_refl). assert (Sb := storable_step _ DR b S eq_refl).
      apply IHa in Sa as [s1 ->]. apply IHb in Sb as [s2 ->]. cbn. eauto.
  - split; [intros _|eauto]. apply storable_parts; intros; try discriminate; destruct d; discriminate.
  - specialize (IHb (settled_step _ DIn b St eq_refl)). split.
    + intros [s H]. destruct (check_found Out oid look id loc) as [[]| | |] eqn:E1; try discriminate. cbn in H.
      destruct (rel_loc r loc) as [rl| | |] eqn:E2; try discriminate. cbn in H.
      destruct (save_body Out oid loc_of look r b) as [s2| | |]; try discriminate.
      assert (B : begins r loc) by (apply rel_loc_iff; eauto).
      apply storable_parts; intros; try discriminate.
      * injection H0 as <- <- <- <- <-. split; [exact B|]. apply check_found_iff; [now apply begins_nonempty|exact E1].
      * destruct d; try discriminate; injection H0 as <-; apply IHb; eauto.
    + intros S. assert (Sb := storable_step _ DIn b S eq_refl).
      destruct (proj1 S id key loc b (ex_intro _ [] (ex_intro _ rep eq_refl))) as [B F].
      apply check_found_iff in F; [|now apply begins_nonempty]. rewrite F. cbn.
      apply rel_loc_iff in B as [rl ->]; [|exact Hr]. cbn. apply IHb in Sb as [s ->]. cbn. eauto.
  - destruct w as [|p|l].
    + split; [intros _|eauto]. apply storable_parts; intros; try discriminate; destruct d; discriminate.
    + split.
      * intros [s H]. destruct (rel_loc r (loc_of p)) as [rl| | |] eqn:E; try discriminate.
        apply storable_parts; intros; try discriminate; try (destruct d; discriminate).
        injection H0 as <- <-. apply rel_loc_iff; eauto.
      * intros S. assert (B := proj2 S p (ex_intro _ [] (ex_intro _ rep eq_refl))).
        apply rel_loc_iff in B as [rl ->]; [|exact Hr]. cbn. eauto.
    + exfalso. exact (St [] rep l eq_refl).
Qed.

Lemma check_refs_storable b : storable b -> check_refs loc_of r b = Ok tt.
Proof using Hr.
  induction b as [t v| |a IHa b IHb|e IHe| |a IHa b IHb|rep|rep id key loc b IHb|rep w]; intros S; cbn [check_refs]; auto.
  - rewrite IHa by exact (storable_step _ DL a S eq_refl). exact (IHb (storable_step _ DR b S eq_refl)).
  - exact (IHe (storable_step _ DVec e S eq_refl)).
  - rewrite IHa by exact (storable_step _ DL a S eq_refl). exact (IHb (storable_step _ DR b S eq_refl)).
  - destruct rep; [exact (IHb (storable_step _ DIn b S eq_refl))|reflexivity].
  - destruct rep; [|reflexivity]. destruct w; try reflexivity.
    assert (B := proj2 S id (ex_intro _ [] (ex_intro _ true eq_refl))). apply begins_iff in B. now rewrite B.
Qed.
End Iff.

(** The component at locator [r] is saved as in save_state_to_file and save_to_file. Saving succeeds if and
    only if every component owned anywhere in the hierarchy lies below [r] and is what a lookup of its own
    locator gives, and every weak reference points below [r]. *)
Theorem C75_saved :
  forall Out (oid : Out -> nat) loc_of look rep id key r b,
  r <> "" -> let tree := BOwn rep id key r b in settled tree ->
  (exists s, save_comp Out oid loc_of look r tree = Ok s) <->
  (forall id' key' loc' b', owns tree id' key' loc' b' -> begins r loc' /\ found oid look loc' id')
  /\ (forall p, points_to tree p -> begins r (loc_of p)).
Proof.
  intros Out oid loc_of look rep id key r b Hr tree St.
  rewrite <- (save_body_iff Out oid loc_of look r Hr tree St : _ <-> _ /\ _). subst tree. unfold save_comp. split.
  - intros [s H]. destruct (check_refs loc_of r b); try discriminate. cbn [obind] in H.
    destruct (save_body Out oid loc_of look r (BOwn rep id key r b)) as [s1| | |]; try discriminate. eauto.
  - intros [s H]. assert (S := proj1 (save_body_iff Out oid loc_of look r Hr _ St) (ex_intro _ s H)).
    rewrite (check_refs_storable Out oid loc_of look r Hr b (storable_step Out oid loc_of look r _ DIn b S eq_refl)).
    cbn [obind]. rewrite H. cbn. eauto.
Qed.
Print Assumptions C75_saved.

(** ** Components that do not answer for what they own *)

Section Lookup.
Variables (select : string -> body -> string -> outcome (option (list dir))).
Variables (Out : Type) (o0 : Out) (oq : Out -> string -> outcome (option (option Out))) (oid : Out -> nat).

Lemma sub_at_app b p q : sub_at b (p ++ q) = match sub_at b p with Some x => sub_at x q | None => None end.
Proof using. revert b. induction p as [|d p IH]; intros b; cbn; [reflexivity|]. destruct b, d; auto. Qed.

(** Whatever a lookup finds inside the hierarchy sits at some place of it. *)
Lemma walk_inside tree l : forall x c,
  (forall y, x = inr y -> exists q, sub_at tree q = Some y) ->
  walk (node_query select Out oq tree) x l = Ok (Some (inr c)) -> exists q, sub_at tree q = Some c.
Proof using.
  induction l as [|n l IH]; intros x c Hx; cbn [walk].
  - intros [= ->]. now apply Hx.
  - destruct (node_query select Out oq tree x n) as [[x'|]| | |] eqn:E; try discriminate.
    apply IH. intros y ->. unfold node_query in E. destruct x as [o|b].
    + destruct (oq o n) as [[[o'|]|]| | |]; try discriminate. cbn in E.
      destruct (comp_id tree); [|discriminate]. injection E as <-. now exists [].
    + unfold query in E. destruct b; try discriminate.
      destruct (select key (erase b) n) as [[p|]| | |]; try discriminate. cbn in E.
      destruct (sub_at b p) as [[]|] eqn:Ep; try discriminate. cbn in E. injection E as <-.
      destruct (Hx _ eq_refl) as [q Hq]. exists (q ++ DIn :: p). rewrite sub_at_app, Hq. exact Ep.
Qed.

Lemma wget_inside tree loc c : wget select Out o0 oq tree loc = Ok (Some (inr c)) -> exists q, sub_at tree q = Some c.
Proof using.
  unfold wget. rewrite get_spec. destruct (segments loc) as [|h t]; [discriminate|].
  destruct (String.eqb h "$"); [|discriminate]. apply walk_inside. discriminate.
Qed.

(** A lookup that goes on below a component that was found. *)
Lemma wget_child tree loc y c : ends_in_name loc -> wget select Out o0 oq tree loc = Ok (Some c) ->
  wget select Out o0 oq tree (loc ++ "." ++ y) = walk (node_query select Out oq tree) c (drop_one_trailing_empty (segments y)).
Proof using.
  unfold wget, ends_in_name. rewrite !get_spec. change ("." ++ y)%string with (String dot y).
  rewrite segments_app_dot2. destruct (segments loc) as [|h t] eqn:E; [discriminate|]. cbn [app].
  destruct (String.eqb h "$"); [|discriminate]. intros Hl Hw.
  rewrite drop_app. assert (D : drop_one_trailing_empty t = t) by (destruct t; [reflexivity|now apply drop_last]).
  rewrite D in Hw. now rewrite (walk_app _ _ _ _ _ _ Hw).
Qed.

(** If the class of an owned component does not answer for name [m], nothing owned below (locator).[m] can be
    saved. *)
Lemma unanswered loc_of r tree id key loc b id' key' m y b' :
  r <> "" -> settled tree -> one_place oid tree -> ends_in_name loc ->
  (exists rep i k c, tree = BOwn rep i k r c) ->
  owns tree id key loc b -> owns tree id' key' (loc ++ "." ++ y) b' ->
  (exists rest, drop_one_trailing_empty (segments y) = m :: rest) ->
  (forall c, query select (BOwn true id key loc b) m <> Ok (Some c)) ->
  forall s, save_comp Out oid loc_of (wget select Out o0 oq tree) r tree <> Ok s.
Proof using.
  intros Hr St [P1 P2] He (rep & i & k & c & Et) O O' [rest Hy] Hq s H.
  assert (Q : exists s, save_comp Out oid loc_of (wget select Out o0 oq tree) r (BOwn rep i k r c) = Ok s)
    by (exists s; rewrite <- Et; exact H).
  rewrite Et in St.
  apply (proj1 (C75_saved Out oid loc_of (wget select Out o0 oq tree) rep i k r c Hr St)) in Q as [Q _].
  rewrite <- Et in Q.
  destruct (Q _ _ _ _ O) as [_ [(o & Eo & Ho)|(rep1 & k1 & l1 & b1 & E1)]].
  { destruct O as (p & rp & Ep). exact (P2 o p rp id key loc b Ep Ho). }
  destruct (wget_inside _ _ _ E1) as [q Eq]. destruct O as (p & rp & Ep).
  assert (p = q) by (eapply P1; eassumption). subst q. rewrite Ep in Eq. injection Eq as <- <- <- <-.
  destruct (Q _ _ _ _ O') as [_ F].
  assert (W := wget_child tree loc y _ He E1). rewrite Hy in W. cbn [walk node_query] in W.
  clear H Hr St P1 P2 Et Q Hy E1 O'.
  change (query select (BOwn rp id key loc b) m) with (query select (BOwn true id key loc b) m) in W.
  destruct (query select (BOwn true id key loc b) m) as [[c'|]|e| |] eqn:Eq; [now apply (Hq c')| | | |];
    cbn [obind option_map] in W; destruct F as [(o & Eo & _)|(r2 & k2 & l2 & b2 & E2)]; rewrite W in *; discriminate.
Qed.
End Lookup.

Lemma one_name y : dot_free y -> y <> "" -> drop_one_trailing_empty (segments y) = [y].
Proof.
  intros D N. rewrite find_first_dot_none; [now apply drop_single|].
  clear N. induction y as [|c y IH]; cbn in *; [reflexivity|]. destruct D as [D1 D2].
  unfold dot. destruct (Ascii.eqb_spec c "."%char); [contradiction|]. now rewrite (IH D2).
Qed.

(** The path tracer, the light tracer and the volumetric path tracers own a scheduler but do not answer for
    its name: no state that holds one of them can be saved, whatever else it holds and wherever it is. *)
Theorem C75_renderers_refuted :
  forall Out (o0 : Out) oq oid loc_of r tree id key loc b id' key' b',
  In key ["renderer::pt"; "renderer::lt"; "renderer::volpt"; "renderer::volpt_naive"] ->
  r <> "" -> (exists rep i k c, tree = BOwn rep i k r c) -> settled tree -> one_place oid tree -> ends_in_name loc ->
  owns tree id key loc b -> owns tree id' key' (loc ++ ".scheduler") b' ->
  forall s, save_comp Out oid loc_of (wget class_select Out o0 oq tree) r tree <> Ok s.
Proof.
  intros Out o0 oq oid loc_of r tree id key loc b id' key' b' Hk Hr Et St P He O O'.
  apply (unanswered class_select Out o0 oq oid loc_of r tree id key loc b id' key' "scheduler" "scheduler" b'); auto.
  - exists []. reflexivity.
  - intros c. cbn in Hk. destruct Hk as [<-|[<-|[<-|[<-|[]]]]]; cbn; discriminate.
Qed.
Print Assumptions C75_renderers_refuted.

Lemma index_in_erase k b n : index_in k (erase b) n = index_in k b n.
Proof.
  unfold index_in, field. revert b. induction k as [|k IH]; intros b; destruct b; cbn; auto; try (destruct b1; reflexivity).
Qed.

(** An OBJ model that holds a component under a name with a dot (a material called "a.b") cannot be saved if
    it has no component under the part before the dot. *)
Theorem C75_dotted_name_refuted :
  forall Out (o0 : Out) oq oid loc_of r tree id loc b id' key' head tail b',
  r <> "" -> (exists rep i k c, tree = BOwn rep i k r c) -> settled tree -> one_place oid tree -> ends_in_name loc ->
  owns tree id "model::wavefrontobj" loc b -> owns tree id' key' (loc ++ "." ++ head ++ "." ++ tail) b' ->
  dot_free head -> index_in 2 b head = None ->
  forall s, save_comp Out oid loc_of (wget class_select Out o0 oq tree) r tree <> Ok s.
Proof.
  intros Out o0 oq oid loc_of r tree id loc b id' key' head tail b' Hr Et St P He O O' D I.
  apply (unanswered class_select Out o0 oq oid loc_of r tree id "model::wavefrontobj" loc b id' key' head (head ++ "." ++ tail) b'); auto.
  - change ("." ++ tail)%string with (String dot tail). rewrite segments_app_dot2.
    replace (segments head) with [head].
    + cbn [app]. rewrite drop_cons. eauto.
    + symmetry. apply find_first_dot_none. clear - D. induction head as [|c y IH]; cbn in *; [reflexivity|]. destruct D as [D1 D2].
      unfold dot. destruct (Ascii.eqb_spec c "."%char); [contradiction|]. now rewrite (IH D2).
  - intros c. cbn. rewrite index_in_erase, I. discriminate.
Qed.
Print Assumptions C75_dotted_name_refuted.

(** The components that do answer: each finds what it owns under the name it gave it. *)
Definition is_own (x : body) : Prop := exists rep id key loc b, x = BOwn rep id key loc b.
Theorem C75_answers :
  forall rep id loc,
  (forall scene film bg constant normals sched, is_own sched ->
     query class_select (BOwn rep id "renderer::raycast" loc (fields [scene; film; bg; constant; normals; sched])) "scheduler"
     = Ok (Some sched))
  /\ (forall bound envmap rot dist, is_own envmap ->
     query class_select (BOwn rep id "light::env" loc (fields [bound; envmap; rot; dist])) "envmap" = Ok (Some envmap))
  /\ (forall diffuse glossy mask, is_own diffuse -> is_own glossy ->
     let c := BOwn rep id "material::mixture_wavefrontobj" loc (fields [diffuse; glossy; mask]) in
     query class_select c "diffuse" = Ok (Some diffuse) /\ query class_select c "glossy" = Ok (Some glossy))
  /\ (forall names assets n i x, alookup n names = Some (Z.of_nat i) -> nth_error assets i = Some x -> is_own x ->
     query class_select (BOwn rep id "asset_group::default" loc
       (fields [BVal (TMapS (TInt 4 true)) names; BVec (of_list assets)])) n = Ok (Some x))
  /\ (forall geo groups names assets n i x, alookup n names = Some (Z.of_nat i) -> nth_error assets i = Some x -> is_own x ->
     query class_select (BOwn rep id "model::wavefrontobj" loc
       (fields [geo; groups; BVal (TMapS (TInt 4 true)) names; BVec (of_list assets)])) n = Ok (Some x)).
Proof.
  assert (V : forall assets i x, nth_error assets i = Some x -> sub_at (of_list assets) (repeat DR i ++ [DL]) = Some x).
  { induction assets as [|a l IH]; intros [|i] x E; try discriminate; cbn in *; [exact E|now apply IH]. }
  intros rep id loc. split; [|split; [|split; [|split]]].
  - intros scene film bg constant normals sched (r' & i & k & l & b & ->). reflexivity.
  - intros bound envmap rot dist (r' & i & k & l & b & ->). reflexivity.
  - intros diffuse glossy mask (r' & i & k & l & b & ->) (r2 & i2 & k2 & l2 & b2 & ->). split; reflexivity.
  - intros names assets n i x A E (r' & i' & k & l & b & ->). cbn. rewrite A. cbn. rewrite Nat2Z.id, (V _ _ _ E). reflexivity.
  - intros geo groups names assets n i x A E (r' & i' & k & l & b & ->). cbn. rewrite A. cbn. rewrite Nat2Z.id, (V _ _ _ E). reflexivity.
Qed.
Print Assumptions C75_answers.

(** ** Concrete hierarchies *)

(** The assets "m" (a material with two parts) and "r" (a ray caster with its scheduler). *)
Definition plain (id : nat) (key loc : string) : body := BOwn true id key loc BUnit.
Definition num : body := BVal TF64 0%Z.
Definition ex_group (a b : body) : body :=
  BOwn true 1 "asset_group::default" "$.assets" (fields [BVal (TMapS (TInt 4 true)) [("m", 0%Z); ("r", 1%Z)]; BVec (of_list [a; b])]).
Definition ex_mat : body := BOwn true 2 "material::mixture_wavefrontobj" "$.assets.m"
  (fields [plain 3 "material::diffuse" "$.assets.m.diffuse"; plain 4 "material::glossy" "$.assets.m.glossy"; BWeak true WNull]).
Definition ex_cast (key : string) : body := BOwn true 5 key "$.assets.r"
  (fields [BWeak true WNull; BWeak true (WTo 2); num; num; num; plain 6 "scheduler::spp::sample" "$.assets.r.scheduler"]).
Definition root_of (o : unit) (n : string) : outcome (option (option unit)) :=
  Ok (if String.eqb n "assets" then Some None else None).

Lemma sub_ids b : forall p rep id k l x, sub_at b p = Some (BOwn rep id k l x) -> In id (ids b).
Proof.
  induction b as [t v| |a IHa b IHb|e IHe| |a IHa b IHb|rep|rep id key loc b IHb|rep w]; intros [|d p] rep' id' k l x E;
    try (destruct d); cbn in E; try discriminate; cbn; try (apply in_or_app); eauto.
  injection E as _ -> _ _ _. now left.
Qed.
Lemma in_two {A} (l1 l2 : list A) i : NoDup (l1 ++ l2) -> In i l1 -> In i l2 -> False.
Proof.
  induction l1 as [|a l1 IH]; cbn; [tauto|]. intros N [->|H] H2; inversion N; subst; [|auto].
  apply H1. apply in_or_app. now right.
Qed.
Lemma nodup_l {A} (l1 l2 : list A) : NoDup (l1 ++ l2) -> NoDup l1 /\ NoDup l2.
Proof.
  induction l1 as [|a l1 IH]; cbn; intros N; [split; [constructor|exact N]|]. inversion N as [|? ? H1 H2]; subst.
  destruct (IH H2) as [A1 A2]. split; [|exact A2]. constructor; [|exact A1]. intros H. apply H1. apply in_or_app. now left.
Qed.
Lemma unique_places b : NoDup (ids b) -> forall p q rep rep' id k k' l l' x x',
  sub_at b p = Some (BOwn rep id k l x) -> sub_at b q = Some (BOwn rep' id k' l' x') -> p = q.
Proof.
  induction b as [t v| |a IHa b IHb|e IHe| |a IHa b IHb|rep|rep id key loc b IHb|rep w]; cbn [ids]; intros N p q r1 r2 i k k' l l' x x' E1 E2;
    try (destruct p as [|[] p]; cbn in E1; discriminate).
  - destruct (nodup_l _ _ N) as [N1 N2]. destruct p as [|[] p]; try discriminate; destruct q as [|[] q]; try discriminate; cbn in E1, E2.
    + f_equal. eapply IHa; eauto.
    + destruct (in_two _ _ i N); eapply sub_ids; eauto.
    + destruct (in_two _ _ i N); eapply sub_ids; eauto.
    + f_equal. eapply IHb; eauto.
  - destruct p as [|[] p]; try discriminate; destruct q as [|[] q]; try discriminate; cbn in E1, E2. f_equal. eapply IHe; eauto.
  - destruct (nodup_l _ _ N) as [N1 N2]. destruct p as [|[] p]; try discriminate; destruct q as [|[] q]; try discriminate; cbn in E1, E2.
    + f_equal. eapply IHa; eauto.
    + destruct (in_two _ _ i N); eapply sub_ids; eauto.
    + destruct (in_two _ _ i N); eapply sub_ids; eauto.
    + f_equal. eapply IHb; eauto.
  - inversion N as [|? ? H1 H2]; subst. destruct p as [|[] p]; try discriminate; destruct q as [|[] q]; try discriminate; cbn in E1, E2; auto.
    + injection E1 as -> -> -> -> ->. destruct (H1 (sub_ids _ _ _ _ _ _ _ E2)).
    + injection E2 as -> -> -> -> ->. destruct (H1 (sub_ids _ _ _ _ _ _ _ E1)).
    + f_equal. eapply IHb; eauto.
Qed.
Lemma one_place_ids {Out} (oid : Out -> nat) b : NoDup (ids b) -> (forall o, ~ In (oid o) (ids b)) -> one_place oid b.
Proof.
  intros N H. split.
  - intros. eapply unique_places; eauto.
  - intros o p rep id k l x E Ho. apply (H o). rewrite Ho. exact (sub_ids _ _ _ _ _ _ _ E).
Qed.
Ltac distinct_tac := apply one_place_ids; [cbn; repeat (constructor; [cbn; intuition discriminate|]); constructor|cbn; intros _; intuition discriminate].

Example C75_saved_example :
  let tree := ex_group ex_mat (ex_cast "renderer::raycast") in
  settled tree /\ exists s, save_comp unit (fun _ => 0) (fun _ => "$.assets.m") (wget class_select unit tt root_of tree) "$.assets" tree = Ok s.
Proof.
  split; [|eexists; vm_compute; reflexivity].
  intros p rep l. repeat (destruct p as [|d p]; [cbn; discriminate|destruct d; cbn; try discriminate]).
Qed.

Example C75_renderers_example :
  let tree := ex_group ex_mat (ex_cast "renderer::pt") in
  settled tree /\ one_place (fun _ : unit => 0) tree /\ ends_in_name "$.assets.r"
  /\ (exists b, owns tree 5 "renderer::pt" "$.assets.r" b)
  /\ (exists b, owns tree 6 "scheduler::spp::sample" "$.assets.r.scheduler" b)
  /\ save_comp unit (fun _ => 0) (fun _ => "$.assets.m") (wget class_select unit tt root_of tree) "$.assets" tree = Throw ErrIOError.
Proof.
  cbv zeta. split; [|split; [|split; [|split; [|split]]]].
  - intros p rep l. repeat (destruct p as [|d p]; [cbn; discriminate|destruct d; cbn; try discriminate]).
  - distinct_tac.
  - discriminate.
  - eexists. exists [DIn; DR; DL; DVec; DR; DL], true. reflexivity.
  - eexists. exists [DIn; DR; DL; DVec; DR; DL; DIn; DR; DR; DR; DR; DR; DL], true. reflexivity.
  - vm_compute. reflexivity.
Qed.

(** A model with the materials "a.b" and "c". *)
Definition ex_model : body := BOwn true 2 "model::wavefrontobj" "$.assets.m"
  (fields [num; num; BVal (TMapS (TInt 4 true)) [("a.b", 0%Z); ("c", 1%Z)];
           BVec (of_list [plain 3 "material::mirror" "$.assets.m.a.b"; plain 4 "material::mirror" "$.assets.m.c"])]).
Example C75_dotted_name_example :
  let tree := ex_group ex_model (ex_cast "renderer::raycast") in
  settled tree /\ one_place (fun _ : unit => 0) tree /\ ends_in_name "$.assets.m"
  /\ (exists b, owns tree 2 "model::wavefrontobj" "$.assets.m" b /\ index_in 2 b "a" = None)
  /\ (exists b, owns tree 3 "material::mirror" ("$.assets.m" ++ "." ++ "a" ++ "." ++ "b") b) /\ dot_free "a"
  /\ save_comp unit (fun _ => 0) (fun _ => "$.assets.m") (wget class_select unit tt root_of tree) "$.assets" tree = Throw ErrOutOfRange.
Proof.
  cbv zeta. split; [|split; [|split; [|split; [|split; [|split]]]]].
  - intros p rep l. repeat (destruct p as [|d p]; [cbn; discriminate|destruct d; cbn; try discriminate]).
  - distinct_tac.
  - discriminate.
  - eexists. split; [exists [DIn; DR; DL; DVec; DL], true; reflexivity|reflexivity].
  - eexists. exists [DIn; DR; DL; DVec; DL; DIn; DR; DR; DR; DL; DVec; DL], true. reflexivity.
  - cbn. intuition discriminate.
  - vm_compute. reflexivity.
Qed.
