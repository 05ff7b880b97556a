(** C89: the printed asset tree shows the hierarchy. *)
From Coq Require Import List String Ascii Arith Bool Lia.
From Verif Require Import Base LocModel TreeModel TreeSpec.
Import ListNotations.
Open Scope string_scope. Open Scope list_scope.

Scheme comp_mut := Induction for comp Sort Prop with refs_mut := Induction for refs Sort Prop.
Combined Scheme comp_refs_ind from comp_mut, refs_mut.

Lemma sub_all : forall s, substring 0 (String.length s) s = s.
Proof. induction s as [|c s IH]; [reflexivity|]. cbn. now rewrite IH. Qed.
Lemma erase_own : forall p s, erase_front (String.length p) (p ++ s)%string = s.
Proof.
  intros p s. unfold erase_front, substr_from.
  assert (L : String.length (p ++ s) = String.length p + String.length s) by (induction p as [|c p IH]; [reflexivity|cbn; now rewrite IH]).
  rewrite Nat.min_l by lia. rewrite L. replace (String.length p + String.length s - String.length p) with (String.length s) by lia. clear L.
  induction p as [|c p IH]; cbn [String.length append substring]; [apply sub_all|exact IH].
Qed.
Lemma app_assoc_s (a b c : string) : ((a ++ b) ++ c = a ++ (b ++ c))%string.
Proof. induction a as [|x a IH]; [reflexivity|]. cbn. now rewrite IH. Qed.
Lemma app_inj_s (a b c : string) : (a ++ b = a ++ c)%string -> b = c.
Proof. induction a as [|x a IH]; [auto|]. cbn. intros [= H]. auto. Qed.
Lemma app_inj_end (a b : string) (c : ascii) : (a ++ String c "" = b ++ String c "")%string -> a = b.
Proof.
  revert b. induction a as [|x a IH]; intros [|y b]; cbn; [reflexivity| | |].
  - intros [= _ H]. destruct b; discriminate.
  - intros [= _ H]. destruct a; discriminate.
  - intros [= -> H]. f_equal. now apply IH.
Qed.
(** The text of a line determines name and key. *)
Lemma text_inj n1 k1 n2 k2 : no_blank n1 -> no_blank n2 -> (n1 ++ " [" ++ k1 ++ "]" = n2 ++ " [" ++ k2 ++ "]")%string -> n1 = n2 /\ k1 = k2.
Proof.
  revert n2. induction n1 as [|c n1 IH]; intros [|d n2]; cbn [append no_blank]; intros H1 H2.
  - intros [= H]. split; [reflexivity|]. now apply app_inj_end in H.
  - intros [= H]. destruct H2 as [H2 _]. congruence.
  - intros [= H]. destruct H1 as [H1 _]. congruence.
  - intros [= -> H]. destruct H1 as [_ H1], H2 as [_ H2]. destruct (IH n2 H1 H2 H) as [-> ->]. auto.
Qed.
Lemma upto_name n k : no_blank n -> upto_blank (n ++ " [" ++ k ++ "]")%string = n.
Proof.
  induction n as [|c n IH]; [reflexivity|]. cbn [no_blank]. intros [H1 H2]. specialize (IH H2).
  change (upto_blank (String c (n ++ " [" ++ k ++ "]")%string) = String c n). cbn [upto_blank]. destruct (Ascii.eqb_spec c " "%char); [contradiction|]. now rewrite IH.
Qed.

(** Lines of the pointers of a component are indented at least as much as the first. *)
Lemma deep w : (forall c p d, Forall (fun l => d <= fst l) (print_comp w p d c)) /\ (forall f p d, Forall (fun l => d <= fst l) (print_refs w p d f)).
Proof.
  apply comp_refs_ind; cbn [print_refs print_comp].
  - intros loc key f IH p d. constructor; [cbn; lia|]. eapply Forall_impl; [|apply (IH loc (S d))]. cbn. intros; lia.
  - constructor.
  - auto.
  - intros loc f IH p d. apply Forall_app. split; [destruct w; repeat constructor|apply IH].
  - intros c IHc f IH p d. apply Forall_app. auto.
Qed.
Definition starts (d : nat) (l : list line) : Prop := match l with [] => True | a :: _ => fst a = d end.
Lemma starts_refs : forall w f p d, starts d (print_refs w p d f).
Proof.
  fix IH 2. intros w [|f|l f|[loc key g] f] p d; cbn [print_refs]; [exact I|apply IH| |reflexivity].
  destruct w; [reflexivity|apply IH].
Qed.
Lemma cut d : forall l1 l2 r1 r2 : list line, Forall (fun l => S d <= fst l) l1 -> Forall (fun l => S d <= fst l) l2 -> starts d r1 -> starts d r2 ->
  l1 ++ r1 = l2 ++ r2 -> l1 = l2 /\ r1 = r2.
Proof.
  induction l1 as [|a l1 IH]; intros [|b l2] r1 r2 H1 H2 S1 S2 E; cbn in E.
  - auto.
  - subst r1. cbn in S1. inversion H2; subst. cbn in *. lia.
  - subst r2. cbn in S2. inversion H1; subst. cbn in *. lia.
  - injection E as -> E. inversion H1; inversion H2; subst. destruct (IH l2 r1 r2) as [-> ->]; auto.
Qed.

Lemma print_seen : forall w f p d, print_refs w p d (seen w f) = print_refs w p d f.
Proof.
  fix IH 2. intros w [|f|l f|[loc key g] f] p d; cbn [seen print_refs]; [reflexivity|apply IH| |].
  - destruct w; cbn [print_refs]; now rewrite IH.
  - cbn [print_comp]. now rewrite !IH.
Qed.

(** Hierarchies without null pointers, and without weak references if they are not shown *)
Fixpoint bare (w : bool) (f : refs) : Prop :=
  match f with RNil => True | RNull _ => False | RWeak _ f' => w = true /\ bare w f' | ROwned (Comp _ _ g) f' => bare w g /\ bare w f' end.
Lemma seen_bare : forall w f, bare w (seen w f).
Proof. fix IH 2. intros w [|f|l f|[loc key g] f]; cbn [seen bare]; [exact I|apply IH| |split; apply IH]. destruct w; cbn; [split; [reflexivity|]; apply IH|apply IH]. Qed.
Lemma seen_located : forall w f p, located p f -> located p (seen w f).
Proof. fix IH 2. intros w [|f|l f|[loc key g] f] p; cbn [seen located located_comp]; [auto|apply IH| |]. { destruct w; cbn; apply IH. } intros [[H1 H2] H3]. split; [split; [exact H1|apply IH, H2]|apply IH, H3]. Qed.

Lemma bare_inj : forall w f1 f2 p d, bare w f1 -> bare w f2 -> located p f1 -> located p f2 -> print_refs w p d f1 = print_refs w p d f2 -> f1 = f2.
Proof.
  fix IH 2. intros w [|f1|l1 f1|[loc1 key1 g1] f1] f2 p d B1 B2 L1 L2 E; cbn [bare] in B1.
  - destruct f2 as [|f2|l2 f2|[loc2 key2 g2] f2]; cbn [bare print_refs] in *; [reflexivity|contradiction| |discriminate]. destruct B2 as [-> _]. discriminate.
  - contradiction.
  - destruct B1 as [Ew B1]. subst w. destruct f2 as [|f2|l2 f2|[loc2 key2 g2] f2]; cbn [bare print_refs located located_comp] in *; [discriminate|contradiction| |].
    + cbn [app] in E. injection E as E1 E2. subst l2. f_equal. eapply IH; try eassumption. apply B2.
    + exfalso. destruct L2 as [[(n & -> & _) _] _]. cbn [print_comp app] in E. rewrite erase_own in E. discriminate.
  - destruct B1 as [Bg1 B1]. cbn [located located_comp] in L1. destruct L1 as [[(n1 & E1 & N1) Lg1] L1].
    destruct f2 as [|f2|l2 f2|[loc2 key2 g2] f2]; cbn [bare located located_comp] in B2, L2; cbn [print_refs print_comp] in E; [discriminate|contradiction| |].
    + exfalso. destruct B2 as [-> _]. subst loc1. rewrite erase_own in E. discriminate.
    + destruct B2 as [Bg2 B2]. destruct L2 as [[(n2 & E2 & N2) Lg2] L2]. subst loc1 loc2. rewrite !erase_own in E. cbn [app] in E. injection E as E1 E.
      destruct (text_inj n1 key1 n2 key2 N1 N2 E1) as [-> ->].
      destruct (cut d _ _ _ _ (proj2 (deep w) g1 _ (S d)) (proj2 (deep w) g2 _ (S d)) (starts_refs w f1 p d) (starts_refs w f2 p d) E) as [F1 F2].
      rewrite (IH w g1 g2 _ _ Bg1 Bg2 Lg1 Lg2 F1), (IH w f1 f2 _ _ B1 B2 L1 L2 F2). reflexivity.
Qed.

(** Two hierarchies that are printed alike are alike in everything that is meant to be seen. *)
Theorem C89_determines : forall w f1 f2, located "$.assets" f1 -> located "$.assets" f2 ->
  (print_asset_tree w (Some f1) = print_asset_tree w (Some f2) <-> seen w f1 = seen w f2).
Proof.
  intros w f1 f2 L1 L2. unfold print_asset_tree. split.
  - intros [= E]. rewrite <- (print_seen w f1), <- (print_seen w f2) in E.
    eapply bare_inj; [apply seen_bare|apply seen_bare|apply seen_located, L1|apply seen_located, L2|exact E].
  - intros E. rewrite <- (print_seen w f1), <- (print_seen w f2), E. reflexivity.
Qed.
Print Assumptions C89_determines.

Lemma nth_firstn_same {A} (x : A) d l : d <> 0 -> nth (d - 1) (firstn d l) x = nth (d - 1) l x.
Proof. intros H. rewrite <- (firstn_skipn d l) at 2. destruct (Nat.lt_ge_cases (d - 1) (List.length l)) as [L|L]; [rewrite app_nth1; [reflexivity|rewrite firstn_length; lia]|]. rewrite firstn_skipn, (nth_overflow l) by lia. apply nth_overflow. rewrite firstn_length. lia. Qed.
Lemma read_refs : forall w f p d above rest, located p f -> d <> 0 -> d <= List.length above -> nth (d - 1) above "" = p ->
  exists above', firstn d above' = firstn d above /\ d <= List.length above' /\
    locators_read above (print_refs w p d f ++ rest) = map fst (inventory f) ++ locators_read above' rest.
Proof.
  fix IH 2. intros w [|f|l f|[loc key g] f] p d above rest L Hd Hl Hn; cbn [print_refs inventory map app].
  - exists above. auto.
  - now apply IH.
  - rewrite <- app_assoc. destruct w; cbn [app locators_read is_weak append Ascii.eqb Bool.eqb]; now apply IH.
  - cbn [located located_comp] in L. destruct L as [[(n & En & Nn) Lg] L]. cbn [print_comp]. replace (erase_front (String.length p) loc) with ("." ++ n)%string by (rewrite En; symmetry; apply erase_own). rewrite <- app_assoc. cbn [app locators_read].
    change (is_weak (("." ++ n) ++ " [" ++ key ++ "]")%string) with false. cbv iota.
    change (upto_blank (("." ++ n) ++ " [" ++ key ++ "]")%string) with (String "."%char (upto_blank (n ++ " [" ++ key ++ "]")%string)). rewrite (upto_name n key Nn), Hn.
    assert (El : String.concat "" [p; String "." n] = loc) by (rewrite En; reflexivity). cbv zeta. rewrite El.
    set (a1 := firstn d above ++ [loc]).
    assert (La : List.length a1 = S d) by (unfold a1; rewrite app_length, firstn_length; cbn; lia).
    assert (Fa : firstn d a1 = firstn d above) by (unfold a1; rewrite firstn_app, firstn_firstn, firstn_length, Nat.min_id; replace (d - Nat.min d (List.length above)) with 0 by lia; apply app_nil_r).
    destruct (IH w g loc (S d) a1 (print_refs w p d f ++ rest) Lg ltac:(lia) ltac:(lia)) as (a2 & F2 & L2 & E2).
    { unfold a1. replace (S d - 1) with (List.length (firstn d above)) by (rewrite firstn_length; lia). rewrite app_nth2, Nat.sub_diag; [reflexivity|lia]. }
    assert (F2' : firstn d a2 = firstn d above). { rewrite <- Fa. replace d with (Nat.min d (S d)) by lia. rewrite <- !firstn_firstn, F2. reflexivity. }
    destruct (IH w f p d a2 rest L Hd ltac:(lia)) as (a3 & F3 & L3 & E3).
    { rewrite <- nth_firstn_same, F2', nth_firstn_same by assumption. exact Hn. }
    exists a3. split; [congruence|]. split; [exact L3|]. cbn [inventory map fst]. rewrite map_app, E2, E3. cbn [app]. now rewrite app_assoc.
Qed.

(** A reader finds the locators of all owned components, each once, owners first. *)
Theorem C89_locators : forall w f ls, located "$.assets" f -> print_asset_tree w (Some f) = Ok ls ->
  locators_read [] ls = "$.assets" :: map fst (inventory f).
Proof.
  intros w f ls L [= <-]. cbn [locators_read is_weak]. change (Ascii.eqb "$" "-") with false. cbn [Nat.sub nth firstn app].
  change (String.concat "" ["" ; upto_blank "$.assets"])%string with "$.assets".
  destruct (read_refs w f "$.assets" 1 ["$.assets"] [] L) as (a & _ & _ & E); [lia|cbn; lia|reflexivity|]. rewrite app_nil_r in E. rewrite E. cbn [locators_read]. now rewrite app_nil_r.
Qed.
Print Assumptions C89_locators.

(** Without locators of that form the output is ambiguous: a component whose locator is not below its owner's. *)
Theorem C89_elsewhere_refuted : exists f1 f2, print_asset_tree false (Some f1) = print_asset_tree false (Some f2) /\ seen false f1 <> seen false f2.
Proof.
  exists (ROwned (Comp "$.assets.a" "film::bitmap" RNil) RNil), (ROwned (Comp "$.global.a" "film::bitmap" RNil) RNil). split; [reflexivity|discriminate].
Qed.
Print Assumptions C89_elsewhere_refuted.

Definition t1 : refs :=
  ROwned (Comp "$.assets.film" "film::bitmap" RNil)
  (ROwned (Comp "$.assets.renderer" "renderer::pt" (RWeak "$.assets.scene" (RWeak "$.assets.film" (ROwned (Comp "$.assets.renderer.scheduler" "scheduler::spp::sample" (RWeak "$.assets.film" RNil)) RNil))))
  (RNull (ROwned (Comp "$.assets.light" "light::point" RNil) RNil))).
Example C89_example : located "$.assets" t1
  /\ print_asset_tree true (Some t1) = Ok [(0, "$.assets"); (1, ".film [film::bitmap]"); (1, ".renderer [renderer::pt]"); (2, "-> $.assets.scene"); (2, "-> $.assets.film"); (2, ".scheduler [scheduler::spp::sample]"); (3, "-> $.assets.film"); (1, ".light [light::point]")].
Proof.
  split; [|reflexivity]. cbn. repeat split; [exists "film"|exists "renderer"|exists "scheduler"|exists "light"]; (split; [reflexivity|]); cbn; repeat split; discriminate.
Qed.
