From Coq Require Import List String Ascii Arith Lia.
From Verif Require Import Base LocModel LocSpec.
Import ListNotations.
Open Scope string_scope.

Lemma append_nil_r s : s ++ "" = s.
Proof. induction s as [|c s IH]; cbn; [reflexivity | now rewrite IH]. Qed.

Lemma append_assoc a b c : (a ++ b) ++ c = a ++ (b ++ c).
Proof. induction a as [|x a IH]; cbn; [reflexivity | now rewrite IH]. Qed.

Lemma length_append a b : String.length (a ++ b) = String.length a + String.length b.
Proof. induction a as [|x a IH]; cbn; [reflexivity | now rewrite IH]. Qed.

Lemma substring_0_append a b : substring 0 (String.length a) (a ++ b) = a.
Proof.
  induction a as [|x a IH]; cbn.
  - now destruct b.
  - now rewrite IH.
Qed.

Lemma substring_full s : substring 0 (String.length s) s = s.
Proof. rewrite <- (append_nil_r s) at 2. apply substring_0_append. Qed.

Lemma substring_skip a b n : substring (String.length a) n (a ++ b) = substring 0 n b.
Proof. induction a as [|x a IH]; cbn; [reflexivity | exact IH]. Qed.

Lemma substr_from_append a b : substr_from (String.length a) (a ++ b) = b.
Proof.
  unfold substr_from. rewrite length_append, substring_skip.
  replace (_ + _ - _) with (String.length b) by lia. apply substring_full.
Qed.

Lemma substr_from_append_S a c b : substr_from (S (String.length a)) (a ++ String c b) = b.
Proof.
  replace (a ++ String c b) with ((a ++ String c "") ++ b).
  2:{ rewrite append_assoc. reflexivity. }
  replace (S (String.length a)) with (String.length (a ++ String c "")).
  2:{ rewrite length_append. cbn. lia. }
  apply substr_from_append.
Qed.

Lemma find_last_dot_free s : dot_free s -> find_last_dot s = None.
Proof.
  induction s as [|c s IH]; cbn; [reflexivity|]. intros [Hc Hs].
  rewrite (IH Hs). destruct (Ascii.eqb_spec c dot) as [E|E]; [contradiction | reflexivity].
Qed.

Lemma find_last_dot_append a n :
  dot_free n -> find_last_dot (a ++ String dot n) = Some (String.length a).
Proof.
  intros Hn. induction a as [|x a IH]; cbn.
  - now rewrite (find_last_dot_free n Hn).
  - now rewrite IH.
Qed.

Lemma make_loc_eq b n : make_loc b n = b ++ String dot n.
Proof. reflexivity. Qed.

Lemma parent_make_loc b n : dot_free n -> parent_loc (make_loc b n) = b.
Proof.
  intros Hn. unfold parent_loc. rewrite make_loc_eq, (find_last_dot_append b n Hn).
  apply substring_0_append.
Qed.

Lemma name_make_loc b n : dot_free n -> name_of (make_loc b n) = n.
Proof.
  intros Hn. unfold name_of. rewrite make_loc_eq, (find_last_dot_append b n Hn).
  apply substr_from_append_S.
Qed.

Lemma make_loc_inj b1 n1 b2 n2 :
  dot_free n1 -> dot_free n2 -> make_loc b1 n1 = make_loc b2 n2 -> b1 = b2 /\ n1 = n2.
Proof.
  intros H1 H2 E. split.
  - rewrite <- (parent_make_loc b1 n1 H1), E. apply parent_make_loc, H2.
  - rewrite <- (name_make_loc b1 n1 H1), E. apply name_make_loc, H2.
Qed.

(** Decomposition of any string with a dot, and of one without. *)
Lemma find_last_dot_none s : find_last_dot s = None -> dot_free s.
Proof.
  induction s as [|c s IH]; cbn; [trivial|].
  destruct (find_last_dot s); [discriminate|].
  destruct (Ascii.eqb_spec c dot) as [E|E]; [discriminate|]. intros _. split; [exact E | now apply IH].
Qed.

Lemma find_last_dot_some s i :
  find_last_dot s = Some i ->
  exists a n, s = a ++ String dot n /\ dot_free n /\ String.length a = i.
Proof.
  revert i. induction s as [|c s IH]; cbn; intros i; [discriminate|].
  destruct (find_last_dot s) as [j|] eqn:Hj.
  - intros [= <-]. destruct (IH j eq_refl) as (a & n & -> & Hn & Hl).
    exists (String c a), n. cbn. rewrite Hl. auto.
  - destruct (Ascii.eqb_spec c dot) as [->|E]; [|discriminate]. intros [= <-].
    exists "", s. cbn. repeat split. now apply find_last_dot_none.
Qed.

Lemma loc_decompose s :
  (exists a n, dot_free n /\ s = make_loc a n /\ parent_loc s = a /\ name_of s = n)
  \/ (dot_free s /\ parent_loc s = "" /\ name_of s = s).
Proof.
  destruct (find_last_dot s) as [i|] eqn:Hi.
  - left. destruct (find_last_dot_some s i Hi) as (a & n & -> & Hn & Hl).
    exists a, n. repeat split; [exact Hn | now apply (parent_make_loc a n) | now apply (name_make_loc a n)].
  - right. split; [now apply find_last_dot_none|].
    unfold parent_loc, name_of. rewrite Hi. split; [reflexivity|].
    unfold substr_from. rewrite Nat.sub_0_r. apply substring_full.
Qed.

(** ** Lookup *)

Lemma segments_cons s : exists h t, segments s = h :: t.
Proof.
  induction s as [|c s (h & t & E)]; cbn; [eauto|].
  destruct (Ascii.eqb c "."%char); [eauto|]. rewrite E. eauto.
Qed.

Lemma find_first_dot_none s : find_first_dot s = None -> segments s = [s].
Proof.
  induction s as [|c s IH]; cbn; [reflexivity|].
  change dot with "."%char. destruct (Ascii.eqb c "."%char); [discriminate|].
  destruct (find_first_dot s); [discriminate|]. intros _. now rewrite (IH eq_refl).
Qed.

Lemma find_first_dot_some s i :
  find_first_dot s = Some i ->
  exists a b, s = a ++ String dot b /\ String.length a = i /\ segments s = a :: segments b.
Proof.
  revert i. induction s as [|c s IH]; cbn; intros i; [discriminate|].
  change dot with "."%char. destruct (Ascii.eqb_spec c "."%char) as [->|E].
  - intros [= <-]. exists "", s. auto.
  - destruct (find_first_dot s) as [j|] eqn:Hj; [|discriminate]. intros [= <-].
    destruct (IH j eq_refl) as (a & b & -> & Hl & Hs).
    exists (String c a), b. cbn. rewrite Hl, Hs. auto.
Qed.

Lemma split_first_spec s :
  (segments s = [fst (split_first s)] /\ fst (split_first s) = s /\ snd (split_first s) = "")
  \/ (segments s = fst (split_first s) :: segments (snd (split_first s))
      /\ String.length (snd (split_first s)) < String.length s).
Proof.
  unfold split_first. destruct (find_first_dot s) as [i|] eqn:Hi.
  - right. destruct (find_first_dot_some s i Hi) as (a & b & E & Hl & Hs).
    cbn [fst snd].
    assert (E1 : substring 0 i s = a) by (rewrite E, <- Hl; apply substring_0_append).
    assert (E2 : substr_from (S i) s = b) by (rewrite E, <- Hl; apply substr_from_append_S).
    rewrite E1, E2. split; [exact Hs|].
    rewrite E, length_append. cbn. lia.
  - left. cbn [fst snd]. now rewrite (find_first_dot_none s Hi).
Qed.

Lemma drop_cons x s : drop_one_trailing_empty (x :: segments s) = x :: drop_one_trailing_empty (segments s).
Proof. destruct (segments_cons s) as (h & t & E). now rewrite E. Qed.

Lemma drop_single x : x <> "" -> drop_one_trailing_empty [x] = [x].
Proof. cbn. intros H. destruct (String.eqb_spec x ""); [contradiction | reflexivity]. Qed.

Section L.
  Variable comp : Type.
  Variable underlying : comp -> string -> outcome (option comp).

  Lemma get_loop_walk fuel c rem :
    String.length rem <= fuel ->
    get_loop comp underlying fuel (Some c) rem = walk underlying c (drop_one_trailing_empty (segments rem)).
  Proof.
    revert c rem. induction fuel as [|fuel IH]; intros c rem Hl.
    - destruct rem; cbn in *; [reflexivity | lia].
    - cbn [get_loop]. destruct (String.eqb_spec rem "") as [->|Hne]; [reflexivity|].
      destruct (split_first rem) as [s r] eqn:Hsr.
      destruct (split_first_spec rem) as [(Hs & Hf & Hn)|(Hs & Hlt)]; rewrite Hsr in *; cbn [fst snd] in *.
      + subst s r. rewrite Hs, (drop_single rem Hne). cbn [walk].
        destruct (underlying c rem) as [[c'|]| | |]; cbn [obind]; try reflexivity.
        * destruct fuel; reflexivity.
        * destruct fuel; reflexivity.
      + rewrite Hs, drop_cons. cbn [walk].
        destruct (underlying c s) as [[c'|]| | |]; cbn [obind]; try reflexivity.
        * apply IH. lia.
        * destruct fuel; reflexivity.
  Qed.

  Lemma get_spec root locator :
    get comp underlying root locator =
    match root, segments locator with
    | Some r, h :: t =>
        if String.eqb h "$" then walk underlying r (drop_one_trailing_empty t) else Ok None
    | _, _ => Ok None
    end.
  Proof.
    unfold get. destruct root as [r|]; [|reflexivity].
    destruct (segments_cons locator) as (h & t & E). rewrite E.
    destruct (String.eqb_spec locator "") as [->|Hne].
    { cbn in E. injection E as <- <-. reflexivity. }
    destruct (split_first locator) as [s0 r0] eqn:Hsr.
    destruct (split_first_spec locator) as [(Hs & Hf & Hn)|(Hs & Hlt)]; rewrite Hsr in *; cbn [fst snd] in *.
    - rewrite E in Hs. injection Hs as -> ->. subst r0.
      destruct (String.eqb s0 "$"); [|reflexivity].
      rewrite get_loop_walk by (cbn; lia). reflexivity.
    - rewrite E in Hs. injection Hs as -> ->.
      destruct (String.eqb s0 "$"); [|reflexivity].
      apply get_loop_walk. lia.
  Qed.

  Lemma walk_app c l1 l2 c1 :
    walk underlying c l1 = Ok (Some c1) ->
    walk underlying c (l1 ++ l2)%list = walk underlying c1 l2.
  Proof.
    revert c. induction l1 as [|n l1 IH]; intros c; cbn.
    - now intros [= ->].
    - destruct (underlying c n) as [[c'|]| | |]; try discriminate. apply IH.
  Qed.

  Lemma segments_app_dot a n :
    dot_free n -> segments (a ++ String dot n) = (segments a ++ [n])%list.
  Proof.
    intros Hn.
    assert (Hnn : segments n = [n]).
    { clear a. induction n as [|c n IH]; [reflexivity|]. cbn in Hn. destruct Hn as [Hc Hn].
      cbn. destruct (Ascii.eqb_spec c "."%char); [contradiction|]. now rewrite (IH Hn). }
    induction a as [|c a IH]; cbn.
    - now rewrite Hnn.
    - destruct (Ascii.eqb_spec c "."%char); [now rewrite IH|].
      rewrite IH. destruct (segments_cons a) as (h & t & E). rewrite E. reflexivity.
  Qed.

  Lemma drop_app_nonempty l n : n <> "" -> drop_one_trailing_empty (l ++ [n]) = (l ++ [n])%list.
  Proof.
    intros Hn. induction l as [|x l IH]; [apply drop_single, Hn|].
    change ((x :: l) ++ [n])%list with (x :: (l ++ [n]))%list.
    rewrite <- IH at 2. destruct l; reflexivity.
  Qed.

  Lemma reaches_get loc root c :
    well_located underlying loc root -> reaches underlying root c ->
    exists names, segments (loc c) = "$" :: names
                  /\ drop_one_trailing_empty names = names
                  /\ walk underlying root names = Ok (Some c).
  Proof.
    intros [Hr Hc] H. revert Hr. induction H as [c|a b c n Hab IH Hq]; intros Hr.
    - exists []. rewrite Hr. auto.
    - destruct (IH Hr) as (names & Hs & Hd & Hw).
      destruct (Hc _ _ _ Hq) as (Hl & Hne & Hdf).
      exists (names ++ [n])%list. split; [|split].
      + rewrite Hl. change (loc b ++ "." ++ n) with (loc b ++ String dot n).
        rewrite (segments_app_dot _ _ Hdf), Hs. reflexivity.
      + now apply drop_app_nonempty.
      + rewrite (walk_app _ _ _ _ Hw). cbn. now rewrite Hq.
  Qed.

  Lemma get_own_loc loc root c :
    well_located underlying loc root -> reaches underlying root c ->
    get comp underlying (Some root) (loc c) = Ok (Some c).
  Proof.
    intros Hwl Hre. destruct (reaches_get loc root c Hwl Hre) as (names & Hs & Hd & Hw).
    rewrite get_spec, Hs, Hd. cbn. exact Hw.
  Qed.

  Lemma get_never_fuel root locator :
    (forall c n, underlying c n <> Fuel) -> get comp underlying root locator <> Fuel.
  Proof.
    intros Hu. rewrite get_spec. destruct root as [r|]; [|discriminate].
    destruct (segments locator) as [|h t]; [discriminate|].
    destruct (String.eqb h "$"); [|discriminate].
    generalize (drop_one_trailing_empty t). intros l. revert r.
    induction l as [|n l IH]; intros r; cbn; [discriminate|].
    destruct (underlying r n) as [[c'|]| | |] eqn:E; try discriminate; [apply IH|].
    now apply Hu in E.
  Qed.

  (** Distinct reachable components have distinct locators. *)
  Lemma loc_unique loc root c1 c2 :
    well_located underlying loc root -> reaches underlying root c1 -> reaches underlying root c2 ->
    loc c1 = loc c2 -> c1 = c2.
  Proof.
    intros Hwl H1 H2 E.
    pose proof (get_own_loc loc root c1 Hwl H1) as G1.
    pose proof (get_own_loc loc root c2 Hwl H2) as G2.
    rewrite E in G1. rewrite G1 in G2. now injection G2.
  Qed.
End L.
