From Coq Require Import List String Ascii ZArith Bool Lia.
From Verif Require Import Base LocModel LocSpec LocProofs CodecModel CodecSpec CodecProofs SerialModel SerialSpec.
Import ListNotations.
Open Scope string_scope. Open Scope list_scope. Open Scope Z_scope. Open Scope bool_scope.

Scheme fits_ind2 := Induction for fits Sort Prop
  with fits_all_ind2 := Induction for fits_all Sort Prop.
Combined Scheme fits_mut from fits_ind2, fits_all_ind2.

Lemma Ok_inj {A} (a b : A) : Ok a = Ok b -> a = b.
Proof. now intros [= ->]. Qed.

Lemma starts_with_true r s : starts_with r s = true -> s = (r ++ drop_chars (String.length r) s)%string.
Proof.
  revert s. induction r as [|c r IH]; intros s H; [reflexivity|].
  destruct s as [|d s]; [discriminate|]. cbn in H. apply andb_true_iff in H. destruct H as [Hc Hs].
  apply Ascii.eqb_eq in Hc. subst d. cbn. now rewrite <- (IH s Hs).
Qed.
Lemma starts_with_app r x : starts_with r (r ++ x) = true.
Proof. induction r as [|c r IH]; cbn; [reflexivity|]. now rewrite Ascii.eqb_refl, IH. Qed.
Lemma drop_chars_app r x : drop_chars (String.length r) (r ++ x) = x.
Proof. induction r as [|c r IH]; cbn; auto. Qed.
Lemma drop_chars_length n s : (String.length (drop_chars n s) <= String.length s)%nat.
Proof. revert s. induction n as [|n IH]; intros s; cbn; [lia|]. destruct s as [|c s]; cbn; [lia|]. specialize (IH s). lia. Qed.

Lemma rel_loc_ok r loc rl : r <> "" -> rel_loc r loc = Ok rl -> loc = (r ++ rl)%string.
Proof.
  intros Hr. unfold rel_loc. destruct (String.eqb_spec r ""); [contradiction|].
  destruct (starts_with r loc) eqn:E; [|discriminate]. intros [= <-]. now apply starts_with_true.
Qed.

Fixpoint ids (b : body) : list nat :=
  match b with
  | BPair x y | BCons x y => ids x ++ ids y
  | BVec e => ids e
  | BOwn _ id _ _ x => id :: ids x
  | _ => []
  end.
Fixpoint depth (b : body) : nat :=
  match b with
  | BPair x y | BCons x y => Nat.max (depth x) (depth y)
  | BVec e => depth e
  | BOwn _ _ _ _ x => S (depth x)
  | BNull _ => 1
  | _ => 0
  end%nat.

Definition fresh_ids (n n' : nat) (b : body) : Prop :=
  (n <= n')%nat /\ NoDup (ids b) /\ forall i, In i (ids b) -> (n <= i < n')%nat.

Lemma NoDup_app_disj {A} (l1 l2 : list A) : NoDup l1 -> NoDup l2 -> (forall x, In x l1 -> ~ In x l2) -> NoDup (l1 ++ l2).
Proof.
  intros H1 H2 Hd. induction H1 as [|x l1 Hx H1 IH]; cbn; [exact H2|]. constructor.
  - intros Hin. apply in_app_or in Hin. destruct Hin as [Hin|Hin]; [contradiction|]. apply (Hd x); [now left|exact Hin].
  - apply IH. intros y Hy. apply Hd. now right.
Qed.
Lemma fresh_app n n1 n2 l1 l2 :
  (n <= n1)%nat -> NoDup l1 -> (forall i, In i l1 -> (n <= i < n1)%nat) ->
  (n1 <= n2)%nat -> NoDup l2 -> (forall i, In i l2 -> (n1 <= i < n2)%nat) ->
  (n <= n2)%nat /\ NoDup (l1 ++ l2) /\ forall i, In i (l1 ++ l2) -> (n <= i < n2)%nat.
Proof.
  intros Ha Hb Hc Hd He Hf. split; [lia|]. split.
  - apply NoDup_app_disj; auto. intros x Hx Hx'. apply Hc in Hx. apply Hf in Hx'. lia.
  - intros i Hi. apply in_app_or in Hi. destruct Hi as [Hi|Hi]; [apply Hc in Hi|apply Hf in Hi]; lia.
Qed.

(** The loaded hierarchy before weak pointers are set. *)
Inductive loaded (loc_of : nat -> string) (r r' : string) : body -> body -> Prop :=
| ld_val t v : loaded loc_of r r' (BVal t v) (BVal t v)
| ld_unit : loaded loc_of r r' BUnit BUnit
| ld_pair a b a' b' : loaded loc_of r r' a a' -> loaded loc_of r r' b b' -> loaded loc_of r r' (BPair a b) (BPair a' b')
| ld_vec e e' : loaded loc_of r r' e e' -> loaded loc_of r r' (BVec e) (BVec e')
| ld_nil : loaded loc_of r r' BNil BNil
| ld_cons a b a' b' : loaded loc_of r r' a a' -> loaded loc_of r r' b b' -> loaded loc_of r r' (BCons a b) (BCons a' b')
| ld_null rep : loaded loc_of r r' (BNull rep) (BNull rep)
| ld_own rep p q key loc loc' b b' : moved r r' loc loc' -> loaded loc_of r r' b b' ->
    loaded loc_of r r' (BOwn rep p key loc b) (BOwn rep q key loc' b')
| ld_weak_null rep : loaded loc_of r r' (BWeak rep WNull) (BWeak rep WNull)
| ld_weak rep p l' : moved r r' (loc_of p) l' ->
    loaded loc_of r r' (BWeak rep (WTo p)) (BWeak rep (WPending l')).

Section P.
  Variable layouts : string -> option lay.
  Variable select : string -> body -> string -> outcome (option (list dir)).

  Section LoadSave.
    Variable Out : Type.
    Variable oid : Out -> nat.
    Variable loc_of : nat -> string.
    Variable look : string -> outcome (option (node Out)).
    Variables r r' : string.
    Hypothesis Hr : r <> "".
    Hypothesis Hr' : r' <> "".
    Hypothesis Hloc : forall p, short (loc_of p).
    Notation save := (save_body Out oid loc_of look r).
    Notation load f := (load_lay r' (load_own layouts r' f)).
    Notation ld := (loaded loc_of r r').

    Lemma abs_loc_r x : abs_loc r' x = (r' ++ x)%string.
    Proof. unfold abs_loc. now destruct (String.eqb_spec r' ""). Qed.

    Lemma dec_flag z rest : 0 <= z < 256 -> dec_int 1 false (enc_int 1 z ++ rest) = Ok (z, rest).
    Proof. intros Hz. apply dec_enc_int; [lia|]. unfold int_range. cbn. lia. Qed.

    Lemma rel_short loc rl : short loc -> rel_loc r loc = Ok rl -> short rl.
    Proof.
      intros Hs Hrl. apply (rel_loc_ok r) in Hrl; [|exact Hr]. unfold short in *. subst loc.
      rewrite length_append in Hs. lia.
    Qed.


    Lemma elem_count_nonneg e : 0 <= elem_count e.
    Proof. induction e; cbn [elem_count]; lia. Qed.
    Definition ecount (e : body) : nat := Z.to_nat (elem_count e).

    Definition vstep f a : list body * nat * stream -> outcome (list body * nat * stream) :=
      fun '(acc, n1, s1) => obind (load f a n1 s1) (fun '(x, n2, s2) => Ok (x :: acc, n2, s2)).

    Lemma load_save :
      (forall l b, fits layouts l b -> forall s, save b = Ok s -> forall f n rest, (depth b <= f)%nat ->
         exists b' n', load f l n (s ++ rest) = Ok (b', n', rest) /\ ld b b' /\ fresh_ids n n' b') /\
      (forall a e, fits_all layouts a e -> forall s, save e = Ok s -> forall f n acc rest, (depth e <= f)%nat ->
         exists l' n', iter (ecount e) (vstep f a) (acc, n, s ++ rest) = Ok (rev l' ++ acc, n', rest)
           /\ ld e (of_list l') /\ fresh_ids n n' (of_list l')).
    Proof.
      apply fits_mut.
      - (* value *) intros t v Hv s Hs f n rest _. cbn [save_body obind] in Hs. apply Ok_inj in Hs; subst s. exists (BVal t v), n.
        cbn [load_lay]. rewrite decode_encode by exact Hv. cbn. split; [reflexivity|].
        split; [constructor|]. split; [lia|]. split; [constructor|intros i []].
      - (* unit *) intros s Hs f n rest _. cbn [save_body obind] in Hs. apply Ok_inj in Hs; subst s. exists BUnit, n. cbn.
        split; [reflexivity|]. split; [constructor|]. split; [lia|]. split; [constructor|intros i []].
      - (* pair *) intros a b x y Hx IHx Hy IHy s Hs f n rest Hf. cbn [save_body obind depth] in Hs, Hf.
        destruct (save x) as [s1| | |] eqn:E1; try discriminate. cbn [save_body obind] in Hs.
        destruct (save y) as [s2| | |] eqn:E2; try discriminate. cbn [save_body obind] in Hs. apply Ok_inj in Hs; subst s.
        destruct (IHx _ eq_refl f n (s2 ++ rest)%list ltac:(lia)) as (x' & n1 & L1 & D1 & F1).
        destruct (IHy _ eq_refl f n1 rest ltac:(lia)) as (y' & n2 & L2 & D2 & F2).
        exists (BPair x' y'), n2. cbn [load_lay]. rewrite <- app_assoc, L1. cbn [obind]. rewrite L2. cbn [obind].
        split; [reflexivity|]. split; [now constructor|]. destruct F1 as (? & ? & ?), F2 as (? & ? & ?).
        unfold fresh_ids. cbn [ids]. eapply fresh_app; eassumption.
      - (* vector *) intros a e He IHe Hc s Hs f n rest Hf. cbn [save_body obind depth] in Hs, Hf.
        destruct (save e) as [s1| | |] eqn:E1; try discriminate. cbn [save_body obind] in Hs. apply Ok_inj in Hs; subst s.
        destruct (IHe _ eq_refl f n [] rest ltac:(lia)) as (l' & n1 & L1 & D1 & F1).
        exists (BVec (of_list l')), n1. cbn [load_lay].
        assert (Hn := elem_count_nonneg e).
        unfold dec_size. rewrite <- app_assoc, dec_enc_int by (unfold int_range; cbn in *; lia). cbn [obind fst snd].
        rewrite <- repeat_z_iter in L1. replace (Z.of_nat (ecount e)) with (elem_count e) in L1 by (unfold ecount; lia).
        split; [|split; [now constructor|exact F1]].
        refine (eq_trans (f_equal (fun m => obind m (fun '(acc, n1, s1) => Ok (BVec (of_list (rev acc)), n1, s1))) L1) _).
        cbn [obind]. now rewrite app_nil_r, rev_involutive.
      - (* null *) intros rep s Hs f n rest Hf. cbn [save_body obind depth] in Hs, Hf. apply Ok_inj in Hs; subst s. exists (BNull rep), n.
        cbn [load_lay]. destruct f as [|f]; [lia|]. cbn [load_own]. rewrite dec_flag by lia. cbn.
        split; [reflexivity|]. split; [constructor|]. split; [lia|]. split; [constructor|intros i []].
      - (* owned *) intros rep id key loc b l Hl Hk Hlo Hb IHb s Hs f n rest Hf. cbn [save_body obind depth] in Hs, Hf.
        destruct (check_found Out oid look id loc) as [u| | |]; try discriminate. cbn [save_body obind] in Hs.
        destruct (rel_loc r loc) as [rl| | |] eqn:Erl; try discriminate. cbn [save_body obind] in Hs.
        destruct (save b) as [s1| | |] eqn:E1; try discriminate. cbn [save_body obind] in Hs. apply Ok_inj in Hs; subst s.
        destruct f as [|f]; [lia|].
        destruct (IHb _ eq_refl f (S n) rest ltac:(lia)) as (b' & n1 & L1 & D1 & F1).
        exists (BOwn rep n key (r' ++ rl)%string b'), n1. cbn [load_lay load_own].
        rewrite <- !app_assoc, dec_flag by lia. cbn [obind fst snd Z.eqb].
        rewrite dec_enc_str by exact Hk. cbn [obind fst snd].
        rewrite dec_enc_str by exact (rel_short _ _ Hlo Erl). cbn [obind fst snd].
        rewrite Hl, L1. cbn [obind]. rewrite abs_loc_r. split; [reflexivity|]. split.
        + constructor; [|exact D1]. exists rl. split; [|reflexivity]. now apply rel_loc_ok.
        + destruct F1 as (Ha & Hb' & Hc). split; [lia|]. cbn [ids]. split.
          * constructor; [|exact Hb']. intros Hin. apply Hc in Hin. lia.
          * intros i [<-|Hi]; [lia|]. apply Hc in Hi. lia.
      - (* weak null *) intros rep s Hs f n rest _. cbn [save_body obind] in Hs. apply Ok_inj in Hs; subst s. exists (BWeak rep WNull), n.
        cbn [load_lay]. rewrite dec_flag by lia. cbn. split; [reflexivity|]. split; [constructor|]. split; [lia|]. split; [constructor|intros i []].
      - (* weak *) intros rep p s Hs f n rest _. cbn [save_body obind] in Hs.
        destruct (rel_loc r (loc_of p)) as [rl| | |] eqn:Erl; try discriminate. cbn [save_body obind] in Hs. apply Ok_inj in Hs; subst s.
        exists (BWeak rep (WPending (r' ++ rl)%string)), n. cbn [load_lay].
        rewrite <- app_assoc, dec_flag by lia. cbn [obind fst snd Z.eqb].
        rewrite dec_enc_str by exact (rel_short _ _ (Hloc p) Erl). cbn [obind fst snd]. rewrite abs_loc_r.
        split; [reflexivity|]. split; [|split; [lia|]; split; [constructor|intros i []]].
        constructor. exists rl. split; [|reflexivity]. now apply rel_loc_ok.
      - (* nil *) intros a s Hs f n acc rest _. cbn [save_body obind] in Hs. apply Ok_inj in Hs; subst s. exists [], n. cbn.
        split; [reflexivity|]. split; [constructor|]. split; [lia|]. split; [constructor|intros i []].
      - (* cons *) intros a x y Hx IHx Hy IHy s Hs f n acc rest Hf. cbn [save_body obind depth] in Hs, Hf.
        destruct (save x) as [s1| | |] eqn:E1; try discriminate. cbn [save_body obind] in Hs.
        destruct (save y) as [s2| | |] eqn:E2; try discriminate. cbn [save_body obind] in Hs. apply Ok_inj in Hs; subst s.
        destruct (IHx _ eq_refl f n (s2 ++ rest)%list ltac:(lia)) as (x' & n1 & L1 & D1 & F1).
        destruct (IHy _ eq_refl f n1 (x' :: acc) rest ltac:(lia)) as (l' & n2 & L2 & D2 & F2).
        exists (x' :: l'), n2.
        assert (Ec : ecount (BCons x y) = S (ecount y)).
        { unfold ecount. cbn [elem_count]. assert (H := elem_count_nonneg y). lia. }
        rewrite Ec. cbn [iter]. unfold vstep at 1. rewrite <- app_assoc, L1. cbn [obind].
        split; [refine (eq_trans L2 _); cbn; now rewrite <- app_assoc|]. split; [cbn; now constructor|].
        destruct F1 as (? & ? & ?), F2 as (? & ? & ?). unfold fresh_ids. cbn [of_list ids]. eapply fresh_app; eassumption.
    Qed.

    Lemma enc_int_length k z : List.length (enc_int k z) = k.
    Proof. apply le_bytes_length. Qed.

    Lemma depth_le_length b : forall s, save b = Ok s -> (depth b <= List.length s)%nat.
    Proof.
      induction b as [t v| |a IHa b IHb|e IHe| |a IHa b IHb|rep|rep id key loc b IHb|rep w]; cbn [save_body depth]; intros s Hs; try lia.
      - destruct (save a) as [s1| | |]; try discriminate. cbn [save_body obind] in Hs. destruct (save b) as [s2| | |]; try discriminate.
        cbn [save_body obind] in Hs. apply Ok_inj in Hs; subst s. specialize (IHa _ eq_refl). specialize (IHb _ eq_refl). rewrite app_length. lia.
      - destruct (save e) as [s1| | |]; try discriminate. cbn [obind] in Hs. apply Ok_inj in Hs; subst s. specialize (IHe _ eq_refl).
        rewrite app_length. lia.
      - destruct (save a) as [s1| | |]; try discriminate. cbn [save_body obind] in Hs. destruct (save b) as [s2| | |]; try discriminate.
        cbn [save_body obind] in Hs. apply Ok_inj in Hs; subst s. specialize (IHa _ eq_refl). specialize (IHb _ eq_refl). rewrite app_length. lia.
      - apply Ok_inj in Hs; subst s. rewrite enc_int_length. lia.
      - destruct (check_found Out oid look id loc) as [u| | |]; try discriminate. cbn [obind] in Hs.
        destruct (rel_loc r loc) as [rl| | |]; try discriminate. cbn [obind] in Hs.
        destruct (save b) as [s1| | |]; try discriminate. cbn [obind] in Hs. apply Ok_inj in Hs; subst s.
        specialize (IHb _ eq_refl). rewrite !app_length, enc_int_length. lia.
    Qed.
  End LoadSave.

  (** ** Name queries give corresponding children *)

  Section Natural.
    Variable loc_of : nat -> string.
    Variables r r' : string.
    Notation ld := (loaded loc_of r r').

    Lemma loaded_erase b b' : ld b b' -> erase b = erase b'.
    Proof. induction 1; cbn; congruence. Qed.

    Lemma loaded_sub b b' : ld b b' -> forall p,
      (sub_at b p = None /\ sub_at b' p = None)
      \/ exists c c', sub_at b p = Some c /\ sub_at b' p = Some c' /\ ld c c'.
    Proof.
      induction 1; intros [|d path]; cbn; try (right; do 2 eexists; split; [reflexivity|]; split; [reflexivity|]; now econstructor);
        destruct d; cbn; eauto.
    Qed.

    Lemma sub_at_app b p q : sub_at b (p ++ q) = match sub_at b p with Some c => sub_at c q | None => None end.
    Proof.
      revert b. induction p as [|d p IH]; intros b; [reflexivity|]. cbn.
      destruct b, d; cbn; auto.
    Qed.

    Lemma query_corr c c' n d : ld c c' -> query select c n = Ok (Some d) ->
      exists path d', query select c' n = Ok (Some d') /\ ld d d'
        /\ sub_at c path = Some d /\ sub_at c' path = Some d'.
    Proof.
      intros L Hq. inversion L; subst; cbn in Hq; try discriminate.
      rename b into x, b' into x'. cbn. rewrite <- (loaded_erase _ _ H0).
      destruct (select key (erase x) n) as [[path|]| | |]; try discriminate. cbn in Hq |- *.
      destruct (loaded_sub _ _ H0 path) as [(E & _)|(e & e' & E & E' & Le)]; rewrite E in Hq; [discriminate|].
      destruct e; try discriminate. injection Hq as <-. rewrite E'. inversion Le; subst.
      exists (DIn :: path). eexists. split; [reflexivity|]. split; [now constructor|]. cbn. split; assumption.
    Qed.

    Lemma walk_corr l : forall c c' d, ld c c' -> walk (query select) c l = Ok (Some d) ->
      exists path d', walk (query select) c' l = Ok (Some d') /\ ld d d'
        /\ sub_at c path = Some d /\ sub_at c' path = Some d'.
    Proof.
      induction l as [|n l IH]; intros c c' d L Hw; cbn in Hw.
      - injection Hw as <-. exists [], c'. cbn. auto.
      - destruct (query select c n) as [[c1|]| | |] eqn:E; try discriminate.
        destruct (query_corr _ _ _ _ L E) as (p1 & c1' & E' & L1 & S1 & S1').
        destruct (IH _ _ _ L1 Hw) as (p2 & d' & W & L2 & S2 & S2').
        exists (p1 ++ p2)%list, d'. cbn. rewrite E', !sub_at_app, S1, S1'. auto.
    Qed.
  End Natural.

  (** ** Lookup through the surroundings *)

  Section Ctx.
    Variable Out : Type.
    Variable o0 : Out.
    Variable oq : Out -> string -> outcome (option (option Out)).
    Variable r : string.
    Hypothesis Hplaced : placed_at oq o0 r.

    Lemma segments_app_dot2 a x : segments (a ++ String dot x) = (segments a ++ segments x)%list.
    Proof.
      induction a as [|c a IH]; cbn; [reflexivity|].
      destruct (Ascii.eqb_spec c "."%char); [now rewrite IH|].
      rewrite IH. destruct (segments_cons a) as (h & t & E). rewrite E. reflexivity.
    Qed.

    Lemma drop_app (l : list string) s : drop_one_trailing_empty (l ++ segments s) = (l ++ drop_one_trailing_empty (segments s))%list.
    Proof.
      induction l as [|x l IH]; [reflexivity|]. cbn [app]. rewrite <- IH.
      destruct (segments_cons s) as (h & t & E). rewrite E. destruct l; reflexivity.
    Qed.

    Lemma drop_last (l : list string) : last l "" <> "" -> drop_one_trailing_empty l = l.
    Proof.
      induction l as [|x l IH]; intros H; [reflexivity|]. destruct l as [|y l].
      - cbn in H |- *. destruct (String.eqb_spec x ""); [contradiction|reflexivity].
      - cbn [drop_one_trailing_empty]. f_equal. apply IH. exact H.
    Qed.

    Lemma leads_walk tree id : comp_id tree = Some id -> forall l o, leads oq o l ->
      walk (node_query select Out oq tree) (inl o) l = Ok (Some (inr tree)).
    Proof.
      intros Hid. induction l as [|n l IH]; intros o H; [contradiction|].
      destruct l as [|m l].
      - cbn in H |- *. rewrite H. cbn. now rewrite Hid.
      - destruct H as (o' & E & H'). cbn [walk node_query]. rewrite E. cbn [obind]. exact (IH o' H').
    Qed.

    Lemma inner_walk tree c l : walk (node_query select Out oq tree) (inr c) l =
      obind (walk (query select) c l) (fun x => Ok (option_map inr x)).
    Proof.
      revert c. induction l as [|n l IH]; intros c; cbn; [reflexivity|].
      destruct (query select c n) as [[c'|]| | |]; cbn; auto.
    Qed.

    (** Names below the subtree for a locator at or below r. *)
    Definition rest_names (x : string) : list string :=
      match x with EmptyString => [] | String _ x' => drop_one_trailing_empty (segments x') end.

    Lemma placed_nonempty : r <> "".
    Proof. destruct Hplaced as (l & E & _). intros ->. cbn in E. discriminate. Qed.

    Lemma wget_below tree id x : comp_id tree = Some id ->
      (x = "" \/ exists y, x = String dot y) ->
      wget select Out o0 oq tree (r ++ x) =
      obind (walk (query select) tree (rest_names x)) (fun c => Ok (option_map inr c)).
    Proof.
      intros Hid Hx. destruct Hplaced as (l & El & Hlast & Hl). unfold wget. rewrite get_spec.
      destruct Hx as [->|(y & ->)].
      - rewrite append_nil_r, El. cbn [String.eqb Ascii.eqb]. cbn. rewrite drop_last by exact Hlast.
        now rewrite (leads_walk tree id Hid l o0 Hl).
      - rewrite segments_app_dot2, El. cbn [app]. change (String.eqb "$" "$") with true. cbn iota.
        rewrite drop_app. cbn [rest_names].
        rewrite (walk_app _ _ _ _ _ _ (leads_walk tree id Hid l o0 Hl)). apply inner_walk.
    Qed.
  End Ctx.

  Lemma below_split r loc : at_or_below r loc -> exists x, loc = (r ++ x)%string /\ (x = "" \/ exists y, x = String dot y).
  Proof.
    intros [->|(y & ->)]; [exists ""; rewrite append_nil_r; auto|]. exists (String dot y). split; [reflexivity|eauto].
  Qed.
  Lemma app_inj_l r x y : (r ++ x)%string = (r ++ y)%string -> x = y.
  Proof. induction r as [|c r IH]; cbn; [auto|]. intros [= H]. auto. Qed.

  (** Saving checked every owned component. *)
  Lemma save_checked Out oid loc_of look r b : forall s, save_body Out oid loc_of look r b = Ok s ->
    forall place rep id key loc x, sub_at b place = Some (BOwn rep id key loc x) ->
      check_found Out oid look id loc = Ok tt /\ exists rl, rel_loc r loc = Ok rl.
  Proof.
    induction b as [t v| |a IHa b IHb|e IHe| |a IHa b IHb|rep0|rep0 id0 key0 loc0 b IHb|rep0 w]; cbn [save_body]; intros s Hs place rep id key loc x Hp.
    - destruct place as [|[]]; discriminate.
    - destruct place as [|[]]; discriminate.
    - destruct (save_body Out oid loc_of look r a) as [s1| | |]; try discriminate. cbn in Hs.
      destruct (save_body Out oid loc_of look r b) as [s2| | |]; try discriminate.
      destruct place as [|[] place]; try discriminate; cbn in Hp; [eapply IHa|eapply IHb]; eauto.
    - destruct (save_body Out oid loc_of look r e) as [s1| | |]; try discriminate.
      destruct place as [|[] place]; try discriminate; cbn in Hp; eapply IHe; eauto.
    - destruct place as [|[]]; discriminate.
    - destruct (save_body Out oid loc_of look r a) as [s1| | |]; try discriminate. cbn in Hs.
      destruct (save_body Out oid loc_of look r b) as [s2| | |]; try discriminate.
      destruct place as [|[] place]; try discriminate; cbn in Hp; [eapply IHa|eapply IHb]; eauto.
    - destruct place as [|[]]; discriminate.
    - destruct (check_found Out oid look id0 loc0) as [u| | |] eqn:Ec; try discriminate. cbn in Hs.
      destruct (rel_loc r loc0) as [rl| | |] eqn:Er; try discriminate. cbn in Hs.
      destruct (save_body Out oid loc_of look r b) as [s1| | |] eqn:Es; try discriminate.
      destruct place as [|[] place]; try discriminate; cbn in Hp.
      + injection Hp as -> -> -> -> ->. destruct u. eauto.
      + eapply IHb; eauto.
    - destruct place as [|[]]; discriminate.
  Qed.

  (** Setting the weak pointers keeps every component in place. *)
  Lemma resolve_ids Out oid look b : forall b2, resolve Out oid look b = Ok b2 -> forall p, id_at b2 p = id_at b p.
  Proof.
    induction b as [t v| |a IHa b IHb|e IHe| |a IHa b IHb|rep0|rep0 id0 key0 loc0 b IHb|rep0 w]; cbn [resolve]; intros b2 H p.
    1,2,5,7: now injection H as <-.
    - destruct (resolve Out oid look a) as [a2| | |]; try discriminate. cbn in H.
      destruct (resolve Out oid look b) as [b3| | |]; try discriminate. cbn in H. injection H as <-.
      destruct p as [|[] p]; try reflexivity; unfold id_at; cbn; [apply IHa|apply IHb]; reflexivity.
    - destruct (resolve Out oid look e) as [a2| | |]; try discriminate. cbn in H. injection H as <-.
      destruct p as [|[] p]; try reflexivity; unfold id_at; cbn; apply IHe; reflexivity.
    - destruct (resolve Out oid look a) as [a2| | |]; try discriminate. cbn in H.
      destruct (resolve Out oid look b) as [b3| | |]; try discriminate. cbn in H. injection H as <-.
      destruct p as [|[] p]; try reflexivity; unfold id_at; cbn; [apply IHa|apply IHb]; reflexivity.
    - destruct (resolve Out oid look b) as [a2| | |]; try discriminate. cbn in H. injection H as <-.
      destruct p as [|[] p]; try reflexivity; unfold id_at; cbn; apply IHb; reflexivity.
    - destruct w as [|i|l]; try (now injection H as <-).
      destruct (look l) as [o| | |]; try discriminate. cbn in H. injection H as <-.
      destruct p as [|[] p]; reflexivity.
  Qed.

  Lemma id_at_sub b p c : sub_at b p = Some c -> id_at b p = comp_id c.
  Proof. unfold id_at. now intros ->. Qed.

  (** Resolving a loaded hierarchy in which every reference finds its counterpart. *)
  Lemma resolve_equiv Out oid look loc_of r r' (same : nat -> nat -> Prop) b b' :
    loaded loc_of r r' b b' ->
    (forall p l', refers b p -> moved r r' (loc_of p) l' ->
       exists x q, look l' = Ok (Some x) /\ node_id Out oid x = Some q /\ same p q) ->
    (forall place p q, id_at b place = Some p -> id_at b' place = Some q -> same p q) ->
    exists b2, resolve Out oid look b' = Ok b2 /\ equivalent same r r' b b2.
  Proof.
    induction 1; intros Hw Hs; cbn [resolve].
    - eexists. split; [reflexivity|constructor].
    - eexists. split; [reflexivity|constructor].
    - destruct IHloaded1 as (a2 & Ea & Qa); [intros; apply Hw; [now constructor|assumption]|intros pl p q; exact (Hs (DL :: pl) p q)|].
      destruct IHloaded2 as (b2 & Eb & Qb); [intros; apply Hw; [now constructor|assumption]|intros pl p q; exact (Hs (DR :: pl) p q)|].
      rewrite Ea, Eb. cbn. eexists. split; [reflexivity|now constructor].
    - destruct IHloaded as (a2 & Ea & Qa); [intros; apply Hw; [now constructor|assumption]|intros pl p q; exact (Hs (DVec :: pl) p q)|].
      rewrite Ea. cbn. eexists. split; [reflexivity|now constructor].
    - eexists. split; [reflexivity|constructor].
    - destruct IHloaded1 as (a2 & Ea & Qa); [intros; apply Hw; [now constructor|assumption]|intros pl p q; exact (Hs (DL :: pl) p q)|].
      destruct IHloaded2 as (b2 & Eb & Qb); [intros; apply Hw; [now constructor|assumption]|intros pl p q; exact (Hs (DR :: pl) p q)|].
      rewrite Ea, Eb. cbn. eexists. split; [reflexivity|now constructor].
    - eexists. split; [reflexivity|constructor].
    - destruct IHloaded as (a2 & Ea & Qa); [intros; apply Hw; [now constructor|assumption]|intros pl u v; exact (Hs (DIn :: pl) u v)|].
      rewrite Ea. cbn. eexists. split; [reflexivity|]. constructor; [|assumption|assumption]. apply (Hs []); reflexivity.
    - eexists. split; [reflexivity|constructor].
    - destruct (Hw p l') as (x & q & E & Eq & Hpq); [constructor|assumption|].
      rewrite E. cbn [obind]. rewrite Eq. eexists. split; [reflexivity|now constructor].
  Qed.
End P.

(** ** Main statement *)

Section Main.
  Variable layouts : string -> option lay.
  Variable select : string -> body -> string -> outcome (option (list dir)).
  (** Surroundings when saving and when loading. *)
  Variables Out Out' : Type.
  Variables (o0 : Out) (o0' : Out').
  Variable oq : Out -> string -> outcome (option (option Out)).
  Variable oq' : Out' -> string -> outcome (option (option Out')).
  Variables (oid : Out -> nat) (oid' : Out' -> nat).
  Variable loc_of : nat -> string.

  Lemma resolve_ids_eq look t1 : forall t2, resolve Out' oid' look t1 = Ok t2 -> ids t2 = ids t1.
  Proof.
    induction t1 as [t v| |a IHa b IHb|e IHe| |a IHa b IHb|rep0|rep0 id0 key0 loc0 b IHb|rep0 w]; cbn [resolve]; intros t2 H.
    1,2,5,7: now injection H as <-.
    - destruct (resolve _ _ _ a) as [a2| | |]; try discriminate. cbn in H.
      destruct (resolve _ _ _ b) as [b3| | |]; try discriminate. cbn in H. injection H as <-. cbn. now rewrite (IHa _ eq_refl), (IHb _ eq_refl).
    - destruct (resolve _ _ _ e) as [a2| | |]; try discriminate. cbn in H. injection H as <-. cbn. now rewrite (IHe _ eq_refl).
    - destruct (resolve _ _ _ a) as [a2| | |]; try discriminate. cbn in H.
      destruct (resolve _ _ _ b) as [b3| | |]; try discriminate. cbn in H. injection H as <-. cbn. now rewrite (IHa _ eq_refl), (IHb _ eq_refl).
    - destruct (resolve _ _ _ b) as [a2| | |]; try discriminate. cbn in H. injection H as <-. cbn. now rewrite (IHb _ eq_refl).
    - destruct w as [|i|l]; try (now injection H as <-).
      destruct (look l) as [o| | |]; try discriminate. cbn in H. now injection H as <-.
  Qed.

  Lemma equivalent_mono (same same' : nat -> nat -> Prop) r r' b b' :
    (forall p q, same p q -> same' p q) -> equivalent same r r' b b' -> equivalent same' r r' b b'.
  Proof. intros H Q. induction Q; constructor; auto. Qed.

  Lemma reload tree r r' root s n id key x :
    tree = BOwn true id key r x ->
    placed_at oq o0 r -> placed_at oq' o0' r' ->
    fits layouts (LOwn true) tree -> (forall p, short (loc_of p)) ->
    (forall p, refers tree p -> at_or_below r (loc_of p)
       /\ exists place rep key x, sub_at tree place = Some (BOwn rep p key (loc_of p) x)) ->
    save_comp Out oid loc_of (wget select Out o0 oq tree) root tree = Ok s ->
    exists tree', load_comp layouts select Out' o0' oq' oid' r' n s = Ok tree'
      /\ equivalent (same_place tree tree') r r' tree tree' /\ NoDup (ids tree').
  Proof.
    intros Et Hp Hp' Hfit Hsh Href Hsave.
    assert (Hr := placed_nonempty Out o0 oq r Hp). assert (Hr' := placed_nonempty Out' o0' oq' r' Hp').
    assert (Hs2 : obind (check_refs loc_of root x) (fun _ => obind (save_body Out oid loc_of (wget select Out o0 oq tree) r tree)
      (fun s => Ok (open_out s))) = Ok s) by (rewrite Et in Hsave |- *; exact Hsave).
    clear Hsave. rename Hs2 into Hsave.
    destruct (check_refs loc_of root x) as [u| | |]; try discriminate. cbn [obind] in Hsave.
    destruct (save_body Out oid loc_of (wget select Out o0 oq tree) r tree) as [s1| | |] eqn:Es; try discriminate.
    cbn [obind] in Hsave. apply Ok_inj in Hsave; subst s.
    destruct (proj1 (load_save layouts select Out oid loc_of _ r r' Hr Hr' Hsh) _ _ Hfit _ Es (S (List.length s1)) n []) as (t1 & n1 & L & D & F).
    { assert (H := depth_le_length layouts select Out oid loc_of _ r r' Hsh tree s1 Es). lia. }
    rewrite app_nil_r in L. cbn [load_lay] in L.
    assert (Hid1 : exists id1, comp_id t1 = Some id1) by (rewrite Et in D; inversion D; subst; eexists; reflexivity).
    destruct Hid1 as [id1 Hid1].
    assert (Hid : comp_id tree = Some id) by now rewrite Et.
    destruct (resolve_equiv Out' oid' (wget select Out' o0' oq' t1) loc_of r r'
                (fun p q => same_place tree t1 p q) tree t1 D) as (t2 & R & Q).
    - intros p l' Hrp Hm. destruct (Href p Hrp) as (Hb & place & rep & key' & x' & Hsub).
      destruct (below_split _ _ Hb) as (y & Ey & Hy). destruct Hm as (y' & Ey' & ->).
      rewrite Ey in Ey'. apply app_inj_l in Ey'. subst y'.
      destruct (save_checked _ _ _ _ _ _ _ Es _ _ _ _ _ _ Hsub) as [Hc _].
      unfold check_found in Hc. destruct (String.eqb_spec (loc_of p) "") as [E0|_].
      { rewrite Ey in E0. destruct r; [now contradiction Hr|discriminate]. }
      rewrite Ey in Hc.
      rewrite (wget_below select Out o0 oq r Hp tree id y Hid Hy) in Hc.
      rewrite (wget_below select Out' o0' oq' r' Hp' t1 id1 y Hid1 Hy).
      destruct (walk (query select) tree (rest_names y)) as [[d|]| | |] eqn:W; try discriminate. cbn in Hc.
      destruct (comp_id d) as [i|] eqn:Ei; [|discriminate].
      destruct (Nat.eqb_spec i p) as [->|]; [|discriminate].
      destruct (walk_corr select loc_of r r' _ _ _ _ D W) as (path & d' & W' & Ld & S1 & S2).
      rewrite W'. cbn. destruct Ld; try discriminate. cbn in Ei. injection Ei as ->.
      do 2 eexists. split; [reflexivity|]. split; [reflexivity|].
      exists path. rewrite (id_at_sub _ _ _ S1), (id_at_sub _ _ _ S2). auto.
    - intros place p q Hpl Hql. exists place. auto.
    - exists t2. split; [|split].
      + unfold load_comp, open_in, open_out. rewrite dec_enc_int by (unfold int_range; cbn; lia).
        cbn [obind fst snd]. change (1 =? 1) with true. cbn iota. cbn [obind].
        rewrite L. cbn [obind]. exact R.
      + eapply equivalent_mono; [|exact Q].
        intros p q (pl & H1 & H2). exists pl. split; [exact H1|]. now rewrite (resolve_ids _ _ _ _ _ R).
      + rewrite (resolve_ids_eq _ _ _ R). apply F.
  Qed.

  (** A reference whose locator does not begin with the root is never written. *)
  Lemma outside_refused look r b p : r <> "" -> refers b p -> starts_with r (loc_of p) = false ->
    forall s, save_body Out oid loc_of look r b <> Ok s.
  Proof.
    intros Hr Href Hout. induction Href; cbn [save_body]; intros s Hs.
    - destruct (save_body Out oid loc_of look r a) as [s1| | |]; try discriminate. now apply (IHHref Hout s1).
    - destruct (save_body Out oid loc_of look r a) as [s1| | |]; try discriminate. cbn [obind] in Hs.
      destruct (save_body Out oid loc_of look r b) as [s2| | |]; try discriminate. now apply (IHHref Hout s2).
    - destruct (save_body Out oid loc_of look r e) as [s1| | |]; try discriminate. now apply (IHHref Hout s1).
    - destruct (save_body Out oid loc_of look r a) as [s1| | |]; try discriminate. now apply (IHHref Hout s1).
    - destruct (save_body Out oid loc_of look r a) as [s1| | |]; try discriminate. cbn [obind] in Hs.
      destruct (save_body Out oid loc_of look r b) as [s2| | |]; try discriminate. now apply (IHHref Hout s2).
    - destruct (check_found Out oid look id loc); try discriminate. cbn [obind] in Hs.
      destruct (rel_loc r loc); try discriminate. cbn [obind] in Hs.
      destruct (save_body Out oid loc_of look r b) as [s2| | |]; try discriminate. now apply (IHHref Hout s2).
    - unfold rel_loc in Hs. destruct (String.eqb_spec r ""); [contradiction|]. rewrite Hout in Hs. discriminate.
  Qed.
End Main.

(** ** Saving ends normally or with an exception *)

Definition clean {A} (m : outcome A) : Prop := m <> UB /\ m <> Fuel.
Lemma clean_ok {A} (a : A) : clean (Ok a). Proof. split; discriminate. Qed.
Lemma clean_throw {A} e : clean (@Throw A e). Proof. split; discriminate. Qed.
Lemma clean_bind {A B} (m : outcome A) (f : A -> outcome B) : clean m -> (forall a, clean (f a)) -> clean (obind m f).
Proof. intros [H1 H2] Hf. destruct m; cbn; try contradiction; auto using clean_throw. Qed.

Lemma rel_loc_clean r l : clean (rel_loc r l).
Proof. unfold rel_loc. destruct (String.eqb r ""); [apply clean_ok|]. destruct (starts_with r l); [apply clean_ok|apply clean_throw]. Qed.

Lemma save_clean layouts Out oid loc_of look r : (forall l, clean (look l)) ->
  (forall l b, fits layouts l b -> clean (save_body Out oid loc_of look r b)) /\
  (forall l b, fits_all layouts l b -> clean (save_body Out oid loc_of look r b)).
Proof.
  intros Hl. apply fits_mut; intros; cbn [save_body]; auto using clean_ok.
  - apply clean_bind; [assumption|]. intros. apply clean_bind; [assumption|]. intros. apply clean_ok.
  - apply clean_bind; [assumption|]. intros. apply clean_ok.
  - apply clean_bind.
    + unfold check_found. destruct (String.eqb loc ""); [apply clean_ok|]. apply clean_bind; [apply Hl|].
      intros [x|]; [|apply clean_throw]. destruct (node_id Out oid x) as [i|]; [|apply clean_throw].
      destruct (Nat.eqb i id); [apply clean_ok|apply clean_throw].
    + intros. apply clean_bind; [apply rel_loc_clean|]. intros. apply clean_bind; [assumption|]. intros. apply clean_ok.
  - apply clean_bind; [apply rel_loc_clean|]. intros. apply clean_ok.
  - apply clean_bind; [assumption|]. intros. apply clean_bind; [assumption|]. intros. apply clean_ok.
Qed.

Lemma check_refs_clean loc_of r b : clean (check_refs loc_of r b).
Proof.
  induction b as [t v| |a IHa b IHb|e IHe| |a IHa b IHb|rep0|rep0 id0 key0 loc0 b IHb|rep0 w]; cbn; auto using clean_ok, clean_bind.
  - destruct rep0; auto using clean_ok.
  - destruct rep0, w; auto using clean_ok. destruct (starts_with r (loc_of id)); [apply clean_ok|apply clean_throw].
Qed.

Lemma save_comp_refuses layouts Out oid loc_of look root rep id key r x p :
  r <> "" -> (forall l, clean (look l)) -> fits layouts (LOwn rep) (BOwn rep id key r x) ->
  refers (BOwn rep id key r x) p -> starts_with r (loc_of p) = false ->
  exists e, save_comp Out oid loc_of look root (BOwn rep id key r x) = Throw e.
Proof.
  intros Hr Hl Hf Hp Ho. cbn [save_comp].
  destruct (check_refs_clean loc_of root x) as [C1 C2].
  destruct (check_refs loc_of root x) as [u|e| |]; try contradiction; cbn [obind]; [|eauto].
  destruct (proj1 (save_clean layouts Out oid loc_of look r Hl) _ _ Hf) as [S1 S2].
  assert (H := outside_refused Out oid loc_of look r _ p Hr Hp Ho).
  destruct (save_body Out oid loc_of look r (BOwn rep id key r x)) as [s|e| |]; try contradiction; cbn [obind]; [|eauto].
  exfalso. exact (H s eq_refl).
Qed.
