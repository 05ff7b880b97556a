(** Proofs about the conversions between Python and C++ values. *)
From Coq Require Import List String Ascii ZArith Bool Permutation Lia ZifyBool.
From Verif Require Import Base JsonModel JsonSpec JsonProofs PyModel PySpec.
Import ListNotations.
Open Scope string_scope. Open Scope list_scope.

Section Ind.
  Context {F : Type}.
  Variable P : py F -> Prop.
  Hypotheses (H0 : P PNone) (H1 : forall b, P (PBool b)) (H2 : forall x, P (PFloat x)) (H3 : forall z, P (PInt z)) (H4 : forall s, P (PStr s)) (H5 : forall b, P (PBytes b))
    (H6 : forall d, (forall k x, In (k, x) d -> P x) -> P (PDict d)) (H7 : forall k l, (forall x, In x l -> P x) -> P (PSeq k l)) (H8 : forall loc, P (PComp loc)) (H9 : P PForeign) (H10 : P POther).
  Fixpoint py_rect' (v : py F) : P v :=
    match v with
    | PNone => H0 | PBool b => H1 b | PFloat x => H2 x | PInt z => H3 z | PStr s => H4 s | PBytes b => H5 b
    | PDict d => H6 d ((fix go (d : list (py F * py F)) : forall k x, In (k, x) d -> P x :=
        match d with [] => fun k x H => False_ind _ H | (k0, x0) :: r => fun k x H => match H with or_introl e => eq_ind x0 P (py_rect' x0) x (f_equal snd e) | or_intror h => go r k x h end end) d)
    | PSeq k l => H7 k l ((fix go (l : list (py F)) : forall x, In x l -> P x :=
        match l with [] => fun x H => False_ind _ H | x0 :: r => fun x H => match H with or_introl e => eq_ind x0 P (py_rect' x0) x e | or_intror h => go r x h end end) l)
    | PComp loc => H8 loc | PForeign => H9 | POther => H10
    end.
End Ind.
Section JInd.
  Context {F : Type}.
  Variable P : json F -> Prop.
  Hypotheses (H0 : P JNull) (H1 : forall b, P (JBool b)) (H2 : forall z, P (JInt z)) (H3 : forall x, P (JFloat x)) (H4 : forall s, P (JStr s))
    (H5 : forall l, (forall x, In x l -> P x) -> P (JArr l)) (H6 : forall m, (forall k x, In (k, x) m -> P x) -> P (JObj m)).
  Fixpoint json_rect' (j : json F) : P j :=
    match j with
    | JNull => H0 | JBool b => H1 b | JInt z => H2 z | JFloat x => H3 x | JStr s => H4 s
    | JArr l => H5 l ((fix go (l : list (json F)) : forall x, In x l -> P x :=
        match l with [] => fun x H => False_ind _ H | x0 :: r => fun x H => match H with or_introl e => eq_ind x0 P (json_rect' x0) x e | or_intror h => go r x h end end) l)
    | JObj m => H6 m ((fix go (d : list (string * json F)) : forall k x, In (k, x) d -> P x :=
        match d with [] => fun k x H => False_ind _ H | (k0, x0) :: r => fun k x H => match H with or_introl e => eq_ind x0 P (json_rect' x0) x (f_equal snd e) | or_intror h => go r k x h end end) m)
    end.
End JInd.

Lemma in_int_iff z : in_int z = true <-> representable z.
Proof. unfold in_int, representable. lia. Qed.
Lemma wrap_int_id z : representable z -> wrap_int z = z.
Proof. unfold representable, wrap_int. intros H. rewrite Z.mod_small; lia. Qed.
Lemma nodup_map {V} (m : list (string * V)) : is_map m -> NoDup (map fst m).
Proof.
  induction m as [|[k v] m IH]; intros H; [constructor|]. apply is_map_cons in H. destruct H as [Hm Hk]. constructor; [|now apply IH]. cbn. intros Hi. apply in_map_iff in Hi. destruct Hi as ([k' v'] & Ek & Hi). cbn in Ek. subst k'.
  specialize (Hk _ _ Hi). rewrite compare_refl in Hk. discriminate.
Qed.
Lemma nodup_fst {A B} (l : list (A * B)) : NoDup (map fst l) -> NoDup l.
Proof. induction l as [|[a b] l IH]; cbn; intros H; constructor; inversion H; subst; auto. intros Hi. apply H2. apply in_map_iff. exists (a, b). auto. Qed.
(** With distinct keys, every entry is the first with its key *)
Lemma first_distinct {V} (l : list (string * V)) k j : NoDup (map fst l) -> In (k, j) l <-> exists before after, l = before ++ (k, j) :: after /\ ~ In k (map fst before).
Proof.
  intros Hn. split.
  - intros H. apply in_split in H. destruct H as (a & b & ->). exists a, b. split; [reflexivity|]. rewrite map_app in Hn. cbn in Hn. apply NoDup_remove_2 in Hn. intros Hi. apply Hn. apply in_or_app. now left.
  - intros (a & b & -> & _). apply in_or_app. right. now left.
Qed.

Section Load.
  Context {F : Type}.
  Variables (encode : pystr -> option string) (debug : bool).
  Notation load := (@load F encode debug).
  Notation means := (@means F encode).

  Definition load_items : list (py F) -> list (json F) -> outcome (json F) :=
    fix items (l : list (py F)) (acc : list (json F)) := match l with [] => Ok (JArr acc) | x :: r => obind (load x) (fun j => items r (acc ++ [j])) end.
  Definition load_entries : list (py F * py F) -> list (string * json F) -> outcome (json F) :=
    fix entries d m := match d with [] => Ok (JObj m) | (k, x) :: r => match load_key encode k with None => Throw type_error | Some k => obind (load x) (fun j => entries r (memplace k j m)) end end.
  Lemma load_key_iff k b : load_key encode k = Some b <-> key_is (F := F) encode k b.
  Proof.
    unfold load_key, key_is. split.
    - destruct k; try discriminate; [intros H; left; eauto|intros [= ->]; now right].
    - intros [(s & -> & H)| ->]; auto.
  Qed.
  Lemma items_iff l : (forall x, In x l -> forall j, load x = Ok j <-> means x j) -> forall acc j, load_items l acc = Ok j <-> exists js, j = JArr (acc ++ js) /\ Forall2 means l js.
  Proof.
    induction l as [|x l IH]; intros Hl acc j; cbn [load_items].
    - split; [intros [= <-]; exists []; rewrite app_nil_r; auto|]. intros (js & -> & H). inversion H. now rewrite app_nil_r.
    - fold load_items. split.
      + intros H. destruct (load x) as [jx| | |] eqn:Ex; try discriminate. cbn in H. apply IH in H; [|intros; apply Hl; now right]. destruct H as (js & -> & HF). exists (jx :: js). rewrite <- app_assoc. split; [reflexivity|]. constructor; [|exact HF]. apply Hl; [now left|exact Ex].
      + intros (js & -> & HF). inversion HF as [|? jx ? js' Hx HF']; subst. apply Hl in Hx; [|now left]. rewrite Hx. cbn. apply IH; [intros; apply Hl; now right|]. exists js'. rewrite <- app_assoc. auto.
  Qed.
  Lemma memplace_ok k (j : json F) m : is_map m -> is_map (memplace k j m) /\ forall k' j', In (k', j') (memplace k j m) <-> In (k', j') m \/ (k' = k /\ j' = j /\ ~ In k (map fst m)).
  Proof.
    intros Hm. unfold memplace. destruct (mfind k m) as [v|] eqn:E.
    - split; [exact Hm|]. apply mfind_in in E; [|exact Hm]. intros k' j'. split; [auto|]. intros [H|(_ & _ & H)]; [exact H|]. exfalso. apply H. apply in_map_iff. exists (k, v). auto.
    - assert (E' := proj1 (mfind_none k m) E). destruct (mset_new k j m Hm E') as [S I]. split; [exact S|]. intros k' j'. rewrite I. split; [intros [H|[-> ->]]; [auto|right]|intros [H|(-> & -> & _)]; auto]. repeat split. intros Hi. apply in_map_iff in Hi. destruct Hi as ([a b] & Ea & Hi). cbn in Ea. subst a. exact (E' _ Hi).
  Qed.
  Lemma entries_iff d : (forall k x, In (k, x) d -> forall j, load x = Ok j <-> means x j) -> forall m j, is_map m ->
    (load_entries d m = Ok j <-> exists kjs m', j = JObj m' /\ Forall2 (fun a b => key_is encode (fst a) (fst b) /\ means (snd a) (snd b)) d kjs /\ is_map m'
       /\ forall k x, In (k, x) m' <-> In (k, x) m \/ (~ In k (map fst m) /\ exists before after, kjs = before ++ (k, x) :: after /\ ~ In k (map fst before))).
  Proof.
    induction d as [|[k x] d IH]; intros Hl m j Hm; cbn [load_entries].
    - split.
      + intros [= <-]. exists [], m. split; [reflexivity|]. split; [constructor|]. split; [exact Hm|]. intros k x. split; [auto|]. intros [H|(_ & b & a & H & _)]; [exact H|]. destruct b; discriminate.
      + intros (kjs & m' & -> & HF & Hm' & HI). inversion HF; subst. f_equal. f_equal. apply map_ext_eq; auto. intros k x. rewrite HI. split; [auto|]. intros [H|(_ & b & a & H & _)]; [exact H|]. destruct b; discriminate.
    - fold load_entries.
      assert (Step : forall b jx kjs m' q y, is_map m' -> (In (q, y) m' <-> In (q, y) (memplace b jx m) \/ (~ In q (map fst (memplace b jx m)) /\ exists before after, kjs = before ++ (q, y) :: after /\ ~ In q (map fst before)))
        <-> (In (q, y) m' <-> In (q, y) m \/ (~ In q (map fst m) /\ exists before after, (b, jx) :: kjs = before ++ (q, y) :: after /\ ~ In q (map fst before)))).
      { intros b jx kjs m' q y _. destruct (memplace_ok b jx m Hm) as [_ Im].
        assert (Keys : In q (map fst (memplace b jx m)) <-> In q (map fst m) \/ q = b).
        { rewrite !in_map_iff. split.
          - intros ([q' y'] & Eq & Hi). cbn in Eq. subst q'. apply Im in Hi. destruct Hi as [Hi|(-> & _)]; [left; exists (q, y'); auto|now right].
          - intros [([q' y'] & Eq & Hi)| ->]; [cbn in Eq; subst q'; exists (q, y'); split; [reflexivity|]; apply Im; auto|].
            destruct (in_dec string_dec b (map fst m)) as [Hi|Hn].
            + apply in_map_iff in Hi. destruct Hi as ([q' y'] & Eq & Hi). cbn in Eq. subst q'. exists (b, y'). split; [reflexivity|]. apply Im. auto.
            + exists (b, jx). split; [reflexivity|]. apply Im. auto. }
        assert (E : (In (q, y) (memplace b jx m) \/ (~ In q (map fst (memplace b jx m)) /\ exists before after, kjs = before ++ (q, y) :: after /\ ~ In q (map fst before)))
          <-> (In (q, y) m \/ (~ In q (map fst m) /\ exists before after, (b, jx) :: kjs = before ++ (q, y) :: after /\ ~ In q (map fst before)))).
        { rewrite Im, Keys. split.
          - intros [[H|(-> & -> & H)]|(H & bf & af & -> & Hb)]; [auto| |].
            + right. split; [exact H|]. exists [], kjs. auto.
            + right. split; [tauto|]. exists ((b, jx) :: bf), af. split; [reflexivity|]. cbn. intros [->|Hq]; tauto.
          - intros [H|(H & bf & af & Eb & Hb)]; [auto|]. destruct bf as [|[b' j'] bf]; cbn in Eb; injection Eb as -> ->.
            + intros; left; right; subst; auto.
            + right. cbn in Hb. split; [intros [?| ->]; tauto|]. exists bf, af. subst. split; [reflexivity|tauto]. }
        tauto. }
      split.
      + intros H. destruct (load_key encode k) as [b|] eqn:Ek; [|discriminate]. destruct (load x) as [jx| | |] eqn:Ex; try discriminate. cbn in H. apply IH in H; [|intros; eapply Hl; right; eauto|apply memplace_ok; exact Hm].
        destruct H as (kjs & m' & -> & HF & Hm' & HI). exists ((b, jx) :: kjs), m'. split; [reflexivity|]. split; [constructor; [cbn; split; [now apply load_key_iff|eapply Hl; [left; reflexivity|exact Ex]]|exact HF]|]. split; [exact Hm'|].
        intros q y. apply (Step b jx kjs m' q y Hm'). apply HI.
      + intros (kjs0 & m' & -> & HF & Hm' & HI). inversion HF as [|? [b jx] ? kjs [Hk Hx] HF']; subst. cbn in Hk, Hx. apply load_key_iff in Hk. rewrite Hk. apply (Hl k) in Hx; [|now left]. rewrite Hx. cbn.
        apply IH; [intros; eapply Hl; right; eauto|apply memplace_ok; exact Hm|]. exists kjs, m'. split; [reflexivity|]. split; [exact HF'|]. split; [exact Hm'|]. intros q y. apply (Step b jx kjs m' q y Hm'). apply HI.
  Qed.
  Lemma load_iff v : forall j, load v = Ok j <-> means v j.
  Proof.
    induction v using py_rect'; intros j; cbn [PyModel.load].
    - split; [intros [= <-]; constructor|intros H; inversion H; reflexivity].
    - split; [intros [= <-]; constructor|intros H; inversion H; reflexivity].
    - split; [intros [= <-]; constructor|intros H; inversion H; reflexivity].
    - destruct (in_int z) eqn:E; [apply in_int_iff in E|]; split; try discriminate.
      + intros [= <-]. now constructor.
      + intros H. now inversion H.
      + intros H. inversion H; subst. apply in_int_iff in H1. congruence.
    - split; [destruct (encode s) eqn:E; [|discriminate]; intros [= <-]; now constructor|intros H; inversion H; subst; now rewrite H1].
    - split; [intros [= <-]; constructor|intros H; inversion H; reflexivity].
    - fold load_entries. rewrite entries_iff; [|exact H|constructor]. split.
      + intros (kjs & m' & -> & HF & Hm & HI). econstructor; eauto. intros k x. rewrite HI. cbn. tauto.
      + intros Hm. inversion Hm as [| | | | | | | |? kjs m HF Hs HI]; subst. exists kjs, m. split; [reflexivity|]. split; [assumption|]. split; [assumption|]. intros q y. rewrite HI. cbn. tauto.
    - fold load_items. rewrite (items_iff _ H). cbn [app]. split; [intros (js & -> & HF); now constructor|intros Hm; inversion Hm; subst; eauto].
    - split; [intros [= <-]; constructor|intros H; inversion H; reflexivity].
    - split; [discriminate|intros H; inversion H].
    - split; [destruct debug; discriminate|intros H; inversion H].
  Qed.
End Load.

Section Cast.
  Context {F : Type}.
  Variables (encode : pystr -> option string) (decode : string -> option pystr).
  Hypothesis HC : codec encode decode.
  Notation cast := (@cast F decode).
  Definition cast_items : list (json F) -> list (py F) -> outcome (py F) :=
    fix items l acc := match l with [] => Ok (PSeq true acc) | x :: r => obind (cast x) (fun v => items r (acc ++ [v])) end.
  Definition cast_entries : list (string * json F) -> list (py F * py F) -> outcome (py F) :=
    fix entries m d := match m with [] => Ok (PDict d) | (k, x) :: r => match decode k with None => Throw decode_error | Some k => obind (cast x) (fun v => entries r (dset k v d)) end end.
  Lemma dset_new k (v : py F) d : ~ In (PStr k) (map fst d) -> dset k v d = d ++ [(PStr k, v)].
  Proof.
    induction d as [|[a x] d IH]; intros H; [reflexivity|]. cbn in H. cbn [dset app]. rewrite IH by tauto. destruct a; try reflexivity. destruct (list_eq_dec N.eq_dec k s) as [->|]; [tauto|reflexivity].
  Qed.
  Lemma decode_inj a b s : decode a = Some s -> decode b = Some s -> a = b.
  Proof. intros Ha Hb. apply HC in Ha, Hb. congruence. Qed.
  (** Entries are added in order if each value converts *)
  Lemma entries_cast m : forall vs d, NoDup (map fst m) -> Forall2 (fun a b => exists s, decode (fst a) = Some s /\ fst b = PStr s /\ cast (snd a) = Ok (snd b)) m vs ->
    (forall k s, In k (map fst m) -> decode k = Some s -> ~ In (PStr s) (map fst d)) -> cast_entries m d = Ok (PDict (d ++ vs)).
  Proof.
    induction m as [|[k x] m IH]; intros vs d Hn HF Hd; inversion HF as [|? [k' v] ? vs' (s & Hs & Ek & Hx) HF']; subst; cbn [cast_entries].
    - now rewrite app_nil_r.
    - fold cast_entries. cbn in Hs, Ek, Hx, Hn. subst k'. rewrite Hs, Hx. cbn. inversion Hn as [|? ? Hk Hm]; subst.
      rewrite dset_new by (apply (Hd k s); [now left|exact Hs]). rewrite (IH vs'); [now rewrite <- app_assoc|exact Hm|exact HF'|].
      intros q s' Hq Hs'. rewrite map_app, in_app_iff. cbn. intros [H|[[= ->]|[]]]; [revert H; apply (Hd q s'); [now right|exact Hs']|]. apply Hk. now rewrite (decode_inj k q s' Hs Hs').
  Qed.
  Lemma items_cast l : forall vs acc, Forall2 (fun x v => cast x = Ok v) l vs -> cast_items l acc = Ok (PSeq true (acc ++ vs)).
  Proof.
    induction l as [|x l IH]; intros vs acc HF; inversion HF as [|? v ? vs' Hx HF']; subst; cbn [cast_items]; [now rewrite app_nil_r|]. fold cast_items. rewrite Hx. cbn. rewrite (IH vs' _ HF'). now rewrite <- app_assoc.
  Qed.
  Lemma choose {A B} (Q : A -> B -> Prop) (l : list A) : (forall x, In x l -> exists y, Q x y) -> exists ys, Forall2 Q l ys.
  Proof. induction l as [|x l IH]; intros H; [exists []; constructor|]. destruct (H x (or_introl eq_refl)) as [y Hy]. destruct IH as [ys Hys]; [intros; apply H; now right|]. exists (y :: ys). now constructor. Qed.
  Lemma split2 {A B} (Q R : A -> B -> Prop) l l' : Forall2 (fun a b => Q a b /\ R a b) l l' -> Forall2 Q l l' /\ Forall2 R l l'.
  Proof. induction 1 as [|a b l l' [H1 H2] _ [IH1 IH2]]; split; constructor; auto. Qed.
  Lemma flip2 {A B} (Q : A -> B -> Prop) l l' : Forall2 Q l l' -> Forall2 (fun b a => Q a b) l' l.
  Proof. induction 1; constructor; auto. Qed.
  Lemma imp2 {A B} (Q R : A -> B -> Prop) l l' : (forall a b, Q a b -> R a b) -> Forall2 Q l l' -> Forall2 R l l'.
  Proof. intros H. induction 1; constructor; auto. Qed.

  Lemma sort_map {V} (l : list (string * V)) : NoDup (map fst l) -> exists m, is_map m /\ forall k j, In (k, j) m <-> In (k, j) l.
  Proof.
    induction l as [|[k v] l IH]; intros Hn; [exists []; split; [constructor|tauto]|]. cbn in Hn. inversion Hn as [|? ? Hk Hl]; subst. destruct (IH Hl) as (m & Hm & Im).
    destruct (mset_new k v m Hm) as [S I]; [intros v' Hi; apply Im in Hi; apply Hk; apply in_map_iff; exists (k, v'); auto|]. exists (mset k v m). split; [exact S|]. intros k' v'. rewrite I, Im. cbn. split; [intros [H|[-> ->]]; auto|intros [[= <- <-]|H]; auto].
  Qed.
  (** A JSON value that fits is converted to a plain value that means it *)
  Lemma cast_fits j : fits (F := F) encode j -> exists v, cast j = Ok v /\ plain encode v /\ means encode v j.
  Proof.
    induction j using json_rect'; intros Hf; inversion Hf; subst; cbn [PyModel.cast].
    - eexists; split; [reflexivity|]; split; constructor.
    - eexists; split; [reflexivity|]; split; constructor.
    - rewrite wrap_int_id by assumption. eexists; split; [reflexivity|]; split; constructor; assumption.
    - eexists; split; [reflexivity|]; split; constructor.
    - assert (decode s = Some s0) as -> by (apply HC; assumption). eexists; split; [reflexivity|]; split; econstructor; eassumption.
    - fold cast_items. destruct (choose (fun x v => cast x = Ok v /\ plain encode v /\ means encode v x) l) as [vs HF]; [intros x Hx; apply H; auto|]. apply split2 in HF. destruct HF as [HF HM]. apply split2 in HM. destruct HM as [HP HM].
      rewrite (items_cast l vs [] HF). eexists. split; [reflexivity|]. split; constructor; [|now apply flip2 in HM].
      clear - HP. cbn. intros v Hv. revert l HP. induction vs as [|v' vs IH]; intros l HP; [destruct Hv|]. inversion HP; subst. destruct Hv as [->|Hv]; eauto.
    - fold cast_entries. assert (Hn := nodup_map m H1).
      destruct (choose (fun (a : string * json F) (b : py F * py F) => (exists s, decode (fst a) = Some s /\ fst b = PStr s /\ cast (snd a) = Ok (snd b)) /\ plain encode (snd b) /\ means encode (snd b) (snd a)) m) as [vs HF].
      { intros [k x] Hi. destruct (H2 k x Hi) as [[s Hs] Hx]. destruct (H k x Hi Hx) as (v & Hv & Pv & Mv). exists (PStr s, v). cbn. split; [exists s; split; [now apply HC|auto]|auto]. }
      apply split2 in HF. destruct HF as [HF HM]. apply split2 in HM. destruct HM as [HP HM].
      rewrite (entries_cast m vs [] Hn HF) by (intros; intros []). cbn [app]. eexists. split; [reflexivity|]. split.
      + constructor.
        * clear - HC Hn HF. revert Hn. induction HF as [|[k x] [k' v] m vs (s & Hs & Ek & _) HF IH]; cbn in *; intros Hn; constructor; inversion Hn; subst; auto. intros Hi. apply H1. clear - HC HF Hs Hi. induction HF as [|[q y] [q' w] m vs (s' & Hs' & Ek & _) HF IH]; cbn in *; [destruct Hi|]. subst q'. destruct Hi as [[= ->]|Hi]; [left; eapply decode_inj; eauto|right; auto].
        * intros k v Hi. clear - HC HF HP Hi. revert HP. induction HF as [|[q y] [q' w] m vs (s & Hs & Ek & _) HF IH]; [destruct Hi|]; intros HP; inversion HP; subst. cbn in *. destruct Hi as [[= <- <-]|Hi]; [|auto]. split; [exists s, q; split; [auto|now apply HC]|assumption].
      + eapply mn_dict with (kjs := m); [|exact H1|intros; now apply first_distinct]. clear - HC HF HM. revert HM. induction HF as [|[q y] [q' w] m vs (s & Hs & Ek & _) HF IH]; intros HM; inversion HM; subst; constructor; auto. cbn in *. split; [left; exists s; split; [auto|now apply HC]|assumption].
  Qed.
  Lemma round_py v : plain (F := F) encode v -> exists j v', means encode v j /\ cast j = Ok v' /\ same v v'.
  Proof.
    induction v using py_rect'; intros Hp; inversion Hp; subst.
    - exists JNull, PNone. repeat split; constructor.
    - exists (JBool b), (PBool b). repeat split; constructor.
    - exists (JFloat x), (PFloat x). repeat split; constructor.
    - exists (JInt z), (PInt z). split; [now constructor|]. split; [cbn; now rewrite wrap_int_id|constructor].
    - exists (JStr b), (PStr s). split; [now constructor|]. split; [cbn; assert (decode b = Some s) as -> by (now apply HC); reflexivity|constructor].
    - (* dict *)
      destruct (choose (fun (a : py F * py F) (b : string * json F * py F) => (exists s, fst a = PStr s /\ encode s = Some (fst (fst b))) /\ means encode (snd a) (snd (fst b)) /\ cast (snd (fst b)) = Ok (snd b) /\ same (snd a) (snd b)) d) as [l HF].
      { intros [k x] Hi. destruct (H2 k x Hi) as [(s & b & -> & Hb) Px]. destruct (H (PStr s) x Hi Px) as (j & v' & M & C & S). exists (b, j, v'). cbn. split; [eauto|auto]. }
      assert (Nk : NoDup (map fst (map fst l))).
      { clear - HC HF H1. induction HF as [|[k x] [[b j] v'] d l ((s & Es & Hs) & _) HF IH]; cbn in *; [constructor|]. inversion H1; subst. constructor; [|auto]. intros Hi. apply H2. clear - HC Hi HF Hs. induction HF as [|[k x] [[b' j'] v''] d l ((s' & Es & Hs') & _) HF IH]; cbn in *; [destruct Hi|]. destruct Hi as [->|Hi]; [|right; auto]. left. subst k. apply HC in Hs, Hs'. congruence. }
      destruct (sort_map (map fst l) Nk) as (m & Hm & Im).
      assert (Pm : Permutation m (map fst l)) by (apply NoDup_Permutation; [apply nodup_fst; now apply nodup_map|now apply nodup_fst|intros [k j]; apply Im]).
      apply Permutation_map_inv in Pm. destruct Pm as (l1 & -> & Pl). apply flip2 in HF. destruct (Permutation_Forall2 Pl HF) as (d1 & Pd & HF1). apply flip2 in HF1.
      assert (X : exists vs, Forall2 (fun a b => fst a = fst b /\ same (snd a) (snd b)) d1 vs /\ Forall2 (fun a b => exists s, decode (fst a) = Some s /\ fst b = PStr s /\ cast (snd a) = Ok (snd b)) (map fst l1) vs).
      { clear - HC HF1. induction HF1 as [|[k x] [[b j] v'] d l ((s & Es & Hs) & Mx & Cx & Sx) HF (vs & IH1 & IH2)]; [exists []; split; constructor|]. cbn in *. subst k. exists ((PStr s, v') :: vs). split; constructor; auto. cbn. exists s. split; [now apply HC|auto]. }
      destruct X as (vs & X1 & X2). exists (JObj (map fst l1)), (PDict vs). split; [|split].
      + eapply mn_dict with (kjs := map fst l); [|exact Hm|].
        * apply flip2 in HF. clear - HF. induction HF as [|[k x] [[b j] v'] d l ((s & Es & Hs) & Mx & Cx & Sx) HF IH]; cbn; constructor; auto. cbn in *. split; [left; eauto|exact Mx].
        * intros k j. rewrite Im. now apply first_distinct.
      + cbn [PyModel.cast]. fold cast_entries. now rewrite (entries_cast _ vs [] (nodup_map _ Hm) X2) by (intros; intros []).
      + econstructor; eassumption.
    - (* list *)
      destruct (choose (fun x (b : json F * py F) => means encode x (fst b) /\ cast (fst b) = Ok (snd b) /\ same x (snd b)) l) as [bs HF].
      { intros x Hx. destruct (H x Hx (H1 x Hx)) as (j & v' & M & C & S). exists (j, v'). auto. }
      exists (JArr (map fst bs)), (PSeq true (map snd bs)). split; [|split].
      + constructor. clear - HF. induction HF as [|x b l bs (M & _) _ IH]; cbn; constructor; auto.
      + cbn [PyModel.cast]. fold cast_items. rewrite (items_cast _ (map snd bs)); [reflexivity|]. clear - HF. induction HF as [|x b l bs (_ & C & _) _ IH]; cbn; constructor; auto.
      + constructor. clear - HF. induction HF as [|x b l bs (_ & _ & S) _ IH]; cbn; constructor; auto.
  Qed.
End Cast.
