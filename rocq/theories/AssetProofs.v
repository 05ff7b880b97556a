From Coq Require Import List String Ascii Arith Lia Bool.
From Verif Require Import Base Assoc LocModel LocSpec LocProofs AssetModel AssetSpec.
Import ListNotations.
Open Scope string_scope. Open Scope list_scope. Open Scope nat_scope. Open Scope bool_scope.

(** ** Names *)
Lemma name_char_spec c : name_char c = true <-> ok_char c.
Proof.
  unfold ok_char.
  assert (H : forall x, name_char x = existsb (Ascii.eqb x)
    (list_ascii_of_string "abcdefghijklmnopqrstuvwxyzABCDEFGHIJKLMNOPQRSTUVWXYZ0123456789_:-")).
  { intros [[] [] [] [] [] [] [] []]; vm_compute; reflexivity. }
  rewrite H, existsb_exists. split.
  - intros (x & Hx & E). apply Ascii.eqb_eq in E. now subst.
  - intros Hc. exists c. split; [exact Hc | apply Ascii.eqb_refl].
Qed.

Lemma valid_asset_name_spec s : valid_asset_name s = true <-> ok_name s.
Proof.
  unfold valid_asset_name, ok_name. rewrite andb_true_iff, negb_true_iff, String.eqb_neq.
  assert (H : all_name_chars s = true <-> (forall c, In c (list_ascii_of_string s) -> ok_char c)).
  { clear. induction s as [|c s IH]; cbn [all_name_chars list_ascii_of_string].
    - split; [intros _ c [] | reflexivity].
    - rewrite andb_true_iff, IH, name_char_spec. split.
      + intros [Hc Hr] x [<-|Hx]; [exact Hc | now apply Hr].
      + intros H. split; [apply H; now left | intros x Hx; apply H; now right]. }
  rewrite H. reflexivity.
Qed.

Lemma valid_asset_name_false s : valid_asset_name s = false <-> ~ ok_name s.
Proof. rewrite <- valid_asset_name_spec. destruct (valid_asset_name s); intuition congruence. Qed.

(** ** Group *)
Lemma replace_nth_length {A} n (a : A) l : List.length (replace_nth n a l) = List.length l.
Proof. revert n; induction l as [|x l IH]; intros [|n]; cbn; auto. Qed.

Lemma nth_error_replace {A} n (a : A) l i :
  nth_error (replace_nth n a l) i = if ((i =? n) && (i <? List.length l))%nat then Some a else nth_error l i.
Proof.
  revert n i. induction l as [|x l IH]; intros n i.
  - cbn [replace_nth List.length]. replace (i <? 0)%nat with false by (symmetry; apply Nat.ltb_ge; lia).
    rewrite andb_false_r. now destruct n, i.
  - destruct n as [|n], i as [|i]; cbn [replace_nth nth_error]; try reflexivity.
    rewrite IH. reflexivity.
Qed.

(** Index map and vector agree with the ordered list. *)
Definition g_rep (s : group) (l : list (string * option nat)) : Prop :=
  assets s = map snd l /\ NoDup (map fst l) /\
  (forall n i, alookup n (index_map s) = Some i <-> nth_error (map fst l) i = Some n).

Lemma map_fst_upsert n p l : has n l -> map fst (upsert n p l) = map fst l.
Proof.
  unfold has. induction l as [|[m q] l IH]; cbn; [tauto|]. intros H.
  destruct (String.eqb_spec n m) as [->|Hne]; cbn; [reflexivity|].
  rewrite IH; [reflexivity|]. destruct H as [->|H]; [now contradiction Hne|exact H].
Qed.

Lemma upsert_new n p l : ~ has n l -> upsert n p l = (l ++ [(n, p)])%list.
Proof.
  unfold has. induction l as [|[m q] l IH]; cbn; [reflexivity|]. intros H.
  destruct (String.eqb_spec n m) as [->|Hne]; [tauto|]. rewrite IH; tauto.
Qed.

Lemma map_snd_upsert n p l i : NoDup (map fst l) ->
  nth_error (map fst l) i = Some n -> map snd (upsert n p l) = replace_nth i p (map snd l).
Proof.
  revert i. induction l as [|[m q] l IH]; cbn; intros i Hnd H; [destruct i; discriminate|].
  inversion Hnd as [|? ? Hn Hr]; subst.
  destruct i as [|i]; cbn in H.
  - injection H as ->. rewrite String.eqb_refl. reflexivity.
  - destruct (String.eqb_spec n m) as [->|Hne].
    + exfalso. apply Hn. eapply nth_error_In; eassumption.
    + cbn. f_equal. now apply IH.
Qed.

Lemma nth_error_snoc {A} (l : list A) a i :
  nth_error (l ++ [a])%list i = if (i =? List.length l)%nat then Some a else nth_error l i.
Proof.
  destruct (Nat.eqb_spec i (List.length l)) as [->|H].
  - rewrite nth_error_app2, Nat.sub_diag by lia. reflexivity.
  - destruct (Nat.lt_ge_cases i (List.length l)).
    + now apply nth_error_app1.
    + rewrite nth_error_app2 by lia.
      rewrite (proj2 (nth_error_None l i)) by lia.
      apply nth_error_None. cbn. lia.
Qed.

Lemma nodup_snoc {A} (l : list A) a : NoDup l -> ~ In a l -> NoDup (l ++ [a])%list.
Proof.
  intros H1 H2.
  induction l as [|x l IH]; cbn; [repeat constructor; auto|].
  inversion H1 as [|? ? Hn Hr]; subst. constructor.
  - rewrite in_app_iff. cbn. intros [H|[->|[]]]; [contradiction|]. apply H2. now left.
  - apply IH; [exact Hr|]. intros H. apply H2. now right.
Qed.

Lemma rep_append s l n p :
  g_rep s l -> ~ has n l ->
  g_rep {| assets := (assets s ++ [p])%list; index_map := aset n (List.length (assets s)) (index_map s) |} (l ++ [(n, p)])%list.
Proof.
  intros (Ha & Hnd & Hi) Hn. unfold g_rep; cbn [assets index_map].
  rewrite !map_app, Ha. cbn [map fst snd]. split; [reflexivity|]. split; [now apply nodup_snoc|].
  intros m i. rewrite alookup_set, nth_error_snoc, !map_length.
  destruct (String.eqb_spec m n) as [->|Hne].
  - destruct (Nat.eqb_spec i (List.length l)) as [->|Hi'].
    + intuition.
    + split; [congruence|]. intros H. exfalso. apply Hn. eapply nth_error_In. exact H.
  - rewrite Hi. destruct (Nat.eqb_spec i (List.length l)) as [->|Hi']; [|reflexivity].
    rewrite (proj2 (nth_error_None (map fst l) _)) by (rewrite map_length; lia).
    split; congruence.
Qed.

Lemma rep_has s l n : g_rep s l -> (alookup n (index_map s) <> None <-> has n l).
Proof.
  intros (_ & _ & Hi). unfold has. split.
  - destruct (alookup n (index_map s)) as [i|] eqn:E; [|tauto]. intros _.
    apply Hi in E. eapply nth_error_In. exact E.
  - intros H. apply In_nth_error in H. destruct H as [i H]. apply Hi in H. congruence.
Qed.

Lemma rep_replace s l n i p :
  g_rep s l -> alookup n (index_map s) = Some i ->
  i < List.length (assets s) /\
  g_rep {| assets := replace_nth i p (assets s); index_map := index_map s |} (upsert n p l).
Proof.
  intros (Ha & Hnd & Hi) E. assert (E' := proj1 (Hi _ _) E).
  assert (Hh : has n l) by (eapply nth_error_In; exact E').
  split.
  - rewrite Ha, map_length, <- (map_length fst). apply nth_error_Some. congruence.
  - split; [|split]; cbn [assets index_map].
    + rewrite Ha. symmetry. now apply map_snd_upsert.
    + now rewrite map_fst_upsert.
    + intros m j. rewrite map_fst_upsert by exact Hh. apply Hi.
Qed.

Lemma g_run_app h o : g_run (h ++ [o])%list = fst (g_step (g_run h) o).
Proof. unfold g_run. now rewrite fold_left_app. Qed.

Lemma entries_rep h l : entries h l -> g_rep (g_run h) l.
Proof.
  induction 1 as [|h l n c H IH Hn|h l n H IH|h l n id e H IH Hn|h l n p e H IH Hn|h l n p e H IH Hn].
  - split; [reflexivity|]. split; [constructor|]. intros n i. cbn. destruct i; split; discriminate.
  - rewrite g_run_app. cbn [g_step]. unfold g_load.
    rewrite (proj2 (valid_asset_name_false n) Hn). exact IH.
  - rewrite g_run_app. cbn [g_step]. unfold g_load. destruct (negb _); exact IH.
  - rewrite g_run_app. cbn [g_step]. unfold g_load.
    rewrite (proj2 (valid_asset_name_spec n) Hn). cbn [negb].
    destruct (alookup n (index_map (g_run h))) as [i|] eqn:E.
    + destruct (rep_replace _ _ n i (Some id) IH E) as [Hlt Hrep].
      rewrite (proj2 (Nat.ltb_lt _ _) Hlt). exact Hrep.
    + rewrite upsert_new; [apply rep_append; [exact IH|]|];
        rewrite <- (rep_has _ _ n IH), E; tauto.
  - rewrite g_run_app. cbn [g_step]. unfold g_load_serialized.
    apply (rep_has _ _ n IH) in Hn. destruct (alookup n (index_map (g_run h))); [exact IH|tauto].
  - rewrite g_run_app. cbn [g_step]. unfold g_load_serialized.
    destruct (alookup n (index_map (g_run h))) as [i|] eqn:E.
    + exfalso. apply Hn. apply (rep_has _ _ n IH). congruence.
    + cbn [fst]. apply rep_append; assumption.
Qed.

Lemma ok_name_dec n : {ok_name n} + {~ ok_name n}.
Proof.
  destruct (valid_asset_name n) eqn:E; [left; now apply valid_asset_name_spec|right; now apply valid_asset_name_false].
Qed.

Lemma entries_total h : exists l, entries h l.
Proof.
  induction h as [|o h [l IH]] using rev_ind; [eexists; constructor|].
  destruct o as [n [|id e]|n p e].
  - eexists. eapply en_missing; eassumption.
  - destruct (ok_name_dec n) as [Hn|Hn]; eexists; [eapply en_load; eassumption|eapply en_reject; eassumption].
  - destruct (in_dec String.string_dec n (map fst l)) as [Hn|Hn]; eexists; [eapply en_ser_dup; eassumption|eapply en_ser; eassumption].
Qed.

Definition find_entry (n : string) (l : list (string * option nat)) : option (option nat) := alookup n l.

Lemma rep_underlying s l n : g_rep s l ->
  g_underlying s n = Ok (match find_entry n l with Some p => p | None => None end).
Proof.
  intros Hrep. pose proof Hrep as (Ha & Hnd & Hi). unfold g_underlying, find_entry.
  destruct (alookup n (index_map s)) as [i|] eqn:E.
  - apply Hi in E. rewrite Ha, nth_error_map. rewrite nth_error_map in E.
    destruct (nth_error l i) as [[m p]|] eqn:E2; [|discriminate]. cbn in *. injection E as ->.
    rewrite (alookup_nodup n l p Hnd); [reflexivity|]. eapply nth_error_In. exact E2.
  - destruct (alookup n l) as [p|] eqn:E2; [|reflexivity].
    exfalso. apply alookup_in in E2. apply (rep_has s l n Hrep) in E2. congruence.
Qed.

Lemma find_upsert n p l m :
  find_entry m (upsert n p l) = if String.eqb m n then Some p else find_entry m l.
Proof.
  unfold find_entry. induction l as [|[a q] l IH]; cbn; [reflexivity|].
  destruct (String.eqb_spec n a) as [->|Hne]; cbn.
  - destruct (String.eqb m a); reflexivity.
  - rewrite IH. destruct (String.eqb_spec m a) as [->|]; [|reflexivity].
    destruct (String.eqb_spec a n) as [->|]; [now contradiction Hne|reflexivity].
Qed.

Lemma find_app_other n p l m : m <> n -> find_entry m (l ++ [(n, p)])%list = find_entry m l.
Proof.
  intros H. unfold find_entry. induction l as [|[a q] l IH]; cbn.
  - destruct (String.eqb_spec m n); [contradiction|reflexivity].
  - now rewrite IH.
Qed.

(** After a load under [n] no other load under [n]: the query still gives it. *)
Lemma g_latest h1 n id e h2 :
  ok_name n -> (forall id' e', ~ In (GLoad n (Created id' e')) h2) ->
  g_underlying (g_run (h1 ++ GLoad n (Created id e) :: h2)%list) n = Ok (Some id).
Proof.
  intros Hn. revert h2. induction h2 as [|o h2 IH] using rev_ind; intros Hno.
  - destruct (entries_total h1) as [l Hl].
    rewrite (rep_underlying _ _ n (entries_rep _ _ (en_load _ _ n id e Hl Hn))).
    rewrite find_upsert, String.eqb_refl. reflexivity.
  - assert (IH' : g_underlying (g_run (h1 ++ GLoad n (Created id e) :: h2)%list) n = Ok (Some id)).
    { apply IH. intros id' e' Hin. apply (Hno id' e'). apply in_or_app. now left. }
    destruct (entries_total (h1 ++ GLoad n (Created id e) :: h2)%list) as [l Hl].
    rewrite (rep_underlying _ _ n (entries_rep _ _ Hl)) in IH'.
    rewrite app_comm_cons, app_assoc.
    assert (Hgen : forall l', entries ((h1 ++ GLoad n (Created id e) :: h2) ++ [o])%list l' ->
                   find_entry n l' = find_entry n l ->
                   g_underlying (g_run ((h1 ++ GLoad n (Created id e) :: h2) ++ [o])%list) n = Ok (Some id)).
    { intros l' He Hf. rewrite (rep_underlying _ _ n (entries_rep _ _ He)), Hf. exact IH'. }
    assert (Hl_has : find_entry n l <> None) by (destruct (find_entry n l); congruence).
    destruct o as [m [|id' e']|m p e'].
    + eapply Hgen; [eapply en_missing; eassumption|reflexivity].
    + destruct (ok_name_dec m) as [Hm|Hm]; [|eapply Hgen; [eapply en_reject; eassumption|reflexivity]].
      eapply Hgen; [eapply en_load; eassumption|]. rewrite find_upsert.
      destruct (String.eqb_spec n m) as [->|]; [|reflexivity].
      exfalso. apply (Hno id' e'). apply in_or_app. right. now left.
    + destruct (in_dec String.string_dec m (map fst l)) as [Hm|Hm];
        [eapply Hgen; [eapply en_ser_dup; eassumption|reflexivity]|].
      eapply Hgen; [eapply en_ser; eassumption|]. apply find_app_other. intros ->.
      apply Hm. unfold find_entry in Hl_has. destruct (alookup m l) as [q|] eqn:E; [|tauto].
      exact (alookup_in _ _ _ E).
Qed.

(** Nothing loaded under [n]: the query gives null. *)
Lemma g_never h n :
  (forall id e, ~ In (GLoad n (Created id e)) h) -> (forall p e, ~ In (GLoadSerialized n p e) h) ->
  g_underlying (g_run h) n = Ok None.
Proof.
  intros H1 H2.
  assert (Hx : exists l, entries h l /\ find_entry n l = None).
  { revert H1 H2. induction h as [|o h IH] using rev_ind; intros H1 H2.
    { exists []. split; [constructor|reflexivity]. }
    destruct IH as (l & Hl & Hf).
    { intros id e Hin. apply (H1 id e). apply in_or_app. now left. }
    { intros p e Hin. apply (H2 p e). apply in_or_app. now left. }
    destruct o as [m [|id e]|m p e].
    - exists l. split; [eapply en_missing; eassumption|exact Hf].
    - destruct (ok_name_dec m) as [Hm|Hm]; [|exists l; split; [eapply en_reject; eassumption|exact Hf]].
      exists (upsert m (Some id) l). split; [eapply en_load; eassumption|]. rewrite find_upsert.
      destruct (String.eqb_spec n m) as [->|]; [|exact Hf].
      exfalso. apply (H1 id e). apply in_or_app. right. now left.
    - destruct (in_dec String.string_dec m (map fst l)) as [Hm|Hm]; [exists l; split; [eapply en_ser_dup; eassumption|exact Hf]|].
      exists (l ++ [(m, p)])%list. split; [eapply en_ser; eassumption|]. rewrite find_app_other; [exact Hf|].
      intros ->. apply (H2 p e). apply in_or_app. right. now left. }
  destruct Hx as (l & Hl & Hf). rewrite (rep_underlying _ _ n (entries_rep _ _ Hl)), Hf. reflexivity.
Qed.

Lemma g_order h l : entries h l -> g_foreach (g_run h) = map snd l.
Proof. intros H. now destruct (entries_rep _ _ H). Qed.

Lemma g_query h l n : entries h l ->
  g_underlying (g_run h) n = Ok (match find_entry n l with Some p => p | None => None end).
Proof. intros H. now apply rep_underlying, entries_rep. Qed.

Lemma entries_nodup h l : entries h l -> NoDup (map fst l).
Proof. intros H. now destruct (entries_rep _ _ H) as (_ & Hn & _). Qed.

Lemma entries_app_inv h o l : entries (h ++ [o])%list l ->
  exists l0, entries h l0 /\ exists t, map fst l = (map fst l0 ++ t)%list.
Proof.
  intros H. inversion H as [E|h' l' n c H' Hn E|h' l' n H' E|h' l' n id e H' Hn E|h' l' n p e H' Hn E|h' l' n p e H' Hn E];
    try (symmetry in E; now apply app_eq_nil in E);
    try (apply app_inj_tail in E; destruct E as [-> _]).
  - exists l. split; [assumption|]. exists []. now rewrite app_nil_r.
  - exists l. split; [assumption|]. exists []. now rewrite app_nil_r.
  - exists l'. split; [assumption|].
    destruct (in_dec String.string_dec n (map fst l')) as [Hh|Hh].
    + exists []. now rewrite app_nil_r, map_fst_upsert.
    + exists [n]. rewrite upsert_new by exact Hh. now rewrite map_app.
  - exists l. split; [assumption|]. exists []. now rewrite app_nil_r.
  - exists l'. split; [assumption|]. exists [n]. now rewrite map_app.
Qed.

Lemma entries_positions_stable h1 h2 l2 : entries (h1 ++ h2)%list l2 ->
  exists l1 t, entries h1 l1 /\ map fst l2 = (map fst l1 ++ t)%list.
Proof.
  revert l2. induction h2 as [|o h2 IH] using rev_ind; intros l2 H.
  - rewrite app_nil_r in H. exists l2, []. rewrite app_nil_r. now split.
  - rewrite app_assoc in H. destruct (entries_app_inv _ _ _ H) as (l0 & H0 & t & Ht).
    destruct (IH l0 H0) as (l1 & t' & H1 & Ht'). exists l1, (t' ++ t)%list. split; [exact H1|].
    now rewrite Ht, Ht', app_assoc.
Qed.

Lemma g_rejected_unchanged s n c : ~ ok_name n -> g_load s n c = (s, Ok None).
Proof. intros H. unfold g_load. now rewrite (proj2 (valid_asset_name_false n) H). Qed.

Lemma g_missing_unchanged s n : g_load s n Missing = (s, Ok None).
Proof. unfold g_load. now destruct (negb _). Qed.

Lemma g_never_ub h o : snd (g_step (g_run h) o) <> UB.
Proof.
  destruct (entries_total h) as [l Hl]. apply entries_rep in Hl.
  destruct o as [n [|id e]|n p e]; cbn [g_step].
  - rewrite g_missing_unchanged. discriminate.
  - unfold g_load. destruct (negb _); [discriminate|].
    destruct (alookup n (index_map (g_run h))) as [i|] eqn:E.
    + destruct (rep_replace _ _ n i (Some id) Hl E) as [Hlt _].
      rewrite (proj2 (Nat.ltb_lt _ _) Hlt). destruct e; discriminate.
    + destruct e; discriminate.
  - unfold g_load_serialized. destruct (alookup _ _); [discriminate|]. destruct e; discriminate.
Qed.
