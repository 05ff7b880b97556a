From Coq Require Import List ZArith Bool Lia Permutation.
From Verif Require Import Base ParModel ParSpec ParProofs SchedModel SchedSpec.
Import ListNotations.
Open Scope Z_scope.

Section S.
  Variable interval : Z.
  Variable T : nat.
  Notation loop := (loop interval T).

  Lemma loop_ok n c tr c' : (0 < T)%nat -> loop n c tr c' (Ok tt) ->
    Permutation (map fst (started tr)) (upto n) /\ forall i t, In (i, t) (started tr) -> (t < T)%nat.
  Proof.
    intros HT (l & s & Hr & Hf & -> & -> & E).
    destruct (thrown (trace s)) as [|e r] eqn:Et.
    - destruct (finished_ok _ _ _ _ _ _ HT Hr Hf Et) as (H1 & _ & H2 & _). auto.
    - destruct (finished_throws _ _ _ _ _ _ Hr Hf) as (e' & He & _); [congruence|]. congruence.
  Qed.
  Lemma loop_any n c tr c' r : loop n c tr c' r ->
    NoDup (map fst (started tr)) /\ (forall i t, In (i, t) (started tr) -> 0 <= i < n /\ (t < T)%nat) /\ (r = Ok tt \/ exists e, r = Throw e).
  Proof.
    intros (l & s & Hr & Hf & -> & -> & ->). destruct (reach_at_most_once _ _ _ _ _ _ Hr). split; [assumption|]. split; [assumption|].
    unfold result. destruct (exp s); eauto.
  Qed.

  Lemma calls_fst body tr : map fst (calls body tr) = map body (map fst (started tr)).
  Proof. unfold calls. rewrite !map_map. apply map_ext. now intros [i t]. Qed.
  Lemma calls_threads body tr x t : In (x, t) (calls body tr) -> exists i, In (i, t) (started tr).
  Proof. unfold calls. rewrite in_map_iff. intros ([i t'] & [= <- <-] & H). eauto. Qed.

  Lemma nodup_map_on {A B} (f : A -> B) l : (forall a b, In a l -> In b l -> f a = f b -> a = b) -> NoDup l -> NoDup (map f l).
  Proof.
    induction l as [|x l IH]; intros Hf Hn; [constructor|]. inversion Hn; subst. cbn. constructor.
    - intros H. apply in_map_iff in H. destruct H as (y & E & Hy). assert (y = x) by (apply Hf; [now right|now left|assumption]). congruence.
    - apply IH; [|assumption]. intros a b Ha Hb. apply Hf; now right.
  Qed.

  Lemma quot_rem_pairs np spp : 0 <= np -> each_pair_once np spp (map (fun i => (Z.quot i spp, Z.rem i spp)) (upto (np * spp))).
  Proof.
    intros Hnp. destruct (Z.le_gt_cases spp 0) as [Hs|Hs].
    { assert (E : upto (np * spp) = []). { unfold upto. replace (Z.to_nat (np * spp)) with 0%nat by nia. reflexivity. }
      rewrite E. split; [constructor|]. intros p q. cbn. split; [contradiction|lia]. }
    split.
    - apply nodup_map_on; [|apply upto_nodup]. intros a b Ha Hb [= E1 E2]. apply upto_in in Ha, Hb.
      rewrite (Z.quot_rem' a spp), (Z.quot_rem' b spp), E1, E2. reflexivity.
    - intros p q. rewrite in_map_iff. split.
      + intros (i & [= <- <-] & Hi). apply upto_in in Hi. rewrite Z.quot_div_nonneg, Z.rem_mod_nonneg by lia. split.
        * split; [apply Z.div_pos; lia|]. apply Z.div_lt_upper_bound; lia.
        * apply Z.mod_pos_bound. lia.
      + intros [Hp Hq]. exists (p * spp + q). split; [|apply upto_in; nia].
        rewrite Z.quot_div_nonneg, Z.rem_mod_nonneg by nia.
        rewrite Z.div_add_l, Z.div_small, Z.add_0_r by lia. rewrite Z.add_comm, Z.mod_add, Z.mod_small by lia. reflexivity.
  Qed.

  Lemma each_pair_perm np ns l l' : Permutation l l' -> each_pair_once np ns l' -> each_pair_once np ns l.
  Proof.
    intros P [H1 H2]. split; [now apply Permutation_NoDup with l'; [apply Permutation_sym|]|]. intros p s. rewrite <- H2. split; apply Permutation_in; [assumption|now apply Permutation_sym].
  Qed.

  Lemma spp_sample_ok np spp c cs c' r : (0 < T)%nat -> 0 <= np -> spp_sample interval T np spp c cs c' (Ok r) ->
    r = spp /\ each_pair_once np spp (map fst cs) /\ forall x t, In (x, t) cs -> (t < T)%nat.
  Proof.
    intros HT Hnp (tr & o & Hl & -> & E). destruct (loop_any _ _ _ _ _ Hl) as (_ & _ & [->|[e ->]]); [|discriminate].
    injection E as ->. destruct (loop_ok _ _ _ _ HT Hl) as [P Ht]. split; [reflexivity|]. split.
    - rewrite calls_fst. eapply each_pair_perm; [apply Permutation_map; exact P|]. now apply quot_rem_pairs.
    - intros x t H. apply calls_threads in H. destruct H as [i H]. eauto.
  Qed.

  Lemma spp_sample_any np spp c cs c' r : 0 <= np -> spp_sample interval T np spp c cs c' r ->
    NoDup (map fst cs) /\ (forall p s, In (p, s) (map fst cs) -> 0 <= p < np /\ 0 <= s < spp) /\ (r = Ok spp \/ exists e, r = Throw e).
  Proof.
    intros Hnp (tr & o & Hl & -> & E). destruct (loop_any _ _ _ _ _ Hl) as (Nd & Hr & Ho).
    destruct (quot_rem_pairs np spp Hnp) as [Q1 Q2]. rewrite calls_fst. split; [|split].
    - apply nodup_map_on; [|assumption]. intros a b Ha Hb Eab.
      assert (Ra : 0 <= a < np * spp). { apply in_map_iff in Ha. destruct Ha as ([i t] & <- & Ha). now apply Hr in Ha. }
      assert (Rb : 0 <= b < np * spp). { apply in_map_iff in Hb. destruct Hb as ([i t] & <- & Hb). now apply Hr in Hb. }
      injection Eab as E1 E2. rewrite (Z.quot_rem' a spp), (Z.quot_rem' b spp), E1, E2. reflexivity.
    - intros p s H. apply Q2. apply in_map_iff in H. destruct H as (i & Ei & H). apply in_map_iff. exists i. split; [assumption|].
      apply upto_in. apply in_map_iff in H. destruct H as ([j t] & <- & H). now apply Hr in H.
    - destruct Ho as [->|[e ->]]; [left|right; exists e]; assumption.
  Qed.

  Lemma spi_sample_ok n c cs c' r : (0 < T)%nat -> spi_sample interval T n c cs c' (Ok r) ->
    r = n /\ Permutation (map fst cs) (map (fun i => (0, i)) (upto n)) /\ forall x t, In (x, t) cs -> (t < T)%nat.
  Proof.
    intros HT (tr & o & Hl & -> & E). destruct (loop_any _ _ _ _ _ Hl) as (_ & _ & [->|[e ->]]); [|discriminate].
    injection E as ->. destruct (loop_ok _ _ _ _ HT Hl) as [P Ht]. split; [reflexivity|]. split.
    - rewrite calls_fst. now apply Permutation_map.
    - intros x t H. apply calls_threads in H. destruct H as [i H]. eauto.
  Qed.

  (** The time-based loops: all passes from [k] to the returned one. *)
  Lemma passes_ok n body inc expired k d c cs c' r : (0 < T)%nat -> passes interval T n body inc expired k d c cs c' (Ok r) ->
    exists m, (1 <= m)%nat /\ r = d + Z.of_nat m * inc
      /\ (forall j, (k <= j < k + m - 1)%nat -> expired j = false) /\ expired (k + m - 1)%nat = true
      /\ Permutation (map fst cs) (flat_map (fun j => map (body (d + Z.of_nat j * inc)) (upto n)) (seq 0 m))
      /\ forall x t, In (x, t) cs -> (t < T)%nat.
  Proof.
    intros HT H. remember (Ok r) as o eqn:Eo. revert r Eo.
    induction H as [k d c tr c' e Hl|k d c tr c' Hl Hx|k d c tr c' cs c'' r' Hl Hx Hp IH]; intros r Eo; [discriminate| |].
    - injection Eo as <-. destruct (loop_ok _ _ _ _ HT Hl) as [P Ht]. exists 1%nat. split; [lia|]. split; [lia|]. split; [lia|].
      split; [replace (k + 1 - 1)%nat with k by lia; assumption|]. split.
      + cbn [seq flat_map]. rewrite app_nil_r, Z.mul_0_l, Z.add_0_r, calls_fst. now apply Permutation_map.
      + intros x t H. apply calls_threads in H. destruct H as [i H]. eauto.
    - destruct (IH r Eo) as (m & Hm & Er & Hne & Hlast & P' & Ht'). destruct (loop_ok _ _ _ _ HT Hl) as [P Ht].
      exists (S m). split; [lia|]. split; [lia|]. split; [|split; [|split]].
      + intros j Hj. destruct (Nat.eq_dec j k) as [->|]; [assumption|]. apply Hne. lia.
      + replace (k + S m - 1)%nat with (S k + m - 1)%nat by lia. assumption.
      + rewrite map_app. cbn [seq flat_map]. apply Permutation_app.
        * rewrite Z.mul_0_l, Z.add_0_r, calls_fst. now apply Permutation_map.
        * rewrite P'. rewrite <- seq_shift.
          replace (flat_map (fun j => map (body (d + Z.of_nat j * inc)) (upto n)) (map S (seq 0 m)))
            with (flat_map (fun j => map (body (d + inc + Z.of_nat j * inc)) (upto n)) (seq 0 m)); [reflexivity|].
          rewrite !flat_map_concat_map, map_map. f_equal. apply map_ext. intros j. f_equal. f_equal. lia.
      + intros x t H. apply in_app_or in H. destruct H as [H|H]; [|eauto]. apply calls_threads in H. destruct H as [i H]. eauto.
  Qed.

  Lemma nodup_concat {A B} (f : nat -> list A) (key : A -> B) (g : nat -> B) : (forall a b, g a = g b -> a = b) ->
    (forall j x, In x (f j) -> key x = g j) -> forall l, NoDup l -> (forall j, NoDup (f j)) -> NoDup (flat_map f l).
  Proof.
    intros Hg Hk l Hl Hf. induction Hl as [|j l Hj Hl IH]; cbn; [constructor|].
    assert (Hx : forall x, In x (f j) -> ~ In x (flat_map f l)).
    { intros x H1 H2. apply in_flat_map in H2. destruct H2 as (j' & Hj' & H2). apply Hk in H1, H2. assert (j = j') by (apply Hg; congruence). congruence. }
    specialize (Hf j). revert Hf Hx. generalize (f j). intros q. induction q as [|x q IHq]; intros Hf Hx; cbn; [assumption|].
    inversion Hf; subst. constructor.
    - intros H. apply in_app_or in H. destruct H as [H|H]; [contradiction|]. apply (Hx x); [now left|assumption].
    - apply IHq; [assumption|]. intros y Hy. apply Hx. now right.
  Qed.

  Lemma spp_time_ok np expired c cs c' r : (0 < T)%nat -> spp_time interval T np expired c cs c' (Ok r) ->
    exists m, r = Z.of_nat m /\ (1 <= m)%nat /\ (forall j, (j < m - 1)%nat -> expired j = false) /\ expired (m - 1)%nat = true
      /\ each_pair_once np r (map fst cs) /\ forall x t, In (x, t) cs -> (t < T)%nat.
  Proof.
    intros HT H. destruct (passes_ok _ _ _ _ _ _ _ _ _ _ HT H) as (m & Hm & Er & Hne & Hx & P & Ht).
    exists m. split; [lia|]. split; [assumption|]. split; [intros; apply Hne; lia|]. split; [assumption|]. split; [|assumption].
    eapply each_pair_perm; [exact P|]. split.
    - apply (nodup_concat _ (fun x => snd x) (fun j => 0 + Z.of_nat j * 1)).
      + intros a b. lia.
      + intros j x Hin. apply in_map_iff in Hin. destruct Hin as (i & <- & _). reflexivity.
      + apply seq_NoDup.
      + intros j. apply nodup_map_on; [|apply upto_nodup]. intros a b _ _ [= E]. exact E.
    - intros p s. rewrite in_flat_map. split.
      + intros (j & Hj & Hin). apply in_map_iff in Hin. destruct Hin as (i & [= <- <-] & Hi). apply upto_in in Hi. apply in_seq in Hj. lia.
      + intros [Hp Hs]. exists (Z.to_nat s). split; [apply in_seq; lia|]. apply in_map_iff. exists p. split; [f_equal; lia|]. now apply upto_in.
  Qed.

  Lemma upto_add a b : 0 <= a -> 0 <= b -> upto (a + b) = upto a ++ map (fun i => a + i) (upto b).
  Proof.
    intros Ha Hb. unfold upto. rewrite Z2Nat.inj_add by lia. rewrite seq_app, map_app. f_equal. cbn [Nat.add].
    rewrite map_map. generalize (Z.to_nat b). intros k.
    replace (seq (Z.to_nat a) k) with (map (fun j => (Z.to_nat a + j)%nat) (seq 0 k)).
    - rewrite map_map. apply map_ext. intros j. lia.
    - generalize (Z.to_nat a). intros u. clear. revert u. induction k as [|k IH]; intros u; cbn; [reflexivity|]. f_equal; [lia|].
      rewrite <- (IH (S u)). rewrite <- seq_shift, map_map. apply map_ext. intros j. lia.
  Qed.

  Lemma spi_time_ok n expired c cs c' r : (0 < T)%nat -> 0 <= n -> spi_time interval T n expired c cs c' (Ok r) ->
    exists m, r = Z.of_nat m * n /\ (1 <= m)%nat /\ (forall j, (j < m - 1)%nat -> expired j = false) /\ expired (m - 1)%nat = true
      /\ Permutation (map fst cs) (map (fun i => (0, i)) (upto r)) /\ forall x t, In (x, t) cs -> (t < T)%nat.
  Proof.
    intros HT Hn H. destruct (passes_ok _ _ _ _ _ _ _ _ _ _ HT H) as (m & Hm & Er & Hne & Hx & P & Ht).
    exists m. split; [lia|]. split; [assumption|]. split; [intros; apply Hne; lia|]. split; [assumption|]. split; [|assumption].
    rewrite P. clear - Er Hn. subst r. cbn [Z.add].
    assert (E : flat_map (fun j => map (fun i => (0, Z.of_nat j * n + i)) (upto n)) (seq 0 m) = map (fun i => (0, i)) (upto (Z.of_nat m * n))).
    { induction m as [|m IH]; [reflexivity|]. rewrite seq_S, flat_map_app, IH. cbn [flat_map Nat.add]. rewrite app_nil_r.
      replace (Z.of_nat (S m) * n) with (Z.of_nat m * n + n) by lia. rewrite upto_add by nia. rewrite map_app, map_map. reflexivity. }
    cbn [Z.add] in *. rewrite <- E. reflexivity.
  Qed.

  (** Every run of a time-based scheduler, also one that raises, never repeats a call. *)
  Lemma passes_any n body inc expired k d c cs c' r : passes interval T n body inc expired k d c cs c' r ->
    exists m (f : nat -> list Z), (1 <= m)%nat /\ (forall j, NoDup (f j) /\ forall i, In i (f j) -> 0 <= i < n)
      /\ map fst cs = flat_map (fun j => map (body (d + Z.of_nat j * inc)) (f j)) (seq 0 m).
  Proof.
    induction 1 as [k d c tr c' e Hl|k d c tr c' Hl Hx|k d c tr c' cs c'' r' Hl Hx Hp (m & f & Hm & Hf & E)];
      destruct (loop_any _ _ _ _ _ Hl) as (Nd & Hr & _);
      assert (Hs : NoDup (map fst (started tr)) /\ forall i, In i (map fst (started tr)) -> 0 <= i < n)
        by (split; [assumption|]; intros i Hi; apply in_map_iff in Hi; destruct Hi as ([a b] & <- & Hi); now apply Hr in Hi).
    1, 2: exists 1%nat, (fun _ => map fst (started tr)); (split; [lia|]); (split; [intros _; exact Hs|]);
       cbn [seq flat_map]; rewrite app_nil_r, Z.mul_0_l, Z.add_0_r; apply calls_fst.
    exists (S m), (fun j => match j with O => map fst (started tr) | S j => f j end). split; [lia|]. split; [intros [|j]; auto|].
    rewrite map_app. cbn [seq flat_map]. rewrite Z.mul_0_l, Z.add_0_r, calls_fst. f_equal. rewrite E, <- seq_shift, !flat_map_concat_map, map_map.
    f_equal. apply map_ext. intros j. f_equal. f_equal. lia.
  Qed.
End S.
