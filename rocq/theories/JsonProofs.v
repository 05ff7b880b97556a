From Coq Require Import List String Ascii ZArith NArith Bool Lia Sorting.Sorted Permutation.
From Verif Require Import Base JsonModel JsonSpec.
Import ListNotations.
Open Scope string_scope. Open Scope list_scope.

(** ** String order *)
Lemma compare_refl s : String.compare s s = Eq.
Proof. induction s as [|c s IH]; cbn; [reflexivity|]. unfold Ascii.compare. now rewrite N.compare_refl. Qed.

Lemma compare_trans a b c : String.compare a b = Lt -> String.compare b c = Lt -> String.compare a c = Lt.
Proof.
  revert b c. induction a as [|x a IH]; intros [|y b] [|z c]; cbn; try discriminate; auto.
  unfold Ascii.compare.
  destruct (N.compare_spec (N_of_ascii x) (N_of_ascii y)) as [E1|L1|G1]; try discriminate;
  destruct (N.compare_spec (N_of_ascii y) (N_of_ascii z)) as [E2|L2|G2]; try discriminate; intros H1 H2.
  - rewrite E1, E2, N.compare_refl. eauto.
  - rewrite E1. apply N.compare_lt_iff in L2. now rewrite L2.
  - rewrite <- E2. apply N.compare_lt_iff in L1. now rewrite L1.
  - assert (L := N.lt_trans _ _ _ L1 L2). apply N.compare_lt_iff in L. now rewrite L.
Qed.

Lemma compare_gt a b : String.compare a b = Gt -> String.compare b a = Lt.
Proof. rewrite (String.compare_antisym b a). intros ->. reflexivity. Qed.

(** ** Maps *)
Section M.
  Context {V : Type}.
  Implicit Type m : list (string * V).

  Lemma is_map_cons k (v : V) m : is_map ((k, v) :: m) <-> is_map m /\ forall k' v', In (k', v') m -> String.compare k k' = Lt.
  Proof.
    unfold is_map. split.
    - intros H. inversion H as [|? ? H1 H2]; subst. split; [assumption|]. intros k' v' Hi.
      rewrite Forall_forall in H2. exact (H2 _ Hi).
    - intros [H1 H2]. constructor; [assumption|]. apply Forall_forall. intros [k' v'] Hi. exact (H2 _ _ Hi).
  Qed.

  Lemma mfind_in k v m : is_map m -> mfind k m = Some v <-> In (k, v) m.
  Proof.
    induction m as [|[k' v'] m IH]; cbn; [intros; split; [discriminate|tauto]|].
    rewrite is_map_cons. intros [Hm Hk]. destruct (String.eqb_spec k k') as [->|N0].
    - split; [intros [= ->]; auto|]. intros [[= ->]|Hi]; [reflexivity|].
      specialize (Hk _ _ Hi). rewrite compare_refl in Hk. discriminate.
    - rewrite (IH Hm). split; [auto|]. intros [[= -> ->]|Hi]; [contradiction|assumption].
  Qed.

  Lemma mfind_none k m : mfind k m = None <-> forall v, ~ In (k, v) m.
  Proof.
    induction m as [|[k' v'] m IH]; cbn; [tauto|].
    destruct (String.eqb_spec k k') as [->|N0].
    - split; [discriminate|]. intros H. exfalso. exact (H v' (or_introl eq_refl)).
    - rewrite IH. split; intros H v; [intros [[= -> ->]|Hi]; [contradiction|exact (H _ Hi)]|intros Hi; apply (H v); auto].
  Qed.

  Lemma mset_new k v m : is_map m -> (forall v', ~ In (k, v') m) ->
    is_map (mset k v m) /\ forall k' v', In (k', v') (mset k v m) <-> In (k', v') m \/ (k' = k /\ v' = v).
  Proof.
    induction m as [|[k0 v0] m IH]; intros Hm Hn; cbn [mset].
    - split; [repeat constructor|]. cbn. intros; split; [intros [[= -> ->]|[]]; auto|intros [[]|[-> ->]]; auto].
    - apply is_map_cons in Hm. destruct Hm as [Hm Hk].
      destruct (String.compare k k0) eqn:E.
      + apply String.compare_eq_iff in E. subst k0. exfalso. exact (Hn v0 (or_introl eq_refl)).
      + split.
        * apply is_map_cons. split; [apply is_map_cons; auto|]. intros k' v' [[= <- <-]|Hi]; [assumption|].
          exact (compare_trans _ _ _ E (Hk _ _ Hi)).
        * cbn. intros. split; [intros [[= -> ->]|[[= -> ->]|H]]; auto|intros [[[= -> ->]|H]|[-> ->]]; auto].
      + destruct IH as [I1 I2]; [assumption|intros v' Hi; apply (Hn v'); now right|].
        split.
        * apply is_map_cons. split; [assumption|]. intros k' v' Hi. apply I2 in Hi.
          destruct Hi as [Hi|[-> ->]]; [eauto|now apply compare_gt].
        * cbn. intros k' v'. rewrite I2. tauto.
  Qed.

  Lemma map_ext_eq m m' : is_map m -> is_map m' -> (forall k v, In (k, v) m <-> In (k, v) m') -> m = m'.
  Proof.
    revert m'. induction m as [|[k v] m IH]; intros [|[k' v'] m'] Hm Hm' He.
    - reflexivity.
    - exfalso. destruct (proj2 (He k' v')). now left.
    - exfalso. destruct (proj1 (He k v)). now left.
    - apply is_map_cons in Hm. apply is_map_cons in Hm'. destruct Hm as [Hm Hk], Hm' as [Hm' Hk'].
      assert (E : (k, v) = (k', v')).
      { destruct (proj1 (He k v) (or_introl eq_refl)) as [H|H]; [auto|].
        destruct (proj2 (He k' v') (or_introl eq_refl)) as [H'|H']; [auto|].
        apply Hk' in H. apply Hk in H'. assert (X := compare_trans _ _ _ H H'). rewrite compare_refl in X. discriminate. }
      injection E as <- <-. f_equal. apply IH; auto. intros k1 v1. split; intros Hi.
      + destruct (proj1 (He k1 v1) (or_intror Hi)) as [[= <- <-]|H]; [|assumption].
        apply Hk in Hi. rewrite compare_refl in Hi. discriminate.
      + destruct (proj2 (He k1 v1) (or_intror Hi)) as [[= <- <-]|H]; [|assumption].
        apply Hk' in Hi. rewrite compare_refl in Hi. discriminate.
  Qed.

  Lemma map_fun k v v' m : is_map m -> In (k, v) m -> In (k, v') m -> v = v'.
  Proof. intros Hm H1 H2. apply (mfind_in k _ m Hm) in H1, H2. congruence. Qed.
End M.

(** ** Merge *)
Section J.
  Context {F : Type}.
  Notation J := (json F).

  Lemma merge_loop_spec (l : list (string * J)) : is_map l -> forall m, is_map m ->
    exists m3, merge_loop (JObj m) l = Ok (JObj m3) /\ is_map m3 /\
      forall k v, In (k, v) m3 <-> In (k, v) m \/ (In (k, v) l /\ forall w, ~ In (k, w) m).
  Proof.
    induction l as [|[k0 v0] l IH]; intros Hl m Hm; cbn [merge_loop].
    - exists m. split; [reflexivity|]. split; [assumption|]. intros. cbn. tauto.
    - apply is_map_cons in Hl. destruct Hl as [Hl Hk]. cbn [jfind].
      destruct (mfind k0 m) as [w|] eqn:E.
      + destruct (IH Hl m Hm) as (m3 & E3 & S3 & I3). exists m3. split; [assumption|]. split; [assumption|].
        intros k v. rewrite I3. cbn. apply mfind_in in E; [|assumption].
        split; [intros [H|[H1 H2]]; auto|]. intros [H|[[[= -> ->]|H1] H2]]; auto. exfalso. exact (H2 _ E).
      + rewrite mfind_none in E. cbn [jset obind].
        destruct (mset_new k0 v0 m Hm E) as [Sm Im].
        destruct (IH Hl (mset k0 v0 m) Sm) as (m3 & E3 & S3 & I3). exists m3. split; [assumption|]. split; [assumption|].
        intros k v. rewrite I3, Im. cbn. split.
        * intros [[H|[-> ->]]|[H1 H2]]; auto. right. split; [auto|]. intros w Hw. apply (H2 w). apply Im. auto.
        * intros [H|[[[= -> ->]|H1] H2]]; auto. right. split; [assumption|]. intros w Hw. apply Im in Hw.
          destruct Hw as [Hw|[-> ->]]; [exact (H2 _ Hw)|]. apply Hk in H1. rewrite compare_refl in H1. discriminate.
  Qed.

  Lemma merge_spec b (m1 m2 : list (string * J)) : is_map m1 -> is_map m2 ->
    exists m3, merge b (JObj m1) (JObj m2) = Ok (JObj m3) /\ is_map m3 /\
      forall k v, In (k, v) m3 <-> In (k, v) m1 \/ (In (k, v) m2 /\ forall w, ~ In (k, w) m1).
  Proof.
    intros H1 H2. unfold merge. cbn [is_object andb negb]. rewrite andb_false_r. cbn [jitems]. now apply merge_loop_spec.
  Qed.

  Lemma merge_nil_r b (m : list (string * J)) : merge b (JObj m) (JObj []) = Ok (JObj m).
  Proof. unfold merge. cbn. now rewrite andb_false_r. Qed.

  Lemma merge_nil_l b (m : list (string * J)) : is_map m -> merge b (JObj []) (JObj m) = Ok (JObj m).
  Proof.
    intros Hm. destruct (merge_spec b [] m) as (m3 & E & S3 & I3); [constructor|assumption|]. rewrite E. do 2 f_equal.
    apply map_ext_eq; [assumption|assumption|]. intros k v. rewrite I3. cbn. tauto.
  Qed.

  Lemma merge_assoc b (m1 m2 m3 : list (string * J)) : is_map m1 -> is_map m2 -> is_map m3 ->
    obind (merge b (JObj m1) (JObj m2)) (fun x => merge b x (JObj m3))
    = obind (merge b (JObj m2) (JObj m3)) (fun x => merge b (JObj m1) x).
  Proof.
    intros H1 H2 H3.
    destruct (merge_spec b m1 m2 H1 H2) as (a & Ea & Sa & Ia). destruct (merge_spec b m2 m3 H2 H3) as (c & Ec & Sc & Ic).
    rewrite Ea, Ec. cbn [obind].
    destruct (merge_spec b a m3 Sa H3) as (x & Ex & Sx & Ix). destruct (merge_spec b m1 c H1 Sc) as (y & Ey & Sy & Iy).
    rewrite Ex, Ey. do 2 f_equal. apply map_ext_eq; [assumption|assumption|]. intros k v.
    rewrite Ix, Iy, Ia, Ic. split.
    - intros [[H|[H N]]|[H N]]; [auto|auto|]. right. split.
      + right. split; [assumption|]. intros w Hw. 
        destruct (mfind k m1) as [u|] eqn:E.
        * apply mfind_in in E; [|assumption]. apply (N u). apply Ia. auto.
        * rewrite mfind_none in E. apply (N w). apply Ia. auto.
      + intros w Hw. apply (N w). apply Ia. auto.
    - intros [H|[[H|[H N]] N1]]; auto. right. split; [assumption|]. intros w Hw. apply Ia in Hw.
      destruct Hw as [Hw|[Hw _]]; [exact (N1 _ Hw)|exact (N _ Hw)].
  Qed.

  Lemma merge_asserts (j1 j2 : J) : is_object j1 && is_object j2 = false -> merge true j1 j2 = Throw (ErrUser 134).
  Proof. unfold merge. intros ->. reflexivity. Qed.

  (** ** Conversions *)
  Section C.
    Variable of_Z : Z -> F.
    Variable trunc : F -> option Z.
    Notation conv := (conv of_Z trunc).
    Notation denotes := (denotes of_Z trunc).

    Lemma to_float_iff j x : to_float of_Z j = Ok x <-> float_of of_Z j x.
    Proof.
      split.
      - destruct j; cbn; intros H; try discriminate; injection H as <-; constructor.
      - intros []; reflexivity.
    Qed.

    Lemma omap_ok {A B} (f : A -> outcome B) l r : omap f l = Ok r <-> Forall2 (fun x y => f x = Ok y) l r.
    Proof.
      revert r. induction l as [|x l IH]; intros r; cbn.
      - split; [intros [= <-]; constructor|intros H; inversion H; reflexivity].
      - split.
        + destruct (f x) as [y| | |] eqn:E; try discriminate. cbn. destruct (omap f l) as [ys| | |] eqn:El; try discriminate.
          cbn. intros [= <-]. constructor; [assumption|]. now apply IH.
        + intros H. inversion H as [|? y ? ys H1 H2]; subst. apply IH in H2. rewrite H1. cbn. rewrite H2. reflexivity.
    Qed.

    Lemma Forall2_imp {A B} (P Q : A -> B -> Prop) l r : (forall x y, P x y -> Q x y) -> Forall2 P l r -> Forall2 Q l r.
    Proof. intros H. induction 1; constructor; auto. Qed.

    (** Reading the whole of an array by index is reading its elements. *)
    Lemma seq_read {B} (f : J -> outcome B) (l : list J) : forall pre suf,
      omap (fun i => obind (jat (pre ++ l ++ suf) i) f) (seq (List.length pre) (List.length l)) = omap f l.
    Proof.
      induction l as [|x l IH]; intros pre suf; cbn [List.length seq omap]; [reflexivity|].
      unfold jat at 1. rewrite nth_error_app2 by auto. rewrite Nat.sub_diag. cbn [nth_error obind app].
      replace (pre ++ x :: l ++ suf) with ((pre ++ [x]) ++ l ++ suf) by (rewrite <- !app_assoc; reflexivity).
      replace (S (List.length pre)) with (List.length (pre ++ [x])) by (rewrite app_length; cbn; lia).
      now rewrite IH.
    Qed.

    Lemma seq_read0 {B} (f : J -> outcome B) (l : list J) : omap (fun i => obind (jat l i) f) (seq 0 (List.length l)) = omap f l.
    Proof. rewrite <- (seq_read f l [] []). cbn. rewrite app_nil_r. reflexivity. Qed.

    Lemma omap_seq_shift {B} (f : nat -> outcome B) s k n : omap f (seq (k + s) n) = omap (fun i => f (k + i)%nat) (seq s n).
    Proof.
      revert s. induction n as [|n IH]; intros s; cbn [seq omap]; [reflexivity|].
      replace (S (k + s)) with (k + S s)%nat by lia. now rewrite IH.
    Qed.

    Lemma omap_ext {A B} (f g : A -> outcome B) l : (forall x, f x = g x) -> omap f l = omap g l.
    Proof. intros H. induction l as [|x l IH]; cbn; [reflexivity|]. now rewrite H, IH. Qed.

    (** Reading a row of the array starting at [k]. *)
    Lemma row_read {B} (f : J -> outcome B) (pre l suf : list J) k r : List.length pre = k -> List.length l = r ->
      omap (fun i => obind (jat (pre ++ l ++ suf) (k + i)) f) (seq 0 r) = omap f l.
    Proof. intros <- <-. rewrite <- (seq_read f l pre suf). rewrite <- (omap_seq_shift (fun i => obind (jat (pre ++ l ++ suf) i) f) 0 (List.length pre)). now rewrite Nat.add_0_r. Qed.

    Fixpoint chunks {A} (c r : nat) (l : list A) : list (list A) :=
      match c with O => [] | S c' => firstn r l :: chunks c' r (skipn r l) end.

    Lemma concat_chunks {A} c r (l : list A) : List.length l = (c * r)%nat -> List.concat (chunks c r l) = l.
    Proof.
      revert l. induction c as [|c IH]; intros l H; cbn in *; [destruct l; [reflexivity|discriminate]|].
      rewrite IH; [apply firstn_skipn|]. rewrite skipn_length. lia.
    Qed.
    Lemma chunks_lengths {A} c r (l : list A) : List.length l = (c * r)%nat -> Forall (fun x => List.length x = r) (chunks c r l).
    Proof.
      revert l. induction c as [|c IH]; intros l H; cbn in *; constructor.
      - rewrite firstn_length. lia.
      - apply IH. rewrite skipn_length. lia.
    Qed.
    Lemma chunks_len {A} c r (l : list A) : List.length (chunks c r l) = c.
    Proof. revert l. induction c; intros; cbn; auto. Qed.

    Lemma mat_read {B} (f : J -> outcome B) c r (l : list J) : forall pre n, List.length pre = (n * r)%nat -> List.length l = (c * r)%nat ->
      omap (fun i => omap (fun k => obind (jat (pre ++ l) (i * r + k)) f) (seq 0 r)) (seq n c)
      = omap (omap f) (chunks c r l).
    Proof.
      revert l. induction c as [|c IH]; intros l pre n Hp Hl; cbn [seq omap chunks]; [reflexivity|].
      assert (R := row_read f pre (firstn r l) (skipn r l) (n * r) r Hp ltac:(rewrite firstn_length; cbn in Hl; lia)).
      rewrite firstn_skipn in R. rewrite R.
      destruct (omap f (firstn r l)) as [y| | |]; cbn [obind]; try reflexivity.
      rewrite <- (IH (skipn r l) (pre ++ firstn r l) (S n)).
      - rewrite <- app_assoc, firstn_skipn. reflexivity.
      - rewrite app_length, firstn_length. cbn in *. lia.
      - rewrite skipn_length. cbn in Hl. lia.
    Qed.

    Lemma mat_read0 {B} (f : J -> outcome B) c r (l : list J) : List.length l = (c * r)%nat ->
      omap (fun i => omap (fun k => obind (jat l (i * r + k)) f) (seq 0 r)) (seq 0 c) = omap (omap f) (chunks c r l).
    Proof. intros H. exact (mat_read f c r l [] 0 eq_refl H). Qed.

    Lemma wrap32_iff z v : wrap32 z = v <-> (- 2 ^ 31 <= v < 2 ^ 31)%Z /\ exists k, (z = v + k * 2 ^ 32)%Z.
    Proof.
      unfold wrap32. assert (H := Z.mod_pos_bound (z + 2 ^ 31) (2 ^ 32) ltac:(lia)). split.
      - intros <-. split; [lia|]. exists ((z + 2 ^ 31) / 2 ^ 32)%Z. assert (E := Z.div_mod (z + 2 ^ 31) (2 ^ 32) ltac:(lia)). lia.
      - intros [Hv [k ->]]. replace (v + k * 2 ^ 32 + 2 ^ 31)%Z with (v + 2 ^ 31 + k * 2 ^ 32)%Z by lia.
        rewrite Z_mod_plus_full, Z.mod_small by lia. lia.
    Qed.

    Lemma Forall2_concat {A B} (P : A -> B -> Prop) ll rr : Forall2 (Forall2 P) ll rr -> Forall2 P (List.concat ll) (List.concat rr).
    Proof. induction 1; cbn; [constructor|]. now apply Forall2_app. Qed.

    Lemma Forall2_len {A B} (P : A -> B -> Prop) l r : Forall2 P l r -> List.length l = List.length r.
    Proof. induction 1; cbn; auto. Qed.

    Lemma concat_len {A} c r (v : list (list A)) : List.length v = c -> Forall (fun x => List.length x = r) v -> List.length (List.concat v) = (c * r)%nat.
    Proof. intros <- H. induction H as [|x v Hx Hv IH]; cbn; [reflexivity|]. rewrite app_length, IH, Hx. reflexivity. Qed.

    Lemma chunks_concat {A} r (v : list (list A)) : Forall (fun x => List.length x = r) v -> chunks (List.length v) r (List.concat v) = v.
    Proof.
      induction 1 as [|x v Hx Hv IH]; cbn; [reflexivity|]. subst r.
      rewrite firstn_app, Nat.sub_diag, firstn_all. cbn. rewrite app_nil_r.
      rewrite skipn_app, Nat.sub_diag, skipn_all. cbn. now rewrite IH.
    Qed.

    Lemma chunks_Forall2 {A B} (P : A -> B -> Prop) c r l m : Forall2 P l m -> Forall2 (Forall2 P) (chunks c r l) (chunks c r m).
    Proof.
      revert l m. induction c as [|c IH]; intros l m H; cbn; constructor.
      - revert l m H. clear IH. induction r as [|r IHr]; intros l m H; cbn; [constructor|].
        destruct H; constructor; auto.
      - apply IH. clear IH. revert l m H. induction r as [|r IHr]; intros l m H; cbn; [assumption|].
        destruct H; [constructor|]. now apply IHr.
    Qed.

    Lemma conv_iff t : forall j v, conv t j = Ok v <-> denotes t j v.
    Proof.
      induction t as [| | | |n|c r|t IH|]; intros j v; cbn [JsonModel.conv JsonSpec.denotes].
      - destruct j; split; intros H; try discriminate; injection H as <-; reflexivity.
      - split.
        + destruct j as [|[]|z|x|s|l|m]; intros H; try discriminate.
          * injection H as <-. tauto.
          * injection H as <-. tauto.
          * injection H as H. left. exists z. split; [reflexivity|]. now apply wrap32_iff.
          * destruct (trunc x) as [z|] eqn:E; [|discriminate]. injection H as <-. right; left. eauto.
        + intros [(z & -> & H)|[(x & -> & H)|[[-> ->]|[-> ->]]]]; [|rewrite H; reflexivity|reflexivity|reflexivity].
          apply wrap32_iff in H. exact (f_equal Ok H).
      - apply to_float_iff.
      - destruct j; split; intros H; try discriminate; injection H as <-; reflexivity.
      - unfold vec_from. split.
        + destruct j as [| | | | |l|]; try discriminate. destruct (Nat.eqb_spec (List.length l) n) as [E|]; [|discriminate]. subst n.
          rewrite seq_read0. intros H. exists l. split; [reflexivity|]. split; [reflexivity|].
          apply omap_ok in H. revert H. apply Forall2_imp. intros; now apply to_float_iff.
        + intros (l & -> & <- & H). rewrite Nat.eqb_refl, seq_read0. apply omap_ok. revert H. apply Forall2_imp. intros; now apply to_float_iff.
      - unfold mat_from. split.
        + destruct j as [| | | | |l|]; try discriminate. destruct (Nat.eqb_spec (List.length l) (c * r)) as [E|]; [|discriminate].
          rewrite (mat_read0 _ _ _ _ E). intros H. apply omap_ok in H. exists l. split; [reflexivity|].
          assert (H' : Forall2 (Forall2 (float_of of_Z)) (chunks c r l) v).
          { revert H. apply Forall2_imp. intros x y H. apply omap_ok in H. revert H. apply Forall2_imp. intros; now apply to_float_iff. }
          split; [rewrite <- (Forall2_len _ _ _ H), chunks_len; reflexivity|]. split.
          * assert (L := chunks_lengths c r l E). clear -H' L. induction H' as [|x y lx ly Hxy HH IH]; constructor.
            { inversion L; subst. symmetry. exact (Forall2_len _ _ _ Hxy). }
            { apply IH. now inversion L. }
          * rewrite <- (concat_chunks c r l E) at 1. now apply Forall2_concat.
        + intros (l & -> & Hc & Hr & H).
          assert (E : List.length l = (c * r)%nat) by (rewrite (Forall2_len _ _ _ H); now apply concat_len).
          rewrite E, Nat.eqb_refl, (mat_read0 _ _ _ _ E). apply omap_ok.
          rewrite <- (chunks_concat r v Hr), Hc.
          assert (H' := chunks_Forall2 _ c r _ _ H). revert H'. apply Forall2_imp. intros x y Hxy. apply omap_ok.
          revert Hxy. apply Forall2_imp. intros; now apply to_float_iff.
      - split.
        + destruct j as [| | | | |l|]; try discriminate. intros H. exists l. split; [reflexivity|].
          apply omap_ok in H. revert H. apply Forall2_imp. intros; now apply IH.
        + intros (l & -> & H). apply omap_ok. revert H. apply Forall2_imp. intros; now apply IH.
      - split; [intros [= <-]; reflexivity|intros <-; reflexivity].
    Qed.

    Lemma jfind_has (j : J) name x : proper j -> jfind name j = Some x <-> has j name x.
    Proof.
      intros Hp. destruct j; cbn; try (split; [discriminate|intros (m & H & _); discriminate]).
      rewrite mfind_in by (apply Hp; reflexivity). split; [intros H; exists m; auto|]. intros (m' & [= <-] & H). exact H.
    Qed.
    Lemma jfind_lacks (j : J) name : jfind name j = None <-> lacks j name.
    Proof.
      unfold lacks, has. destruct j; cbn; try (split; [intros _ y (m & H & _); discriminate|auto]).
      rewrite mfind_none. split; [intros H x (m' & [= <-] & Hi); exact (H _ Hi)|intros H v Hi; apply (H v); eauto].
    Qed.

    Lemma jvalue_iff t (j : J) name v : proper j ->
      jvalue of_Z trunc t j name = Ok v <-> exists x, has j name x /\ denotes t x v.
    Proof.
      intros Hp. unfold jvalue. split.
      - destruct (jfind name j) as [x|] eqn:E; [|discriminate]. apply jfind_has in E; [|assumption]. intros H. exists x.
        split; [assumption|]. now apply conv_iff.
      - intros (x & Hx & Hd). apply jfind_has in Hx; [|assumption]. rewrite Hx. now apply conv_iff.
    Qed.

    (** Only a floating-point number outside the int range, read as an int, is undefined. *)
    Fixpoint int_free (t : cty) : Prop := match t with CI32 => False | CList t => int_free t | _ => True end.

    Definition raises {A} (m : outcome A) : Prop := m = Throw ErrInvalidArgument \/ m = Throw ErrJsonType.

    Lemma to_float_total (j : J) : (exists x, to_float of_Z j = Ok x) \/ to_float of_Z j = Throw ErrJsonType.
    Proof. destruct j; cbn; eauto. Qed.

    Lemma omap_total {A B} (f : A -> outcome B) l : (forall x, In x l -> (exists y, f x = Ok y) \/ raises (f x)) ->
      (exists ys, omap f l = Ok ys) \/ raises (omap f l).
    Proof.
      induction l as [|x l IH]; intros H; cbn; [eauto|].
      destruct (H x (or_introl eq_refl)) as [(y & ->)|[-> | ->]]; cbn; [|right; now left|right; now right].
      destruct IH as [(ys & ->)|[-> | ->]]; cbn; [intros; apply H; now right|eauto|right; now left|right; now right].
    Qed.

    Lemma conv_total t : int_free t -> forall j, (exists v, conv t j = Ok v) \/ raises (conv t j).
    Proof.
      unfold raises.
      induction t as [| | | |n|c r|t IH|]; intros Hi j; cbn [JsonModel.conv]; try contradiction.
      - destruct j; eauto.
      - destruct (to_float_total j) as [[x ->]| ->]; eauto.
      - destruct j; eauto.
      - unfold vec_from. destruct j; eauto. destruct (Nat.eqb_spec (List.length l) n); eauto. subst n. rewrite seq_read0.
        apply omap_total. intros x _. destruct (to_float_total x) as [[y ->]| ->]; unfold raises; eauto.
      - unfold mat_from. destruct j; eauto. destruct (Nat.eqb_spec (List.length l) (c * r)); eauto. rewrite mat_read0 by assumption.
        apply omap_total. intros x _. apply omap_total. intros y _. destruct (to_float_total y) as [[z ->]| ->]; unfold raises; eauto.
      - destruct j; eauto. apply omap_total. intros x _. apply (IH Hi x).
      - eauto.
    Qed.

    Lemma jvalue_missing t (j : J) name : lacks j name -> jvalue of_Z trunc t j name = Throw ErrInvalidArgument.
    Proof. intros H. apply jfind_lacks in H. unfold jvalue. now rewrite H. Qed.

    Lemma jvalue_unconvertible t (j : J) name x : proper j -> int_free t -> has j name x -> (forall v, ~ denotes t x v) ->
      raises (jvalue of_Z trunc t j name).
    Proof.
      intros Hp Hi Hx Hd. apply jfind_has in Hx; [|assumption]. unfold jvalue. rewrite Hx.
      destruct (conv_total t Hi x) as [[v Hv]|H]; [|assumption]. apply conv_iff in Hv. exfalso. exact (Hd _ Hv).
    Qed.

    Lemma jvalue_def_iff t (j : J) name d v : proper j ->
      jvalue_def of_Z trunc t j name d = Ok v <-> (lacks j name /\ v = d) \/ (exists x, has j name x /\ denotes t x v).
    Proof.
      intros Hp. unfold jvalue_def. destruct (jfind name j) as [x|] eqn:E.
      - assert (Hx := E). apply jfind_has in Hx; [|assumption]. rewrite conv_iff. split.
        + intros H. right. eauto.
        + intros [[H _]|(y & Hy & Hd)]; [exfalso; exact (H _ Hx)|].
          apply jfind_has in Hy; [|assumption]. congruence.
      - apply jfind_lacks in E. split; [intros [= <-]; auto|]. intros [[_ ->]|(y & Hy & _)]; [reflexivity|]. exfalso. exact (E _ Hy).
    Qed.

    Lemma jvalue_opt_iff t (j : J) name v : proper j ->
      jvalue_opt of_Z trunc t j name = Ok v <->
      (lacks j name /\ v = None) \/ (exists x w, has j name x /\ denotes t x w /\ v = Some w).
    Proof.
      intros Hp. unfold jvalue_opt. destruct (jfind name j) as [x|] eqn:E.
      - assert (Hx := E). apply jfind_has in Hx; [|assumption]. split.
        + destruct (conv t x) as [w| | |] eqn:Ec; try discriminate. cbn. intros [= <-]. right. exists x, w.
          split; [assumption|]. split; [now apply conv_iff|reflexivity].
        + intros [[H _]|(y & w & Hy & Hd & ->)]; [exfalso; exact (H _ Hx)|].
          apply jfind_has in Hy; [|assumption]. assert (y = x) by congruence. subst y. apply conv_iff in Hd. rewrite Hd. reflexivity.
      - apply jfind_lacks in E. split; [intros [= <-]; auto|]. intros [[_ ->]|(y & w & Hy & _)]; [reflexivity|]. exfalso. exact (E _ Hy).
    Qed.

    (** ** Writing *)
    Lemma aput_app {A} (pre : list A) y suf x : aput (pre ++ y :: suf) (List.length pre) x = Ok (pre ++ x :: suf).
    Proof. induction pre as [|p pre IH]; cbn; [reflexivity|]. rewrite IH. reflexivity. Qed.

    Lemma aputs_seq {A} (g : nat -> A) n : forall s pre suf, List.length suf = n ->
      aputs (pre ++ suf) (map (fun i => ((List.length pre + (i - s))%nat, g i)) (seq s n)) = Ok (pre ++ map g (seq s n)).
    Proof.
      induction n as [|n IH]; intros s pre suf Hs; cbn [seq map aputs].
      - destruct suf; [reflexivity|discriminate].
      - destruct suf as [|y suf]; [discriminate|]. replace (List.length pre + (s - s))%nat with (List.length pre) by lia.
        rewrite aput_app. cbn [obind]. cbn in Hs.
        replace (pre ++ g s :: suf) with ((pre ++ [g s]) ++ suf) by (rewrite <- app_assoc; reflexivity).
        replace (pre ++ g s :: map g (seq (S s) n)) with ((pre ++ [g s]) ++ map g (seq (S s) n)) by (rewrite <- app_assoc; reflexivity).
        rewrite <- (IH (S s) (pre ++ [g s]) suf) by lia. f_equal.
        apply map_ext_in. intros i Hi. apply in_seq in Hi. rewrite app_length. cbn [List.length]. f_equal. lia.
    Qed.

    Lemma aputs_app {A} (l : list A) w1 w2 : aputs l (w1 ++ w2) = obind (aputs l w1) (fun l' => aputs l' w2).
    Proof.
      revert l. induction w1 as [|[i x] w1 IH]; intros l; cbn; [reflexivity|].
      destruct (aput l i x); cbn; auto.
    Qed.

    (** The entry order of the array: column by column. *)
    Definition columns {A} (c r : nat) (v : nat -> nat -> A) : list (list A) := map (fun i => map (v i) (seq 0 r)) (seq 0 c).

    Lemma aputs_mat {A} (v : nat -> nat -> A) r c : forall s pre suf, List.length pre = (s * r)%nat -> List.length suf = (c * r)%nat ->
      aputs (pre ++ suf) (flat_map (fun i => map (fun k => ((i * r + k)%nat, v i k)) (seq 0 r)) (seq s c))
      = Ok (pre ++ List.concat (map (fun i => map (v i) (seq 0 r)) (seq s c))).
    Proof.
      induction c as [|c IH]; intros s pre suf Hp Hs; cbn [seq flat_map aputs map concat].
      - destruct suf; [now rewrite !app_nil_r|discriminate].
      - rewrite aputs_app. rewrite <- (firstn_skipn r suf) at 1. rewrite app_assoc.
        assert (E : aputs (pre ++ firstn r suf ++ skipn r suf) (map (fun k => ((s * r + k)%nat, v s k)) (seq 0 r))
                    = Ok ((pre ++ map (v s) (seq 0 r)) ++ skipn r suf)).
        { (* write the row, leave the rest *)
          assert (G : forall n t q x y, List.length x = n ->
            aputs (q ++ x ++ y) (map (fun k => ((List.length q + (k - t))%nat, v s k)) (seq t n)) = Ok (q ++ map (v s) (seq t n) ++ y)).
          { clear. induction n as [|n IH]; intros t q x y Hx; cbn [seq map aputs].
            - destruct x; [reflexivity|discriminate].
            - destruct x as [|a x]; [discriminate|]. replace (List.length q + (t - t))%nat with (List.length q) by lia.
              cbn [app]. rewrite aput_app. cbn [obind]. cbn in Hx.
              replace (q ++ v s t :: x ++ y) with ((q ++ [v s t]) ++ x ++ y) by (rewrite <- app_assoc; reflexivity).
              replace (q ++ v s t :: map (v s) (seq (S t) n) ++ y) with ((q ++ [v s t]) ++ map (v s) (seq (S t) n) ++ y) by (rewrite <- app_assoc; reflexivity).
              rewrite <- (IH (S t) (q ++ [v s t]) x y) by lia. f_equal.
              apply map_ext_in. intros i Hi. apply in_seq in Hi. rewrite app_length. cbn [List.length]. f_equal. lia. }
          rewrite <- app_assoc. rewrite <- (G r 0%nat pre (firstn r suf) (skipn r suf)) by (rewrite firstn_length; cbn in Hs; lia).
          f_equal. apply map_ext_in. intros i Hi. rewrite Nat.sub_0_r, Hp. reflexivity. }
        rewrite <- app_assoc, E. cbn [obind].
        rewrite (IH (S s)).
        + now rewrite <- app_assoc.
        + rewrite app_length, map_length, seq_length. cbn. lia.
        + rewrite skipn_length. cbn in Hs. lia.
    Qed.

    Lemma vec_to_eq n (junk : F) v : vec_to n junk v = Ok (JArr (map JFloat (map v (seq 0 n)))).
    Proof.
      unfold vec_to. assert (H := aputs_seq v n 0%nat [] (repeat junk n) (repeat_length _ _)). cbn [app List.length] in H.
      rewrite (map_ext _ (fun i => (i, v i))) in H; [rewrite H; reflexivity|]. intros i. now rewrite Nat.sub_0_r.
    Qed.

    Lemma mat_to_eq c r (junk : F) v : mat_to c r junk v = Ok (JArr (map JFloat (List.concat (columns c r v)))).
    Proof.
      unfold mat_to, columns. assert (H := aputs_mat v r c 0%nat [] (repeat junk (c * r)) eq_refl (repeat_length _ _)). cbn [app] in H.
      rewrite H. reflexivity.
    Qed.

    Lemma Forall2_map_float l : Forall2 (float_of of_Z) (map JFloat l) l.
    Proof. induction l; constructor; auto. constructor. Qed.

    Lemma vec_round_trip n (junk : F) v : obind (vec_to n junk v) (conv (CVec n)) = Ok (map v (seq 0 n)).
    Proof.
      rewrite vec_to_eq. cbn [obind]. apply conv_iff. exists (map JFloat (map v (seq 0 n))).
      split; [reflexivity|]. split; [now rewrite !map_length, seq_length|]. apply Forall2_map_float.
    Qed.

    Lemma mat_round_trip c r (junk : F) v : obind (mat_to c r junk v) (conv (CMat c r)) = Ok (columns c r v).
    Proof.
      rewrite mat_to_eq. cbn [obind]. apply conv_iff. exists (map JFloat (List.concat (columns c r v))).
      split; [reflexivity|]. unfold columns. split; [now rewrite map_length, seq_length|]. split; [|apply Forall2_map_float].
      apply Forall_forall. intros x Hx. apply in_map_iff in Hx. destruct Hx as (i & <- & _). now rewrite map_length, seq_length.
    Qed.

    Lemma vec_wrong_length n l : List.length l <> n -> conv (CVec n) (JArr l) = Throw ErrInvalidArgument.
    Proof. intros H. cbn. now apply Nat.eqb_neq in H as ->. Qed.
    Lemma mat_wrong_length c r l : List.length l <> (c * r)%nat -> conv (CMat c r) (JArr l) = Throw ErrInvalidArgument.
    Proof. intros H. cbn. now apply Nat.eqb_neq in H as ->. Qed.
  End C.

  (** ** Component references *)
  Section R.
    Context {C : Type}.
    Variable get : string -> outcome (option C).

    Lemma comp_ref_iff (j : J) name c : proper j ->
      comp_ref C get j name = Ok c <-> exists ref, has j name (JStr ref) /\ get ref = Ok (Some c).
    Proof.
      intros Hp. unfold comp_ref. split.
      - destruct (jfind name j) as [[| | | |ref| |]|] eqn:E; try discriminate.
        apply jfind_has in E; [|assumption]. destruct (get ref) as [[c'|]| | |] eqn:Eg; try discriminate. cbn. intros [= <-]. eauto.
      - intros (ref & Hr & Hg). apply jfind_has in Hr; [|assumption]. rewrite Hr, Hg. reflexivity.
    Qed.

    Lemma comp_ref_fails (j : J) name : (forall ref, exists r, get ref = Ok r) -> 
      (exists c, comp_ref C get j name = Ok c) \/ comp_ref C get j name = Throw ErrInvalidArgument.
    Proof.
      intros Hg. unfold comp_ref. destruct (jfind name j) as [[| | | |ref| |]|]; auto.
      destruct (Hg ref) as [[c|] ->]; cbn; eauto.
    Qed.

    Lemma comp_ref_or_null_iff (j : J) name r : proper j ->
      comp_ref_or_nullptr C get j name = Ok r <->
      (exists ref, has j name (JStr ref) /\ ref <> "" /\ get ref = Ok r) \/ ((forall ref, has j name (JStr ref) -> ref = "") /\ r = None).
    Proof.
      intros Hp. unfold comp_ref_or_nullptr. destruct (jfind name j) as [x|] eqn:E.
      - assert (Hx := E). apply jfind_has in Hx; [|assumption].
        assert (U : forall y, has j name y -> y = x).
        { intros y Hy. apply jfind_has in Hy; [|assumption]. congruence. }
        destruct x as [| | | |ref| |]; try (split; [intros [= <-]; right; split; [intros ref Hr; apply U in Hr; discriminate|reflexivity]
          |intros [(ref & Hr & _)|[_ ->]]; [apply U in Hr; discriminate|reflexivity]]).
        destruct (String.eqb_spec ref "") as [->|Hn].
        + split; [intros [= <-]; right; split; [intros ref Hr; apply U in Hr; now injection Hr|reflexivity]|].
          intros [(ref & Hr & Hg & _)|[_ ->]]; [|reflexivity]. apply U in Hr. injection Hr as ->. now elim Hg.
        + split; [intros Hg; left; eauto|]. intros [(ref' & Hr & _ & Hg)|[H _]]; [|exfalso; exact (Hn (H _ Hx))].
          apply U in Hr. injection Hr as ->. exact Hg.
      - apply jfind_lacks in E. split; [intros [= <-]; right; split; [intros ref Hr; elim (E _ Hr)|reflexivity]|].
        intros [(ref & Hr & _)|[_ ->]]; [exfalso; exact (E _ Hr)|reflexivity].
    Qed.
  End R.

  (** ** Pointers *)
  Lemma hex_val_digit d : (d < 16)%N -> hex_val (hex_digit d) = Some d.
  Proof.
    intros H. assert (G : forall n, (n < 16)%nat -> hex_val (hex_digit (N.of_nat n)) = Some (N.of_nat n)).
    { intros n Hn. do 16 (destruct n as [|n]; [reflexivity|]). lia. }
    specialize (G (N.to_nat d)). rewrite N2Nat.id in G. apply G. lia.
  Qed.

  (** The digits written for [n] before [acc], read from accumulator 0. *)
  Lemma hex_read_go k : forall n acc, (n < 16 ^ N.of_nat (S k))%N -> hex_read (hex_go (S k) n acc) 0 = hex_read acc n.
  Proof.
    assert (Hstep : forall k n acc, hex_go (S k) n acc = (let acc' := String (hex_digit (n mod 16)) acc in
             if (n <? 16)%N then acc' else hex_go k (n / 16)%N acc')) by reflexivity.
    induction k as [|k IH]; intros n acc Hn; rewrite Hstep; cbv zeta.
    - replace (16 ^ N.of_nat 1)%N with 16%N in Hn by reflexivity. apply N.ltb_lt in Hn as Hn'. rewrite Hn'.
      cbn [hex_read]. rewrite hex_val_digit by (apply N.mod_upper_bound; lia). rewrite N.mod_small by assumption.
      reflexivity.
    - destruct (N.ltb_spec n 16) as [Hs|Hb].
      + cbn [hex_read]. rewrite hex_val_digit by (apply N.mod_upper_bound; lia). rewrite N.mod_small by assumption. reflexivity.
      + rewrite IH.
        * cbn [hex_read]. rewrite hex_val_digit by (apply N.mod_upper_bound; lia). f_equal.
          rewrite N.mul_comm. rewrite N.mul_comm. symmetry. apply N.div_mod. lia.
        * apply N.div_lt_upper_bound; [lia|]. rewrite (Nat2N.inj_succ (S k)), N.pow_succ_r' in Hn. exact Hn.
  Qed.

  Lemma ptr_round_trip p : (p < 2 ^ 64)%N -> obind (Ok (@ptr_to F p)) ptr_from = Ok p.
  Proof.
    intros Hp. unfold ptr_to. cbn [obind]. destruct (N.eqb_spec p 0) as [->|Hn]; [reflexivity|].
    change ("0x" ++ hex_go 16 p "")%string with (String "0" (String "x" (hex_go 16 p ""))). cbn [ptr_from].
    rewrite hex_read_go; [reflexivity|]. exact Hp.
  Qed.
End J.
