From Coq Require Import List ZArith Bool Lia Permutation Sorting.Sorted.
From Verif Require Import Base ParModel ParSpec.
Import ListNotations.
Open Scope Z_scope.

Lemma upd_same {A} f t (x : A) : upd f t x t = x.
Proof. unfold upd. now rewrite Nat.eqb_refl. Qed.
Lemma upd_other {A} f t (x : A) t' : t' <> t -> upd f t x t' = f t'.
Proof. unfold upd. intros H. apply Nat.eqb_neq in H. now rewrite H. Qed.

Lemma started_app a b : started (a ++ b) = started a ++ started b.
Proof. induction a as [|[] a IH]; cbn; rewrite ?IH; reflexivity. Qed.
Lemma completed_app a b : completed (a ++ b) = completed a ++ completed b.
Proof. induction a as [|[] a IH]; cbn; rewrite ?IH; reflexivity. Qed.
Lemma thrown_app a b : thrown (a ++ b) = thrown a ++ thrown b.
Proof. induction a as [|[] a IH]; cbn; rewrite ?IH; reflexivity. Qed.
Lemma reported_app a b : reported (a ++ b) = reported a ++ reported b.
Proof. induction a as [|[] a IH]; cbn; rewrite ?IH; reflexivity. Qed.

Section P.
  Variables n interval : Z.
  Variable T : nat.
  Variable c0 : nat -> Z.
  Notation step := (step n interval).
  Notation reach := (reach n interval T c0).

  Definition holds_lock (p : pc) : bool := match p with Hold _ | Held | Release => true | _ => false end.
  (** [t] has an exception that is not yet stored. *)
  Definition pending (p : pc) : bool := match p with Catch _ | Hold _ => true | _ => false end.

  Record inv (s : state) : Prop := {
    i_next : 0 <= next s;
    i_next_n : next s <= Z.max 0 n;
    i_nodup : NoDup (map fst (started (trace s)));
    i_range : forall i t, In (i, t) (started (trace s)) -> 0 <= i < next s /\ (t < T)%nat;
    i_check : forall t i, pcs s t = Check i -> 0 <= i < next s /\ ~ In i (map fst (started (trace s)));
    i_check2 : forall t t' i, pcs s t = Check i -> pcs s t' = Check i -> t = t';
    i_cover : forall j, 0 <= j < next s -> In j (map fst (started (trace s))) \/ (exists t, (t < T)%nat /\ pcs s t = Check j) \/ done s = true;
    i_exited : forall t, pcs s t = Exited -> n <= next s;
    i_end : forall i t, In (i, t) (started (trace s)) -> In (i, t) (completed (trace s)) \/ pcs s t = Run i \/ exists e, In (EThrow i t e) (trace s);
    i_run : forall i t, pcs s t = Run i -> In (i, t) (started (trace s));
    i_done_of : forall i t, In (i, t) (completed (trace s)) -> In (i, t) (started (trace s));
    i_done : done s = true -> exp s <> None;
    i_exp : forall e, exp s = Some e -> In e (thrown (trace s));
    i_held : forall t, pcs s t = Held -> exp s <> None;
    i_pend : forall t e, pcs s t = Catch e \/ pcs s t = Hold e -> In e (thrown (trace s));
    i_thrown : thrown (trace s) <> [] -> exp s <> None \/ exists t, (t < T)%nat /\ pending (pcs s t) = true;
    i_lock : forall t, lock s = Some t -> (t < T)%nat /\ holds_lock (pcs s t) = true;
    i_out : forall t, (T <= t)%nat -> pcs s t = Idle }.

  Lemma inv_init : inv (init c0).
  Proof.
    constructor; cbn; intros; try discriminate; try contradiction; try lia; try solve [constructor]; try solve [destruct H; discriminate]; auto.
  Qed.

  Ltac simp := cbn [goto emit next done exp lock processed count pcs trace] in *.
  Ltac upd_cases t t' := destruct (Nat.eq_dec t' t) as [->|?]; [rewrite upd_same in *|rewrite upd_other in * by assumption].

  Lemma thrown_in i t e l : In (EThrow i t e) l -> In e (thrown l).
  Proof. induction l as [|x l IH]; cbn; [contradiction|]. intros [->|H]; [now left|]. destruct x; cbn; auto. Qed.

  (** Steps that only move the program counter between points that are not mentioned by the invariant. *)
  Lemma inv_goto s t p : inv s -> (t < T)%nat ->
    (forall i, p <> Check i) -> (forall i, p <> Run i) -> p <> Exited -> p <> Held -> (forall e, p <> Catch e) -> (forall e, p <> Hold e) ->
    holds_lock (pcs s t) = false ->
    (forall i, pcs s t <> Run i) -> (forall i, pcs s t = Check i -> done s = true) -> pending (pcs s t) = false ->
    inv (goto s t p).
  Proof.
    intros I Ht P1 P2 P3 P4 P5 P6 Q1 Q2 Q3 Q4. destruct I. constructor; simp; auto.
    - intros t' i H. upd_cases t t'; [now apply P1 in H|eauto].
    - intros t1 t2 i H1 H2. upd_cases t t1; [now apply P1 in H1|]. upd_cases t t2; [now apply P1 in H2|eauto].
    - intros j Hj. destruct (i_cover0 j Hj) as [H|[(t' & Ht' & H)|H]]; auto. destruct (Nat.eq_dec t' t) as [->|Hne]; [right; right; eauto|].
      right; left. exists t'. rewrite upd_other by assumption. auto.
    - intros t' H. upd_cases t t'; [contradiction|eauto].
    - intros i t' H. destruct (i_end0 i t' H) as [H'|[H'|H']]; auto. right. left. upd_cases t t'; [now apply Q2 in H'|assumption].
    - intros i t' H. upd_cases t t'; [now apply P2 in H|eauto].
    - intros t' H. upd_cases t t'; [contradiction|eauto].
    - intros t' e H. upd_cases t t'; [destruct H as [H|H]; [now apply P5 in H|now apply P6 in H]|eauto].
    - intros H. destruct (i_thrown0 H) as [H'|(t' & Ht' & H')]; auto. right. exists t'. split; [assumption|].
      upd_cases t t'; [congruence|assumption].
    - intros t' H. destruct (i_lock0 t' H) as [H1 H2]. split; [assumption|]. upd_cases t t'; [congruence|assumption].
    - intros t' H. upd_cases t t'; [lia|eauto].
  Qed.

  Lemma inv_step s t ch s' : inv s -> (t < T)%nat -> step t ch s = Some s' -> inv s'.
  Proof.
    intros I Ht. unfold step. destruct (pcs s t) eqn:Ep.
    - (* Idle *)
      destruct (Z.ltb_spec (next s) n) as [Hn|Hn]; intros [= <-].
      + destruct I. constructor; simp; try lia; auto.
        * intros i t' H. destruct (i_range0 i t' H). split; [lia|assumption].
        * intros t' i H. upd_cases t t'.
          { injection H as <-. split; [lia|]. intros Hin. apply in_map_iff in Hin. destruct Hin as ([j t2] & Ej & Hin).
            apply i_range0 in Hin. cbn in Ej. lia. }
          { destruct (i_check0 _ _ H). split; [lia|assumption]. }
        * intros t1 t2 i H1 H2. destruct (Nat.eq_dec t1 t) as [->|N1]; destruct (Nat.eq_dec t2 t) as [->|N2]; auto;
            rewrite ?upd_same, ?upd_other in * by assumption.
          { injection H1 as <-. apply i_check0 in H2. lia. }
          { injection H2 as <-. apply i_check0 in H1. lia. }
          { eauto. }
        * intros j Hj. destruct (Z.eq_dec j (next s)) as [->|Hne]; [right; left; exists t; rewrite upd_same; auto|].
          destruct (i_cover0 j ltac:(lia)) as [H|[(t' & Ht' & H)|H]]; auto. right; left. exists t'. split; [assumption|].
          rewrite upd_other; [assumption|]. intros ->. congruence.
        * intros t' H. upd_cases t t'; [discriminate|]. specialize (i_exited0 _ H). lia.
        * intros i t' H. destruct (i_end0 i t' H) as [H'|[H'|H']]; auto. right. left. upd_cases t t'; congruence.
        * intros i t' H. upd_cases t t'; [discriminate|eauto].
        * intros t' H. upd_cases t t'; [discriminate|eauto].
        * intros t' e H. upd_cases t t'; [destruct H; discriminate|eauto].
        * intros H. destruct (i_thrown0 H) as [H'|(t' & Ht' & H')]; auto. right. exists t'. split; [assumption|].
          rewrite upd_other; [assumption|]. intros ->. rewrite Ep in H'. discriminate.
        * intros t' H. destruct (i_lock0 t' H) as [H1 H2]. split; [assumption|]. rewrite upd_other; [assumption|]. intros ->. rewrite Ep in H2. discriminate.
        * intros t' H. rewrite upd_other by lia. auto.
      + destruct I. constructor; simp; auto.
        * intros t' i H. upd_cases t t'; [discriminate|eauto].
        * intros t1 t2 i H1 H2. upd_cases t t1; [discriminate|]. upd_cases t t2; [discriminate|eauto].
        * intros j Hj. destruct (i_cover0 j Hj) as [H|[(t' & Ht' & H)|H]]; auto. right; left. exists t'. split; [assumption|].
          rewrite upd_other; [assumption|]. intros ->. congruence.
        * intros i t' H. destruct (i_end0 i t' H) as [H'|[H'|H']]; auto. right. left. upd_cases t t'; congruence.
        * intros i t' H. upd_cases t t'; [discriminate|eauto].
        * intros t' H. upd_cases t t'; [discriminate|eauto].
        * intros t' e H. upd_cases t t'; [destruct H; discriminate|eauto].
        * intros H. destruct (i_thrown0 H) as [H'|(t' & Ht' & H')]; auto. right. exists t'. split; [assumption|].
          rewrite upd_other; [assumption|]. intros ->. rewrite Ep in H'. discriminate.
        * intros t' H. destruct (i_lock0 t' H) as [H1 H2]. split; [assumption|]. rewrite upd_other; [assumption|]. intros ->. rewrite Ep in H2. discriminate.
        * intros t' H. rewrite upd_other by lia. auto.
    - (* Check *)
      destruct (done s) eqn:Ed; intros [= <-].
      + apply inv_goto; auto; try discriminate; rewrite ?Ep; try discriminate; reflexivity.
      + destruct I. destruct (i_check0 _ _ Ep) as [Hi Hnin].
        constructor; simp; rewrite ?started_app, ?completed_app, ?thrown_app, ?map_app; cbn [started completed thrown map fst app]; auto; rewrite ?app_nil_r; auto.
        * rewrite <- (app_nil_r (map fst (started (trace s)))) in i_nodup0.
          apply Permutation_NoDup with (i :: map fst (started (trace s))); [apply Permutation_cons_append|]. rewrite app_nil_r in i_nodup0. now constructor.
        * intros j t' H. apply in_app_or in H. destruct H as [H|[[= <- <-]|[]]]; auto.
        * intros t' j H. upd_cases t t'; [discriminate|]. destruct (i_check0 _ _ H) as [H1 H2]. split; [assumption|].
          intros H3. apply in_app_or in H3. destruct H3 as [H3|[<-|[]]]; [contradiction|]. apply n0. eauto.
        * intros t1 t2 j H1 H2. upd_cases t t1; [discriminate|]. upd_cases t t2; [discriminate|eauto].
        * intros j Hj. destruct (i_cover0 j Hj) as [H|[(t' & Ht' & H)|H]]; [left; apply in_or_app; now left| |congruence].
          destruct (Nat.eq_dec t' t) as [->|Hne].
          { left. apply in_or_app. right. left. congruence. }
          { right; left. exists t'. rewrite upd_other by assumption. auto. }
        * intros t' H. upd_cases t t'; [discriminate|eauto].
        * intros j t' H. apply in_app_or in H. destruct H as [H|[[= <- <-]|[]]]; [|right; left; now rewrite upd_same].
          destruct (i_end0 j t' H) as [H'|[H'|[e H']]]; auto; [|right; right; exists e; apply in_or_app; now left].
          right. left. upd_cases t t'; congruence.
        * intros j t' H. apply in_or_app. upd_cases t t'; [injection H as <-; right; now left|left; auto].
        * intros j t' H. apply in_or_app. left. auto.
        * intros t' H. upd_cases t t'; [discriminate|eauto].
        * intros t' e H. upd_cases t t'; [destruct H; discriminate|eauto].
        * intros H. destruct (i_thrown0 H) as [H'|(t' & Ht' & H')]; auto. right. exists t'. split; [assumption|].
          rewrite upd_other; [assumption|]. intros ->. rewrite Ep in H'. discriminate.
        * intros t' H. destruct (i_lock0 t' H) as [H1 H2]. split; [assumption|]. rewrite upd_other; [assumption|]. intros ->. rewrite Ep in H2. discriminate.
        * intros t' H. rewrite upd_other by lia. auto.
    - (* Run *)
      destruct ch as [e|]; intros [= <-]; destruct I; assert (Hs := i_run0 _ _ Ep);
        constructor; simp; rewrite ?started_app, ?completed_app, ?thrown_app, ?map_app; cbn [started completed thrown map fst app]; rewrite ?app_nil_r; auto.
      + intros t' j H. upd_cases t t'; [discriminate|eauto].
      + intros t1 t2 j H1 H2. upd_cases t t1; [discriminate|]. upd_cases t t2; [discriminate|eauto].
      + intros j Hj. destruct (i_cover0 j Hj) as [H|[(t' & Ht' & H)|H]]; auto. right; left. exists t'. split; [assumption|].
        rewrite upd_other; [assumption|]. intros ->. congruence.
      + intros t' H. upd_cases t t'; [discriminate|eauto].
      + intros j t' H. destruct (i_end0 j t' H) as [H'|[H'|[e' H']]]; auto.
        * destruct (Nat.eq_dec t' t) as [->|Hne].
          { right. right. exists e. apply in_or_app. right. left. congruence. }
          { right. left. now rewrite upd_other. }
        * right. right. exists e'. apply in_or_app. now left.
      + intros j t' H. upd_cases t t'; [discriminate|eauto].
      + intros e' H. apply in_or_app. left. auto.
      + intros t' H. upd_cases t t'; [discriminate|eauto].
      + intros t' e' H. apply in_or_app. upd_cases t t'; [right; left; destruct H; congruence|left; eauto].
      + intros _. right. exists t. rewrite upd_same. auto.
      + intros t' H. destruct (i_lock0 t' H) as [H1 H2]. split; [assumption|]. rewrite upd_other; [assumption|]. intros ->. rewrite Ep in H2. discriminate.
      + intros t' H. rewrite upd_other by lia. auto.
      + intros t' j H. upd_cases t t'; [discriminate|eauto].
      + intros t1 t2 j H1 H2. upd_cases t t1; [discriminate|]. upd_cases t t2; [discriminate|eauto].
      + intros j Hj. destruct (i_cover0 j Hj) as [H|[(t' & Ht' & H)|H]]; auto. right; left. exists t'. split; [assumption|].
        rewrite upd_other; [assumption|]. intros ->. congruence.
      + intros t' H. upd_cases t t'; [discriminate|eauto].
      + intros j t' H. destruct (i_end0 j t' H) as [H'|[H'|[e' H']]].
        * left. apply in_or_app. now left.
        * destruct (Nat.eq_dec t' t) as [->|Hne].
          { left. apply in_or_app. right. left. congruence. }
          { right. left. now rewrite upd_other. }
        * right. right. exists e'. apply in_or_app. now left.
      + intros j t' H. upd_cases t t'; [discriminate|eauto].
      + intros j t' H. apply in_app_or in H. destruct H as [H|[[= <- <-]|[]]]; auto.
      + intros t' H. upd_cases t t'; [discriminate|eauto].
      + intros t' e' H. upd_cases t t'; [destruct H; discriminate|eauto].
      + intros H. destruct (i_thrown0 H) as [H'|(t' & Ht' & H')]; auto. right. exists t'. split; [assumption|].
        rewrite upd_other; [assumption|]. intros ->. rewrite Ep in H'. discriminate.
      + intros t' H. destruct (i_lock0 t' H) as [H1 H2]. split; [assumption|]. rewrite upd_other; [assumption|]. intros ->. rewrite Ep in H2. discriminate.
      + intros t' H. rewrite upd_other by lia. auto.
    - (* Tally *)
      intros [= <-]. apply inv_goto; auto; try (intros; destruct (interval <=? _); discriminate); simp; rewrite ?Ep; try discriminate; try reflexivity.
      destruct I. constructor; auto.
    - intros [= <-]. apply inv_goto; auto; try discriminate; simp; rewrite ?Ep; try discriminate; try reflexivity. destruct I. constructor; auto.
    - intros [= <-]. apply inv_goto; auto; try discriminate; simp; rewrite ?Ep; try discriminate; try reflexivity. destruct I. constructor; auto.
    - (* Report *)
      destruct (Nat.eqb t 0); intros [= <-].
      + assert (I' : inv (goto s t (Call i (processed s)))).
        { apply inv_goto; auto; try discriminate; rewrite ?Ep; try discriminate; reflexivity. }
        destruct I'. constructor; simp; rewrite ?started_app, ?completed_app, ?thrown_app, ?map_app; cbn [started completed thrown map fst app]; rewrite ?app_nil_r; auto.
        intros j t' H. destruct (i_end0 j t' H) as [H'|[H'|[e H']]]; auto. right. right. exists e. apply in_or_app. now left.
      + apply inv_goto; auto; try discriminate; rewrite ?Ep; try discriminate; reflexivity.
    - (* Call *)
      destruct ch as [e|]; intros [= <-]; [|apply inv_goto; auto; try discriminate; rewrite ?Ep; try discriminate; reflexivity].
      destruct I. constructor; simp; rewrite ?started_app, ?completed_app, ?thrown_app, ?map_app; cbn [started completed thrown map fst app]; rewrite ?app_nil_r; auto.
      + intros t' j H. upd_cases t t'; [discriminate|eauto].
      + intros t1 t2 j H1 H2. upd_cases t t1; [discriminate|]. upd_cases t t2; [discriminate|eauto].
      + intros j Hj. destruct (i_cover0 j Hj) as [H|[(t' & Ht' & H)|H]]; auto. right; left. exists t'. split; [assumption|].
        rewrite upd_other; [assumption|]. intros ->. congruence.
      + intros t' H. upd_cases t t'; [discriminate|eauto].
      + intros j t' H. destruct (i_end0 j t' H) as [H'|[H'|[e' H']]]; auto.
        * right. left. rewrite upd_other; [assumption|]. intros ->. congruence.
        * right. right. exists e'. apply in_or_app. now left.
      + intros j t' H. upd_cases t t'; [discriminate|eauto].
      + intros e' H. apply in_or_app. left. auto.
      + intros t' H. upd_cases t t'; [discriminate|eauto].
      + intros t' e' H. apply in_or_app. upd_cases t t'; [right; left; destruct H; congruence|left; eauto].
      + intros _. right. exists t. rewrite upd_same. auto.
      + intros t' H. destruct (i_lock0 t' H) as [H1 H2]. split; [assumption|]. rewrite upd_other; [assumption|]. intros ->. rewrite Ep in H2. discriminate.
      + intros t' H. rewrite upd_other by lia. auto.
    - (* Catch *)
      destruct (lock s) eqn:El; intros [= <-]. destruct I. constructor; simp; auto.
      + intros t' j H. upd_cases t t'; [discriminate|eauto].
      + intros t1 t2 j H1 H2. upd_cases t t1; [discriminate|]. upd_cases t t2; [discriminate|eauto].
      + intros j Hj. destruct (i_cover0 j Hj) as [H|[(t' & Ht' & H)|H]]; auto. right; left. exists t'. split; [assumption|].
        rewrite upd_other; [assumption|]. intros ->. congruence.
      + intros t' H. upd_cases t t'; [discriminate|eauto].
      + intros j t' H. destruct (i_end0 j t' H) as [H'|[H'|H']]; auto. right. left. rewrite upd_other; [assumption|]. intros ->. congruence.
      + intros j t' H. upd_cases t t'; [discriminate|eauto].
      + intros t' H. upd_cases t t'; [discriminate|eauto].
      + intros t' e' H. upd_cases t t'; [apply (i_pend0 t); destruct H as [H|H]; [discriminate|left; congruence]|eauto].
      + intros H. destruct (i_thrown0 H) as [H'|(t' & Ht' & H')]; auto. right. exists t'. split; [assumption|].
        destruct (Nat.eq_dec t' t) as [->|]; [now rewrite upd_same|now rewrite upd_other].
      + intros t' [= <-]. rewrite upd_same. auto.
      + intros t' H. rewrite upd_other by lia. auto.
    - (* Hold *)
      intros [= <-]. destruct I. assert (He := i_pend0 t e (or_intror Ep)). constructor; simp; auto.
      + intros t' j H. upd_cases t t'; [discriminate|eauto].
      + intros t1 t2 j H1 H2. upd_cases t t1; [discriminate|]. upd_cases t t2; [discriminate|eauto].
      + intros j Hj. destruct (i_cover0 j Hj) as [H|[(t' & Ht' & H)|H]]; auto. right; left. exists t'. split; [assumption|].
        rewrite upd_other; [assumption|]. intros ->. congruence.
      + intros t' H. upd_cases t t'; [discriminate|eauto].
      + intros j t' H. destruct (i_end0 j t' H) as [H'|[H'|H']]; auto. right. left. rewrite upd_other; [assumption|]. intros ->. congruence.
      + intros j t' H. upd_cases t t'; [discriminate|eauto].
      + discriminate.
      + intros e' [= <-]. assumption.
      + discriminate.
      + intros t' e' H. upd_cases t t'; [destruct H; discriminate|eauto].
      + intros _. left. discriminate.
      + intros t' H. destruct (i_lock0 t' H) as [H1 H2]. split; [assumption|]. destruct (Nat.eq_dec t' t) as [->|]; [now rewrite upd_same|now rewrite upd_other].
      + intros t' H. rewrite upd_other by lia. auto.
    - (* Held *)
      intros [= <-]. destruct I. assert (He := i_held0 t Ep). constructor; simp; auto.
      + intros t' j H. upd_cases t t'; [discriminate|eauto].
      + intros t1 t2 j H1 H2. upd_cases t t1; [discriminate|]. upd_cases t t2; [discriminate|eauto].
      + intros t' H. upd_cases t t'; [discriminate|eauto].
      + intros j t' H. destruct (i_end0 j t' H) as [H'|[H'|H']]; auto. right. left. rewrite upd_other; [assumption|]. intros ->. congruence.
      + intros j t' H. upd_cases t t'; [discriminate|eauto].
      + intros t' e' H. upd_cases t t'; [destruct H; discriminate|eauto].
      + intros t' H. destruct (i_lock0 t' H) as [H1 H2]. split; [assumption|]. destruct (Nat.eq_dec t' t) as [->|]; [now rewrite upd_same|now rewrite upd_other].
      + intros t' H. rewrite upd_other by lia. auto.
    - (* Release *)
      intros [= <-]. destruct I. constructor; simp; auto.
      + intros t' j H. upd_cases t t'; [discriminate|eauto].
      + intros t1 t2 j H1 H2. upd_cases t t1; [discriminate|]. upd_cases t t2; [discriminate|eauto].
      + intros j Hj. destruct (i_cover0 j Hj) as [H|[(t' & Ht' & H)|H]]; auto. right; left. exists t'. split; [assumption|].
        rewrite upd_other; [assumption|]. intros ->. congruence.
      + intros t' H. upd_cases t t'; [discriminate|eauto].
      + intros j t' H. destruct (i_end0 j t' H) as [H'|[H'|H']]; auto. right. left. rewrite upd_other; [assumption|]. intros ->. congruence.
      + intros j t' H. upd_cases t t'; [discriminate|eauto].
      + intros t' H. upd_cases t t'; [discriminate|eauto].
      + intros t' e' H. upd_cases t t'; [destruct H; discriminate|eauto].
      + intros H. destruct (i_thrown0 H) as [H'|(t' & Ht' & H')]; auto. right. exists t'. split; [assumption|].
        rewrite upd_other; [assumption|]. intros ->. rewrite Ep in H'. discriminate.
      + discriminate.
      + intros t' H. rewrite upd_other by lia. auto.
    - discriminate.
  Qed.

  Lemma reach_inv l s : reach l s -> inv s.
  Proof. induction 1; [apply inv_init|]. eapply inv_step; eassumption. Qed.

  Lemma upto_in m j : In j (upto m) <-> 0 <= j < m.
  Proof.
    unfold upto. rewrite in_map_iff. split.
    - intros (k & <- & H). apply in_seq in H. lia.
    - intros H. exists (Z.to_nat j). split; [lia|]. apply in_seq. lia.
  Qed.
  Lemma upto_nodup m : NoDup (upto m).
  Proof. unfold upto. apply FinFun.Injective_map_NoDup; [intros a b; lia|apply seq_NoDup]. Qed.

  Lemma finished_ok l s : (0 < T)%nat -> reach l s -> finished T s -> thrown (trace s) = [] ->
    Permutation (map fst (started (trace s))) (upto n)
    /\ (forall i t, In (i, t) (started (trace s)) <-> In (i, t) (completed (trace s)))
    /\ (forall i t, In (i, t) (started (trace s)) -> (t < T)%nat) /\ result s = Ok tt.
  Proof.
    intros HT Hr Hf Ht. assert (I := reach_inv _ _ Hr). destruct I.
    assert (Ee : exp s = None). { destruct (exp s) as [e|] eqn:E; [|reflexivity]. assert (H := i_exp0 e eq_refl). rewrite Ht in H. destruct H. }
    assert (Ed : done s = false). { destruct (done s); [|reflexivity]. now destruct (i_done0 eq_refl). }
    assert (Hn : n <= next s) by (apply (i_exited0 0%nat); now apply Hf).
    split; [|split; [|split]].
    - apply NoDup_Permutation; [assumption|apply upto_nodup|]. intros j. rewrite upto_in. split.
      + intros H. apply in_map_iff in H. destruct H as ([i t] & <- & H). apply i_range0 in H. cbn. lia.
      + intros H. destruct (i_cover0 j ltac:(lia)) as [H'|[(t & Ht' & H')|H']]; [assumption| |congruence].
        rewrite (Hf t Ht') in H'. discriminate.
    - intros i t. split; [|eauto]. intros H. destruct (i_end0 i t H) as [H'|[H'|[e H']]]; [assumption| |].
      + rewrite Hf in H' by (now apply i_range0 in H). discriminate.
      + apply thrown_in in H'. rewrite Ht in H'. destruct H'.
    - intros i t H. now apply i_range0 in H.
    - unfold result. now rewrite Ee.
  Qed.

  Lemma reach_at_most_once l s : reach l s ->
    NoDup (map fst (started (trace s))) /\ forall i t, In (i, t) (started (trace s)) -> 0 <= i < n /\ (t < T)%nat.
  Proof.
    intros Hr. destruct (reach_inv _ _ Hr). split; [assumption|]. intros i t H. destruct (i_range0 i t H). split; [lia|assumption].
  Qed.

  Lemma finished_throws l s : reach l s -> finished T s -> thrown (trace s) <> [] ->
    exists e, result s = Throw e /\ In e (thrown (trace s)).
  Proof.
    intros Hr Hf Ht. destruct (reach_inv _ _ Hr). unfold result. destruct (i_thrown0 Ht) as [H|(t & Ht' & H)].
    - destruct (exp s) as [e|] eqn:E; [|contradiction]. exists e. auto.
    - rewrite Hf in H by assumption. discriminate.
  Qed.

  Lemma finished_no_run l s i t : reach l s -> finished T s -> In (i, t) (started (trace s)) ->
    In (i, t) (completed (trace s)) \/ exists e, In (EThrow i t e) (trace s).
  Proof.
    intros Hr Hf H. destruct (reach_inv _ _ Hr). destruct (i_end0 i t H) as [H'|[H'|H']]; auto.
    rewrite Hf in H' by (now apply i_range0 in H). discriminate.
  Qed.

  (** ** Termination *)
  Definition weight (p : pc) : nat :=
    match p with
    | Exited => 0 | Idle => 1 | Release => 2 | Held => 3 | Hold _ => 4 | Catch _ => 5 | Call _ _ => 6 | Report _ => 7
    | Clear _ => 8 | Flush _ => 9 | Tally _ => 10 | Run _ => 11 | Check _ => 12
    end%nat.
  Fixpoint nsum (k : nat) (f : nat -> nat) : nat := match k with O => 0 | S k => nsum k f + f k end%nat.
  Definition measure (s : state) : nat := (12 * Z.to_nat (n - next s) + nsum T (fun t => weight (pcs s t)))%nat.

  Lemma nsum_upd k f t x : (forall u, u <> t -> f u = x u) -> (t < k)%nat -> (nsum k f + x t = nsum k x + f t)%nat.
  Proof.
    intros H. induction k as [|k IH]; [lia|]. intros Hk. cbn. destruct (Nat.eq_dec t k) as [->|Hne].
    - assert (E : nsum k f = nsum k x). { assert (G : forall m, (m <= k)%nat -> nsum m f = nsum m x). { induction m as [|m IHm]; [reflexivity|]. intros Hm. cbn. rewrite IHm by lia. rewrite H by lia. reflexivity. } apply G. lia. }
      lia.
    - rewrite (H k) by congruence. specialize (IH ltac:(lia)). lia.
  Qed.

  Lemma measure_goto s t p : (t < T)%nat -> (weight p < weight (pcs s t))%nat -> (measure (goto s t p) < measure s)%nat.
  Proof.
    intros Ht Hw. unfold measure. cbn [goto next pcs].
    assert (E := nsum_upd T (fun u => weight (upd (pcs s) t p u)) t (fun u => weight (pcs s u))).
    cbn beta in E. rewrite upd_same in E. specialize (E (fun u Hu => f_equal weight (upd_other _ _ _ _ Hu)) Ht). lia.
  Qed.

  Lemma measure_step s t ch s' : (t < T)%nat -> step t ch s = Some s' -> (measure s' < measure s)%nat.
  Proof.
    intros Ht. unfold step. destruct (pcs s t) eqn:Ep.
    - destruct (Z.ltb_spec (next s) n); intros [= <-].
      + unfold measure. cbn [goto next pcs].
        assert (E := nsum_upd T (fun u => weight (upd (pcs s) t (Check (next s)) u)) t (fun u => weight (pcs s u))).
        cbn beta in E. rewrite upd_same, Ep in E. specialize (E (fun u Hu => f_equal weight (upd_other _ _ _ _ Hu)) Ht). cbn [weight] in E.
        replace (Z.to_nat (n - next s)) with (S (Z.to_nat (n - (next s + 1)))) by lia. lia.
      + apply measure_goto; [assumption|]. rewrite Ep. cbn. lia.
    - destruct (done s); intros [= <-]; [apply measure_goto; [assumption|]; rewrite Ep; cbn; lia|].
      change (measure (emit (goto s t (Run i)) (EStart i t))) with (measure (goto s t (Run i))). apply measure_goto; [assumption|]. rewrite Ep. cbn. lia.
    - destruct ch as [e|]; intros [= <-].
      + change (measure (emit (goto s t (Catch e)) (EThrow i t e))) with (measure (goto s t (Catch e))). apply measure_goto; [assumption|]. rewrite Ep. cbn. lia.
      + change (measure (emit (goto s t (Tally i)) (EEnd i t))) with (measure (goto s t (Tally i))). apply measure_goto; [assumption|]. rewrite Ep. cbn. lia.
    - intros [= <-].
      match goal with |- (measure (goto ?a _ _) < _)%nat => change (measure s) with (measure a) end.
      apply measure_goto; [assumption|]. cbn [pcs]. rewrite Ep. destruct (interval <=? _); cbn; lia.
    - intros [= <-]. match goal with |- (measure (goto ?a _ _) < _)%nat => change (measure s) with (measure a) end.
      apply measure_goto; [assumption|]. cbn [pcs]. rewrite Ep. cbn. lia.
    - intros [= <-]. match goal with |- (measure (goto ?a _ _) < _)%nat => change (measure s) with (measure a) end.
      apply measure_goto; [assumption|]. cbn [pcs]. rewrite Ep. cbn. lia.
    - destruct (Nat.eqb t 0); intros [= <-]; [|apply measure_goto; [assumption|]; rewrite Ep; cbn; lia].
      change (measure (emit (goto s t (Call i (processed s))) (EReport (processed s) t))) with (measure (goto s t (Call i (processed s)))).
      apply measure_goto; [assumption|]. rewrite Ep. cbn. lia.
    - destruct ch as [e|]; intros [= <-]; [|apply measure_goto; [assumption|]; rewrite Ep; cbn; lia].
      change (measure (emit (goto s t (Catch e)) (EReportThrow t e))) with (measure (goto s t (Catch e))). apply measure_goto; [assumption|]. rewrite Ep. cbn. lia.
    - destruct (lock s); intros [= <-]. match goal with |- (measure (goto ?a _ _) < _)%nat => change (measure s) with (measure a) end.
      apply measure_goto; [assumption|]. cbn [pcs]. rewrite Ep. cbn. lia.
    - intros [= <-]. match goal with |- (measure (goto ?a _ _) < _)%nat => change (measure s) with (measure a) end.
      apply measure_goto; [assumption|]. cbn [pcs]. rewrite Ep. cbn. lia.
    - intros [= <-]. match goal with |- (measure (goto ?a _ _) < _)%nat => change (measure s) with (measure a) end.
      apply measure_goto; [assumption|]. cbn [pcs]. rewrite Ep. cbn. lia.
    - intros [= <-]. match goal with |- (measure (goto ?a _ _) < _)%nat => change (measure s) with (measure a) end.
      apply measure_goto; [assumption|]. cbn [pcs]. rewrite Ep. cbn. lia.
    - discriminate.
  Qed.

  Lemma nsum_const k x : nsum k (fun _ => x) = (k * x)%nat.
  Proof. induction k as [|k IH]; cbn; [reflexivity|]. rewrite IH. lia. Qed.

  Lemma reach_bounded l s : reach l s -> (List.length l + measure s <= 12 * Z.to_nat n + T)%nat.
  Proof.
    induction 1 as [|l s t ch s' _ IH Ht Hs].
    - unfold measure. cbn [init next pcs]. cbn [List.length]. rewrite nsum_const. replace (n - 0) with n by lia. cbn [weight]. lia.
    - apply measure_step in Hs; [|assumption]. rewrite app_length. cbn [List.length]. lia.
  Qed.

  (** As long as not all threads have exited, one can move, however its callback ends. *)
  Lemma progress l s : reach l s -> ~ finished T s -> exists t, (t < T)%nat /\ forall ch, exists s', step t ch s = Some s'.
  Proof.
    intros Hr Hf. assert (I := reach_inv _ _ Hr).
    assert (Hx : exists t, (t < T)%nat /\ pcs s t <> Exited).
    { assert (G : forall k, (k <= T)%nat -> (forall t, (t < k)%nat -> pcs s t = Exited) \/ exists t, (t < k)%nat /\ pcs s t <> Exited).
      { induction k as [|k IH]; [left; lia|]. intros Hk. destruct (IH ltac:(lia)) as [H|(t & Ht & H)]; [|right; exists t; split; [lia|assumption]].
        destruct (pcs s k) eqn:E; try (right; exists k; split; [lia|congruence]).
        left. intros t Ht. destruct (Nat.eq_dec t k) as [->|]; [assumption|]. apply H. lia. }
      destruct (G T ltac:(lia)) as [H|(t & Ht & H)]; [contradiction|eauto]. }
    destruct Hx as (t & Ht & Hne).
    assert (Hlk : forall u, (u < T)%nat -> holds_lock (pcs s u) = true -> forall ch, exists s', step u ch s = Some s').
    { intros u Hu Hl ch. unfold step. destruct (pcs s u); try discriminate; eexists; reflexivity. }
    destruct (pcs s t) eqn:Ep.
    all: try (exists t; split; [assumption|]; intros ch; unfold step; rewrite Ep;
              try (destruct (next s <? n)); try (destruct (done s)); try (destruct ch); try (destruct (Nat.eqb t 0)); eexists; reflexivity).
    - destruct (lock s) as [u|] eqn:El.
      + destruct (i_lock _ I u El) as [Hu Hl]. exists u. split; [assumption|]. now apply Hlk.
      + exists t. split; [assumption|]. intros ch. unfold step. rewrite Ep, El. eexists. reflexivity.
    - contradiction.
  Qed.

  (** ** Progress reports *)
  Lemma zsum_upd k f t x : (forall u, u <> t -> f u = x u) -> (t < k)%nat -> zsum k f + x t = zsum k x + f t.
  Proof.
    intros H. induction k as [|k IH]; [lia|]. intros Hk. cbn. destruct (Nat.eq_dec t k) as [->|Hne].
    - assert (E : zsum k f = zsum k x). { assert (G : forall m, (m <= k)%nat -> zsum m f = zsum m x). { induction m as [|m IHm]; [reflexivity|]. intros Hm. cbn. rewrite IHm by lia. rewrite H by lia. reflexivity. } apply G. lia. }
      lia.
    - rewrite (H k) by congruence. specialize (IH ltac:(lia)). lia.
  Qed.

  (** Iterations completed but not yet added to a counter, and counters added but not yet cleared. *)
  Definition adjust (s : state) (t : nat) : Z :=
    match pcs s t with Tally _ => 1 | Clear _ => - count s t | _ => 0 end.

  Record pinv (s : state) : Prop := {
    p_count : forall t, 0 <= count s t;
    p_sum : processed s + zsum T (fun t => count s t + adjust s t) = zsum T c0 + Z.of_nat (List.length (completed (trace s)));
    p_clear : forall t i, pcs s t = Clear i -> 0 <= count s t }.

  Lemma zsum_ext k f g : (forall t, (t < k)%nat -> f t = g t) -> zsum k f = zsum k g.
  Proof. induction k as [|k IH]; intros H; cbn; [reflexivity|]. rewrite IH by (intros; apply H; lia). rewrite (H k) by lia. reflexivity. Qed.
  Lemma zsum_nonneg k f : (forall t, (t < k)%nat -> 0 <= f t) -> 0 <= zsum k f.
  Proof. induction k as [|k IH]; intros H; cbn; [lia|]. specialize (IH ltac:(intros; apply H; lia)). specialize (H k ltac:(lia)). lia. Qed.

  Lemma psum_step (f g : nat -> Z) t : (t < T)%nat -> (forall u, u <> t -> g u = f u) -> zsum T g = zsum T f + (g t - f t).
  Proof. intros Ht H. assert (E := zsum_upd T g t f H Ht). lia. Qed.

  Lemma pinv_step s t ch s' : pinv s -> (t < T)%nat -> step t ch s = Some s' -> pinv s'.
  Proof.
    intros [P1 P2 P3] Ht Hs.
    assert (G : forall s1, (forall u, u <> t -> count s1 u = count s u /\ pcs s1 u = pcs s u) -> 0 <= count s1 t ->
       processed s1 - processed s + (count s1 t + adjust s1 t - (count s t + adjust s t)) = Z.of_nat (List.length (completed (trace s1))) - Z.of_nat (List.length (completed (trace s))) -> pinv s1).
    { intros s1 H1 H2 H3. constructor.
      - intros u. destruct (Nat.eq_dec u t) as [->|Hne]; [assumption|]. destruct (H1 u Hne) as [-> _]. apply P1.
      - rewrite (psum_step (fun u => count s u + adjust s u) (fun u => count s1 u + adjust s1 u) t Ht).
        + lia.
        + intros u Hu. destruct (H1 u Hu) as [E1 E2]. unfold adjust. now rewrite E1, E2.
      - intros u i _. destruct (Nat.eq_dec u t) as [->|Hne]; [assumption|]. destruct (H1 u Hne) as [-> _]. apply P1. }
    specialize (P1 t). unfold step in Hs. destruct (pcs s t) eqn:Ep;
      try (destruct (next s <? n)); try (destruct (done s)); try (destruct ch as [e0|]); try (destruct (Nat.eqb t 0)); try (destruct (lock s)); try discriminate;
      injection Hs as <-; apply G; cbn [goto emit next done exp lock processed count pcs trace];
      try (intros u Hu; rewrite ?upd_other by assumption; auto);
      rewrite ?completed_app; cbn [completed]; rewrite ?app_length; cbn [List.length]; unfold adjust; cbn [goto emit next done exp lock processed count pcs trace];
      rewrite ?upd_same, ?Ep; try lia; try (destruct (interval <=? _); lia).
  Qed.

  Lemma pinv_init : (forall t, 0 <= c0 t) -> pinv (init c0).
  Proof.
    intros H. constructor; cbn [init count processed trace pcs completed]; auto.
    rewrite (zsum_ext _ _ c0); [cbn; lia|]. intros t _. unfold adjust. cbn. lia.
  Qed.

  Lemma reach_pinv l s : (forall t, 0 <= c0 t) -> reach l s -> pinv s.
  Proof. intros H. induction 1; [now apply pinv_init|]. eapply pinv_step; eassumption. Qed.

  (** Every value reported is at most the counters left by earlier loops plus the iterations completed
      before the report. *)
  Lemma processed_bound l s : (forall t, 0 <= c0 t) -> reach l s ->
    processed s <= zsum T c0 + Z.of_nat (List.length (completed (trace s))).
  Proof.
    intros H Hr. destruct (reach_pinv _ _ H Hr) as [P1 P2 P3].
    assert (0 <= zsum T (fun t => count s t + adjust s t)); [|lia].
    apply zsum_nonneg. intros t _. specialize (P1 t). unfold adjust. destruct (pcs s t); lia.
  Qed.

  Lemma processed_nonneg_mono s t ch s' : pinv s -> step t ch s = Some s' -> processed s <= processed s'.
  Proof.
    intros [P1 _ _] Hs. specialize (P1 t). unfold step in Hs. destruct (pcs s t);
      try (destruct (next s <? n)); try (destruct (done s)); try (destruct ch as [e0|]); try (destruct (Nat.eqb t 0)); try (destruct (lock s)); try discriminate;
      injection Hs as <-; cbn [goto emit processed]; lia.
  Qed.

  Lemma step_trace s t ch s' : step t ch s = Some s' ->
    trace s' = trace s \/ exists e, trace s' = trace s ++ [e] /\ forall z u, e = EReport z u -> z = processed s /\ u = 0%nat.
  Proof.
    intros Hs. unfold step in Hs. destruct (pcs s t);
      try (destruct (next s <? n)); try (destruct (done s)); try (destruct ch as [e0|]); try (destruct (lock s)); try discriminate;
      try (destruct (Nat.eqb_spec t 0)); 
      injection Hs as <-; cbn [goto emit trace processed]; auto; right; eexists; (split; [reflexivity|]); intros; try discriminate.
    all: injection H as <- <-; auto.
  Qed.

  Lemma reports_bound l s a z u b : (forall t, 0 <= c0 t) -> reach l s -> trace s = a ++ EReport z u :: b ->
    z <= zsum T c0 + Z.of_nat (List.length (completed a)).
  Proof.
    intros H0 Hr. revert a b. induction Hr as [|l s t ch s' Hr IH Ht Hs]; intros a b E; [destruct a; discriminate|].
    destruct (step_trace _ _ _ _ Hs) as [E'|(e & E' & He)]; [rewrite E' in E; eauto|].
    rewrite E' in E. destruct b as [|x b] using rev_ind.
    - apply app_inj_tail in E. destruct E as [<- Ee]. destruct (He z u Ee) as [-> _]. eapply processed_bound; eassumption.
    - clear IHb. rewrite app_comm_cons, app_assoc in E. apply app_inj_tail in E. destruct E as [E _]. eauto.
  Qed.

  Lemma reports_sorted l s : (forall t, 0 <= c0 t) -> reach l s ->
    StronglySorted Z.le (reported (trace s)) /\ Forall (fun z => z <= processed s) (reported (trace s)).
  Proof.
    intros H0 Hr. induction Hr as [|l s t ch s' Hr IH Ht Hs]; [split; constructor|]. destruct IH as [IH1 IH2].
    assert (Hm := processed_nonneg_mono _ _ _ _ (reach_pinv _ _ H0 Hr) Hs).
    assert (F : Forall (fun z => z <= processed s') (reported (trace s))).
    { eapply Forall_impl; [|exact IH2]. cbn. intros; lia. }
    destruct (step_trace _ _ _ _ Hs) as [E'|(e & E' & He)]; rewrite E'; [auto|].
    rewrite reported_app. destruct e; cbn [reported]; rewrite ?app_nil_r; auto.
    destruct (He z t0 eq_refl) as [-> ->]. split.
    - clear -IH1 IH2. induction IH1 as [|x r H1 IH1' H2]; cbn; [repeat constructor|]. inversion IH2; subst. constructor; [auto|].
      apply Forall_app. split; [assumption|]. repeat constructor. assumption.
    - apply Forall_app. split; [assumption|]. repeat constructor. assumption.
  Qed.

  (** The counters stay below the interval between iterations. *)
  Definition cinv (s : state) : Prop := forall t, 0 <= count s t /\
    match pcs s t with Flush _ | Clear _ => True | _ => count s t < Z.max 1 interval end.
  Lemma cinv_step s t ch s' : cinv s -> step t ch s = Some s' -> cinv s'.
  Proof.
    intros C Hs u. assert (Cu := C u). assert (Ct := C t). unfold step in Hs. destruct (pcs s t) eqn:Ep;
      try (destruct (next s <? n)); try (destruct (done s)); try (destruct ch as [e0|]); try (destruct (Nat.eqb t 0)); try (destruct (lock s)); try discriminate;
      injection Hs as <-; cbn [goto emit count pcs];
      (destruct (Nat.eq_dec u t) as [->|Hne]; [rewrite ?upd_same; try rewrite Ep in *|rewrite ?upd_other by assumption; try exact Cu]); try lia.
    all: destruct (Z.leb_spec interval (count s t + 1)); lia.
  Qed.
  Lemma reach_cinv l s : (forall t, 0 <= c0 t < Z.max 1 interval) -> reach l s -> cinv s.
  Proof. intros H. induction 1; [intros t; cbn; specialize (H t); lia|]. eapply cinv_step; eassumption. Qed.

  (** No iteration completes twice. *)
  Lemma fst_unique {A} (q : list (Z * A)) i x y : NoDup (map fst q) -> In (i, x) q -> In (i, y) q -> x = y.
  Proof.
    induction q as [|[j z] q IH]; cbn; [contradiction|]. intros Nd. inversion Nd as [|? ? Hn Nd']; subst.
    intros [H1|H1] [H2|H2]; [congruence| | |auto]; exfalso; apply Hn; apply in_map_iff.
    - injection H1 as <- <-. exists (j, y). auto.
    - injection H2 as <- <-. exists (j, x). auto.
  Qed.

  Lemma completed_keep s s' t p : (NoDup (map fst (completed (trace s))) /\ forall t i, pcs s t = Run i -> ~ In i (map fst (completed (trace s)))) ->
    completed (trace s') = completed (trace s) -> pcs s' = upd (pcs s) t p -> (forall i, p = Run i -> ~ In i (map fst (completed (trace s)))) ->
    NoDup (map fst (completed (trace s'))) /\ forall t i, pcs s' t = Run i -> ~ In i (map fst (completed (trace s'))).
  Proof.
    intros [H1 H2] E1 E2 Hp. rewrite E1, E2. split; [assumption|]. intros t' i. unfold upd. destruct (Nat.eqb t' t); [apply Hp|apply H2].
  Qed.

  Lemma completed_nodup l s : reach l s ->
    NoDup (map fst (completed (trace s))) /\ forall t i, pcs s t = Run i -> ~ In i (map fst (completed (trace s))).
  Proof.
    intros Hr. induction Hr as [|l s t ch s' Hr IH Ht Hs]; [split; [constructor|intros t i H; discriminate]|].
    assert (I := reach_inv _ _ Hr). unfold step in Hs. destruct (pcs s t) eqn:Ep.
    - destruct (next s <? n); injection Hs as <-; eapply completed_keep; try exact IH; try reflexivity; discriminate.
    - destruct (done s); injection Hs as <-.
      + eapply completed_keep; try exact IH; try reflexivity; discriminate.
      + eapply (completed_keep s _ t (Run i)); [exact IH|cbn; rewrite completed_app; cbn; apply app_nil_r|reflexivity|].
        intros j [= <-] Hin. apply in_map_iff in Hin. destruct Hin as ([j t2] & Ej & Hin). apply (i_done_of _ I) in Hin.
        destruct (i_check _ I _ _ Ep) as [_ Hno]. apply Hno. apply in_map_iff. exists (j, t2). auto.
    - destruct ch as [e|]; injection Hs as <-.
      + eapply (completed_keep s _ t (Catch e)); [exact IH|cbn; rewrite completed_app; cbn; apply app_nil_r|reflexivity|discriminate].
      + destruct IH as [IH1 IH2]. cbn [goto emit trace pcs]. rewrite completed_app, map_app. cbn [completed map fst]. split.
        * eapply Permutation_NoDup; [apply Permutation_cons_append|]. constructor; [eapply IH2; eassumption|assumption].
        * intros t' j H. destruct (Nat.eq_dec t' t) as [->|Hne]; [rewrite upd_same in H; discriminate|rewrite upd_other in H by assumption].
          intros Hin. apply in_app_or in Hin. destruct Hin as [Hin|[<-|[]]]; [eapply IH2; eassumption|].
          apply Hne. exact (fst_unique _ _ _ _ (i_nodup _ I) (i_run _ I _ _ H) (i_run _ I _ _ Ep)).
    - injection Hs as <-. eapply completed_keep; try exact IH; try reflexivity. intros j. destruct (interval <=? _); discriminate.
    - injection Hs as <-. eapply completed_keep; try exact IH; try reflexivity; discriminate.
    - injection Hs as <-. eapply completed_keep; try exact IH; try reflexivity; discriminate.
    - destruct (Nat.eqb t 0); injection Hs as <-.
      + eapply (completed_keep s _ t (Call i (processed s))); [exact IH|cbn; rewrite completed_app; cbn; apply app_nil_r|reflexivity|discriminate].
      + eapply completed_keep; try exact IH; try reflexivity; discriminate.
    - destruct ch as [e|]; injection Hs as <-.
      + eapply (completed_keep s _ t (Catch e)); [exact IH|cbn; rewrite completed_app; cbn; apply app_nil_r|reflexivity|discriminate].
      + eapply completed_keep; try exact IH; try reflexivity; discriminate.
    - destruct (lock s); [discriminate|]. injection Hs as <-. eapply completed_keep; try exact IH; try reflexivity; discriminate.
    - injection Hs as <-. eapply completed_keep; try exact IH; try reflexivity; discriminate.
    - injection Hs as <-. eapply completed_keep; try exact IH; try reflexivity; discriminate.
    - injection Hs as <-. eapply completed_keep; try exact IH; try reflexivity; discriminate.
    - discriminate.
  Qed.

  (** Executing a given schedule. *)
  Fixpoint play (l : list (nat * option error)) (s : state) : option state :=
    match l with [] => Some s | (t, ch) :: r => match step t ch s with Some s' => play r s' | None => None end end.
  Lemma play_reach l : forall k s s', reach k s -> Forall (fun x => (fst x < T)%nat) l -> play l s = Some s' -> reach (k ++ l) s'.
  Proof.
    induction l as [|[t ch] l IH]; intros k s s' Hr Hf Hp; cbn in Hp.
    - injection Hp as <-. now rewrite app_nil_r.
    - inversion Hf; subst. destruct (step t ch s) as [s1|] eqn:E; [|discriminate].
      change ((t, ch) :: l) with ([(t, ch)] ++ l). rewrite app_assoc. eapply IH; [|eassumption|eassumption]. eapply reach_step; eassumption.
  Qed.
End P.
