From Coq Require Import List Arith Bool Lia.
From Verif Require Import CasModel CasSpec.
Import ListNotations.

Section C.
  Context {V : Type}.
  Variable veq : V -> V -> bool.
  Hypothesis veq_sound : forall a b, veq a b = true -> a = b.
  Variable m0 : nat -> V.
  Variable progs : nat -> list (@op V).

  Lemma upd_same {A} f t (x : A) : upd f t x t = x.
  Proof. unfold upd. now rewrite Nat.eqb_refl. Qed.
  Lemma upd_other {A} f t (x : A) t' : t' <> t -> upd f t x t' = f t'.
  Proof. unfold upd. intros H. apply Nat.eqb_neq in H. now rewrite H. Qed.

  Lemma of_thread_app t (a b : list (nat * @op V)) : of_thread t (a ++ b) = of_thread t a ++ of_thread t b.
  Proof. unfold of_thread. now rewrite filter_app, map_app. Qed.
  Lemma serial_app p (a b : list (nat * @op V)) v : serial p (a ++ b) v = serial p b (serial p a v).
  Proof. apply fold_left_app. Qed.

  (** At every moment the memory is what a serial execution of the operations done so far gives. *)
  Lemma linearizable l s : reach veq m0 progs l s ->
    exists log, (forall p, mem s p = serial p log (m0 p)) /\ (forall t, progs t = of_thread t log ++ todo (threads s t))
      /\ forall e, In e log -> In (fst e) l.
  Proof.
    induction 1 as [|l s t sp s' Hr (log & Hm & Hp & Hl) Hs]; [exists []; split; [|split]; try reflexivity; contradiction|].
    unfold step in Hs. destruct (todo (threads s t)) as [|o r] eqn:Et; [discriminate|].
    assert (Keep : forall th', todo th' = o :: r -> (forall t', progs t' = of_thread t' log ++ todo (upd (threads s) t th' t'))).
    { intros th' E t'. destruct (Nat.eq_dec t' t) as [->|Hne]; [rewrite upd_same, E, <- Et; apply Hp|rewrite upd_other by assumption; apply Hp]. }
    destruct (expected (threads s t)) as [e|].
    - destruct (negb sp && veq (mem s (o_pix o)) e) eqn:Ec; injection Hs as <-.
      + apply andb_true_iff in Ec. destruct Ec as [_ Ec]. apply veq_sound in Ec.
        exists (log ++ [(t, o)]). split; [|split].
        * intros p. cbn [mem]. rewrite serial_app. cbn [serial fold_left snd]. unfold serial at 1. cbn [fold_left snd]. destruct (Nat.eqb_spec (o_pix o) p) as [<-|Hne].
          { rewrite upd_same, <- Ec, Hm. reflexivity. }
          { rewrite upd_other by congruence. apply Hm. }
        * intros t'. cbn [threads]. rewrite of_thread_app, Hp, <- app_assoc. f_equal. unfold of_thread at 1. cbn [filter fst].
          destruct (Nat.eqb_spec t t') as [<-|Hne]; [rewrite upd_same, Et; reflexivity|rewrite upd_other by congruence; reflexivity].
        * intros x Hx. apply in_app_or in Hx. apply in_or_app. destruct Hx as [Hx|[<-|[]]]; [left; auto|right; now left].
      + exists log. split; [exact Hm|]. split; [now apply Keep|]. intros x Hx. apply in_or_app. left. auto.
    - injection Hs as <-. exists log. split; [exact Hm|]. split; [now apply Keep|]. intros x Hx. apply in_or_app. left. auto.
  Qed.

  (** A thread with work left can always move; a step by a thread whose compare-and-swap neither fails
      spuriously nor sees a changed value finishes an operation. *)
  Lemma can_move s t : todo (threads s t) <> [] -> forall sp, exists s', step veq t sp s = Some s'.
  Proof.
    intros H sp. unfold step. destruct (todo (threads s t)) as [|o r]; [contradiction|]. destruct (expected (threads s t)) as [e|]; [|eauto].
    destruct (negb sp && veq (mem s (o_pix o)) e); eauto.
  Qed.

  (** If a thread fails genuinely, another has finished an operation on the pixel since its last look. *)
  Lemma expected_was_read l s t e o r : reach veq m0 progs l s -> todo (threads s t) = o :: r -> expected (threads s t) = Some e ->
    exists log1 log2, (forall p, mem s p = serial p (log1 ++ log2) (m0 p)) /\ e = serial (o_pix o) log1 (m0 (o_pix o))
      /\ (forall t', progs t' = of_thread t' (log1 ++ log2) ++ todo (threads s t')).
  Proof.
    intros Hr. revert t e o r.
    (* strengthen: one log and, for every waiting thread, a prefix of it *)
    enough (G : exists log, (forall p, mem s p = serial p log (m0 p)) /\ (forall t', progs t' = of_thread t' log ++ todo (threads s t'))
      /\ forall t e o r, todo (threads s t) = o :: r -> expected (threads s t) = Some e ->
           exists log1 log2, log = log1 ++ log2 /\ e = serial (o_pix o) log1 (m0 (o_pix o))).
    { intros t e o r Ht He. destruct G as (log & G1 & G2 & G3). destruct (G3 _ _ _ _ Ht He) as (l1 & l2 & -> & E). exists l1, l2. auto. }
    induction Hr as [|l s t sp s' Hr (log & Hm & Hp & Hw) Hs].
    { exists []. split; [reflexivity|]. split; [reflexivity|]. intros t e o r _ H. discriminate. }
    unfold step in Hs. destruct (todo (threads s t)) as [|o r] eqn:Et; [discriminate|].
    assert (Keep : s' = mk_state (mem s) (upd (threads s) t (mk_thread (o :: r) (Some (mem s (o_pix o))))) ->
      exists log, (forall p, mem s' p = serial p log (m0 p)) /\ (forall t', progs t' = of_thread t' log ++ todo (threads s' t'))
      /\ forall t e o r, todo (threads s' t) = o :: r -> expected (threads s' t) = Some e ->
           exists log1 log2, log = log1 ++ log2 /\ e = serial (o_pix o) log1 (m0 (o_pix o))).
    { intros ->. exists log. cbn [mem threads]. split; [exact Hm|]. split.
      - intros t'. destruct (Nat.eq_dec t' t) as [->|Hne]; [rewrite upd_same; cbn [todo]; rewrite <- Et; apply Hp|rewrite upd_other by assumption; apply Hp].
      - intros t' e' o' r' H1 H2. destruct (Nat.eq_dec t' t) as [->|Hne].
        + rewrite upd_same in *. cbn in *. injection H1 as <- <-. injection H2 as <-. exists log, []. rewrite app_nil_r. auto.
        + rewrite upd_other in * by assumption. eauto. }
    destruct (expected (threads s t)) as [e|] eqn:Ee; [|injection Hs as <-; now apply Keep].
    destruct (negb sp && veq (mem s (o_pix o)) e) eqn:Ec; injection Hs as <-; [|now apply Keep].
    apply andb_true_iff in Ec. destruct Ec as [_ Ec]. apply veq_sound in Ec.
    exists (log ++ [(t, o)]). split; [|split].
    - intros p. cbn [mem]. rewrite serial_app. unfold serial at 1. cbn [fold_left snd]. destruct (Nat.eqb_spec (o_pix o) p) as [<-|Hne].
      { rewrite upd_same, <- Ec, Hm. reflexivity. }
      { rewrite upd_other by congruence. apply Hm. }
    - intros t'. cbn [threads]. rewrite of_thread_app, Hp, <- app_assoc. f_equal. unfold of_thread at 1. cbn [filter fst].
      destruct (Nat.eqb_spec t t') as [<-|Hne]; [rewrite upd_same, Et; reflexivity|rewrite upd_other by congruence; reflexivity].
    - intros t' e' o' r' H1 H2. cbn [threads] in *. destruct (Nat.eq_dec t' t) as [->|Hne]; [rewrite upd_same in *; discriminate|].
      rewrite upd_other in * by assumption. destruct (Hw _ _ _ _ H1 H2) as (l1 & l2 & -> & E). exists l1, (l2 ++ [(t, o)]). rewrite app_assoc. auto.
  Qed.
End C.
