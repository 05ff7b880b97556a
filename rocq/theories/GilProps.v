(** C94: a parallel loop over a Python function. *)
From Coq Require Import List Bool Arith Lia.
From Verif Require Import GilModel GilSpec.
Import ListNotations.

Section Props.
Context {E : Type}.
Variables (T n : nat).
Implicit Types s : state E.

Definition holds (p : pc E) : bool := match p with Running _ | Drop => true | _ => false end.
Definition locks (p : pc E) : bool := match p with Locked _ | WantDrop | Drop => true | _ => false end.
Definition pending (p : pc E) (i : nat) : Prop := p = Got i \/ p = Want i.

Record inv s : Prop := mk_inv {
  i_gil1 : forall t, returned s = None -> gil s = Some (Thread t) -> t < T /\ holds (pcs s t) = true;
  i_gil2 : forall t, t < T -> holds (pcs s t) = true -> gil s = Some (Thread t);
  i_lock1 : forall t, explock s = Some t -> t < T /\ locks (pcs s t) = true;
  i_lock2 : forall t, t < T -> locks (pcs s t) = true -> explock s = Some t;
  i_fin : forall t, t < T -> pcs s t = Finished -> n <= next s;
  i_next : next s <= n;
  i_ret : forall r, returned s = Some r -> r = exp s /\ gil s = Some (Thread 0) /\ forall t, t < T -> pcs s t = Finished;
  i_nodup : NoDup (begun s);
  i_lt : forall i, In i (begun s) -> i < next s;
  i_pend : forall t i, t < T -> pending (pcs s t) i -> i < next s /\ ~ In i (begun s);
  i_dist : forall t u i, t < T -> u < T -> pending (pcs s t) i -> pending (pcs s u) i -> t = u;
  i_cover : done s = false -> forall i, i < next s -> In i (begun s) \/ exists t, t < T /\ pending (pcs s t) i;
  i_exp : forall e, exp s = Some e -> In e (raised s);
  i_throw : forall t e, t < T -> (pcs s t = Raised e \/ pcs s t = Locked e) -> In e (raised s);
  i_drop : forall t, t < T -> (pcs s t = WantDrop \/ pcs s t = Drop) -> raised s <> [];
  i_done : done s = true -> raised s <> [];
  i_seen : raised s <> [] -> exp s <> None \/ exists t e, t < T /\ (pcs s t = Raised e \/ pcs s t = Locked e) }.

Lemma inv_init : inv init.
Proof. constructor; cbn; intros; try discriminate; try lia; try contradiction; try (constructor); try (destruct H0; discriminate); try (destruct H1; discriminate). Qed.

Lemma upd_same (f : nat -> pc E) t p : upd f t p t = p.
Proof. unfold upd. rewrite Nat.eqb_refl. reflexivity. Qed.
Lemma upd_other (f : nat -> pc E) t p u : u <> t -> upd f t p u = f u.
Proof. unfold upd. intros H. destruct (Nat.eqb_spec u t); [contradiction|reflexivity]. Qed.

Lemma all_finished s : forallb (fun t => match pcs s t with Finished => true | _ => false end) (seq 0 T) = true ->
  forall t, t < T -> pcs s t = Finished.
Proof. intros H t Ht. rewrite forallb_forall in H. specialize (H t ltac:(apply in_seq; lia)). destruct (pcs s t); try discriminate. reflexivity. Qed.

Ltac case_upd := unfold upd in *; repeat match goal with
  | |- context [Nat.eqb ?a ?b] => destruct (Nat.eqb_spec a b); subst
  | H : context [Nat.eqb ?a ?b] |- _ => destruct (Nat.eqb_spec a b); subst
  end.
Ltac pend := unfold pending in *; intuition (try discriminate; try congruence).

Lemma cover_upd (f : nat -> pc E) t p i : ~ pending (f t) i ->
  (exists u, u < T /\ pending (f u) i) -> exists u, u < T /\ pending (upd f t p u) i.
Proof. intros H (u & Hu & Hp). exists u. split; [exact Hu|]. rewrite upd_other; [exact Hp|]. intros ->. contradiction. Qed.
Lemma seen_upd (f : nat -> pc E) t p : (forall e, f t <> Raised e /\ f t <> Locked e) ->
  (exists u e, u < T /\ (f u = Raised e \/ f u = Locked e)) -> exists u e, u < T /\ (upd f t p u = Raised e \/ upd f t p u = Locked e).
Proof. intros H (u & e & Hu & Hp). exists u, e. split; [exact Hu|]. rewrite upd_other; [exact Hp|]. intros ->. specialize (H e). intuition. Qed.
Lemma in_snoc {A} (l : list A) a x : In x (l ++ [a]) <-> In x l \/ x = a.
Proof. rewrite in_app_iff. cbn. intuition. Qed.

Ltac fin CV SV :=
  try (solve [eauto 3 | lia | congruence | pend | split; [lia|intuition congruence] | apply CV; auto; pend
   | apply SV; auto; split; discriminate
   | match goal with G : forall u, _ = Some (Thread u) -> _, H : _ = Some (Thread ?u) |- _ => apply G in H; intuition congruence end
   | match goal with G : forall u, _ = Some u -> _ < T /\ _ , H : _ = Some ?u |- _ => apply G in H; intuition congruence end]).

Lemma NoDup_rev_snoc {A} (l : list A) a : NoDup l -> ~ In a l -> NoDup (l ++ [a]).
Proof. intros H N. apply (NoDup_Add (a := a) (l := l)); [|auto]. pose proof (Add_app a l []) as Q. rewrite app_nil_r in Q. exact Q. Qed.

Lemma inv_step a s s' : inv s -> step T n a s = Some s' -> inv s'.
Proof.
  intros I H.
  destruct a as [t c| | |]; unfold step in H.
  - destruct (Nat.ltb_spec t T) as [Ht|]; [|discriminate H].
    assert (Hr : returned s = None).
    { destruct (returned s) as [r|] eqn:Er; [|reflexivity]. destruct (i_ret _ I r Er) as (_ & _ & Hf). rewrite (Hf t Ht) in H. discriminate H. }
    destruct I as [G1 G2 L1 L2 F N R ND LT P D C X W DR DN SN].
    assert (G1' : forall u, gil s = Some (Thread u) -> u < T /\ holds (pcs s u) = true) by (intros; eauto).
    pose proof (G2 t Ht) as G2t. pose proof (L2 t Ht) as L2t. pose proof (fun i => P t i Ht) as Pt. pose proof (fun e => W t e Ht) as Wt.
    pose proof (G1' t) as G1t. pose proof (L1 t) as L1t.
    assert (CV : forall p, (forall i, ~ pending (pcs s t) i) -> done s = false -> forall i, i < next s ->
      In i (begun s) \/ exists u, u < T /\ pending (upd (pcs s) t p u) i).
    { intros p Hp Hd i Hi. destruct (C Hd i Hi) as [?|Q]; [left; assumption|right]. apply cover_upd; auto. }
    assert (SV : forall p, (forall e, pcs s t <> Raised e /\ pcs s t <> Locked e) -> raised s <> [] ->
      exp s <> None \/ exists u e, u < T /\ (upd (pcs s) t p u = Raised e \/ upd (pcs s) t p u = Locked e)).
    { intros p Hp Hd. destruct (SN Hd) as [?|Q]; [left; assumption|right]. apply seen_upd; auto. }
    unfold upd in CV, SV.
    destruct (pcs s t) as [|i|i|i|i|e|e| | |] eqn:Ep; cbn [holds locks] in *.
    + destruct (Nat.ltb_spec (next s) n) as [Hn|Hn]; injection H as <-; constructor; cbn; intros; case_upd; fin CV SV.
      * apply LT in H. lia.
      * destruct H0 as [Q|Q]; inversion Q; subst. split; [lia|]. intros Z. apply LT in Z. lia.
      * destruct (P _ _ H H0). split; [lia|auto].
      * destruct H2 as [Q|Q]; inversion Q; subst. destruct (P _ _ H H1). lia.
      * destruct H1 as [Q|Q]; inversion Q; subst. destruct (P _ _ H0 H2). lia.
      * destruct (Nat.eq_dec i (next s)) as [->|Hi]; [right; exists t; rewrite Nat.eqb_refl; unfold pending; auto|].
        apply CV; auto; try lia. pend.
    + destruct (done s) eqn:Ed; injection H as <-; constructor; cbn; intros; case_upd; fin CV SV.
      * destruct H0 as [Q|Q]; inversion Q; subst. apply Pt. left. reflexivity.
      * destruct H2 as [Q|Q]; inversion Q; subst. symmetry. apply (D t t0 i0); auto. left. exact Ep.
      * destruct H1 as [Q|Q]; inversion Q; subst. apply (D t u i0); auto. left. exact Ep.
      * destruct (Nat.eq_dec i0 i) as [->|Hi]; [right; exists t; rewrite Nat.eqb_refl; unfold pending; auto|].
        destruct (C eq_refl i0 H0) as [?|Q]; [left; assumption|right]. apply cover_upd; auto. rewrite Ep. pend.
    + destruct (gil s) eqn:Eg; [discriminate H|]; injection H as <-; constructor; cbn; intros; case_upd; fin CV SV.
      * apply G2 in H0; auto. congruence.
      * destruct (Pt i) as [_ Q]; [right; reflexivity|]. apply NoDup_rev_snoc; assumption.
      * apply in_snoc in H as [H| ->]; [auto|]. apply Pt. right. reflexivity.
      * destruct (P _ _ H H0) as [A B]. split; [exact A|]. rewrite in_snoc. intros [Q| ->]; [contradiction|].
        apply n0. apply (D t0 t i); auto. right. exact Ep.
      * destruct (Nat.eq_dec i0 i) as [->|Hi]; [left; apply in_snoc; auto|].
        destruct (C H i0 H0) as [?|Q]; [left; apply in_snoc; auto|right]. apply cover_upd; auto. rewrite Ep. pend.
    + destruct c as [|e|]; injection H as <-; constructor; cbn; intros; case_upd; fin CV SV.
      * apply G2 in H0; auto. rewrite G2t in H0 by reflexivity. congruence.
      * apply G2 in H0; auto. rewrite G2t in H0 by reflexivity. congruence.
      * apply in_snoc. auto.
      * apply in_snoc. destruct H0 as [Q|Q]; inversion Q; auto.
      * apply in_snoc. left. eauto.
      * destruct (raised s); discriminate.
      * destruct (raised s); discriminate.
      * right. exists t, e. rewrite Nat.eqb_refl. auto.
      * apply G2 in H0; auto. rewrite G2t in H0 by reflexivity. congruence.
    + destruct (gil s) eqn:Eg; [discriminate H|]; injection H as <-; constructor; cbn; intros; case_upd; fin CV SV.
      * apply G2 in H0; auto. congruence.
    + destruct (explock s) eqn:Eg; [discriminate H|]; injection H as <-; constructor; cbn; intros; case_upd; fin CV SV.
      * apply L2 in H0; auto. congruence.
      * destruct H0 as [Q|Q]; inversion Q; subst. apply Wt. auto.
      * right. exists t, e. rewrite Nat.eqb_refl. auto.
    + destruct (exp s) eqn:Eg; injection H as <-; constructor; cbn; intros; case_upd; fin CV SV.
      * injection H as <-. apply Wt. auto.
      * intros Q. specialize (Wt e (or_intror eq_refl)). rewrite Q in Wt. contradiction.
      * apply L2 in H0; auto. rewrite L2t in H0 by reflexivity. congruence.
      * injection H as <-. apply Wt. auto.
      * intros Q. specialize (Wt e (or_intror eq_refl)). rewrite Q in Wt. contradiction.
    + destruct (gil s) eqn:Eg; [discriminate H|]; injection H as <-; constructor; cbn; intros; case_upd; fin CV SV.
      * apply G2 in H0; auto. congruence.
    + injection H as <-; constructor; cbn; intros; case_upd; fin CV SV.
      * apply G2 in H0; auto. rewrite G2t in H0 by reflexivity. congruence.
      * apply L2 in H0; auto. rewrite L2t in H0 by reflexivity. congruence.
    + discriminate H.
  - destruct (returned s) eqn:Er; [discriminate H|]. destruct (gil s) eqn:Eg; [discriminate H|].
    destruct (forallb _ _) eqn:Ef; [|discriminate H]. injection H as <-. 
    destruct I as [G1 G2 L1 L2 F N R ND LT P D C X W DR DN SN]. pose proof (all_finished _ Ef) as Af.
    constructor; cbn; intros; try (solve [eauto 3 | congruence]).
    + rewrite (Af t H) in H0. discriminate.
    + injection H as <-. auto.
  - destruct (gil s) eqn:Eg; [discriminate H|]. injection H as <-. 
    destruct I as [G1 G2 L1 L2 F N R ND LT P D C X W DR DN SN]. 
    constructor; cbn; intros; try (solve [eauto 3 | congruence]).
    + apply G2 in H0; auto. congruence.
    + destruct (R _ H) as (_ & Q & _). congruence.
  - destruct (gil s) as [[|]|] eqn:Eg; try discriminate H. injection H as <-. 
    destruct I as [G1 G2 L1 L2 F N R ND LT P D C X W DR DN SN]. 
    constructor; cbn; intros; try (solve [eauto 3 | congruence]).
    + apply G2 in H0; auto. congruence.
    + destruct (R _ H) as (_ & Q & _). congruence.
Qed.

Lemma inv_run l : forall s s', inv s -> run T n l s = Some s' -> inv s'.
Proof.
  induction l as [|a r IH]; cbn [run]; intros s s' I H; [injection H as <-; exact I|].
  destruct (step T n a s) as [s1|] eqn:Es; [|discriminate H]. exact (IH _ _ (inv_step _ _ _ I Es) H).
Qed.

(** measure of the work left; q: weight of a paused thread *)
Definition weight (q : nat) (p : pc E) : nat :=
  match p with Idle => 1 | Got _ => 9 | Want _ => 8 | Paused _ => q | Running _ => 6 | Raised _ => 5 | Locked _ => 4 | WantDrop => 3 | Drop => 2 | Finished => 0 end.
Definition total (q : nat) (f : nat -> pc E) : nat := list_sum (map (fun t => weight q (f t)) (seq 0 T)).
Definition left_ (q : nat) s : nat := total q (pcs s) + 9 * (n - next s) + (match returned s with None => 1 | Some _ => 0 end).

Lemma total_upd q f t p : t < T -> total q (upd f t p) + weight q (f t) = total q f + weight q p.
Proof.
  unfold total. intros Ht. assert (Hin : In t (seq 0 T)) by (apply in_seq; lia). revert Hin. generalize (seq_NoDup T 0). generalize (seq 0 T).
  induction l as [|u l IH]; cbn [map list_sum fold_right]; intros Hnd Hin; [contradiction|]. inversion Hnd as [|? ? Hu Hl]; subst.
  change (fold_right Nat.add 0) with list_sum.
  destruct (Nat.eq_dec u t) as [->|Hne].
  - rewrite upd_same. assert (E1 : map (fun v => weight q (upd f t p v)) l = map (fun v => weight q (f v)) l).
    { apply map_ext_in. intros v Hv. rewrite upd_other; [reflexivity|]. intros ->. contradiction. }
    rewrite E1. lia.
  - rewrite (upd_other f t p u Hne). destruct Hin as [->|Hin]; [contradiction|]. specialize (IH Hl Hin). lia.
Qed.

Lemma step_left q a s s' : inv s -> (q = 6 \/ (q = 7 /\ forall t, a <> Step t Pause)) -> step T n a s = Some s' ->
  left_ q s' + (if works a s then 1 else 0) <= left_ q s /\ (q = 7 -> (exists t c, a = Step t c) -> left_ q s' < left_ q s).
Proof.
  intros I Hq H. destruct a as [t c| | |]; unfold step in H.
  - destruct (Nat.ltb_spec t T) as [Ht|]; [|discriminate H].
    pose proof (i_next _ I) as N. unfold works.
    destruct (pcs s t) as [|i|i|i|i|e|e| | |] eqn:Ep; unfold left_.
    all: try (discriminate H).
    + destruct (Nat.ltb_spec (next s) n) as [Hn|Hn]; injection H as <-; cbn [go pcs next returned];
      [pose proof (total_upd q (pcs s) t (Got (next s)) Ht) as Q | pose proof (total_upd q (pcs s) t Finished Ht) as Q]; rewrite Ep in Q; cbn [weight] in Q; lia.
    + destruct (done s); injection H as <-; cbn [go pcs next returned];
      [pose proof (total_upd q (pcs s) t Idle Ht) as Q | pose proof (total_upd q (pcs s) t (Want i) Ht) as Q]; rewrite Ep in Q; cbn [weight] in Q; lia.
    + destruct (gil s); [discriminate H|]; injection H as <-; cbn [go pcs next returned];
      pose proof (total_upd q (pcs s) t (Running i) Ht) as Q; rewrite Ep in Q; cbn [weight] in Q; lia.
    + destruct c as [|e|]; injection H as <-; cbn [go set_gil pcs next returned].
      * pose proof (total_upd q (pcs s) t Idle Ht) as Q; rewrite Ep in Q; cbn [weight] in Q; lia.
      * pose proof (total_upd q (pcs s) t (Raised e) Ht) as Q; rewrite Ep in Q; cbn [weight] in Q; lia.
      * pose proof (total_upd q (pcs s) t (Paused i) Ht) as Q; rewrite Ep in Q; cbn [weight] in Q.
        destruct Hq as [->|[_ Hq]]; [lia|]. exfalso. eapply Hq. reflexivity.
    + destruct (gil s); [discriminate H|]; injection H as <-; cbn [go set_gil pcs next returned];
      pose proof (total_upd q (pcs s) t (Running i) Ht) as Q; rewrite Ep in Q; cbn [weight] in Q; destruct c; lia.
    + destruct (explock s); [discriminate H|]; injection H as <-; cbn [go set_lock pcs next returned];
      pose proof (total_upd q (pcs s) t (Locked e) Ht) as Q; rewrite Ep in Q; cbn [weight] in Q; lia.
    + destruct (exp s); injection H as <-; cbn [go set_lock pcs next returned];
      [pose proof (total_upd q (pcs s) t WantDrop Ht) as Q | pose proof (total_upd q (pcs s) t Idle Ht) as Q]; rewrite Ep in Q; cbn [weight] in Q; lia.
    + destruct (gil s); [discriminate H|]; injection H as <-; cbn [go set_gil pcs next returned];
      pose proof (total_upd q (pcs s) t Drop Ht) as Q; rewrite Ep in Q; cbn [weight] in Q; lia.
    + injection H as <-; cbn [go set_gil pcs next returned];
      pose proof (total_upd q (pcs s) t Idle Ht) as Q; rewrite Ep in Q; cbn [weight] in Q; lia.
  - unfold left_. destruct (returned s); [discriminate H|]. destruct (gil s); [discriminate H|]. destruct (forallb _ _); [|discriminate H].
    injection H as <-. cbn [pcs next returned works]. split; [lia|]. intros _ (t & c & Q). discriminate Q.
  - destruct (gil s); [discriminate H|]. injection H as <-. unfold left_. cbn. split; [lia|]. intros _ (t & c & Q). discriminate Q.
  - destruct (gil s) as [[|]|]; try discriminate H. injection H as <-. unfold left_. cbn. split; [lia|]. intros _ (t & c & Q). discriminate Q.
Qed.

Lemma work_left l : forall s, inv s -> work T n l s <= left_ 6 s.
Proof.
  induction l as [|a r IH]; cbn [work]; intros s I; [lia|]. destruct (step T n a s) as [s1|] eqn:Es; [|lia].
  destruct (step_left 6 _ _ _ I (or_introl eq_refl) Es) as [Q _]. specialize (IH s1 (inv_step _ _ _ I Es)). destruct (works a s); lia.
Qed.

Lemma left_init : left_ 6 init = T + 9 * n + 1.
Proof.
  unfold left_, init, total; cbn [pcs next returned weight]. rewrite Nat.sub_0_r.
  assert (Q : forall l : list nat, list_sum (map (fun _ => 1) l) = length l) by (induction l as [|? ? IHl]; [reflexivity|cbn [map list_sum fold_right length]; unfold list_sum in IHl; lia]).
  rewrite Q, seq_length. lia.
Qed.

(** some thread is not at the barrier, or all are *)
Lemma barrier_or s : (exists t, t < T /\ pcs s t <> Finished) \/ forallb (fun t => match pcs s t with Finished => true | _ => false end) (seq 0 T) = true.
Proof.
  destruct (forallb _ _) eqn:Ef; [right; reflexivity|left].
  assert (Q : forall l, forallb (fun t => match pcs s t with Finished => true | _ => false end) l = false -> exists t, In t l /\ pcs s t <> Finished).
  { induction l as [|t l IHl]; cbn; intros H; [discriminate|]. destruct (pcs s t) eqn:Ep; cbn in H;
    try (exists t; split; [left; reflexivity|rewrite Ep; discriminate]). destruct (IHl H) as (u & Hu & Hp). exists u. auto. }
  destruct (Q _ Ef) as (t & Ht & Hp). apply in_seq in Ht. exists t. split; [lia|exact Hp].
Qed.

Lemma progress s : inv s -> returned s = None -> gil s <> Some Others ->
  (exists t s', step T n (Step t Return) s = Some s') \/ (exists s', step T n Barrier s = Some s').
Proof.
  intros I Hr Hg. unfold step.
  destruct (gil s) as [[u|]|] eqn:Eg; [|contradiction|].
  - destruct (i_gil1 _ I u Hr Eg) as [Hu Hh]. left. exists u. destruct (Nat.ltb_spec u T); [|lia]. destruct (pcs s u); try discriminate Hh; eauto.
  - rewrite Hr. destruct (barrier_or s) as [(t & Ht & Hp)|Q].
    + left. destruct (pcs s t) as [|i|i|i|i|e|e| | |] eqn:Ep.
      6:{ destruct (explock s) as [u|] eqn:El.
          - destruct (i_lock1 _ I u El) as [Hu Hl]. exists u. destruct (Nat.ltb_spec u T); [|lia].
            destruct (pcs s u); try discriminate Hl; try eauto. destruct (exp s); eauto.
          - exists t. destruct (Nat.ltb_spec t T); [|lia]. rewrite Ep. eauto. }
      all: exists t; destruct (Nat.ltb_spec t T); [|lia]; rewrite Ep; try eauto.
      * destruct (Nat.ltb (next s) n); eauto.
      * destruct (done s); eauto.
      * destruct (exp s); eauto.
      * contradiction.
    + right. rewrite Q. eauto.
Qed.

Lemma finish k : forall s, inv s -> left_ 7 s < k -> returned s = None -> gil s <> Some Others ->
  exists l s', (forall a, In a l -> a = Barrier \/ exists t, a = Step t Return) /\ run T n l s = Some s' /\ returned s' <> None.
Proof.
  induction k as [|k IH]; intros s I Hk Hr Hg; [lia|].
  destruct (progress s I Hr Hg) as [(t & s1 & Es)|(s1 & Es)].
  - destruct (step_left 7 _ _ _ I (or_intror (conj eq_refl (fun u (Q : Step t Return = Step u Pause) => ltac:(discriminate Q)))) Es) as [_ Q].
    specialize (Q eq_refl (ex_intro _ t (ex_intro _ Return eq_refl))). pose proof (inv_step _ _ _ I Es) as I1.
    assert (Hg1 : gil s1 <> Some Others).
    { unfold step in Es. destruct (Nat.ltb t T); [|discriminate Es]. destruct (pcs s t); repeat match type of Es with
        | (if ?b then _ else _) = _ => destruct b | match ?x with Some _ => _ | None => _ end = _ => destruct x end; try discriminate Es; injection Es as <-; cbn; congruence. }
    assert (Hr1 : returned s1 = None).
    { unfold step in Es. destruct (Nat.ltb t T); [|discriminate Es]. destruct (pcs s t); repeat match type of Es with
        | (if ?b then _ else _) = _ => destruct b | match ?x with Some _ => _ | None => _ end = _ => destruct x end; try discriminate Es; injection Es as <-; exact Hr. }
    destruct (IH s1 I1 ltac:(lia) Hr1 Hg1) as (l & s' & Hl & Hrun & Hret).
    exists (Step t Return :: l), s'. split; [|split; [|exact Hret]].
    + intros a [<-|Ha]; [right; exists t; reflexivity|auto].
    + cbn [run]. rewrite Es. exact Hrun.
  - exists [Barrier], s1. split; [|split].
    + intros a [<-|[]]. left. reflexivity.
    + cbn [run]. rewrite Es. reflexivity.
    + unfold step in Es. destruct (returned s); [discriminate Es|]. destruct (gil s); [discriminate Es|]. destruct (forallb _ _); [|discriminate Es]. injection Es as <-. discriminate.
Qed.

(** ** C94 *)
(** Only one thread at a time executes Python code, and none while other Python threads do. *)
Theorem C94_exclusive : forall l s t u, run T n l init = Some s -> t < T -> u < T ->
  in_python (pcs s t) -> (in_python (pcs s u) -> t = u) /\ gil s <> Some Others.
Proof.
  intros l s t u H Ht Hu Pt. pose proof (inv_run _ _ _ inv_init H) as I.
  assert (Q : forall v, in_python (pcs s v) -> holds (pcs s v) = true) by (intros v [[i ->]| ->]; reflexivity).
  pose proof (i_gil2 _ I t Ht (Q t Pt)) as Gt. split; [|congruence].
  intros Pu. pose proof (i_gil2 _ I u Hu (Q u Pu)) as Gu. congruence.
Qed.

(** No deadlock: whatever happened so far, unless other Python threads are just running (and then they can give way), the
    loop can be brought to its end by letting the functions under way return. *)
Theorem C94_no_deadlock : forall l s, run T n l init = Some s -> returned s = None ->
  (gil s = Some Others -> step T n OthersGive s <> None) /\
  (gil s <> Some Others -> exists r s', (forall a, In a r -> a = Barrier \/ exists t, a = Step t Return) /\
     run T n r s = Some s' /\ returned s' <> None).
Proof.
  intros l s H Hr. pose proof (inv_run _ _ _ inv_init H) as I. split; intros Hg.
  - unfold step. rewrite Hg. discriminate.
  - exact (finish (S (left_ 7 s)) s I (Nat.lt_succ_diag_r _) Hr Hg).
Qed.

(** No livelock: no history contains more than T + 9 n + 1 steps of the loop's own work. *)
Theorem C94_bounded_work : forall l, work T n l (@init E) <= T + 9 * n + 1.
Proof. intros l. rewrite <- left_init. apply work_left. apply inv_init. Qed.

(** The function is called at most once per index, and for every index if nothing is raised. *)
Theorem C94_each_once : forall l s, run T n l init = Some s ->
  NoDup (begun s) /\ (forall i, In i (begun s) -> i < n) /\
  (0 < T -> returned s <> None -> raised s = [] -> forall i, i < n -> In i (begun s)).
Proof.
  intros l s H. pose proof (inv_run _ _ _ inv_init H) as I. split; [exact (i_nodup _ I)|]. split.
  - intros i Hi. pose proof (i_lt _ I i Hi). pose proof (i_next _ I). lia.
  - intros HT Hr Hx i Hi. destruct (returned s) as [r|] eqn:Er; [|contradiction]. destruct (i_ret _ I r Er) as (_ & _ & Hf).
    pose proof (i_fin _ I 0 HT (Hf 0 HT)) as Hn.
    assert (Hd : done s = false) by (destruct (done s) eqn:Ed; [exfalso; exact (i_done _ I Ed Hx)|reflexivity]).
    destruct (i_cover _ I Hd i ltac:(lia)) as [?|(t & Ht & [Q|Q])]; [assumption| |]; rewrite (Hf t Ht) in Q; discriminate Q.
Qed.

(** When the call returns the caller has the interpreter lock again and gets an exception exactly if one was raised. *)
Theorem C94_returns : forall l s r, run T n l init = Some s -> returned s = Some r ->
  gil s = Some (Thread 0) /\ (r = None <-> raised s = []) /\ (forall e, r = Some e -> In e (raised s)) /\ explock s = None.
Proof.
  intros l s r H Hr. pose proof (inv_run _ _ _ inv_init H) as I. destruct (i_ret _ I r Hr) as (-> & Hg & Hf).
  split; [exact Hg|]. split; [|split].
  - split; intros Q.
    + destruct (raised s) as [|e x] eqn:Ex; [reflexivity|exfalso]. destruct (i_seen _ I) as [A|(t & e' & Ht & A)]; [rewrite Ex; discriminate|contradiction|].
      rewrite (Hf t Ht) in A. destruct A; discriminate.
    + destruct (exp s) as [e|] eqn:Ee; [|reflexivity]. pose proof (i_exp _ I e Ee) as A. rewrite Q in A. contradiction.
  - intros e Q. exact (i_exp _ I e Q).
  - destruct (explock s) as [u|] eqn:El; [|reflexivity]. destruct (i_lock1 _ I u El) as [Hu A]. rewrite (Hf u Hu) in A. discriminate A.
Qed.
End Props.
Print Assumptions C94_exclusive. Print Assumptions C94_no_deadlock. Print Assumptions C94_bounded_work. Print Assumptions C94_each_once. Print Assumptions C94_returns.

(** Two threads, three iterations; both functions raise, and the second exception replaces the first. *)
Definition C94_history : list (action nat) :=
  let r t := Step t Return in
  [r 0; r 1; r 0; r 1; r 0; Step 0 Pause; OthersTake; OthersGive; r 1; Step 1 (Raise 7); r 0; Step 0 (Raise 8); r 1; r 1; r 0; r 0; r 0; r 0;
   r 0; r 0; r 0; r 1; Barrier].
Example C94_example :
  match run 2 3 C94_history init with
  | Some s => returned s = Some (Some 8) /\ raised s = [7; 8] /\ begun s = [0; 1] /\ gil s = Some (Thread 0)
  | None => False
  end /\ work 2 3 C94_history init = 19.
Proof. vm_compute. repeat split. Qed.
Example C94_example_running :
  match run 2 3 (firstn 12 C94_history) init with
  | Some s => returned s = None /\ gil s = None /\ pcs s 0 = Raised 8 /\ pcs s 1 = Raised 7
  | None => False
  end.
Proof. vm_compute. repeat split. Qed.
Example C94_example_quiet :
  let r t := Step t Return in
  match run 2 2 [r 0; r 1; r 1; r 0; r 0; r 0; r 1; r 1; r 0; r 1; Barrier] (@init nat) with
  | Some s => returned s = Some None /\ raised s = [] /\ begun s = [0; 1]
  | None => False
  end.
Proof. vm_compute. repeat split. Qed.
