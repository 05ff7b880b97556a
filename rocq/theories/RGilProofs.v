(** Proofs for rendering with Python components. *)
From Coq Require Import List Bool Arith Lia.
From Verif Require Import RGilModel RGilSpec.
Import ListNotations.

Section Proofs.
Context {E V A : Type}.
Implicit Types s : state E V A.
Notation PC := (pc E V).

Definition holds (p : PC) : bool := match p with Running _ | Drop => true | _ => false end.
Definition locks (p : PC) : bool := match p with Locked _ | WantDrop | Drop => true | _ => false end.
Notation T s := (team (cur s)).

Record inv s : Prop := mk_inv {
  i_gil1 : forall t, ended s = None -> gil s = Some (Thread t) -> t < T s /\ holds (pcs s t) = true;
  i_gil2 : forall t, t < T s -> holds (pcs s t) = true -> gil s = Some (Thread t);
  i_lock1 : forall t, explock s = Some t -> t < T s /\ locks (pcs s t) = true;
  i_lock2 : forall t, t < T s -> locks (pcs s t) = true -> explock s = Some t;
  i_fin : forall t, t < T s -> pcs s t = Finished -> size (cur s) <= next s;
  i_next : next s <= size (cur s);
  i_nodup : NoDup (begun s);
  i_lt : forall i, In i (begun s) -> i < next s;
  i_pend : forall t i, t < T s -> pcs s t = Got i -> i < next s /\ ~ In i (begun s);
  i_dist : forall t u i, t < T s -> u < T s -> pcs s t = Got i -> pcs s u = Got i -> t = u;
  i_cover : done s = false -> forall i, i < next s -> In i (begun s) \/ exists t, t < T s /\ pcs s t = Got i;
  i_exp : forall e, exp s = Some e -> In e (raised s);
  i_throw : forall t e, t < T s -> (pcs s t = Raised e \/ pcs s t = Locked e) -> In e (raised s);
  i_drop : forall t, t < T s -> (pcs s t = WantDrop \/ pcs s t = Drop) -> raised s <> [];
  i_done : done s = true -> raised s <> [];
  i_seen : raised s <> [] -> exp s <> None \/ exists t e, t < T s /\ (pcs s t = Raised e \/ pcs s t = Locked e) }.

(** facts about the whole call *)
Record inv2 s : Prop := mk_inv2 {
  j_none : pending s = None -> past s = [];
  j_some : forall e, pending s = Some e -> In e (past s);
  j_ret : cur s = Ret -> raised s = [];
  j_end : forall r, ended s = Some (Returned r) -> cur s = Ret /\ r = pending s /\ gil s = Some (Thread 0);
  j_term : ended s = Some Terminated -> (noexc (cur s) = true \/ pending s <> None) /\ raised s <> [] }.

Lemma inv_init p : inv (init p).
Proof. constructor; cbn; intros; try discriminate; try lia; try contradiction; try (constructor); destruct H0; discriminate. Qed.
Lemma inv2_init p : inv2 (init p).
Proof. constructor; cbn; intros; try discriminate; auto. Qed.

Lemma upd_same (f : nat -> PC) t p : upd f t p t = p.
Proof. unfold upd. rewrite Nat.eqb_refl. reflexivity. Qed.
Lemma upd_other (f : nat -> PC) t p u : u <> t -> upd f t p u = f u.
Proof. unfold upd. intros H. destruct (Nat.eqb_spec u t); [contradiction|reflexivity]. Qed.

Lemma all_finished s : at_barrier s = true -> forall t, t < T s -> pcs s t = Finished.
Proof. unfold at_barrier. intros H t Ht. rewrite forallb_forall in H. specialize (H t ltac:(apply in_seq; lia)). destruct (pcs s t); try discriminate. reflexivity. Qed.

Ltac case_upd := unfold upd in *; repeat match goal with
  | |- context [Nat.eqb ?a ?b] => destruct (Nat.eqb_spec a b); subst
  | H : context [Nat.eqb ?a ?b] |- _ => destruct (Nat.eqb_spec a b); subst
  end.

Lemma in_snoc {B} (l : list B) a x : In x (l ++ [a]) <-> In x l \/ x = a.
Proof. rewrite in_app_iff. cbn. intuition. Qed.
Lemma snoc_nil {B} (l : list B) a : l ++ [a] <> [].
Proof. destruct l; discriminate. Qed.
Lemma NoDup_snoc {B} (l : list B) a : NoDup l -> ~ In a l -> NoDup (l ++ [a]).
Proof. intros H N. apply (NoDup_Add (a := a) (l := l)); [|auto]. pose proof (Add_app a l []) as Q. rewrite app_nil_r in Q. exact Q. Qed.

Ltac fin CV SV :=
  try (solve [eauto 3 | lia | congruence | intuition (try discriminate; try congruence) | split; [lia|intuition congruence] | apply CV; auto; intros; congruence
   | apply SV; auto; split; discriminate | apply snoc_nil
   | match goal with G : forall u, _ = Some (Thread u) -> _, H : _ = Some (Thread ?u) |- _ => apply G in H; intuition congruence end
   | match goal with G : forall u, _ = Some u -> _ < _ /\ _ , H : _ = Some ?u |- _ => apply G in H; intuition congruence end]).

Lemma inv_move t c s s' : inv s -> ended s = None -> t < T s -> move t c s = Some s' -> inv s' /\ cur s' = cur s /\ ended s' = None /\ pending s' = pending s /\ past s' = past s.
Proof.
  intros I Hr Ht H. unfold move in H.
  destruct I as [G1 G2 L1 L2 F N ND LT P D C X W DR DN SN].
  assert (G1' : forall u, gil s = Some (Thread u) -> u < T s /\ holds (pcs s u) = true) by (intros; eauto).
  pose proof (G2 t Ht) as G2t. pose proof (L2 t Ht) as L2t. pose proof (fun i => P t i Ht) as Pt. pose proof (fun e => W t e Ht) as Wt.
  pose proof (G1' t) as G1t. pose proof (L1 t) as L1t.
  assert (CV : forall p, (forall i, pcs s t <> Got i) -> done s = false -> forall i, i < next s ->
    In i (begun s) \/ exists u, u < T s /\ upd (pcs s) t p u = Got i).
  { intros p Hp Hd i Hi. destruct (C Hd i Hi) as [?|(u & Hu & Q)]; [left; assumption|right]. exists u. split; [exact Hu|].
    rewrite upd_other; [exact Q|]. intros ->. exact (Hp _ Q). }
  assert (SV : forall p, (forall e, pcs s t <> Raised e /\ pcs s t <> Locked e) -> raised s <> [] ->
    exp s <> None \/ exists u e, u < T s /\ (upd (pcs s) t p u = Raised e \/ upd (pcs s) t p u = Locked e)).
  { intros p Hp Hd. destruct (SN Hd) as [?|(u & e & Hu & Q)]; [left; assumption|right]. exists u, e. split; [exact Hu|].
    rewrite upd_other; [exact Q|]. intros ->. specialize (Hp e). intuition. }
  unfold upd in CV, SV.
  destruct (pcs s t) as [|i|p|k|k|k|e|e| | |] eqn:Ep; cbn [holds locks] in *.
  - destruct (Nat.ltb_spec (next s) (size (cur s))) as [Hn|Hn]; injection H as <-; (split; [|cbn; auto]); constructor; cbn; intros; case_upd; fin CV SV.
    + apply LT in H. lia.
    + injection H0 as <-. split; [lia|]. intros Z. apply LT in Z. lia.
    + destruct (P _ _ H H0). split; [lia|auto].
    + injection H2 as <-. destruct (P _ _ H H1). lia.
    + injection H1 as <-. destruct (P _ _ H0 H2). lia.
    + destruct (Nat.eq_dec i (next s)) as [->|Hi]; [right; exists t; rewrite Nat.eqb_refl; auto|].
      apply CV; auto; try lia. intros; congruence.
  - destruct (done s) eqn:Ed; injection H as <-; (split; [|cbn; auto]); constructor; cbn; intros; case_upd; fin CV SV.
    + destruct (Pt i) as [_ Q]; [reflexivity|]. apply NoDup_snoc; assumption.
    + apply in_snoc in H as [H| ->]; [auto|]. apply Pt. reflexivity.
    + destruct (P _ _ H H0) as [A0 B]. split; [exact A0|]. rewrite in_snoc. intros [Q| ->]; [contradiction|].
      apply n. apply (D t0 t i); auto.
    + destruct (Nat.eq_dec i0 i) as [->|Hi]; [left; apply in_snoc; auto|].
      destruct (C H i0 H0) as [?|(u & Hu & Q)]; [left; apply in_snoc; auto|right]. exists u. split; [exact Hu|].
      destruct (Nat.eqb_spec u t) as [->|]; [congruence|exact Q].
  - destruct p as [|e|k]; injection H as <-; (split; [|cbn; auto]); constructor; cbn; intros; case_upd; fin CV SV.
    + apply in_snoc. auto.
    + apply in_snoc. destruct H0 as [Q|Q]; inversion Q; auto.
    + apply in_snoc. left. eauto.
    + right. exists t, e. rewrite Nat.eqb_refl. auto.
  - destruct (gil s) eqn:Eg; [discriminate H|]; injection H as <-; (split; [|cbn; auto]); constructor; cbn; intros; case_upd; fin CV SV.
    + apply G2 in H0; auto. congruence.
  - destruct c as [v|e|]; injection H as <-; (split; [|cbn; auto]); constructor; cbn; intros; case_upd; fin CV SV.
    + apply G2 in H0; auto. rewrite G2t in H0 by reflexivity. congruence.
    + apply G2 in H0; auto. rewrite G2t in H0 by reflexivity. congruence.
    + apply in_snoc. auto.
    + apply in_snoc. destruct H0 as [Q|Q]; inversion Q; auto.
    + apply in_snoc. left. eauto.
    + right. exists t, e. rewrite Nat.eqb_refl. auto.
    + apply G2 in H0; auto. rewrite G2t in H0 by reflexivity. congruence.
  - destruct (gil s) eqn:Eg; [discriminate H|]; injection H as <-; (split; [|cbn; auto]); constructor; cbn; intros; case_upd; fin CV SV.
    + apply G2 in H0; auto. congruence.
  - destruct (explock s) eqn:Eg; [discriminate H|]; injection H as <-; (split; [|cbn; auto]); constructor; cbn; intros; case_upd; fin CV SV.
    + apply L2 in H0; auto. congruence.
    + destruct H0 as [Q|Q]; inversion Q; subst. apply Wt. auto.
    + right. exists t, e. rewrite Nat.eqb_refl. auto.
  - destruct (exp s) eqn:Eg; injection H as <-; (split; [|cbn; auto]); constructor; cbn; intros; case_upd; fin CV SV.
    + injection H as <-. apply Wt. auto.
    + intros Q. specialize (Wt e (or_intror eq_refl)). rewrite Q in Wt. contradiction.
    + apply L2 in H0; auto. rewrite L2t in H0 by reflexivity. congruence.
    + injection H as <-. apply Wt. auto.
    + intros Q. specialize (Wt e (or_intror eq_refl)). rewrite Q in Wt. contradiction.
  - destruct (gil s) eqn:Eg; [discriminate H|]; injection H as <-; (split; [|cbn; auto]); constructor; cbn; intros; case_upd; fin CV SV.
    + apply G2 in H0; auto. congruence.
  - injection H as <-; (split; [|cbn; auto]); constructor; cbn; intros; case_upd; fin CV SV.
    + apply G2 in H0; auto. rewrite G2t in H0 by reflexivity. congruence.
    + apply L2 in H0; auto. rewrite L2t in H0 by reflexivity. congruence.
  - discriminate H.
Qed.

Lemma none_raised s : inv s -> at_barrier s = true -> exp s = None -> raised s = [].
Proof.
  intros I Hb He. destruct (raised s) as [|e x] eqn:Ex; [reflexivity|exfalso]. destruct (i_seen _ I) as [Q|(t & e' & Ht & Q)]; [rewrite Ex; discriminate|contradiction|].
  rewrite (all_finished _ Hb t Ht) in Q. destruct Q; discriminate.
Qed.

Lemma inv_enter s p x : ended s = None -> inv s -> at_barrier s = true -> cur s <> Ret -> inv (enter s p x).
Proof.
  intros He I Hb Hc. constructor; cbn; intros; try discriminate; try lia; try contradiction; try (constructor).
  all: try solve [destruct H0; discriminate].
  all: pose proof (i_gil1 _ I t H H0) as [Ht Hh]; rewrite (all_finished _ Hb t Ht) in Hh; discriminate.
Qed.

Lemma inv_step a s s' : inv s -> inv2 s -> step a s = Some s' -> inv s' /\ inv2 s'.
Proof.
  intros I J H. unfold step in H. destruct (ended s) as [x|] eqn:He; [discriminate H|].
  destruct a as [t c|a| |].
  - destruct (Nat.ltb_spec t (T s)) as [Ht|]; [|discriminate H].
    destruct (inv_move _ _ _ _ I He Ht H) as (I' & Ec & Ee & Ep & Ea). split; [exact I'|].
    constructor; rewrite ?Ec, ?Ee, ?Ep, ?Ea; try discriminate.
    + apply (j_none _ J).
    + apply (j_some _ J).
    + intros Q. rewrite Q in Ht. cbn in Ht. lia.
  - destruct (cur s) as [|q m n b undo rest] eqn:Ec.
    + destruct (gil s) eqn:Eg; [discriminate H|]. injection H as <-. destruct I as [G1 G2 L1 L2 F N ND LT P D C X W DR DN SN]. rewrite Ec in *.
      split; constructor; cbn; intros; try (solve [eauto 3|congruence|lia]).
      * apply (j_none _ J). exact H.
      * apply (j_some _ J). exact H.
      * apply (j_ret _ J). exact Ec.
      * injection H as <-. auto.
    + destruct (at_barrier s) eqn:Eb; [|discriminate H].
      assert (Hc : cur s <> Ret) by congruence.
      assert (K : forall s1, gil s1 = gil s -> explock s1 = explock s -> cur s1 = cur s -> next s1 = next s -> done s1 = done s -> exp s1 = exp s -> pcs s1 = pcs s ->
                  begun s1 = begun s -> raised s1 = raised s -> (ended s1 = None -> ended s = None) -> inv s1).
      { intros s1 E1 E2 E3 E4 E5 E6 E7 E8 E9 E10. destruct I as [G1 G2 L1 L2 F N ND LT P D C X W DR DN SN].
        constructor; rewrite ?E1, ?E2, ?E3, ?E4, ?E5, ?E6, ?E7, ?E8, ?E9; auto. }
      destruct (exp s) as [e|] eqn:Ex.
      * assert (In e (raised s)) by (apply (i_exp _ I); exact Ex).
        assert (Hne : raised s <> []) by (intros Q; rewrite Q in H0; contradiction).
        assert (Tm : forall s1, s1 = mk_state (gil s) (explock s) (cur s) (next s) (done s) (Some e) (pcs s) (pending s) (Some Terminated) (begun s) (raised s) (past s) ->
                (q = true \/ pending s <> None) -> inv s1 /\ inv2 s1).
        { intros s1 -> Hq. split; [apply K; cbn; auto|]. constructor; cbn; intros; try (solve [congruence]).
          - apply (j_none _ J); assumption.
          - apply (j_some _ J); assumption.
          - rewrite Ec. cbn. auto. }
        rewrite <- Ec in H.
        destruct q; [injection H as <-; apply Tm; auto|].
        destruct (pending s) as [e0|] eqn:Epn; injection H as <-; [apply Tm; auto; right; discriminate|].
        split; [apply inv_enter; auto|]. constructor; cbn; intros; try discriminate; try congruence.
        -- injection H as <-. apply in_or_app. auto.
      * pose proof (none_raised _ I Eb Ex) as Hn. injection H as <-. split; [apply inv_enter; auto|].
        constructor; cbn; intros; try congruence; rewrite Hn, app_nil_r.
        -- apply (j_none _ J). exact H.
        -- apply (j_some _ J). exact H.
  - destruct (gil s) eqn:Eg; [discriminate H|]. injection H as <-. 
    destruct I as [G1 G2 L1 L2 F N ND LT P D C X W DR DN SN]. split; constructor; cbn; intros; try (solve [eauto 3 | congruence]).
    + apply G2 in H0; auto. congruence.
    + apply (j_none _ J H).
    + apply (j_some _ J _ H).
    + apply (j_ret _ J H).
  - destruct (gil s) as [[|]|] eqn:Eg; try discriminate H. injection H as <-. 
    destruct I as [G1 G2 L1 L2 F N ND LT P D C X W DR DN SN]. split; constructor; cbn; intros; try (solve [eauto 3 | congruence]).
    + apply G2 in H0; auto. congruence.
    + apply (j_none _ J H).
    + apply (j_some _ J _ H).
    + apply (j_ret _ J H).
Qed.

Lemma inv_run l : forall s s', inv s -> inv2 s -> run l s = Some s' -> inv s' /\ inv2 s'.
Proof.
  induction l as [|a r IH]; cbn [run]; intros s s' I J H; [injection H as <-; auto|].
  destruct (step a s) as [s1|] eqn:Es; [|discriminate H]. destruct (inv_step _ _ _ I J Es). eauto.
Qed.
Lemma reach p l s : run l (init p) = Some s -> inv s /\ inv2 s.
Proof. intros H. apply (inv_run l _ _ (inv_init p) (inv2_init p) H). Qed.

(** ** Termination *)
Definition calm (p : PC) : PC := match p with Paused k => Running k | _ => p end.
Inductive lower : PC -> PC -> Prop :=
| w1 : lower Finished Idle | w2 i : lower Idle (Got i) | w3 i p : lower (Body p) (Got i)
| w4 : lower Idle (Body End) | w5 e : lower (Raised e) (Body (Fail e)) | w6 k : lower (Want k) (Body (Call k))
| w7 k : lower (Running k) (Want k) | w8 k v : lower (Body (k v)) (Running k) | w9 k e : lower (Raised e) (Running k)
| w10 e : lower (Locked e) (Raised e) | w11 e : lower Idle (Locked e) | w12 e : lower WantDrop (Locked e)
| w13 : lower Drop WantDrop | w14 : lower Idle Drop.
Lemma acc_lower p : Acc lower (calm p).
Proof.
  assert (A0 : Acc lower Finished) by (constructor; intros y H; inversion H).
  assert (A1 : Acc lower Idle) by (constructor; intros y H; inversion H; subst; assumption).
  assert (A2 : Acc lower Drop) by (constructor; intros y H; inversion H; subst; assumption).
  assert (A3 : Acc lower WantDrop) by (constructor; intros y H; inversion H; subst; assumption).
  assert (A4 : forall e, Acc lower (Locked e)) by (intros; constructor; intros y H; inversion H; subst; assumption).
  assert (A5 : forall e, Acc lower (Raised e)) by (intros; constructor; intros y H; inversion H; subst; auto).
  assert (A6 : forall k, (forall v, Acc lower (Body (k v))) -> Acc lower (Running k)).
  { intros k Hk; constructor; intros y H; inversion H; subst; auto. }
  assert (A7 : forall k, (forall v, Acc lower (Body (k v))) -> Acc lower (Want k)).
  { intros k Hk; constructor; intros y H; inversion H; subst; auto. }
  assert (A8 : forall q, Acc lower (Body q)).
  { induction q as [|e|k IH]; constructor; intros y H; inversion H; subst; auto. }
  assert (A9 : forall i, Acc lower (Got i)) by (intros; constructor; intros y H; inversion H; subst; auto).
  destruct p; cbn; auto.
Qed.

Definition one (l' l : list PC) : Prop := exists a x y b, l = a ++ x :: b /\ l' = a ++ y :: b /\ lower y x.
Lemma acc_one l : Forall (Acc lower) l -> Acc one l.
Proof.
  induction 1 as [|x l Hx Hl IH].
  - constructor. intros y (a & u & v & b & H & _). destruct a; discriminate H.
  - clear Hl. revert l IH. induction Hx as [x Hx IHx]. intros l IH. induction IH as [l Hl IHl].
    constructor. intros y (a & u & v & b & H & -> & L). destruct a as [|z a]; cbn in H; injection H as -> ->.
    + cbn. apply IHx; [exact L|]. constructor. exact Hl.
    + cbn. apply IHl. exists a, u, v, b. auto.
Qed.

Inductive sub : option (plan E V A) -> option (plan E V A) -> Prop :=
| s1 p : sub None (Some p)
| s2 q m n b u r : sub (Some u) (Some (Loop q m n b u r))
| s3 q m n b u r a : sub (Some (r a)) (Some (Loop q m n b u r)).
Lemma acc_sub p : Acc sub p.
Proof.
  assert (A0 : Acc sub None) by (constructor; intros y H; inversion H).
  destruct p as [p|]; [|exact A0]. induction p as [|q m n b u IHu r IHr]; constructor; intros y H; inversion H; subst; auto.
Qed.

Definition rank_t : Type := option (plan E V A) * nat * list PC.
Inductive less : rank_t -> rank_t -> Prop :=
| l1 p' p m' m l' l : sub p' p -> less (p', m', l') (p, m, l)
| l2 p m' m l' l : m' < m -> less (p, m', l') (p, m, l)
| l3 p m l' l : one l' l -> less (p, m, l') (p, m, l).
Definition good (r : rank_t) : Prop := Forall (Acc lower) (snd r).
Lemma acc_less : forall r : rank_t, good r -> Acc (fun a b => good a /\ less a b) r.
Proof.
  intros [[p m] l]. revert m l. induction (acc_sub p) as [p _ IHp]. intros m. induction (lt_wf m) as [m _ IHm]. intros l Hg.
  pose proof (acc_one l Hg) as Hl. clear Hg. induction Hl as [l _ IHl]. constructor. intros r [Hg L]. inversion L; subst.
  - apply IHp; assumption.
  - apply IHm; assumption.
  - apply IHl. assumption.
Qed.

Definition rank s : rank_t :=
  (match ended s with None => Some (cur s) | Some _ => None end, size (cur s) - next s, map (fun t => calm (pcs s t)) (seq 0 (T s))).
Lemma rank_good s : good (rank s).
Proof. unfold good, rank. cbn. apply Forall_forall. intros x H. apply in_map_iff in H as (t & <- & _). apply acc_lower. Qed.

Lemma one_upd (f : nat -> PC) m t p : t < m -> lower (calm p) (calm (f t)) ->
  one (map (fun u => calm (upd f t p u)) (seq 0 m)) (map (fun u => calm (f u)) (seq 0 m)).
Proof.
  intros Ht L. replace m with (t + S (m - S t)) by lia. rewrite seq_app. cbn [seq]. rewrite !map_app. cbn [map]. rewrite !Nat.add_0_l.
  exists (map (fun u => calm (f u)) (seq 0 t)), (calm (f t)), (calm p), (map (fun u => calm (f u)) (seq (S t) (m - S t))).
  split; [reflexivity|]. split; [|exact L]. f_equal; [|f_equal].
  - apply map_ext_in. intros u Hu. apply in_seq in Hu. rewrite upd_other by lia. reflexivity.
  - rewrite upd_same. reflexivity.
  - apply map_ext_in. intros u Hu. apply in_seq in Hu. rewrite upd_other by lia. reflexivity.
Qed.
Lemma same_upd (f : nat -> PC) m t p : calm p = calm (f t) ->
  map (fun u => calm (upd f t p u)) (seq 0 m) = map (fun u => calm (f u)) (seq 0 m).
Proof. intros L. apply map_ext. intros u. unfold upd. destruct (Nat.eqb_spec u t); [subst; exact L|reflexivity]. Qed.

Lemma step_rank a s s' : step a s = Some s' -> if works a s then less (rank s') (rank s) else rank s' = rank s.
Proof.
  unfold step. intros H. destruct (ended s) as [x|] eqn:He; [discriminate H|].
  destruct a as [t c|a| |]; cbn [works].
  - destruct (Nat.ltb_spec t (T s)) as [Ht|]; [|discriminate H]. unfold move in H.
    assert (L : forall s1 p, ended s1 = None -> cur s1 = cur s -> next s1 = next s -> pcs s1 = upd (pcs s) t p -> lower (calm p) (calm (pcs s t)) -> less (rank s1) (rank s)).
    { intros s1 p E1 E2 E3 E4 Q. unfold rank. rewrite E1, E2, E3, E4, He. apply l3. apply one_upd; assumption. }
    assert (M : forall s1 p, ended s1 = None -> cur s1 = cur s -> next s1 = next s -> pcs s1 = upd (pcs s) t p -> calm p = calm (pcs s t) -> rank s1 = rank s).
    { intros s1 p E1 E2 E3 E4 Q. unfold rank. rewrite E1, E2, E3, E4, He. f_equal. apply same_upd; assumption. }
    destruct (pcs s t) as [|i|p|k|k|k|e|e| | |] eqn:Ep.
    + destruct (Nat.ltb_spec (next s) (size (cur s))) as [Hn|Hn]; injection H as <-.
      * unfold rank. cbn. rewrite He. apply l2. lia.
      * eapply L; cbn; auto. constructor.
    + destruct (done s); injection H as <-; eapply L; cbn; auto; constructor.
    + destruct p; injection H as <-; eapply L; cbn; auto; constructor.
    + destruct (gil s); [discriminate H|]. injection H as <-. eapply L; cbn; auto; constructor.
    + destruct c; injection H as <-; [eapply L; cbn; auto; constructor..|]. eapply M; cbn; auto.
    + destruct (gil s); [discriminate H|]. injection H as <-. eapply M; cbn; auto.
    + destruct (explock s); [discriminate H|]. injection H as <-. eapply L; cbn; auto; constructor.
    + destruct (exp s); injection H as <-; eapply L; cbn; auto; constructor.
    + destruct (gil s); [discriminate H|]. injection H as <-. eapply L; cbn; auto; constructor.
    + injection H as <-. eapply L; cbn; auto; constructor.
    + discriminate H.
  - destruct (cur s) as [|q m n b u r] eqn:Ec.
    + destruct (gil s); [discriminate H|]. injection H as <-. unfold rank. cbn. rewrite He. apply l1. constructor.
    + destruct (at_barrier s); [|discriminate H]. destruct (exp s).
      * destruct q; [|destruct (pending s)]; injection H as <-; unfold rank; cbn; rewrite ?He, ?Ec; apply l1; constructor.
      * injection H as <-. unfold rank. cbn. rewrite He, Ec. apply l1. constructor.
  - destruct (gil s); [discriminate H|]. injection H as <-. unfold rank. cbn. rewrite He. reflexivity.
  - destruct (gil s) as [[|]|]; try discriminate H. injection H as <-. unfold rank. cbn. rewrite He. reflexivity.
Qed.

Lemma no_endless (p : plan E V A) (h : nat -> action E V A) (w : nat -> state E V A) : endless p h w -> ~ (forall K, exists k, K <= k /\ works (h k) (w k) = true).
Proof.
  intros [_ Hs] Hw.
  assert (Q : forall d K, works (h (K + d)) (w (K + d)) = true -> exists j, works (h j) (w j) = true /\ rank (w j) = rank (w K)).
  { induction d as [|d IH]; intros K Hd.
    - exists K. rewrite Nat.add_0_r in Hd. auto.
    - destruct (works (h K) (w K)) eqn:Ek; [exists K; auto|]. pose proof (step_rank _ _ _ (Hs K)) as R. rewrite Ek in R.
      destruct (IH (S K)) as (j & Hj & Ej); [replace (S K + d) with (K + S d) by lia; exact Hd|]. exists j. split; [exact Hj|]. congruence. }
  assert (Z : forall r, good r -> forall K, rank (w K) = r -> False).
  { intros r Hr. induction (acc_less r Hr) as [r _ IH]. intros K HK. destruct (Hw K) as (k & Hk & Hd).
    destruct (Q (k - K) K) as (j & Hj & Ej); [replace (K + (k - K)) with k by lia; exact Hd|].
    pose proof (step_rank _ _ _ (Hs j)) as R. rewrite Hj in R. rewrite Ej, HK in R.
    apply (IH (rank (w (S j)))) with (K := S j); [split; [apply rank_good|exact R]|apply rank_good|reflexivity]. }
  exact (Z _ (rank_good (w 0)) 0 eq_refl).
Qed.

(** ** Progress *)
Lemma barrier_or s : (exists t, t < T s /\ pcs s t <> Finished) \/ at_barrier s = true.
Proof.
  unfold at_barrier. destruct (forallb _ _) eqn:Ef; [right; reflexivity|left].
  assert (Q : forall l, forallb (fun t => match pcs s t with Finished => true | _ => false end) l = false -> exists t, In t l /\ pcs s t <> Finished).
  { induction l as [|t l IHl]; cbn; intros H; [discriminate|]. destruct (pcs s t) eqn:Ep; cbn in H;
    try (exists t; split; [left; reflexivity|rewrite Ep; discriminate]). destruct (IHl H) as (u & Hu & Hp). exists u. auto. }
  destruct (Q _ Ef) as (t & Ht & Hp). apply in_seq in Ht. exists t. split; [lia|exact Hp].
Qed.

Variables (v : V) (a0 : A).
Lemma benign_gil x s s' : benign v a0 x -> step x s = Some s' -> gil s <> Some Others -> gil s' <> Some Others.
Proof.
  unfold step. intros B H Hg. destruct (ended s); [discriminate H|]. destruct B as [->|[t ->]].
  - destruct (cur s) as [|q m n b u r]; [destruct (gil s); [discriminate H|]; injection H as <-; discriminate|].
    destruct (at_barrier s); [|discriminate H]. destruct (exp s); [destruct q; [|destruct (pending s)]|]; injection H as <-; exact Hg.
  - destruct (Nat.ltb t (T s)); [|discriminate H]. unfold move in H. destruct (pcs s t) as [|i|p|k|k|k|e|e| | |]; try destruct p; repeat match type of H with
        | (if ?b then _ else _) = _ => destruct b | match ?x with Some _ => _ | None => _ end = _ => destruct x end; try discriminate H; injection H as <-; cbn; congruence.
Qed.

Lemma progress s : inv s -> ended s = None -> gil s <> Some Others ->
  exists x s', benign v a0 x /\ step x s = Some s' /\ (works x s = true \/ exists t k, pcs s' t = Running k /\ t < T s').
Proof.
  intros I He Hg. unfold step. rewrite He.
  assert (ST : forall t s1, t < T s -> move t (Return v) s = Some s1 -> (forall k, pcs s t <> Paused k) ->
    exists x s', benign v a0 x /\ match x with Step t c => if Nat.ltb t (T s) then move t c s else None
      | Next a => match cur s with
        | Ret => match gil s with None => Some (mk_state (Some (Thread 0)) (explock s) Ret (next s) (done s) (exp s) (pcs s) (pending s) (Some (Returned (pending s))) (begun s) (raised s) (past s)) | _ => None end
        | Loop q _ _ _ undo rest => if at_barrier s then match exp s with None => Some (enter s (rest a) (pending s))
              | Some e => match q, pending s with false, None => Some (enter s undo (Some e))
                  | _, _ => Some (mk_state (gil s) (explock s) (cur s) (next s) (done s) (exp s) (pcs s) (pending s) (Some Terminated) (begun s) (raised s) (past s)) end end else None end
      | OthersTake => match gil s with None => Some (set_gil s (Some Others)) | _ => None end
      | OthersGive => match gil s with Some Others => Some (set_gil s None) | _ => None end end = Some s' /\
      (works x s = true \/ exists t k, pcs s' t = Running k /\ t < T s')).
  { intros t s1 Ht Hm Hp. exists (Step t (Return v)), s1. split; [right; eauto|]. destruct (Nat.ltb_spec t (T s)); [|lia]. split; [exact Hm|].
    left. cbn. destruct (pcs s t) eqn:Ep; auto. exfalso. eapply Hp. reflexivity. }
  destruct (gil s) as [[u|]|] eqn:Eg; [|contradiction|].
  - destruct (i_gil1 _ I u He Eg) as [Hu Hh]. destruct (pcs s u) as [|i|p|k|k|k|e|e| | |] eqn:Ep; try discriminate Hh.
    + eapply (ST u); [exact Hu| |intros; congruence]. unfold move. rewrite Ep. reflexivity.
    + eapply (ST u); [exact Hu| |intros; congruence]. unfold move. rewrite Ep. reflexivity.
  - destruct (barrier_or s) as [(t & Ht & Hp)|Q].
    + destruct (pcs s t) as [|i|p|k|k|k|e|e| | |] eqn:Ep.
      * destruct (move t (Return v) s) as [s1|] eqn:Em; [apply (ST t s1); auto; intros; congruence|].
        exfalso. unfold move in Em. rewrite Ep in Em. destruct (Nat.ltb _ _); discriminate Em.
      * destruct (move t (Return v) s) as [s1|] eqn:Em; [apply (ST t s1); auto; intros; congruence|].
        exfalso. unfold move in Em. rewrite Ep in Em. destruct (done s); discriminate Em.
      * destruct (move t (Return v) s) as [s1|] eqn:Em; [apply (ST t s1); auto; intros; congruence|].
        exfalso. unfold move in Em. rewrite Ep in Em. destruct p; discriminate Em.
      * destruct (move t (Return v) s) as [s1|] eqn:Em; [apply (ST t s1); auto; intros; congruence|].
        exfalso. unfold move in Em. rewrite Ep, Eg in Em. discriminate Em.
      * destruct (move t (Return v) s) as [s1|] eqn:Em; [apply (ST t s1); auto; intros; congruence|].
        exfalso. unfold move in Em. rewrite Ep in Em. discriminate Em.
      * exists (Step t (Return v)), (go (set_gil s (Some (Thread t))) t (Running k)). split; [right; eauto|].
        destruct (Nat.ltb_spec t (T s)); [|lia]. unfold move. rewrite Ep, Eg. split; [reflexivity|]. right. exists t, k. cbn. rewrite upd_same. auto.
      * destruct (explock s) as [u|] eqn:El.
        -- destruct (i_lock1 _ I u El) as [Hu Hl]. destruct (move u (Return v) s) as [s1|] eqn:Em; [apply (ST u s1); auto; intros k Q; rewrite Q in Hl; discriminate Hl|].
           exfalso. unfold move in Em. destruct (pcs s u); try discriminate Hl; [destruct (exp s)|rewrite Eg in Em|]; discriminate Em.
        -- destruct (move t (Return v) s) as [s1|] eqn:Em; [apply (ST t s1); auto; intros; congruence|].
           exfalso. unfold move in Em. rewrite Ep, El in Em. discriminate Em.
      * destruct (move t (Return v) s) as [s1|] eqn:Em; [apply (ST t s1); auto; intros; congruence|].
        exfalso. unfold move in Em. rewrite Ep in Em. destruct (exp s); discriminate Em.
      * destruct (move t (Return v) s) as [s1|] eqn:Em; [apply (ST t s1); auto; intros; congruence|].
        exfalso. unfold move in Em. rewrite Ep, Eg in Em. discriminate Em.
      * destruct (move t (Return v) s) as [s1|] eqn:Em; [apply (ST t s1); auto; intros; congruence|].
        exfalso. unfold move in Em. rewrite Ep in Em. discriminate Em.
      * contradiction.
    + exists (Next a0). rewrite Q. destruct (cur s) as [|q m n b u r] eqn:Ec; [eexists; split; [left; reflexivity|split; [reflexivity|left; reflexivity]]|].
      destruct (exp s); [destruct q; [|destruct (pending s)]|]; eexists; (split; [left; reflexivity|split; [reflexivity|left; reflexivity]]).
Qed.

Lemma finish s : inv s -> inv2 s -> ended s = None -> gil s <> Some Others ->
  exists l s', Forall (benign v a0) l /\ run l s = Some s' /\ ended s' <> None.
Proof.
  remember (rank s) as r eqn:Er. assert (Hr : good r) by (subst; apply rank_good). revert s Er.
  induction (acc_less r Hr) as [r _ IH]. intros s Er I J He Hg.
  assert (Go : forall x s1, benign v a0 x -> step x s = Some s1 -> works x s = true ->
     exists l s', Forall (benign v a0) l /\ run l s = Some s' /\ ended s' <> None).
  { intros x s1 B Hs Hw. pose proof (step_rank _ _ _ Hs) as R. rewrite Hw in R. destruct (inv_step _ _ _ I J Hs) as [I1 J1].
    destruct (ended s1) as [z|] eqn:Ez.
    - exists [x], s1. split; [auto|]. cbn. rewrite Hs. split; [reflexivity|congruence].
    - destruct (IH (rank s1) ltac:(split; [apply rank_good|subst r; exact R]) (rank_good _) s1 eq_refl I1 J1 Ez (benign_gil _ _ _ B Hs Hg)) as (l & s' & Hl & Hrun & Hend).
      exists (x :: l), s'. split; [constructor; assumption|]. cbn. rewrite Hs. auto. }
  destruct (progress s I He Hg) as (x & s1 & B & Hs & [Hw|(t & k & Hk & Ht)]).
  - exact (Go x s1 B Hs Hw).
  - destruct (works x s) eqn:Hw; [exact (Go x s1 B Hs Hw)|].
    pose proof (step_rank _ _ _ Hs) as R. rewrite Hw in R. destruct (inv_step _ _ _ I J Hs) as [I1 J1].
    destruct (ended s1) as [z|] eqn:Ez.
    { exists [x], s1. split; [auto|]. cbn. rewrite Hs. split; [reflexivity|congruence]. }
    assert (Hs2 : exists s2, step (Step t (Return v)) s1 = Some s2).
    { unfold step. rewrite Ez. destruct (Nat.ltb_spec t (T s1)); [|lia]. unfold move. rewrite Hk. eauto. }
    destruct Hs2 as [s2 Hs2]. pose proof (step_rank _ _ _ Hs2) as R2. cbn [works] in R2. rewrite Hk in R2.
    destruct (inv_step _ _ _ I1 J1 Hs2) as [I2 J2].
    destruct (ended s2) as [z|] eqn:Ez2.
    { exists [x; Step t (Return v)], s2. split; [constructor; [exact B|constructor; [right; eauto|constructor]]|]. cbn [run]. rewrite Hs, Hs2. split; [reflexivity|congruence]. }
    assert (B2 : benign v a0 (Step t (Return v) : action E V A)) by (right; eauto).
    destruct (IH (rank s2) ltac:(split; [apply rank_good|subst r; rewrite <- R; exact R2]) (rank_good _) s2 eq_refl I2 J2 Ez2 (benign_gil _ _ _ B2 Hs2 (benign_gil _ _ _ B Hs Hg))) as (l & s' & Hl & Hrun & Hend).
    exists (x :: Step t (Return v) :: l), s'. split; [constructor; [exact B|constructor; assumption]|]. cbn [run]. rewrite Hs, Hs2. auto.
Qed.
End Proofs.
