(** Proofs about the construction of the acceleration structure. *)
From Coq Require Import Reals ZArith Bool List Arith Lia Lra Permutation.
From Verif Require Import Base RBase VecBase GeoModel GeoSpec GeoProofs BvhModel BvhSpec.
Import ListNotations.
Local Open Scope nat_scope.

Lemma nth_put a b r l i : a <= b -> b <= length l -> length r = b - a ->
  nth_error (put a b r l) i = if (a <=? i) && (i <? b) then nth_error r (i - a) else nth_error l i.
Proof.
  intros A B R. unfold put.
  assert (F : length (firstn a l) = a) by (rewrite firstn_length; lia).
  destruct (Nat.leb_spec a i) as [L|L]; cbn [andb].
  - rewrite nth_error_app2, F by lia. destruct (Nat.ltb_spec i b) as [M|M].
    + rewrite nth_error_app1 by lia. reflexivity.
    + rewrite nth_error_app2 by lia. rewrite R.
      rewrite <- (firstn_skipn b l) at 2. rewrite nth_error_app2 by (rewrite firstn_length; lia).
      rewrite firstn_length, Nat.min_l by lia. f_equal. lia.
  - rewrite nth_error_app1 by lia. rewrite <- (firstn_skipn a l) at 2. rewrite nth_error_app1 by lia. reflexivity.
Qed.

Lemma slice_length a b l : a <= b -> b <= length l -> length (slice a b l) = b - a.
Proof. intros A B. unfold slice. rewrite firstn_length, skipn_length. lia. Qed.

Lemma nth_slice a b l i : a <= b -> b <= length l -> i < b - a -> nth_error (slice a b l) i = nth_error l (a + i).
Proof.
  intros A B I. unfold slice.
  assert (nth_error (skipn a l) i = nth_error l (a + i)) as <-.
  { rewrite <- (firstn_skipn a l) at 2. rewrite nth_error_app2 by (rewrite firstn_length; lia). rewrite firstn_length. f_equal. lia. }
  rewrite <- (firstn_skipn (b - a) (skipn a l)) at 2.
  rewrite nth_error_app1; [reflexivity|]. rewrite firstn_length, skipn_length. lia.
Qed.

Lemma skipn_twice {A} a b : forall l : list A, skipn a (skipn b l) = skipn (b + a) l.
Proof. induction b as [|b IH]; intros l; [reflexivity|]. destruct l as [|x l]; cbn; [destruct a; reflexivity|apply IH]. Qed.

Lemma slice_put l a b : a <= b -> b <= length l -> firstn a l ++ slice a b l ++ skipn b l = l.
Proof.
  intros A B. unfold slice.
  replace (skipn b l) with (skipn (b - a) (skipn a l)) by (rewrite skipn_twice; f_equal; lia).
  rewrite firstn_skipn. apply firstn_skipn.
Qed.

Lemma put_perm a b r l : a <= b -> b <= length l -> Permutation r (slice a b l) -> Permutation (put a b r l) l.
Proof.
  intros A B P. unfold put. rewrite <- (slice_put l a b A B) at 3.
  apply Permutation_app_head, Permutation_app_tail, P.
Qed.

Section Fix.
  Variable trs : list tri.
  Variable sort : nat -> list nat -> list nat.
  Hypothesis sort_perm : forall a l, Permutation (sort a l) l.
  Notation nt := (nt trs).

  (** Changing the order inside [a,b) does not matter to a range that contains or avoids it. *)
  Lemma covers_put idx bx s e a b r : a <= b -> b <= length idx -> Permutation r (slice a b idx) ->
    (s <= a /\ b <= e) \/ e <= a \/ b <= s -> covers trs idx bx s e -> covers trs (put a b r idx) bx s e.
  Proof.
    intros A B P D C i k tr I N T.
    assert (Lr : length r = b - a) by (rewrite (Permutation_length P); apply slice_length; auto).
    rewrite nth_put in N by auto.
    destruct ((a <=? i) && (i <? b)) eqn:E.
    - apply andb_prop in E. destruct E as [E1 E2]. apply Nat.leb_le in E1. apply Nat.ltb_lt in E2.
      assert (In k (slice a b idx)) as K by (eapply Permutation_in; eauto; eapply nth_error_In; eauto).
      apply In_nth_error in K. destruct K as (j & J).
      assert (j < b - a) by (rewrite <- (slice_length a b idx) by auto; apply nth_error_Some; congruence).
      rewrite nth_slice in J by auto.
      eapply (C (a + j)); eauto. lia.
    - eapply C; eauto.
  Qed.

  Lemma boxes_from idx : forall b0, box_le b0 (fold_left (fun b i => merge b (tb (tr trs i))) idx b0).
  Proof.
    induction idx as [|x idx IH]; intros b0; cbn [fold_left]; [apply box_le_refl|].
    eapply box_le_trans; [|apply IH]. apply merge_ub.
  Qed.

  Lemma boxes_in idx : forall b0 i, In i idx -> box_le (tb (tr trs i)) (fold_left (fun b i => merge b (tb (tr trs i))) idx b0).
  Proof.
    induction idx as [|x idx IH]; intros b0 i; cbn [fold_left In]; [tauto|]. intros [->|I]; [|apply IH, I].
    eapply box_le_trans; [|apply boxes_from]. apply merge_ub.
  Qed.

  Lemma covers_boxes idx b0 s e : s <= e -> e <= length idx ->
    covers trs idx (fold_left (fun b i => merge b (tb (tr trs i))) (slice s e idx) b0) s e.
  Proof.
    intros A B i k t I N T.
    replace t with (tr trs k) by (unfold tr; erewrite nth_error_nth; eauto).
    apply boxes_in. eapply (nth_error_In _ (i - s)). rewrite nth_slice by lia. rewrite <- N. f_equal. lia.
  Qed.

  (** ** Choosing the split *)
  Lemma scan_ok area a l acc b best : scan trs area a l acc = (b, best) ->
    (fst acc, snd acc) = (b, best) \/ exists k, best = Some (k, a) /\ 1 <= k < length l.
  Proof.
    unfold scan. destruct acc as [b0 best0]. cbn [fst snd].
    set (g := fun (acc : R * option (nat * nat)) i => match fdiv (cost trs l i) area with
        | Some q => if Rlt_dec (1 + q) (fst acc) then ((1 + q)%R, Some (i, a)) else acc | None => acc end).
    assert (H : forall is acc, (forall i, In i is -> 1 <= i < length l) ->
      fold_left g is acc = acc \/ exists k, snd (fold_left g is acc) = Some (k, a) /\ 1 <= k < length l).
    { induction is as [|i is IH]; intros acc I; cbn [fold_left]; [auto|].
      destruct (IH (g acc i)) as [E|E].
      - intros j J; apply I; right; auto.
      - rewrite E. unfold g. destruct (fdiv _ _); [|auto]. destruct (Rlt_dec _ _); [|auto].
        right. exists i. split; [reflexivity|]. apply I; left; auto.
      - right. exact E. }
    intros E. destruct (H (seq 1 (length l - 1)) (b0, best0)) as [E'|E'].
    - intros i I. apply in_seq in I. lia.
    - left. congruence.
    - right. rewrite E in E'. exact E'.
  Qed.

  Lemma sort_length a l : length (sort a l) = length l.
  Proof. apply Permutation_length, sort_perm. Qed.

  Lemma decide_ok area l : (INR (length l) < Inf)%R ->
    match decide trs sort area l with
    | DLeaf l' => Permutation l' l
    | DSplit k l' => Permutation l' l /\ 1 <= k < length l
    | DUndef => False
    end.
  Proof.
    intros B. unfold decide. destruct (length l <? 2); [reflexivity|].
    set (l0 := sort 0 l). set (l1 := sort 1 l0). set (l2 := sort 2 l1).
    assert (P0 : Permutation l0 l) by apply sort_perm.
    assert (P1 : Permutation l1 l) by (etransitivity; [apply sort_perm|exact P0]).
    assert (P2 : Permutation l2 l) by (etransitivity; [apply sort_perm|exact P1]).
    destruct (scan trs area 0 l0 (Inf, None)) as [b0 x0] eqn:E0. apply scan_ok in E0.
    destruct (scan trs area 1 l1 (b0, x0)) as [b1 x1] eqn:E1. apply scan_ok in E1.
    destruct (scan trs area 2 l2 (b1, x1)) as [b2 x2] eqn:E2. apply scan_ok in E2.
    cbn [fst snd] in *. rewrite (Permutation_length P0) in E0. rewrite (Permutation_length P1) in E1. rewrite (Permutation_length P2) in E2.
    destruct (Rlt_dec (INR (length l)) b2) as [L|L]; [exact P2|].
    destruct x2 as [[k a]|].
    - split; [etransitivity; [apply sort_perm|exact P2]|].
      destruct E2 as [E2|(k2 & E2 & K2)]; [|injection E2 as -> ->; exact K2]. injection E2 as -> ->.
      destruct E1 as [E1|(k1 & E1 & K1)]; [|injection E1 as -> ->; exact K1]. injection E1 as -> ->.
      destruct E0 as [E0|(k0 & E0 & K0)]; [discriminate|injection E0 as -> ->; exact K0].
    - destruct E2 as [E2|(k2 & E2 & K2)]; [|discriminate]. injection E2 as -> ->.
      destruct E1 as [E1|(k1 & E1 & K1)]; [|discriminate]. injection E1 as -> ->.
      destruct E0 as [E0|(k0 & E0 & K0)]; [|discriminate]. injection E0 as <-. lra.
  Qed.

  (** ** Trees under construction: some nodes are still to be worked on *)
  Definition item := (nat * nat * nat)%type.
  Definition size (x : item) : nat := let '(_, a, b) := x in b - a.
  Definition total (l : list item) : nat := list_sum (map size l).

  Inductive ptree (nds : nat -> node) (idx : list nat) : nat -> nat -> nat -> list item -> list nat -> Prop :=
  | p_hole ni s e : s < e -> nds ni = new_node -> ptree nds idx ni s e [(ni, s, e)] [ni]
  | p_leaf ni s e : s < e -> leaf (nds ni) = true -> ns (nds ni) = s -> ne (nds ni) = e -> covers trs idx (nb (nds ni)) s e ->
      ptree nds idx ni s e [] [ni]
  | p_inner ni s m e h1 h2 u1 u2 : leaf (nds ni) = false -> covers trs idx (nb (nds ni)) s e ->
      ptree nds idx (nc1 (nds ni)) s m h1 u1 -> ptree nds idx (nc2 (nds ni)) m e h2 u2 ->
      ptree nds idx ni s e (h1 ++ h2) (ni :: u1 ++ u2).

  Lemma ptree_bounds nds idx ni s e h u : ptree nds idx ni s e h u ->
    s < e /\ length u + 1 <= 2 * (e - s) /\ In ni u
    /\ (forall k a b, In (k, a, b) h -> s <= a /\ a < b /\ b <= e /\ In k u /\ nds k = new_node).
  Proof.
    induction 1 as [ni s e L N|ni s e|ni s m e h1 h2 u1 u2 Lf C T1 IH1 T2 IH2]; cbn [length In].
    - repeat split; try lia; try tauto; match goal with H : _ \/ False |- _ => destruct H as [H|[]]; injection H as <- <- <- end; auto; lia.
    - repeat split; try lia; tauto.
    - rewrite app_length. destruct IH1 as (A1 & B1 & _ & D1), IH2 as (A2 & B2 & _ & D2).
      split; [lia|]. split; [lia|]. split; [auto|].
      intros k a b I. apply in_app_iff in I. destruct I as [I|I]; [apply D1 in I|apply D2 in I].
      + destruct I as (I1 & I2 & I3 & I4 & I5). repeat split; try lia; auto. right. apply in_app_iff; auto.
      + destruct I as (I1 & I2 & I3 & I4 & I5). repeat split; try lia; auto. right. apply in_app_iff; auto.
  Qed.

  (** A part of the tree that the work does not touch. *)
  Lemma ptree_frame nds idx nds' ni s e h u a b r : ptree nds idx ni s e h u ->
    a <= b -> b <= length idx -> Permutation r (slice a b idx) -> e <= a \/ b <= s ->
    (forall j, In j u -> nds' j = nds j) -> ptree nds' (put a b r idx) ni s e h u.
  Proof.
    intros T A B P. induction T as [ni s e L N|ni s e L Lf S E C|ni s m e h1 h2 u1 u2 Lf C T1 IH1 T2 IH2]; intros D J.
    - constructor; auto. rewrite J; [auto|left; auto].
    - assert (E' : nds' ni = nds ni) by (apply J; left; auto).
      constructor; rewrite ?E'; auto. apply covers_put; auto.
    - assert (E' : nds' ni = nds ni) by (apply J; left; auto).
      pose proof (ptree_bounds _ _ _ _ _ _ _ T1) as (L1 & _). pose proof (ptree_bounds _ _ _ _ _ _ _ T2) as (L2 & _).
      apply p_inner with (m := m); rewrite ?E'; auto.
      + apply covers_put; auto.
      + apply IH1; [lia|]. intros j I. apply J. right. apply in_app_iff; auto.
      + apply IH2; [lia|]. intros j I. apply J. right. apply in_app_iff; auto.
  Qed.

  (** Working on one hole. *)
  Lemma ptree_fill nds idx nds' k a b r hk uk : a <= b -> b <= length idx -> Permutation r (slice a b idx) ->
    ptree nds' (put a b r idx) k a b hk (k :: uk) ->
    forall ni s e h u, ptree nds idx ni s e h u -> NoDup u -> In (k, a, b) h ->
      (forall j, In j u -> j <> k -> nds' j = nds j) ->
      exists h0 h' u', Permutation h ((k, a, b) :: h0) /\ Permutation h' (hk ++ h0) /\ Permutation u' (u ++ uk)
        /\ ptree nds' (put a b r idx) ni s e h' u'.
  Proof.
    intros A B P Tk ni s e h u T. induction T as [ni s e L N|ni s e L Lf S E C|ni s m e h1 h2 u1 u2 Lf C T1 IH1 T2 IH2]; intros ND I J.
    - destruct I as [I|[]]. injection I as -> -> ->. exists [], hk, (k :: uk). rewrite app_nil_r. cbn. auto.
    - destruct I.
    - inversion ND as [|? ? N1 N2]; subst.
      assert (ND1 : NoDup u1 /\ NoDup u2 /\ forall x, In x u1 -> ~ In x u2).
      { clear - N2. induction u1 as [|y u1 IH]; cbn in *; [repeat split; auto; constructor|]. inversion N2; subst.
        destruct IH as (A & B & C); auto. rewrite in_app_iff in *. repeat split; auto.
        - constructor; auto.
        - intros x [->|X]; auto. }
      destruct ND1 as (ND1 & ND2 & DJ).
      pose proof (ptree_bounds _ _ _ _ _ _ _ T1) as (L1 & _ & _ & HB1). pose proof (ptree_bounds _ _ _ _ _ _ _ T2) as (L2 & _ & _ & HB2).
      assert (Kin : In k (u1 ++ u2)).
      { apply in_app_iff in I. apply in_app_iff. destruct I as [I|I]; [left; apply HB1 in I|right; apply HB2 in I]; tauto. }
      assert (E' : nds' ni = nds ni) by (apply J; [left; auto|]; intros ->; auto).
      apply in_app_iff in I. destruct I as [I|I].
      + destruct IH1 as (h0 & h' & u' & Q1 & Q2 & Q3 & Q4); auto.
        { intros j Ij. apply J. right. apply in_app_iff; auto. }
        destruct (HB1 _ _ _ I) as (B1 & B2 & B3 & B4 & _).
        exists (h0 ++ h2), (h' ++ h2), (ni :: u' ++ u2). split; [|split; [|split]].
        * rewrite Q1. reflexivity.
        * rewrite Q2. rewrite app_assoc. reflexivity.
        * cbn. constructor. rewrite Q3, <- !app_assoc. apply Permutation_app_head, Permutation_app_comm.
        * apply p_inner with (m := m); rewrite ?E'; auto.
          -- apply covers_put; auto. lia.
          -- apply (ptree_frame nds idx); auto. intros j Ij. apply J; [right; apply in_app_iff; auto|]. intros ->. apply (DJ k); auto.
      + destruct IH2 as (h0 & h' & u' & Q1 & Q2 & Q3 & Q4); auto.
        { intros j Ij. apply J. right. apply in_app_iff; auto. }
        destruct (HB2 _ _ _ I) as (B1 & B2 & B3 & B4 & _).
        exists (h1 ++ h0), (h1 ++ h'), (ni :: u1 ++ u'). split; [|split; [|split]].
        * rewrite Q1. symmetry. apply Permutation_middle.
        * rewrite Q2. rewrite !app_assoc. apply Permutation_app_tail, Permutation_app_comm.
        * cbn. constructor. rewrite Q3, <- !app_assoc. reflexivity.
        * apply p_inner with (m := m); rewrite ?E'; auto.
          -- apply covers_put; auto. lia.
          -- apply (ptree_frame nds idx); auto. intros j Ij. apply J; [right; apply in_app_iff; auto|]. intros ->. apply (DJ k); auto.
  Qed.

  Lemma ptree_tree nds idx ni s e h u : ptree nds idx ni s e h u -> h = [] -> exists d, tree trs nds idx ni s e d u.
  Proof.
    induction 1 as [ni s e L N|ni s e L Lf S E C|ni s m e h1 h2 u1 u2 Lf C T1 IH1 T2 IH2]; intros Hh.
    - discriminate.
    - exists 0. constructor; auto.
    - apply app_eq_nil in Hh. destruct Hh as [-> ->]. destruct IH1 as (d1 & D1); auto. destruct IH2 as (d2 & D2); auto.
      eexists. econstructor; eauto.
  Qed.

  (** ** Threads *)
  Definition in_hand (p : phase) : list item := match p with Got ni a b => [(ni, a, b)] | _ => [] end.
  Definition inflight (T : nat) (th : nat -> phase) : list item := flat_map (fun t => in_hand (th t)) (seq 0 T).

  Lemma seq_split T t : t < T -> exists l1 l2, seq 0 T = l1 ++ t :: l2 /\ ~ In t l1 /\ ~ In t l2.
  Proof.
    intros L. assert (I : In t (seq 0 T)) by (apply in_seq; lia). apply in_split in I. destruct I as (l1 & l2 & E).
    exists l1, l2. split; auto. pose proof (seq_NoDup T 0) as N. rewrite E in N. apply NoDup_remove_2 in N.
    rewrite in_app_iff in N. tauto.
  Qed.

  Lemma flat_map_upd (f : phase -> list item) th t p l : ~ In t l -> flat_map (fun j => f (upd th t p j)) l = flat_map (fun j => f (th j)) l.
  Proof.
    induction l as [|x l IH]; cbn [flat_map In]; auto. intros N. rewrite IH by tauto. unfold upd at 1.
    destruct (Nat.eqb_spec x t); [subst; tauto|reflexivity].
  Qed.

  Lemma inflight_upd T th t : t < T -> exists rest, Permutation (inflight T th) (in_hand (th t) ++ rest)
    /\ forall p, Permutation (inflight T (upd th t p)) (in_hand p ++ rest).
  Proof.
    intros L. destruct (seq_split T t L) as (l1 & l2 & E & N1 & N2).
    exists (flat_map (fun j => in_hand (th j)) l1 ++ flat_map (fun j => in_hand (th j)) l2). unfold inflight.
    assert (H : forall (f : phase -> list item) (A B C : list item), Permutation (A ++ B ++ C) (B ++ A ++ C)).
    { intros _ A B C. rewrite !app_assoc. apply Permutation_app_tail, Permutation_app_comm. }
    split.
    - rewrite E, flat_map_app. cbn [flat_map]. apply H, in_hand.
    - intros p. rewrite E, flat_map_app. cbn [flat_map]. rewrite !flat_map_upd by auto.
      replace (upd th t p t) with p by (unfold upd; rewrite Nat.eqb_refl; auto). apply H, in_hand.
  Qed.

  Lemma total_perm a b : Permutation a b -> total a = total b.
  Proof. unfold total. intros P. apply (Permutation_map size) in P. induction P; unfold list_sum in *; cbn [fold_right] in *; lia. Qed.
  Lemma total_app a b : total (a ++ b) = total a + total b.
  Proof. unfold total. rewrite map_app, list_sum_app. reflexivity. Qed.

  Record Inv (T : nat) (s : state) (holes : list item) (used : list nat) : Prop := mk_inv {
    i_tree : ptree (nodes s) (indices s) 0 0 nt holes used;
    i_holes : Permutation holes (queue s ++ inflight T (threads s));
    i_used : Permutation used (seq 0 (nn s));
    i_idx : Permutation (indices s) (seq 0 nt);
    i_pr : pr s + total holes = nt;
    i_done : done s = true -> holes = [];
    i_last : holes = [] -> done s = true \/ exists t, t < T /\ threads s t = Added;
    i_exit : forall t, t < T -> threads s t = Exited -> done s = true;
    i_awake : 0 < T -> queue s <> [] -> exists t, t < T /\ (threads s t = Idle \/ threads s t = Added \/ exists k a b, threads s t = Got k a b);
    i_fresh : forall k, nn s <= k -> nodes s k = new_node;
    i_ok : crashed s = false }.

  Lemma upd_same {A} (f : nat -> A) k x : upd f k x k = x.
  Proof. unfold upd. rewrite Nat.eqb_refl. auto. Qed.
  Lemma upd_other {A} (f : nat -> A) k x j : j <> k -> upd f k x j = f j.
  Proof. unfold upd. intros N. destruct (Nat.eqb_spec j k); tauto. Qed.

  Lemma init_inv T s : init trs = Ok s -> Inv T s [(0, 0, nt)] [0].
  Proof.
    unfold init. destruct (Nat.eqb_spec nt 0) as [E|E]; [discriminate|]. injection 1 as <-.
    constructor; cbn [nodes indices queue pr nn done threads crashed].
    - constructor; [lia|auto].
    - replace (inflight T (fun _ => Idle)) with (@nil item); [rewrite app_nil_r; reflexivity|].
      unfold inflight. induction (seq 0 T); cbn; auto.
    - reflexivity.
    - reflexivity.
    - unfold total. cbn. lia.
    - discriminate.
    - discriminate.
    - discriminate.
    - intros L _. exists 0. auto.
    - auto.
    - auto.
  Qed.

  Hypothesis small : (INR nt < Inf)%R.

  Lemma total_nil l : (forall k a b, In (k, a, b) l -> a < b) -> total l = 0 -> l = [].
  Proof.
    destruct l as [|[[k a] b] l]; auto. intros H E. specialize (H k a b (or_introl eq_refl)). unfold total in E. cbn in E. lia.
  Qed.

  (** Steps that only move a thread. *)
  Lemma inv_phase T s holes used t p dn : Inv T s holes used -> t < T -> in_hand (threads s t) = [] -> in_hand p = [] ->
    (done s = true -> dn = true) -> (dn = true -> holes = []) ->
    (threads s t = Added -> holes = [] -> dn = true) ->
    (p = Exited -> dn = true) -> (queue s <> [] -> p = Idle) ->
    Inv T (mk_state (nodes s) (indices s) (queue s) (pr s) (nn s) dn (upd (threads s) t p) (crashed s)) holes used.
  Proof.
    intros I L H1 H2 D1 D2 D3 X Q. destruct (inflight_upd T (threads s) t L) as (rest & R1 & R2).
    rewrite H1 in R1. specialize (R2 p). rewrite H2 in R2. cbn [app] in R1, R2.
    destruct I. constructor; cbn [nodes indices queue pr nn done threads crashed]; auto.
    - rewrite i_holes0, R1, R2. reflexivity.
    - intros E. destruct (i_last0 E) as [D|(t' & L' & A)]; [auto|].
      destruct (Nat.eq_dec t' t) as [->|N]; [auto|]. right. exists t'. rewrite upd_other by auto. auto.
    - intros t' L' E. destruct (Nat.eq_dec t' t) as [->|N]; [rewrite upd_same in E; auto|]. rewrite upd_other in E by auto. eauto.
    - intros P N. exists t. rewrite upd_same. auto.
  Qed.

  Lemma inv_take T s holes used t k a b q : Inv T s holes used -> t < T -> in_hand (threads s t) = [] -> threads s t <> Added ->
    queue s = (k, a, b) :: q ->
    Inv T (mk_state (nodes s) (indices s) q (pr s) (nn s) (done s) (upd (threads s) t (Got k a b)) (crashed s)) holes used.
  Proof.
    intros I L H1 NA Q. destruct (inflight_upd T (threads s) t L) as (rest & R1 & R2).
    rewrite H1 in R1. specialize (R2 (Got k a b)). cbn [app in_hand] in R1, R2.
    destruct I. constructor; cbn [nodes indices queue pr nn done threads crashed]; auto.
    - rewrite i_holes0, R1, R2, Q. cbn. apply Permutation_middle.
    - intros E. destruct (i_last0 E) as [D|(t' & L' & A)]; [auto|].
      destruct (Nat.eq_dec t' t) as [->|N]; [tauto|]. right. exists t'. rewrite upd_other by auto. auto.
    - intros t' L' E. destruct (Nat.eq_dec t' t) as [->|N]; [rewrite upd_same in E; discriminate|]. rewrite upd_other in E by auto. eauto.
    - intros P N. exists t. rewrite upd_same. eauto 8.
  Qed.

  Lemma step_inv T s holes used t s' : Inv T s holes used -> t < T -> step trs sort t s = Some s' -> exists holes' used', Inv T s' holes' used'.
  Proof.
    intros I L. unfold step. destruct (threads s t) as [| |ni a b| |] eqn:Ph.
    - destruct (done s) eqn:D.
      + injection 1 as <-. exists holes, used. unfold set_phase. apply inv_phase; auto; rewrite ?Ph; auto; try congruence.
        * intros _. apply I, D.
        * intros Q. exfalso. pose proof (i_done _ _ _ _ I D) as ->. pose proof (i_holes _ _ _ _ I) as P. apply Permutation_nil in P.
          apply app_eq_nil in P. tauto.
      + destruct (queue s) as [|[[k a] b] q] eqn:Q.
        * injection 1 as <-. exists holes, used. unfold set_phase. apply inv_phase; auto; rewrite ?Ph, ?Q; auto; try congruence.
        * injection 1 as <-. exists holes, used. rewrite <- D. apply inv_take; auto; rewrite ?Ph; auto; congruence.
    - destruct (done s) eqn:D.
      + injection 1 as <-. exists holes, used. unfold set_phase. apply inv_phase; auto; rewrite ?Ph; auto; try congruence.
        * intros _. apply I, D.
        * intros Q. exfalso. pose proof (i_done _ _ _ _ I D) as ->. pose proof (i_holes _ _ _ _ I) as P. apply Permutation_nil in P.
          apply app_eq_nil in P. tauto.
      + destruct (queue s) as [|[[k a] b] q] eqn:Q; [discriminate|].
        injection 1 as <-. exists holes, used. rewrite <- D. apply inv_take; auto; rewrite ?Ph; auto; congruence.
    - destruct (inflight_upd T (threads s) t L) as (rest & R1 & R2). rewrite Ph in R1. cbn [in_hand app] in R1.
      destruct I as [Tr Ho Us Ix Pr Dn La Ex Aw Fr Ok].
      assert (Hin : In (ni, a, b) holes).
      { eapply Permutation_in; [symmetry; exact Ho|]. apply in_app_iff. right. eapply Permutation_in; [symmetry; exact R1|]. left; auto. }
      destruct (done s) eqn:D. { rewrite (Dn eq_refl) in Hin. destruct Hin. }
      pose proof (ptree_bounds _ _ _ _ _ _ _ Tr) as (_ & Sz & _ & HB). destruct (HB _ _ _ Hin) as (H1 & H2 & H3 & H4 & H5).
      assert (Nnn : nn s = length used) by (rewrite (Permutation_length Us), seq_length; auto).
      assert (Hni : ni < nn s). { eapply Permutation_in in H4; [|exact Us]. apply in_seq in H4. lia. }
      assert (Hlen : length (indices s) = nt) by (rewrite (Permutation_length Ix), seq_length; auto).
      destruct (Nat.leb_spec (2 * nt - 1) ni) as [B|B]; [lia|].
      set (bx := fold_left _ (slice a b (indices s)) _).
      assert (Lsl : length (slice a b (indices s)) = b - a) by (apply slice_length; lia).
      pose proof (decide_ok (surface_area bx) (slice a b (indices s))) as Dec.
      assert (INR (length (slice a b (indices s))) < Inf)%R as Sm.
      { eapply Rle_lt_trans; [|exact small]. apply le_INR. lia. }
      specialize (Dec Sm).
      assert (ND : NoDup used) by (eapply Permutation_NoDup; [symmetry; exact Us|apply seq_NoDup]).
      assert (Cov : forall r, Permutation r (slice a b (indices s)) -> covers trs (put a b r (indices s)) bx a b).
      { intros r P. apply covers_put; auto; try lia. apply covers_boxes; lia. }
      destruct (decide _ _ _ _) as [l'|k l'|]; [| |tauto]; injection 1 as <-.
      + set (nds' := upd (nodes s) ni _).
        assert (Tk : ptree nds' (put a b l' (indices s)) ni a b [] [ni]).
        { apply p_leaf; auto; unfold nds'; rewrite upd_same; auto. }
        destruct (ptree_fill (nodes s) (indices s) nds' ni a b l' [] [] ltac:(lia) ltac:(lia) Dec Tk 0 0 nt holes used Tr ND Hin) as (h0 & h' & u' & Q1 & Q2 & Q3 & Q4).
        { intros j _ N. unfold nds'. apply upd_other; auto. }
        rewrite app_nil_r in Q3. cbn [app] in Q2.
        assert (Hsub : forall k x y, In (k, x, y) h' -> x < y).
        { intros k x y I'. pose proof (ptree_bounds _ _ _ _ _ _ _ Q4) as (_ & _ & _ & HB'). apply HB' in I'. lia. }
        assert (Tot : total holes = (b - a) + total h0) by (rewrite (total_perm _ _ Q1); reflexivity).
        exists h', u'. constructor; cbn [nodes indices queue pr nn done threads crashed]; auto.
        * rewrite Q2, (R2 Added). cbn [in_hand app]. rewrite Q1, R1 in Ho. apply (Permutation_cons_app_inv (queue s) rest (a := (ni, a, b))). exact Ho.
        * rewrite Q3. auto.
        * rewrite put_perm by (auto; lia). auto.
        * rewrite (total_perm _ _ Q2). lia.
        * congruence.
        * intros _. right. exists t. rewrite upd_same. auto.
        * intros t' L' E. destruct (Nat.eq_dec t' t) as [->|N]; [rewrite upd_same in E; discriminate|]. rewrite upd_other in E by auto. eauto.
        * intros _ _. exists t. rewrite upd_same. auto.
        * intros j J. unfold nds'. rewrite upd_other by lia. apply Fr; lia.
      + destruct Dec as [Dec Hk]. rewrite Lsl in Hk.
        set (nds' := upd (nodes s) ni _).
        assert (Tk : ptree nds' (put a b l' (indices s)) ni a b [(nn s, a, a + k); (nn s + 1, a + k, b)] (ni :: [nn s; nn s + 1])).
        { change [(nn s, a, a + k); (nn s + 1, a + k, b)] with ([(nn s, a, a + k)] ++ [(nn s + 1, a + k, b)]).
          change [nn s; nn s + 1] with ([nn s] ++ [nn s + 1]).
          assert (Ei : nds' ni = mk_node bx (leaf (nodes s ni)) (ns (nodes s ni)) (ne (nodes s ni)) (nn s) (nn s + 1)) by (unfold nds'; rewrite upd_same; auto).
          eapply p_inner with (m := a + k); rewrite ?Ei; cbn [leaf nb nc1 nc2].
          - rewrite H5. reflexivity.
          - auto.
          - apply p_hole; [lia|]. unfold nds'. rewrite upd_other by lia. apply Fr. lia.
          - apply p_hole; [lia|]. unfold nds'. rewrite upd_other by lia. apply Fr. lia. }
        destruct (ptree_fill (nodes s) (indices s) nds' ni a b l' _ _ ltac:(lia) ltac:(lia) Dec Tk 0 0 nt holes used Tr ND Hin) as (h0 & h' & u' & Q1 & Q2 & Q3 & Q4).
        { intros j _ N. unfold nds'. apply upd_other; auto. }
        assert (Tot : total holes = (b - a) + total h0) by (rewrite (total_perm _ _ Q1); reflexivity).
        assert (Tot' : total h' = (b - a) + total h0).
        { rewrite (total_perm _ _ Q2), total_app. unfold total at 1. cbn. lia. }
        exists h', u'. constructor; cbn [nodes indices queue pr nn done threads crashed]; auto.
        * rewrite Q2, (R2 Idle). cbn [in_hand]. rewrite Q1, R1 in Ho. apply Permutation_cons_app_inv in Ho. rewrite Ho.
          rewrite !app_assoc. apply Permutation_app_tail. rewrite app_nil_r. apply Permutation_app_comm.
        * rewrite Q3, Us. replace (nn s + 2) with (nn s + (1 + 1)) by lia. rewrite seq_app. cbn. replace (S (nn s)) with (nn s + 1) by lia. reflexivity.
        * rewrite put_perm by (auto; lia). auto.
        * lia.
        * congruence.
        * intros ->. unfold total in Tot'. cbn in Tot'. lia.
        * intros t' L' E. destruct (Nat.eq_dec t' t) as [->|N]; [rewrite upd_same in E; discriminate|]. rewrite upd_other in E by auto. eauto.
        * intros _ _. exists t. rewrite upd_same. auto.
        * intros j J. unfold nds'. rewrite upd_other by lia. apply Fr; lia.
    - injection 1 as <-. exists holes, used. apply inv_phase; auto; rewrite ?Ph; auto.
      + intros ->. auto.
      + destruct (done s) eqn:D; cbn [orb]; [intros _; apply I, D|]. intros E. apply Nat.eqb_eq in E.
        pose proof (i_pr _ _ _ _ I) as Hpr. apply total_nil; [|lia]. intros k a b Hk. pose proof (ptree_bounds _ _ _ _ _ _ _ (i_tree _ _ _ _ I)) as (_ & _ & _ & HB).
        apply HB in Hk. lia.
      + intros _ ->. pose proof (i_pr _ _ _ _ I) as E. unfold total in E. cbn in E. rewrite Nat.add_0_r in E. rewrite E, Nat.eqb_refl. apply orb_true_r.
      + discriminate.
    - discriminate.
  Qed.

  Lemma reach_inv T l s : reach trs sort T l s -> exists holes used, Inv T s holes used.
  Proof.
    induction 1 as [s E|l s t s' R IH L E].
    - exists [(0, 0, nt)], [0]. apply init_inv, E.
    - destruct IH as (h & u & I). eapply step_inv; eauto.
  Qed.

  (** ** Termination *)
  Definition wt_item (x : item) : nat := 4 + 20 * (2 * size x - 1).
  Definition wt (p : phase) : nat := match p with Idle => 2 | Waiting => 1 | Got k a b => wt_item (k, a, b) | Added => 3 | Exited => 0 end.
  Definition mu (T : nat) (s : state) : nat := list_sum (map wt_item (queue s)) + list_sum (map (fun t => wt (threads s t)) (seq 0 T)).

  Lemma sum_upd T th t : t < T -> exists c, list_sum (map (fun j => wt (th j)) (seq 0 T)) = wt (th t) + c
    /\ forall p, list_sum (map (fun j => wt (upd th t p j)) (seq 0 T)) = wt p + c.
  Proof.
    intros L. destruct (seq_split T t L) as (l1 & l2 & E & N1 & N2).
    exists (list_sum (map (fun j => wt (th j)) l1) + list_sum (map (fun j => wt (th j)) l2)).
    assert (H : forall p l, ~ In t l -> map (fun j => wt (upd th t p j)) l = map (fun j => wt (th j)) l).
    { intros p l N. apply map_ext_in. intros j J. rewrite upd_other; auto. intros ->; auto. }
    rewrite E. split; [|intros p]; rewrite map_app, list_sum_app; cbn [map list_sum fold_right]; rewrite ?H, ?upd_same by auto;
      unfold list_sum; cbn [fold_right]; lia.
  Qed.

  Lemma step_mu T s holes used t s' : Inv T s holes used -> t < T -> step trs sort t s = Some s' -> mu T s' < mu T s.
  Proof.
    intros I L. destruct (sum_upd T (threads s) t L) as (c & S1 & S2). unfold step, mu.
    destruct (threads s t) as [| |ni a b| |] eqn:Ph; rewrite S1.
    - destruct (done s).
      + injection 1 as <-. cbn [set_phase queue threads]. rewrite S2. cbn [wt]. lia.
      + destruct (queue s) as [|[[k a] b] q] eqn:Q; injection 1 as <-; cbn [set_phase queue threads]; rewrite S2, ?Q; unfold list_sum; cbn [wt map fold_right]; lia.
    - destruct (done s).
      + injection 1 as <-. cbn [set_phase queue threads]. rewrite S2. cbn [wt]. lia.
      + destruct (queue s) as [|[[k a] b] q] eqn:Q; [discriminate|]; injection 1 as <-; cbn [set_phase queue threads]; rewrite S2; unfold list_sum; cbn [wt map fold_right]; lia.
    - destruct (inflight_upd T (threads s) t L) as (rest & R1 & R2). rewrite Ph in R1. cbn [in_hand app] in R1.
      destruct I as [Tr Ho Us Ix Pr Dn La Ex Aw Fr Ok].
      assert (Hin : In (ni, a, b) holes).
      { eapply Permutation_in; [symmetry; exact Ho|]. apply in_app_iff. right. eapply Permutation_in; [symmetry; exact R1|]. left; auto. }
      destruct (done s) eqn:D. { rewrite (Dn eq_refl) in Hin. destruct Hin. }
      pose proof (ptree_bounds _ _ _ _ _ _ _ Tr) as (_ & Sz & _ & HB). destruct (HB _ _ _ Hin) as (H1 & H2 & H3 & H4 & H5).
      assert (Nnn : nn s = length used) by (rewrite (Permutation_length Us), seq_length; auto).
      assert (Hni : ni < nn s). { eapply Permutation_in in H4; [|exact Us]. apply in_seq in H4. lia. }
      assert (Hlen : length (indices s) = nt) by (rewrite (Permutation_length Ix), seq_length; auto).
      destruct (Nat.leb_spec (2 * nt - 1) ni) as [B|B]; [lia|].
      set (bx := fold_left _ (slice a b (indices s)) _).
      assert (Lsl : length (slice a b (indices s)) = b - a) by (apply slice_length; lia).
      pose proof (decide_ok (surface_area bx) (slice a b (indices s))) as Dec.
      assert (INR (length (slice a b (indices s))) < Inf)%R as Sm.
      { eapply Rle_lt_trans; [|exact small]. apply le_INR. lia. }
      specialize (Dec Sm).
      destruct (decide _ _ _ _) as [l'|k l'|]; [| |tauto]; injection 1 as <-; cbn [queue threads]; rewrite S2; cbn [wt].
      + unfold wt_item. lia.
      + destruct Dec as [Dec Hk]. rewrite Lsl in Hk. rewrite map_app, list_sum_app. unfold list_sum. cbn [map fold_right wt_item size]. unfold wt_item. cbn [size]. set (Q := fold_right _ _ _). clearbody Q. clear - Hk H2. lia.
    - injection 1 as <-. cbn [queue threads]. rewrite S2. cbn [wt]. lia.
    - discriminate.
  Qed.

  Lemma init_mu T s : init trs = Ok s -> mu T s <= 40 * nt + 2 * T.
  Proof.
    unfold init. destruct (Nat.eqb_spec nt 0) as [E|E]; [discriminate|]. injection 1 as <-. unfold mu. cbn [queue threads map list_sum].
    assert (H : forall l : list nat, list_sum (map (fun _ => wt Idle) l) = 2 * length l) by (unfold list_sum; induction l as [|x l IHl]; cbn [map fold_right length wt] in *; lia).
    rewrite H, seq_length. unfold list_sum. cbn [fold_right]. unfold wt_item. cbn [size]. lia.
  Qed.

  Lemma reach_mu T l s : reach trs sort T l s -> length l + mu T s <= 40 * nt + 2 * T.
  Proof.
    induction 1 as [s E|l s t s' R IH L E].
    - cbn. apply init_mu, E.
    - destruct (reach_inv _ _ _ R) as (h & u & I). pose proof (step_mu _ _ _ _ _ _ I L E). rewrite app_length. cbn. lia.
  Qed.

  (** Some thread that is not waiting for a wake-up can go on. *)
  Lemma progress T l s : reach trs sort T l s -> ~ finished T s ->
    exists t s', t < T /\ (threads s t = Waiting -> done s = true) /\ step trs sort t s = Some s'.
  Proof.
    intros R NF. destruct (reach_inv _ _ _ R) as (h & u & I).
    assert (NE : exists t, t < T /\ threads s t <> Exited).
    { unfold finished in NF. assert (D : forall n, n <= T -> (forall t, t < n -> threads s t = Exited) \/ exists t, t < T /\ threads s t <> Exited).
      { induction n as [|n IH]; intros Ln; [left; lia|]. destruct IH as [IH|IH]; [lia| |auto].
        destruct (threads s n) eqn:E; try (right; exists n; rewrite E; split; [lia|discriminate]).
        left. intros t Lt. destruct (Nat.eq_dec t n) as [->|N]; auto. apply IH. lia. }
      destruct (D T ltac:(lia)) as [D'|D']; [tauto|auto]. }
    destruct NE as (t & Lt & Nt).
    assert (Go : forall t, t < T -> (threads s t = Idle \/ threads s t = Added \/ exists k a b, threads s t = Got k a b) -> exists t s', t < T /\ (threads s t = Waiting -> done s = true) /\ step trs sort t s = Some s').
    { intros t' L' [E|[E|(k & a & b & E)]].
      - destruct (step trs sort t' s) as [s'|] eqn:St; [exists t', s'; repeat split; auto; congruence|]. unfold step in St. rewrite E in St.
        destruct (done s); [discriminate|]. destruct (queue s) as [|[[? ?] ?] ?]; discriminate.
      - destruct (step trs sort t' s) as [s'|] eqn:St; [exists t', s'; repeat split; auto; congruence|]. unfold step in St. rewrite E in St. discriminate.
      - destruct (step trs sort t' s) as [s'|] eqn:St; [exists t', s'; repeat split; auto; congruence|]. unfold step in St. rewrite E in St.
        destruct (done s); [discriminate|]. destruct (_ <=? _); [discriminate|]. cbv zeta in St. destruct (decide _ _ _ _); discriminate. }
    destruct (done s) eqn:D.
    - destruct (threads s t) as [| |k a b| |] eqn:E; try solve [apply (Go t Lt); rewrite E; eauto 7]; [|tauto].
      destruct (step trs sort t s) as [s'|] eqn:St; [exists t, s'; auto|]. unfold step in St. rewrite E, D in St. discriminate.
    - destruct h as [|[[k a] b] h].
      + destruct (i_last _ _ _ _ I eq_refl) as [D'|(t' & L' & A)]; [congruence|]. apply (Go t' L'). auto.
      + assert (In (k, a, b) (queue s ++ inflight T (threads s))) as Hin by (eapply Permutation_in; [apply (i_holes _ _ _ _ I)|left; auto]).
        apply in_app_iff in Hin. destruct Hin as [Hin|Hin].
        * destruct (i_awake _ _ _ _ I ltac:(lia)) as (t' & L' & A); [intros Q; rewrite Q in Hin; destruct Hin|]. apply (Go t' L' A).
        * unfold inflight in Hin. apply in_flat_map in Hin. destruct Hin as (t' & It & Ht). apply in_seq in It.
          destruct (threads s t') as [| |k' a' b'| |] eqn:E; cbn in Ht; try tauto. apply (Go t'); [lia|]. rewrite E. eauto 7.
  Qed.

  Lemma built T l s : reach trs sort T l s -> 0 < T -> finished T s ->
    Permutation (indices s) (seq 0 nt) /\ exists d used, tree trs (nodes s) (indices s) 0 0 nt d used /\ NoDup used /\ forall k, In k used -> k < 2 * nt - 1.
  Proof.
    intros R P F. destruct (reach_inv _ _ _ R) as (h & u & I). pose proof (i_exit _ _ _ _ I 0 P (F 0 P)) as D.
    pose proof (i_done _ _ _ _ I D) as ->. split; [apply I|].
    destruct (ptree_tree _ _ _ _ _ _ _ (i_tree _ _ _ _ I) eq_refl) as (d & Tr). exists d, u. split; [exact Tr|].
    pose proof (i_used _ _ _ _ I) as Us. split; [eapply Permutation_NoDup; [symmetry; exact Us|apply seq_NoDup]|].
    intros k K. eapply Permutation_in in K; [|exact Us]. apply in_seq in K.
    pose proof (ptree_bounds _ _ _ _ _ _ _ (i_tree _ _ _ _ I)) as (_ & Sz & _). rewrite (Permutation_length Us), seq_length in Sz. lia.
  Qed.

  (** Each position is in exactly one leaf. *)
  Lemma tree_bounds nds idx ni s e d u : tree trs nds idx ni s e d u -> s < e /\ In ni u /\
    (forall k, In k u -> leaf (nds k) = true -> s <= ns (nds k) /\ ne (nds k) <= e).
  Proof.
    induction 1 as [ni s e L Lf S E C|ni s m e d1 d2 u1 u2 Lf C T1 IH1 T2 IH2].
    - split; [exact L|]. split; [left; auto|]. intros k [<-|[]] _. lia.
    - destruct IH1 as (A1 & _ & B1), IH2 as (A2 & _ & B2). split; [lia|]. split; [left; auto|].
      intros k [<-|K] Lk; [congruence|]. apply in_app_iff in K. destruct K as [K|K]; [destruct (B1 k K Lk)|destruct (B2 k K Lk)]; lia.
  Qed.

  Lemma tree_once nds idx ni s e d u : tree trs nds idx ni s e d u -> NoDup u -> forall i, s <= i < e ->
    exists k, In k u /\ leaf (nds k) = true /\ ns (nds k) <= i < ne (nds k)
      /\ forall k', In k' u -> leaf (nds k') = true -> ns (nds k') <= i < ne (nds k') -> k' = k.
  Proof.
    induction 1 as [ni s e L Lf S E C|ni s m e d1 d2 u1 u2 Lf C T1 IH1 T2 IH2]; intros ND i Hi.
    - exists ni. cbn. repeat split; auto; try lia.
    - inversion ND as [|? ? N1 N2]; subst.
      assert (ND1 : NoDup u1 /\ NoDup u2).
      { clear - N2. induction u1 as [|y u1 IH]; cbn in *; [split; auto; constructor|]. inversion N2; subst.
        destruct IH as (A & B); auto. rewrite in_app_iff in *. split; auto. constructor; auto. }
      destruct ND1 as [ND1 ND2]. pose proof (tree_bounds _ _ _ _ _ _ _ T1) as (_ & _ & B1). pose proof (tree_bounds _ _ _ _ _ _ _ T2) as (_ & _ & B2).
      destruct (le_lt_dec m i) as [M|M].
      + destruct (IH2 ND2 i) as (k & K1 & K2 & K3 & K4); [lia|]. exists k. split; [right; apply in_app_iff; auto|]. split; [auto|]. split; [auto|].
        intros k' [<-|K'] Lk Rk; [congruence|]. apply in_app_iff in K'. destruct K' as [K'|K']; [destruct (B1 _ K' Lk); lia|]. apply K4; auto.
      + destruct (IH1 ND1 i) as (k & K1 & K2 & K3 & K4); [lia|]. exists k. split; [right; apply in_app_iff; auto|]. split; [auto|]. split; [auto|].
        intros k' [<-|K'] Lk Rk; [congruence|]. apply in_app_iff in K'. destruct K' as [K'|K']; [|destruct (B2 _ K' Lk); lia]. apply K4; auto.
  Qed.
End Fix.
