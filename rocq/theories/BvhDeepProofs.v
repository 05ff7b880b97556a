(** A scene whose hierarchy is deeper than the stack of the query: nested boxes, each a twentieth of
    the size of the one before. *)
From Coq Require Import Reals ZArith Bool List Arith Lia Lra Permutation Sorted.
From Verif Require Import Base RBase VecBase GeoModel GeoSpec GeoProofs BvhModel BvhSpec BvhProofs BvhQueryProofs.
Import ListNotations.
Local Open Scope nat_scope.

(** Extent of the k-th box of n, and the triangle that has it. *)
Definition ext (n k : nat) : R := (20 ^ (n - 1 - k))%R.
Definition nested (x : R) : tri := new_tri (V3 0 0 0) (V3 (- x) (- x) 0) (V3 0 0 (- x)) 0 0.
Definition deep (n : nat) : list tri := map (fun k => nested (ext n k)) (seq 0 n).
Definition cube (x : R) : bound := mk_bound (V3 (- x) (- x) (- x)) (V3 0 0 0).

Lemma ext_ge1 n k : (1 <= ext n k)%R.
Proof. unfold ext. apply pow_R1_Rle. lra. Qed.
Lemma ext_next n k : k + 1 < n -> ext n k = (20 * ext n (k + 1))%R.
Proof. intros L. unfold ext. replace (n - 1 - k) with (S (n - 1 - (k + 1))) by lia. reflexivity. Qed.
Lemma ext_mono n k j : k <= j -> (ext n j <= ext n k)%R.
Proof. intros L. unfold ext. apply Rle_pow; [lra|lia]. Qed.
Lemma ext_strict n k j : k < j < n -> (ext n j < ext n k)%R.
Proof. intros L. unfold ext. apply Rlt_pow; [lra|lia]. Qed.

Ltac rmm := repeat match goal with
  | |- context [Rmin ?a ?b] => first [rewrite (Rmin_left a b) by lra | rewrite (Rmin_right a b) by lra]
  | |- context [Rmax ?a ?b] => first [rewrite (Rmax_left a b) by lra | rewrite (Rmax_right a b) by lra] end.

Lemma nested_box x : (1 <= x)%R -> tb (nested x) = cube x.
Proof.
  intros L. unfold nested, new_tri, cube, merge_point, vmin, vmax, new_bound, Inf. cbn [tb bmin bmax vx vy vz].
  rmm. reflexivity.
Qed.

Lemma nested_center x a : (1 <= x)%R -> comp (tc (nested x)) a = (- x / 2)%R.
Proof.
  intros L. unfold nested, new_tri. cbn [tc]. pose proof (nested_box x L) as E. unfold nested, new_tri in E. cbn [tb] in E. rewrite E.
  unfold center, cube, vscale, vadd, comp. cbn [bmin bmax vx vy vz]. destruct a as [|[|a]]; cbn; field.
Qed.

Lemma cube_area x : surface_area (cube x) = (6 * x * x)%R.
Proof. unfold surface_area, cube, vsub. cbn. ring. Qed.

Lemma cube_le x y : (x <= y)%R -> box_le (cube x) (cube y).
Proof. intros L. unfold box_le, vle, cube. cbn. lra. Qed.
Lemma new_le x : (1 <= x)%R -> box_le new_bound (cube x).
Proof. intros L. unfold box_le, vle, cube, new_bound, Inf. cbn. lra. Qed.

Lemma merge_cube b x : box_le b (cube x) -> merge b (cube x) = cube x /\ merge (cube x) b = cube x.
Proof.
  intros ((A1 & A2 & A3) & (B1 & B2 & B3)). unfold merge, cube, vmin, vmax in *. cbn [bmin bmax vx vy vz] in *. split; rmm; reflexivity.
Qed.

Lemma div_mul x a : a <> 0%R -> (x / a * a = x)%R.
Proof. intros. field. auto. Qed.

Section Deep.
  Variable n : nat.
  Notation trs := (deep n).
  Variable sort : nat -> list nat -> list nat.
  Hypothesis sort_ok : sorts (deep n) sort.
  Hypothesis size_n : 3 <= n <= 401.

  Lemma deep_length : length trs = n.
  Proof. unfold deep. rewrite map_length, seq_length. reflexivity. Qed.
  Lemma deep_nth k : k < n -> nth_error trs k = Some (nested (ext n k)).
  Proof. intros L. unfold deep. rewrite nth_error_map. rewrite (nth_error_nth' _ 0) by (rewrite seq_length; auto). rewrite seq_nth by auto. reflexivity. Qed.
  Lemma deep_tr k : k < n -> tr trs k = nested (ext n k).
  Proof. intros L. unfold tr. apply nth_error_nth, deep_nth, L. Qed.
  Lemma deep_box k : k < n -> tb (tr trs k) = cube (ext n k).
  Proof. intros L. rewrite deep_tr by auto. apply nested_box, ext_ge1. Qed.

  Lemma boxes_le l k : (forall j, In j l -> k <= j < n) -> box_le (boxes trs l) (cube (ext n k)).
  Proof.
    intros H. unfold boxes. assert (G : forall b, box_le b (cube (ext n k)) -> box_le (fold_left (fun b i => merge b (tb (tr trs i))) l b) (cube (ext n k))).
    { revert H. induction l as [|j l IH]; intros H b B; cbn [fold_left]; auto. apply IH; [intros; apply H; right; auto|].
      apply merge_lub; auto. destruct (H j (or_introl eq_refl)). rewrite deep_box by auto. apply cube_le, ext_mono. lia. }
    apply G, new_le, ext_ge1.
  Qed.

  Lemma fold_front k l b : (forall j, In j l -> k <= j < n) -> k < n -> box_le b (cube (ext n k)) ->
    fold_left (fun b i => merge b (tb (tr trs i))) (k :: l) b = cube (ext n k).
  Proof.
    intros H L B. cbn [fold_left]. rewrite deep_box by auto. destruct (merge_cube b (ext n k)) as [-> _]; auto.
    revert H. induction l as [|j l IH]; intros H; cbn [fold_left]; auto.
    destruct (H j (or_introl eq_refl)). rewrite deep_box by auto. destruct (merge_cube (cube (ext n j)) (ext n k)) as [_ ->].
    - apply cube_le, ext_mono. lia.
    - apply IH. intros; apply H; right; auto.
  Qed.

  Lemma boxes_front k l : (forall j, In j l -> k <= j < n) -> k < n -> boxes trs (k :: l) = cube (ext n k).
  Proof. intros. apply fold_front; auto. apply new_le, ext_ge1. Qed.

  Lemma boxes_back k l : (forall j, In j l -> k <= j < n) -> k < n -> boxes trs (l ++ [k]) = cube (ext n k).
  Proof.
    intros H L. unfold boxes. rewrite fold_left_app. cbn [fold_left]. rewrite deep_box by auto.
    apply merge_cube. apply boxes_le, H.
  Qed.

  Lemma firstn_seq k m i : i <= m -> firstn i (seq k m) = seq k i.
  Proof. intros L. replace m with (i + (m - i)) by lia. rewrite seq_app, firstn_app, seq_length, Nat.sub_diag, firstn_O, app_nil_r. rewrite <- (seq_length i k) at 1. apply firstn_all. Qed.
  Lemma skipn_seq k m i : i <= m -> skipn i (seq k m) = seq (k + i) (m - i).
  Proof. intros L. replace m with (i + (m - i)) at 1 by lia. rewrite seq_app, skipn_app, seq_length, Nat.sub_diag. rewrite skipn_all2 by (rewrite seq_length; lia). reflexivity. Qed.

  Lemma cost_deep k m i : 1 <= i < m -> k + m <= n ->
    cost trs (seq k m) i = (6 * ext n k * ext n k * INR i + 6 * ext n (k + i) * ext n (k + i) * INR (m - i))%R.
  Proof.
    intros I L. unfold cost. rewrite seq_length, firstn_seq, skipn_seq by lia.
    replace (seq k i) with (k :: seq (S k) (i - 1)) by (destruct i; [lia|]; cbn; rewrite Nat.sub_0_r; auto).
    replace (seq (k + i) (m - i)) with ((k + i) :: seq (S (k + i)) (m - i - 1)) by (destruct (m - i) eqn:E; [lia|]; cbn; rewrite Nat.sub_0_r; auto).
    cbn [rev]. rewrite boxes_front, boxes_back; try lia.
    - rewrite !cube_area. reflexivity.
    - intros j J. apply in_rev, in_seq in J. lia.
    - intros j J. apply in_seq in J. lia.
  Qed.

  Lemma fdiv_deep k m i : 1 <= i < m -> k + m <= n ->
    exists q, fdiv (cost trs (seq k m) i) (6 * ext n k * ext n k) = Some q /\ (INR i <= q)%R /\ (i = 1 -> q = (1 + INR (m - 1) / 400)%R).
  Proof.
    intros I L. pose proof (ext_ge1 n k) as E1. pose proof (ext_ge1 n (k + i)) as E2.
    assert (P : (0 < 6 * ext n k * ext n k)%R) by (apply Rmult_lt_0_compat; lra).
    rewrite cost_deep by auto. rewrite fdiv_ok by lra. eexists. split; [reflexivity|]. split.
    - apply (Rmult_le_reg_r (6 * ext n k * ext n k)); [auto|]. rewrite (div_mul _ (6 * ext n k * ext n k)) by lra.
      assert (0 <= 6 * ext n (k + i) * ext n (k + i) * INR (m - i))%R. { apply Rmult_le_pos; [apply Rmult_le_pos; lra|apply pos_INR]. } lra.
    - intros ->. rewrite (ext_next n k) by lia. cbn [INR]. field. pose proof (ext_ge1 n (k + 1)). lra.
  Qed.

  Lemma scan_rest k m (a : nat) is (acc : R * option (nat * nat)) : k + m <= n -> (forall i, In i is -> 1 <= i < m) -> (forall i, In i is -> i = 1 -> (fst acc <= 2 + INR (m - 1) / 400)%R) -> (fst acc <= 3)%R ->
    fold_left (fun acc i => match fdiv (cost trs (seq k m) i) (6 * ext n k * ext n k) with
        | Some q => if Rlt_dec (1 + q) (fst acc) then ((1 + q)%R, Some (i, a)) else acc | None => acc end) is acc = acc.
  Proof.
    intros L. induction is as [|i is IH]; intros I I1 B; cbn [fold_left]; auto.
    destruct (fdiv_deep k m i) as (q & -> & Q1 & Q2); [apply I; left; auto|auto|].
    destruct (Rlt_dec (1 + q) (fst acc)) as [X|X].
    - exfalso. destruct (Nat.eq_dec i 1) as [->|N].
      + specialize (I1 1 (or_introl eq_refl) eq_refl). rewrite Q2 in X by auto. lra.
      + pose proof (I i (or_introl eq_refl)). assert (2 <= INR i)%R by (change 2%R with (INR 2); apply le_INR; lia). lra.
    - apply IH; auto; intros; [apply I; right; auto|apply (I1 i0); auto; right; auto].
  Qed.

  Lemma small_m m : 1 <= m <= 401 -> (0 <= INR (m - 1) / 400 <= 1)%R.
  Proof.
    intros L. assert (INR (m - 1) <= 400)%R. { replace 400%R with (INR 400) by (cbn; lra). apply le_INR. lia. }
    pose proof (pos_INR (m - 1)). lra.
  Qed.

  Lemma seq_sorted_unique key l : forall k m, (forall i j, k <= i < k + m -> k <= j < k + m -> (key i <= key j)%R -> i <= j) ->
    Permutation l (seq k m) -> sorted_by key l -> l = seq k m.
  Proof.
    induction l as [|x l IH]; intros k m K P So.
    - apply Permutation_nil in P. auto.
    - destruct m as [|m]; [apply Permutation_sym, Permutation_nil in P; discriminate|].
      inversion So as [|? ? S1 S2]; subst. rewrite Forall_forall in S2.
      assert (x = k).
      { assert (X : In x (seq k (S m))) by (eapply Permutation_in; eauto; left; auto). apply in_seq in X.
        assert (Y : In k (x :: l)) by (eapply Permutation_in; [symmetry; eauto|]; left; auto).
        destruct Y as [->|Y]; auto. specialize (S2 _ Y). apply K in S2; lia. }
      subst x. cbn [seq] in *. f_equal. apply IH; auto; [|apply Permutation_cons_inv in P; exact P].
      intros i j Hi Hj. apply K; lia.
  Qed.

  Lemma sort_id a k m : k + m <= n -> sort a (seq k m) = seq k m.
  Proof.
    intros L. destruct (sort_ok a (seq k m)) as [P S]. apply (seq_sorted_unique _ _ _ _) with (2 := P) (3 := S).
    intros i j Hi Hj C.
    change (nth i trs dummy_tri) with (tr trs i) in C. change (nth j trs dummy_tri) with (tr trs j) in C.
    rewrite !deep_tr, !nested_center in C by (lia || apply ext_ge1).
    destruct (le_lt_dec i j) as [|N]; auto. exfalso. pose proof (ext_strict n j i ltac:(lia)). lra.
  Qed.

  Lemma decide_deep k m : 2 <= m -> k + m <= n ->
    decide trs sort (6 * ext n k * ext n k) (seq k m) = if m =? 2 then DLeaf (seq k m) else DSplit 1 (seq k m).
  Proof.
    intros M L. unfold decide. rewrite seq_length. destruct (Nat.ltb_spec m 2) as [|_]; [lia|].
    rewrite !sort_id by auto.
    pose proof (small_m m ltac:(lia)) as Sm.
    assert (E0 : scan trs (6 * ext n k * ext n k) 0 (seq k m) (Inf, None) = ((2 + INR (m - 1) / 400)%R, Some (1, 0))).
    { unfold scan. rewrite seq_length. replace (m - 1) with (S (m - 2)) at 1 by lia. cbn [seq fold_left].
      destruct (fdiv_deep k m 1) as (q & -> & Q1 & Q2); [lia|auto|]. rewrite (Q2 eq_refl).
      destruct (Rlt_dec _ _) as [X|X]; [|exfalso; apply X; unfold Inf; cbn [fst]; lra].
      rewrite scan_rest; auto.
      - f_equal. ring.
      - intros i I. apply in_seq in I. lia.
      - intros i I ->. apply in_seq in I. lia.
      - cbn [fst]. lra. }
    assert (E1 : forall a, scan trs (6 * ext n k * ext n k) a (seq k m) ((2 + INR (m - 1) / 400)%R, Some (1, 0)) = ((2 + INR (m - 1) / 400)%R, Some (1, 0))).
    { intros a. unfold scan. rewrite seq_length. apply scan_rest; auto.
      - intros i I. apply in_seq in I. lia.
      - intros _ _ _. cbn [fst]. lra.
      - cbn [fst]. lra. }
    rewrite E0, !E1. destruct (Nat.eqb_spec m 2) as [->|N].
    - destruct (Rlt_dec _ _) as [X|X]; auto. exfalso. apply X. cbn. lra.
    - destruct (Rlt_dec _ _) as [X|X]; [|rewrite sort_id by auto; reflexivity]. exfalso. assert (3 <= INR m)%R by (replace 3%R with (INR 3) by (cbn; lra); apply le_INR; lia). lra.
  Qed.

  Lemma slice_seq a b : a <= b <= n -> slice a b (seq 0 n) = seq a (b - a).
  Proof. intros L. unfold slice. rewrite skipn_seq, firstn_seq by lia. reflexivity. Qed.
  Lemma put_seq a b : a <= b <= n -> put a b (seq a (b - a)) (seq 0 n) = seq 0 n.
  Proof.
    intros L. unfold put. rewrite firstn_seq, skipn_seq by lia.
    transitivity (seq 0 (a + ((b - a) + (n - b)))); [|f_equal; lia]. rewrite !seq_app. do 2 f_equal. f_equal. lia.
  Qed.

  (** After j splits by the only thread. *)
  Record P (j : nat) (s : state) : Prop := mk_p {
    p_th : threads s 0 = Idle; p_done : done s = false; p_q : queue s = [(2 * j, j, n)]; p_idx : indices s = seq 0 n;
    p_nn : nn s = 2 * j + 1; p_pr : pr s = j;
    p_inner : forall i, i < j -> nodes s (2 * i) = mk_node (cube (ext n i)) false 0 0 (2 * i + 1) (2 * i + 2);
    p_fresh : forall k, 2 * j <= k -> nodes s k = new_node }.

  Lemma nt_n : nt trs = n. Proof. apply deep_length. Qed.

  Lemma P_init s : init trs = Ok s -> P 0 s.
  Proof.
    unfold init. rewrite nt_n. destruct (Nat.eqb_spec n 0) as [E|E]; [lia|]. injection 1 as <-. constructor; cbn; auto; lia.
  Qed.

  Lemma bound_of a b : a < b <= n -> fold_left (fun x i => merge x (tb (tr trs i))) (seq a (b - a)) new_bound = cube (ext n a).
  Proof.
    intros L. replace (b - a) with (S (b - a - 1)) by lia. cbn [seq]. apply fold_front; try lia.
    - intros j J. apply in_seq in J. lia.
    - apply new_le, ext_ge1.
  Qed.

  Lemma P_split j s l : reach trs sort 1 l s -> P j s -> j + 3 <= n -> exists l' s', reach trs sort 1 l' s' /\ P (j + 1) s'.
  Proof.
    intros R [Th Dn Q Ix Nn Pr In Fr] L.
    (* take *)
    assert (S1 : step trs sort 0 s = Some (mk_state (nodes s) (indices s) [] (pr s) (nn s) (done s) (upd (threads s) 0 (Got (2 * j) j n)) (crashed s))).
    { unfold step. rewrite Th, Dn, Q. reflexivity. }
    pose proof (reach_step _ _ _ _ _ _ _ R (Nat.lt_0_succ 0) S1) as R1. clear R S1. set (s1 := mk_state _ _ _ _ _ _ _ _) in R1.
    assert (S2 : step trs sort 0 s1 = Some (mk_state (upd (nodes s) (2 * j) (mk_node (cube (ext n j)) false 0 0 (2 * j + 1) (2 * j + 2))) (seq 0 n)
       [(2 * j + 1, j, j + 1); (2 * j + 2, j + 1, n)] j (2 * j + 3) false (upd (threads s1) 0 Idle) (crashed s))).
    { unfold step, s1. cbn [threads done nodes indices queue pr nn crashed]. rewrite upd_same, Dn, nt_n.
      destruct (Nat.leb_spec (2 * n - 1) (2 * j)) as [B|B]; [lia|]. rewrite Ix, slice_seq by lia. rewrite (Fr (2 * j)) by lia. cbn [nb new_node].
      rewrite bound_of by lia. rewrite cube_area, decide_deep by lia. destruct (Nat.eqb_spec (n - j) 2) as [B2|B2]; [lia|].
      rewrite put_seq by lia. rewrite Nn, Pr. cbn [leaf ns ne new_node app]. replace (2 * j + 1 + 1) with (2 * j + 2) by lia. replace (2 * j + 1 + 2) with (2 * j + 3) by lia. reflexivity. }
    pose proof (reach_step _ _ _ _ _ _ _ R1 (Nat.lt_0_succ 0) S2) as R2. clear R1 S2. set (s2 := mk_state _ _ _ _ _ _ _ _) in R2.
    assert (S3 : step trs sort 0 s2 = Some (mk_state (nodes s2) (seq 0 n) [(2 * j + 2, j + 1, n)] j (2 * j + 3) false (upd (threads s2) 0 (Got (2 * j + 1) j (j + 1))) (crashed s))).
    { unfold step, s2. cbn [threads done nodes indices queue pr nn crashed]. rewrite upd_same. reflexivity. }
    pose proof (reach_step _ _ _ _ _ _ _ R2 (Nat.lt_0_succ 0) S3) as R3. clear R2 S3. set (s3 := mk_state _ _ _ _ _ _ _ _) in R3.
    assert (S4 : exists nd, step trs sort 0 s3 = Some (mk_state (upd (nodes s3) (2 * j + 1) nd) (seq 0 n) [(2 * j + 2, j + 1, n)] (j + 1) (2 * j + 3) false (upd (threads s3) 0 Added) (crashed s))).
    { eexists. unfold step, s3. cbn [threads done nodes indices queue pr nn crashed]. rewrite upd_same, nt_n.
      destruct (Nat.leb_spec (2 * n - 1) (2 * j + 1)) as [B|B]; [lia|]. rewrite slice_seq by lia. replace (j + 1 - j) with 1 by lia. cbn [seq]. unfold decide. cbn [length Nat.ltb Nat.leb].
      pose proof (put_seq j (j + 1) ltac:(lia)) as Pq. replace (j + 1 - j) with 1 in Pq by lia. cbn [seq] in Pq. rewrite Pq. reflexivity. }
    destruct S4 as (nd & S4).
    pose proof (reach_step _ _ _ _ _ _ _ R3 (Nat.lt_0_succ 0) S4) as R4. clear R3 S4. set (s4 := mk_state _ _ _ _ _ _ _ _) in R4.
    assert (S5 : step trs sort 0 s4 = Some (mk_state (nodes s4) (seq 0 n) [(2 * j + 2, j + 1, n)] (j + 1) (2 * j + 3) false (upd (threads s4) 0 Idle) (crashed s))).
    { unfold step, s4. cbn [threads done nodes indices queue pr nn crashed]. rewrite upd_same, nt_n.
      destruct (Nat.eqb_spec (j + 1) n) as [B|B]; [lia|]. reflexivity. }
    pose proof (reach_step _ _ _ _ _ _ _ R4 (Nat.lt_0_succ 0) S5) as R5. clear R4 S5.
    eexists _, _. split; [exact R5|]. unfold s4, s3, s2, s1.
    constructor; cbn [threads done nodes indices queue pr nn crashed]; auto; try lia.
    - replace (2 * j + 2) with (2 * (j + 1)) by lia. reflexivity.
    - intros i I. rewrite upd_other by lia. destruct (Nat.eq_dec i j) as [->|N]; [rewrite upd_same; auto|]. rewrite upd_other by lia. apply In. lia.
    - intros k K. rewrite !upd_other by lia. apply Fr. lia.
  Qed.

  Lemma P_reach : exists s, init trs = Ok s.
  Proof. unfold init. rewrite nt_n. destruct (Nat.eqb_spec n 0); [lia|]. eauto. Qed.

  Lemma P_all j : j + 2 <= n -> exists l s, reach trs sort 1 l s /\ P j s.
  Proof.
    induction j as [|j IH]; intros L.
    - destruct P_reach as (s & E). exists [], s. split; [constructor; auto|apply P_init, E].
    - destruct IH as (l & s & R & Hp); [lia|]. destruct (P_split j s l R Hp) as (l' & s' & R' & Hp'); [lia|]. exists l', s'.
      replace (S j) with (j + 1) by lia. auto.
  Qed.

  (** The finished structure. *)
  Lemma deep_built : exists l s, reach trs sort 1 l s /\ finished 1 s
    /\ forall i, i + 3 <= n -> nodes s (2 * i) = mk_node (cube (ext n i)) false 0 0 (2 * i + 1) (2 * i + 2).
  Proof.
    destruct (P_all (n - 2)) as (l & s & R & [Th Dn Q Ix Nn Pr In Fr]); [lia|]. set (j := n - 2) in *.
    assert (S1 : step trs sort 0 s = Some (mk_state (nodes s) (indices s) [] (pr s) (nn s) (done s) (upd (threads s) 0 (Got (2 * j) j n)) (crashed s))).
    { unfold step. rewrite Th, Dn, Q. reflexivity. }
    pose proof (reach_step _ _ _ _ _ _ _ R (Nat.lt_0_succ 0) S1) as R1. clear R S1. set (s1 := mk_state _ _ _ _ _ _ _ _) in R1.
    assert (S2 : exists nd, step trs sort 0 s1 = Some (mk_state (upd (nodes s) (2 * j) nd) (seq 0 n) [] n (nn s) false (upd (threads s1) 0 Added) (crashed s))).
    { eexists. unfold step, s1. cbn [threads done nodes indices queue pr nn crashed]. rewrite upd_same, Dn, nt_n.
      destruct (Nat.leb_spec (2 * n - 1) (2 * j)) as [B|B]; [lia|]. rewrite Ix, slice_seq by lia. rewrite (Fr (2 * j)) by lia. cbn [nb new_node].
      rewrite bound_of by lia. rewrite cube_area, decide_deep by lia. destruct (Nat.eqb_spec (n - j) 2) as [B2|B2]; [|lia].
      rewrite put_seq by lia. rewrite Pr. replace (j + (n - j)) with n by lia. reflexivity. }
    destruct S2 as (nd & S2).
    pose proof (reach_step _ _ _ _ _ _ _ R1 (Nat.lt_0_succ 0) S2) as R2. clear R1 S2. set (s2 := mk_state _ _ _ _ _ _ _ _) in R2.
    assert (S3 : step trs sort 0 s2 = Some (mk_state (nodes s2) (seq 0 n) [] n (nn s) true (upd (threads s2) 0 Idle) (crashed s))).
    { unfold step, s2. cbn [threads done nodes indices queue pr nn crashed]. rewrite upd_same, nt_n, Nat.eqb_refl. reflexivity. }
    pose proof (reach_step _ _ _ _ _ _ _ R2 (Nat.lt_0_succ 0) S3) as R3. clear R2 S3. set (s3 := mk_state _ _ _ _ _ _ _ _) in R3.
    assert (S4 : step trs sort 0 s3 = Some (set_phase s3 0 Exited)).
    { unfold step, s3. cbn [threads done nodes indices queue pr nn crashed]. rewrite upd_same. reflexivity. }
    pose proof (reach_step _ _ _ _ _ _ _ R3 (Nat.lt_0_succ 0) S4) as R4.
    eexists _, _. split; [exact R4|]. split.
    - intros t Lt. replace t with 0 by lia. unfold set_phase. cbn [threads]. apply upd_same.
    - intros i I. unfold s3, s2, set_phase. cbn [nodes]. rewrite upd_other by lia. apply In. lia.
  Qed.

  (** Going down the chain leaves one entry on the stack for each level. *)
  Lemma deep_query nds idx num_nodes r tmin : 101 <= n -> ro r = V3 0 0 0 -> (tmin <= 0)%R -> 2 * n - 1 <= num_nodes ->
    (forall i, i + 3 <= n -> nds (2 * i) = mk_node (cube (ext n i)) false 0 0 (2 * i + 1) (2 * i + 2)) ->
    forall k i b rest fuel, i + k = 98 -> length rest = i -> (0 <= b_tmax b)%R -> k < fuel ->
    run trs nds num_nodes idx r tmin fuel (2 * i :: rest) b = UB.
  Proof.
    intros Hn Hr Ht Nn Hnds. induction k as [|k IH]; intros i b rest fuel Hi Lr Hb Hf; (destruct fuel as [|f]; [lia|]); cbn [run];
      (destruct (Nat.leb_spec num_nodes (2 * i)) as [B|_]; [lia|]); rewrite Hnds by lia; cbn [nb leaf nc1 nc2 negb];
      (assert (Is : isect (cube (ext n i)) r tmin (b_tmax b) = true)
        by (destruct (isect_range_in (cube (ext n i)) r tmin (b_tmax b) 0) as (x & y & E & _);
            [lra| |unfold isect; rewrite E; reflexivity];
            pose proof (ext_ge1 n i); unfold in_box, vle, ray_at, cube, vadd, vscale; rewrite Hr; cbn; lra)); rewrite Is; cbn [negb].
    - destruct (Nat.ltb_spec 99 (length rest + 2)); [reflexivity|lia].
    - destruct (Nat.ltb_spec 99 (length rest + 2)); [lia|]. replace (2 * i + 2) with (2 * (i + 1)) by lia. apply IH; auto; cbn [length]; lia.
  Qed.
End Deep.
