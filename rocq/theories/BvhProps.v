(** Properties C34 and C35: building and querying the acceleration structure. *)
From Coq Require Import Reals ZArith Bool List Arith Lia Lra Permutation Sorted.
From Verif Require Import Base RBase VecBase GeoModel GeoSpec GeoProofs BvhModel BvhSpec BvhProofs BvhQueryProofs BvhDeepProofs.
Import ListNotations.
Local Open Scope nat_scope.

(** The number of triangles is an int. *)
Definition int_count (trs : list tri) : Prop := (Z.of_nat (length trs) <= 2147483647)%Z.

Lemma int_small trs : int_count trs -> (INR (nt trs) < Inf)%R.
Proof.
  unfold int_count, nt, Inf. intros H. rewrite INR_IZR_INZ. apply (Rle_lt_trans _ (IZR 2147483647)); [apply IZR_le, H|]. lra.
Qed.

(** ** C34. Every schedule of the workers is finite, *)
Theorem C34_terminates : forall trs sort T l s, (forall a x, Permutation (sort a x) x) -> int_count trs ->
  reach trs sort T l s -> length l <= 40 * length trs + 2 * T.
Proof.
  intros trs sort T l s Hs Hc R. pose proof (reach_mu trs sort Hs (int_small _ Hc) T l s R) as H. unfold nt in H. lia.
Qed.
Print Assumptions C34_terminates.

(** no schedule gets stuck: until all have returned, some worker can go on without being woken up, *)
Theorem C34_progress : forall trs sort T l s, (forall a x, Permutation (sort a x) x) -> int_count trs ->
  reach trs sort T l s -> ~ finished T s ->
  exists t s', t < T /\ (threads s t = Waiting -> done s = true) /\ step trs sort t s = Some s'.
Proof. intros trs sort T l s Hs Hc. exact (progress trs sort Hs (int_small _ Hc) T l s). Qed.
Print Assumptions C34_progress.

(** so every execution can be continued until all workers have returned, *)
Theorem C34_completes : forall trs sort T l s, (forall a x, Permutation (sort a x) x) -> int_count trs ->
  reach trs sort T l s -> exists l' s', reach trs sort T (l ++ l') s' /\ finished T s'.
Proof.
  intros trs sort T l s Hs Hc R. remember (40 * length trs + 2 * T - length l) as k eqn:Ek. revert l s R Ek.
  induction k as [k IH] using lt_wf_ind. intros l s R Ek.
  assert (D : finished T s \/ ~ finished T s).
  { unfold finished. clear. induction T as [|T [H|H]]; [left; lia| |right; intros F; apply H; intros t L; apply F; lia].
    destruct (threads s T) eqn:E; try (right; intros F; rewrite F in E by lia; discriminate).
    left. intros t L. destruct (Nat.eq_dec t T); [subst; exact E|apply H; lia]. }
  destruct D as [F|F]; [exists [], s; now rewrite app_nil_r|].
  destruct (C34_progress trs sort T l s Hs Hc R F) as (t & s' & L & _ & E). assert (R' := reach_step _ _ _ _ _ _ _ R L E).
  assert (B := C34_terminates _ _ _ _ _ Hs Hc R'). rewrite app_length in B. cbn in B.
  destruct (IH (40 * length trs + 2 * T - length (l ++ [t])) ltac:(rewrite app_length; cbn; lia) _ _ R' eq_refl) as (l' & s2 & R2 & F2).
  exists (t :: l'), s2. rewrite <- app_assoc in R2. auto.
Qed.
Print Assumptions C34_completes.

(** the node array is never left and a split always has a position, *)
Theorem C34_safe : forall trs sort T l s, (forall a x, Permutation (sort a x) x) -> int_count trs ->
  reach trs sort T l s -> crashed s = false /\ Permutation (indices s) (seq 0 (length trs)) /\ nn s <= 2 * length trs - 1.
Proof.
  intros trs sort T l s Hs Hc R. destruct (reach_inv trs sort Hs (int_small _ Hc) T l s R) as (h & u & I).
  split; [apply I|]. split; [apply I|]. pose proof (ptree_bounds _ _ _ _ _ _ _ _ (i_tree _ _ _ _ _ I)) as (_ & Sz & _).
  rewrite (Permutation_length (i_used _ _ _ _ _ I)), seq_length in Sz. unfold nt in Sz. lia.
Qed.
Print Assumptions C34_safe.

(** and once the workers have returned the nodes form a tree over all triangles with boxes around what
    is below them, *)
Theorem C34_tree : forall trs sort T l s, (forall a x, Permutation (sort a x) x) -> int_count trs ->
  reach trs sort T l s -> 0 < T -> finished T s ->
  exists d used, tree trs (nodes s) (indices s) 0 0 (length trs) d used /\ NoDup used /\ forall k, In k used -> k < 2 * length trs - 1.
Proof. intros trs sort T l s Hs Hc R P F. apply (built trs sort Hs (int_small _ Hc) T l s R P F). Qed.
Print Assumptions C34_tree.

(** where each triangle is in the range of exactly one leaf. *)
Theorem C34_once : forall trs sort T l s, (forall a x, Permutation (sort a x) x) -> int_count trs ->
  reach trs sort T l s -> 0 < T -> finished T s ->
  exists d used, tree trs (nodes s) (indices s) 0 0 (length trs) d used /\ NoDup used /\
    forall k, k < length trs -> exists i ni, nth_error (indices s) i = Some k /\ In ni used /\ leaf (nodes s ni) = true /\ ns (nodes s ni) <= i < ne (nodes s ni)
      /\ forall i' ni', nth_error (indices s) i' = Some k -> In ni' used -> leaf (nodes s ni') = true -> ns (nodes s ni') <= i' < ne (nodes s ni') ->
           i' = i /\ ni' = ni.
Proof.
  intros trs sort T l s Hs Hc R P F. destruct (built trs sort Hs (int_small _ Hc) T l s R P F) as (Pm & d & used & Tr & ND & _).
  exists d, used. split; [exact Tr|]. split; [exact ND|]. intros k Lk.
  assert (I : In k (indices s)) by (eapply Permutation_in; [symmetry; exact Pm|]; apply in_seq; unfold nt; lia).
  apply In_nth_error in I. destruct I as (i & I).
  assert (NDi : NoDup (indices s)) by (eapply Permutation_NoDup; [symmetry; exact Pm|apply seq_NoDup]).
  assert (Li : i < length (indices s)) by (apply nth_error_Some; congruence).
  rewrite (Permutation_length Pm), seq_length in Li.
  destruct (tree_once _ _ _ _ _ _ _ _ Tr ND i ltac:(lia)) as (ni & A & B & C & D).
  exists i, ni. repeat split; auto; try lia.
  - apply (proj1 (NoDup_nth_error _) NDi); [apply nth_error_Some; congruence|congruence].
  - assert (i' = i) as ->; [apply (proj1 (NoDup_nth_error _) NDi); [apply nth_error_Some; congruence|congruence]|]. apply D; auto.
Qed.
Print Assumptions C34_once.

(** Without any triangle construction fails with an exception. *)
Theorem C34_empty : forall trs, init trs = Throw ErrLength <-> trs = [].
Proof.
  intros trs. unfold init, nt. destruct trs; cbn; split; auto; discriminate.
Qed.
Print Assumptions C34_empty.

(** The number of workers is hardware_concurrency(), which may be zero: then nothing is built. *)
Theorem C34_no_workers_refuted : forall sort,
  ~ (forall trs T l s, int_count trs -> trs <> [] -> reach trs sort T l s -> finished T s -> exists d u, tree trs (nodes s) (indices s) 0 0 (length trs) d u).
Proof.
  intros sort H. destruct (H [dummy_tri] 0 [] (mk_state (fun _ => new_node) (seq 0 1) [(0, 0, 1)] 0 1 false (fun _ => Idle) false)) as (d & u & T).
  - unfold int_count. cbn. lia.
  - discriminate.
  - constructor. reflexivity.
  - intros t L. lia.
  - cbn in T. inversion T as [? ? ? ? Lf|? ? m ? ? ? ? ? Lf C T1 T2]; subst; [discriminate|].
    apply tree_bounds in T1, T2. lia.
Qed.
Print Assumptions C34_no_workers_refuted.

(** ** C35. A query of a finished structure of height at most 98 ends without an error and returns no
    hit if no triangle is hit in the interval, and otherwise a hit with minimal distance. *)
Definition nearest (trs : list tri) (r : ray) (tmin tmax : R) (res : option (R * (R * R) * Z * Z)) : Prop :=
  match res with
  | None => forall k, In k trs -> tri_isect k r tmin tmax = None
  | Some (t, (x, y), fl, fc) => exists k, In k trs /\ tri_isect k r tmin tmax = Some (mk_hit t x y) /\ fl = tflat k /\ fc = tface k
      /\ forall k' h', In k' trs -> tri_isect k' r tmin tmax = Some h' -> (t <= ht h')%R
  end.

Lemma built_query trs sort T l s : (forall a x, Permutation (sort a x) x) -> int_count trs -> Forall made trs -> reach trs sort T l s -> 0 < T -> finished T s ->
  exists d used, tree trs (nodes s) (indices s) 0 0 (length trs) d used
    /\ (d <= 98 -> forall r tmin tmax fuel, 2 * length trs <= fuel ->
        exists res, query trs (nodes s) (2 * length trs - 1) (indices s) r tmin fuel tmax = Ok res /\ nearest trs r tmin tmax res).
Proof.
  intros Hs Hc M R P F. destruct (built trs sort Hs (int_small _ Hc) T l s R P F) as (Pm & d & used & Tr & ND & U).
  exists d, used. split; [exact Tr|]. intros Hd r tmin tmax fuel Hf.
  apply (query_ok trs (nodes s) (2 * length trs - 1) (indices s) r tmin M) with (d := d) (u := used) (nt := length trs); auto.
  - intros i k I. apply nth_error_In in I. eapply Permutation_in in I; [|exact Pm]. apply in_seq in I. unfold nt in I. lia.
  - apply tree_height in Tr. unfold nt in Tr. lia.
Qed.

Theorem C35_nearest_partial : forall trs sort T l s, (forall a x, Permutation (sort a x) x) -> int_count trs -> Forall made trs ->
  reach trs sort T l s -> 0 < T -> finished T s ->
  exists d used, tree trs (nodes s) (indices s) 0 0 (length trs) d used
    /\ (d <= 98 -> forall r tmin tmax fuel, 2 * length trs <= fuel ->
        exists res, query trs (nodes s) (2 * length trs - 1) (indices s) r tmin fuel tmax = Ok res /\ nearest trs r tmin tmax res).
Proof. exact built_query. Qed.
Print Assumptions C35_nearest_partial.

(** This holds in particular for at most 99 triangles. *)
Theorem C35_nearest_small_partial : forall trs sort T l s r tmin tmax fuel, (forall a x, Permutation (sort a x) x) -> Forall made trs ->
  length trs <= 99 -> reach trs sort T l s -> 0 < T -> finished T s -> 2 * length trs <= fuel ->
  exists res, query trs (nodes s) (2 * length trs - 1) (indices s) r tmin fuel tmax = Ok res /\ nearest trs r tmin tmax res.
Proof.
  intros trs sort T l s r tmin tmax fuel Hs M L R P F Hf.
  destruct (built_query trs sort T l s Hs ltac:(unfold int_count; lia) M R P F) as (d & u & Tr & Q). apply Q; auto. apply tree_height in Tr. lia.
Qed.
Print Assumptions C35_nearest_small_partial.

(** Deeper structures are built, however, and make the query write past its stack: 101 nested triangles
    and a ray from their common corner. *)
Theorem C35_deep_refuted : forall sort, sorts (deep 101) sort ->
  exists l s, reach (deep 101) sort 1 l s /\ finished 1 s /\ Forall made (deep 101)
    /\ forall d neg tmax fuel, (0 <= tmax)%R -> 202 <= fuel ->
       query (deep 101) (nodes s) (2 * length (deep 101) - 1) (indices s) (mk_ray (V3 0 0 0) d neg) 0 fuel tmax = UB.
Proof.
  intros sort Hs. destruct (deep_built 101 sort Hs ltac:(lia)) as (l & s & R & F & Nd). exists l, s. split; [exact R|]. split; [exact F|]. split.
  - apply Forall_forall. intros k K. unfold deep in K. apply in_map_iff in K. destruct K as (i & <- & _). unfold made, nested. eauto 6.
  - intros d neg tmax fuel Ht Hf. unfold query. change [0] with (2 * 0 :: @nil nat).
    rewrite (deep_query 101 ltac:(lia) (nodes s) (indices s) (2 * length (deep 101) - 1) (mk_ray (V3 0 0 0) d neg) 0) with (k := 98); auto; try lia.
    + lra.
Qed.
Print Assumptions C35_deep_refuted.

(** A sorting function with the required behaviour exists. *)
Fixpoint insert (key : nat -> R) (x : nat) (l : list nat) : list nat :=
  match l with [] => [x] | y :: r => if Rle_dec (key x) (key y) then x :: l else y :: insert key x r end.
Definition isort (trs : list tri) (a : nat) (l : list nat) : list nat :=
  fold_right (insert (fun i => comp (tc (nth i trs dummy_tri)) a)) [] l.

Lemma insert_perm key x l : Permutation (insert key x l) (x :: l).
Proof. induction l as [|y l IH]; cbn; auto. destruct (Rle_dec _ _); auto. rewrite IH. apply perm_swap. Qed.
Lemma insert_sorted key x l : sorted_by key l -> sorted_by key (insert key x l).
Proof.
  induction 1 as [|y l S IH F]; cbn; [repeat constructor|]. destruct (Rle_dec (key x) (key y)) as [L|L].
  - constructor; [constructor; auto|]. constructor; auto. eapply Forall_impl; [|exact F]. cbn. intros z Z. lra.
  - constructor; auto. apply Forall_forall. intros z Z. eapply Permutation_in in Z; [|apply insert_perm]. destruct Z as [<-|Z]; [lra|].
    rewrite Forall_forall in F. auto.
Qed.

Example C34_sort : forall trs, sorts trs (isort trs).
Proof.
  intros trs a l. split.
  - induction l as [|x l IH]; cbn; auto. unfold isort in IH. rewrite insert_perm, IH. auto.
  - induction l as [|x l IH]; cbn; [constructor|]. apply insert_sorted, IH.
Qed.

(** A finished construction with a split: three triangles. *)
Example C34_example : exists l s, reach (deep 3) (isort (deep 3)) 1 l s /\ finished 1 s /\ int_count (deep 3)
  /\ leaf (nodes s 0) = false /\ nc1 (nodes s 0) = 1 /\ nc2 (nodes s 0) = 2.
Proof.
  destruct (deep_built 3 (isort (deep 3)) (C34_sort _) ltac:(lia)) as (l & s & R & F & N). exists l, s.
  split; [exact R|]. split; [exact F|]. split; [unfold int_count; cbn; lia|]. specialize (N 0 ltac:(lia)). change (2 * 0) with 0 in N. rewrite N. auto.
Qed.
Example C35_example : Forall made (deep 3) /\ length (deep 3) <= 99.
Proof. split; [|cbn; lia]. apply Forall_forall. intros k K. unfold deep in K. apply in_map_iff in K. destruct K as (i & <- & _). unfold made, nested. eauto 6. Qed.
