(** C25 (splats are never lost), C26 (atomic pixel updates). *)
From Coq Require Import List Arith Bool Lia Permutation Reals.
From Verif Require Import VecBase CasModel CasSpec CasProofs.
Import ListNotations.
Close Scope R_scope.

(** C26: when all threads are done, every pixel has the value that results from doing all the updates
    one after the other in some order [log], which contains the updates of every thread exactly once
    and in the thread's own order. [veq]: comparison of values. *)
Theorem C26_atomic : forall V veq (m0 : nat -> V) progs l s, (forall a b, veq a b = true -> a = b) ->
  reach veq m0 progs l s -> (forall t, todo (threads s t) = []) ->
  exists log, (forall t, of_thread t log = progs t) /\ forall p, mem s p = serial p log (m0 p).
Proof.
  intros V veq m0 progs l s Hv Hr Hd. destruct (linearizable veq Hv m0 progs l s Hr) as (log & Hm & Hp & _).
  exists log. split; [|assumption]. intros t. rewrite (Hp t), Hd, app_nil_r. reflexivity.
Qed.
Print Assumptions C26_atomic.

(** The same at every moment for the updates done so far: a prefix of each thread's list. *)
Theorem C26_atomic_always : forall V veq (m0 : nat -> V) progs l s, (forall a b, veq a b = true -> a = b) ->
  reach veq m0 progs l s ->
  exists log, (forall t, progs t = of_thread t log ++ todo (threads s t)) /\ forall p, mem s p = serial p log (m0 p).
Proof.
  intros V veq m0 progs l s Hv Hr. destruct (linearizable veq Hv m0 progs l s Hr) as (log & Hm & Hp & _). exists log. auto.
Qed.
Print Assumptions C26_atomic_always.

(** The loops are lock-free: if a thread's expected value is no longer current, then another update of
    that pixel has been completed since the thread last read it. *)
Theorem C26_lock_free : forall V veq (m0 : nat -> V) progs l s t o r e, (forall a b, veq a b = true -> a = b) ->
  reach veq m0 progs l s -> todo (threads s t) = o :: r -> expected (threads s t) = Some e -> mem s (o_pix o) <> e ->
  exists log1 log2, e = serial (o_pix o) log1 (m0 (o_pix o)) /\ mem s (o_pix o) = serial (o_pix o) (log1 ++ log2) (m0 (o_pix o))
    /\ (forall t', progs t' = of_thread t' (log1 ++ log2) ++ todo (threads s t'))
    /\ exists u o', In (u, o') log2 /\ o_pix o' = o_pix o.
Proof.
  intros V veq m0 progs l s t o r e Hv Hr Ht He Hne. destruct (expected_was_read veq Hv m0 progs l s t e o r Hr Ht He) as (l1 & l2 & Hm & E & Hp).
  exists l1, l2. split; [assumption|]. split; [apply Hm|]. split; [assumption|]. rewrite Hm, serial_app, <- E in Hne. clear -Hne.
  revert e Hne. induction l2 as [|[u o'] l2 IH]; intros e Hne; [contradiction|].
  destruct (Nat.eq_dec (o_pix o') (o_pix o)) as [Hp|Hp]; [exists u, o'; split; [now left|assumption]|].
  unfold serial in Hne. cbn [fold_left snd] in Hne. apply Nat.eqb_neq in Hp. rewrite Hp in Hne.
  destruct (IH e Hne) as (u' & o'' & H & Ho). exists u', o''. split; [now right|assumption].
Qed.
Print Assumptions C26_lock_free.

(** Two threads on one pixel, one incrementing and one doubling; the second's first attempt fails. *)
Definition x_progs (t : nat) : list (@op nat) :=
  match t with 0 => [mk_op 0 S] | 1 => [mk_op 0 (fun x => 2 * x)] | _ => [] end.
Lemma x_reach : exists s, reach Nat.eqb (fun _ => 3) x_progs [0; 1; 0; 1; 1] s /\ (forall t, todo (threads s t) = []) /\ mem s 0 = 8.
Proof.
  eexists. split; [|split].
  - change [0; 1; 0; 1; 1] with ((((([] ++ [0]) ++ [1]) ++ [0]) ++ [1]) ++ [1]).
    repeat (refine (reach_step _ _ _ _ _ _ false _ _ _); [|..]); try apply reach_init. all: vm_compute; reflexivity.
  - intros [|[|t]]; reflexivity.
  - reflexivity.
Qed.
Example C26_example : exists s, reach Nat.eqb (fun _ => 3) x_progs [0; 1; 0; 1; 1] s /\ (forall t, todo (threads s t) = []) /\ mem s 0 = 8.
Proof. exact x_reach. Qed.

(** ** Splats *)
(** The contributions that thread [t] splats to pixel [p]. *)
Definition splats_to {V} (p : nat) (l : list (nat * V)) : list V := map snd (filter (fun e => Nat.eqb (fst e) p) l).
Definition splat_ops {V} (add : V -> V -> V) (l : list (nat * V)) : list op := map (fun e => mk_op (fst e) (fun x => add x (snd e))) l.

Lemma by_thread {A} T : forall (log : list (nat * A)), (forall e, In e log -> fst e < T) ->
  Permutation (map snd log) (flat_map (fun t => map snd (filter (fun e => Nat.eqb (fst e) t) log)) (seq 0 T)).
Proof.
  induction log as [|[u o] log IH]; intros H.
  - cbn. replace (flat_map (fun _ => []) (seq 0 T)) with (@nil A); [constructor|]. induction (seq 0 T); cbn; auto.
  - cbn [map snd]. rewrite (IH ltac:(intros; apply H; now right)).
    assert (Hu : In u (seq 0 T)) by (apply in_seq; specialize (H (u, o) (or_introl eq_refl)); cbn in H; lia).
    assert (Nd := seq_NoDup T 0). revert Hu Nd. generalize (seq 0 T). clear. intros q Hu Nd.
    set (f := fun t => map snd (filter (fun e => Nat.eqb (fst e) t) log)).
    set (g := fun t => map snd (filter (fun e => Nat.eqb (fst e) t) ((u, o) :: log))).
    assert (G : forall t, g t = if Nat.eqb u t then o :: f t else f t)
      by (intros t; unfold f, g; cbn [filter fst]; destruct (Nat.eqb u t); reflexivity).
    clearbody f g. induction q as [|t q IHq]; [destruct Hu|]. inversion Nd; subst. cbn [flat_map]. rewrite G.
    destruct (Nat.eqb_spec u t) as [->|Hne].
    + assert (E : flat_map g q = flat_map f q).
      { rewrite !flat_map_concat_map. f_equal.
        apply map_ext_in. intros a Ha. rewrite G. destruct (Nat.eqb_spec t a) as [->|]; [contradiction|reflexivity]. }
      rewrite E. apply Permutation_refl.
    + destruct Hu as [->|Hu]; [contradiction|]. rewrite Permutation_middle. apply Permutation_app_head. now apply IHq.
Qed.

Section Splat.
  Context {V : Type}.
  Variable add : V -> V -> V.

  Lemma serial_splats p : forall (log : list (nat * @op V)) q v,
    Forall2 (fun e x => o_pix (snd e) = fst x /\ forall y, o_fun (snd e) y = add y (snd x)) log q ->
    serial p log v = fold_left add (splats_to p q) v.
  Proof.
    intros log q v H. revert v. induction H as [|[u o] [k x] log q [Hp Hf] _ IH]; intros v; [reflexivity|].
    unfold serial. cbn [fold_left snd]. fold (serial p log). cbn [fst snd] in *. rewrite Hp. unfold splats_to. cbn [filter fst].
    destruct (Nat.eqb k p); cbn [map snd fold_left]; [rewrite Hf|]; apply IH.
  Qed.

  (** Whatever the interleaving, the contributions are added up in some order. *)
  Lemma splat_order veq (m0 : nat -> V) T (progs : nat -> list (nat * V)) l s : (forall a b, veq a b = true -> a = b) ->
    (forall t, T <= t -> progs t = []) ->
    reach veq m0 (fun t => splat_ops add (progs t)) l s -> (forall t, todo (threads s t) = []) ->
    forall p, exists q, Permutation q (flat_map (fun t => splats_to p (progs t)) (seq 0 T)) /\ mem s p = fold_left add q (m0 p).
  Proof.
    intros Hv HT Hr Hd p. destruct (linearizable veq Hv m0 _ l s Hr) as (log & Hm & Hp & _). rewrite Hm.
    assert (Hp' : forall t, of_thread t log = splat_ops add (progs t)) by (intros t; rewrite (Hp t), Hd, app_nil_r; reflexivity).
    (* the log as a list of contributions *)
    assert (Q : exists q : list (nat * (nat * V)), map fst q = map fst log
      /\ Forall2 (fun e x => o_pix (snd e) = fst x /\ forall y, o_fun (snd e) y = add y (snd x)) log (map snd q)
      /\ forall t, map snd (filter (fun e => Nat.eqb (fst e) t) q) = progs t).
    { clear -Hp'. revert progs Hp'. induction log as [|[u o] log IH]; intros progs Hp'.
      - exists []. split; [reflexivity|]. split; [constructor|]. intros t. specialize (Hp' t). cbn in Hp'. unfold splat_ops in Hp'.
        destruct (progs t); [reflexivity|discriminate].
      - assert (Hu := Hp' u). unfold of_thread in Hu. cbn [filter fst] in Hu. rewrite Nat.eqb_refl in Hu. cbn [map snd] in Hu.
        destruct (progs u) as [|[k x] r] eqn:Eu; [discriminate|]. cbn [splat_ops map] in Hu. injection Hu as Ho Hrest.
        destruct (IH (fun t => if Nat.eqb t u then r else progs t)) as (q & Q1 & Q2 & Q3).
        { intros t. destruct (Nat.eqb_spec t u) as [->|Hne]; [exact Hrest|]. specialize (Hp' t). unfold of_thread in Hp'. cbn [filter fst] in Hp'.
          destruct (Nat.eqb_spec u t); [congruence|]. exact Hp'. }
        exists ((u, (k, x)) :: q). split; [cbn; now rewrite Q1|]. split.
        + cbn [map snd]. constructor; [|assumption]. subst o. cbn. auto.
        + intros t. cbn [filter fst]. destruct (Nat.eqb_spec u t) as [->|Hne].
          * cbn [map snd]. rewrite Q3, Nat.eqb_refl. symmetry. exact Eu.
          * rewrite Q3. destruct (Nat.eqb_spec t u); [congruence|reflexivity]. }
    destruct Q as (q & Q1 & Q2 & Q3). rewrite (serial_splats p _ _ _ Q2).
    assert (B : Permutation (map snd q) (flat_map (fun t => progs t) (seq 0 T))).
    { rewrite (by_thread T q).
      - rewrite !flat_map_concat_map, (map_ext _ _ Q3). apply Permutation_refl.
      - intros e He. destruct (Nat.lt_ge_cases (fst e) T) as [|Hge]; [assumption|]. exfalso.
        assert (E := Q3 (fst e)). rewrite (HT _ Hge) in E. apply map_eq_nil in E.
        assert (Hin : In e (filter (fun x => Nat.eqb (fst x) (fst e)) q)) by (apply filter_In; split; [assumption|apply Nat.eqb_refl]). rewrite E in Hin. destruct Hin. }
    exists (splats_to p (map snd q)). split; [|reflexivity].
    unfold splats_to at 1.
    rewrite <- (map_id (seq 0 T)) at 1. assert (G : forall a b : list (nat * V), Permutation a b -> Permutation (splats_to p a) (splats_to p b)).
    { intros a b Hab. unfold splats_to. apply Permutation_map. induction Hab; cbn; try (destruct (Nat.eqb (fst x) p)); try (destruct (Nat.eqb (fst y) p)); auto using perm_skip, perm_swap, Permutation_refl. eapply perm_trans; eassumption. }
    rewrite map_id. assert (E := G _ _ B). unfold splats_to at 1 in E. rewrite E.
    assert (E' : splats_to p (flat_map (fun t => progs t) (seq 0 T)) = flat_map (fun t => splats_to p (progs t)) (seq 0 T)); [|rewrite E'; apply Permutation_refl].
    clear. induction (seq 0 T) as [|t r IH]; [reflexivity|]. cbn [flat_map]. rewrite <- IH. unfold splats_to. now rewrite filter_app, map_app.
  Qed.

  Hypothesis add_comm : forall a b, add a b = add b a.
  Hypothesis add_assoc : forall a b c, add a (add b c) = add (add a b) c.

  Lemma fold_perm l l' : Permutation l l' -> forall v, fold_left add l v = fold_left add l' v.
  Proof.
    induction 1 as [|x l l' _ IH|x y l|l l' l'' _ IH1 _ IH2]; intros v; cbn; auto.
    - f_equal. now rewrite <- !add_assoc, (add_comm x y).
    - now rewrite IH1.
  Qed.

  Lemma splat_total veq (m0 : nat -> V) T (progs : nat -> list (nat * V)) l s : (forall a b, veq a b = true -> a = b) ->
    (forall t, T <= t -> progs t = []) ->
    reach veq m0 (fun t => splat_ops add (progs t)) l s -> (forall t, todo (threads s t) = []) ->
    forall p, mem s p = fold_left add (flat_map (fun t => splats_to p (progs t)) (seq 0 T)) (m0 p).
  Proof.
    intros Hv HT Hr Hd p. destruct (splat_order veq m0 T progs l s Hv HT Hr Hd p) as (q & P & ->). now apply fold_perm.
  Qed.
End Splat.

(** C25: when [T] threads have made their splats, each pixel is its initial value plus the sum of all
    contributions splatted to it, whatever the interleaving. Real arithmetic. *)
Theorem C25_no_splat_lost : forall veq (m0 : nat -> vec3) T (progs : nat -> list (nat * vec3)) l s, (forall a b, veq a b = true -> a = b) ->
  (forall t, T <= t -> progs t = []) ->
  reach veq m0 (fun t => splat_ops vadd (progs t)) l s -> (forall t, todo (threads s t) = []) ->
  forall p, mem s p = vadd (m0 p) (fold_right vadd v0 (flat_map (fun t => splats_to p (progs t)) (seq 0 T))).
Proof.
  intros veq m0 T progs l s Hv HT Hr Hd p.
  rewrite (splat_total vadd vadd_comm vadd_assoc veq m0 T progs l s Hv HT Hr Hd p).
  generalize (flat_map (fun t => splats_to p (progs t)) (seq 0 T)). intros q. generalize (m0 p). induction q as [|x q IH]; intros v; cbn.
  - now rewrite vadd_0_r.
  - rewrite IH. now rewrite vadd_assoc.
Qed.
Print Assumptions C25_no_splat_lost.

(** The same for any values with a commutative and associative addition. *)
Theorem C25_no_splat_lost_any : forall V (add : V -> V -> V) veq (m0 : nat -> V) T (progs : nat -> list (nat * V)) l s,
  (forall a b, add a b = add b a) -> (forall a b c, add a (add b c) = add (add a b) c) -> (forall a b, veq a b = true -> a = b) ->
  (forall t, T <= t -> progs t = []) ->
  reach veq m0 (fun t => splat_ops add (progs t)) l s -> (forall t, todo (threads s t) = []) ->
  forall p, mem s p = fold_left add (flat_map (fun t => splats_to p (progs t)) (seq 0 T)) (m0 p).
Proof. intros V add veq m0 T progs l s Hc Ha Hv HT Hr Hd. exact (splat_total add Hc Ha veq m0 T progs l s Hv HT Hr Hd). Qed.
Print Assumptions C25_no_splat_lost_any.

(** Three splats by two threads, two of them to the same pixel and colliding. *)
Definition x_splats (t : nat) : list (nat * nat) := match t with 0 => [(0, 5); (1, 7)] | 1 => [(0, 11)] | _ => [] end.
Example C25_example : exists s, reach Nat.eqb (fun _ => 100) (fun t => splat_ops Nat.add (x_splats t)) [0; 1; 0; 0; 1; 1; 0] s
  /\ (forall t, todo (threads s t) = []) /\ mem s 0 = 116 /\ mem s 1 = 107.
Proof.
  eexists. split; [|split; [|split]].
  - change [0; 1; 0; 0; 1; 1; 0] with ((((((([] ++ [0]) ++ [1]) ++ [0]) ++ [0]) ++ [1]) ++ [1]) ++ [0]).
    repeat (refine (reach_step _ _ _ _ _ _ false _ _ _); [|..]); try apply reach_init. all: vm_compute; reflexivity.
  - intros [|[|t]]; reflexivity.
  - reflexivity.
  - reflexivity.
Qed.
