(** C23 (parallel loop), C24 (progress reports). *)
From Coq Require Import List ZArith Bool Lia Permutation Sorting.Sorted.
From Verif Require Import Base ParModel ParSpec ParProofs.
Import ListNotations.
Open Scope Z_scope.

(** C23: when the loop has ended and no callback has raised, the iterations run are 0 .. n-1, each
    exactly once, each completed, on threads numbered below the number of threads, and the caller
    sees no exception. [c] are the counters left by earlier loops, [l] the schedule. *)
Theorem C23_each_once : forall n interval T c l s, (0 < T)%nat -> reach n interval T c l s -> finished T s -> thrown (trace s) = [] ->
  Permutation (map fst (started (trace s))) (upto n)
  /\ (forall i t, In (i, t) (started (trace s)) <-> In (i, t) (completed (trace s)))
  /\ (forall i t, In (i, t) (started (trace s)) -> (t < T)%nat) /\ result s = Ok tt.
Proof. intros n interval T c l s HT Hr Hf Ht. eapply finished_ok; eassumption. Qed.
Print Assumptions C23_each_once.

(** At any time, whatever is raised, no iteration has begun twice, and only iterations of the loop. *)
Theorem C23_at_most_once : forall n interval T c l s, reach n interval T c l s ->
  NoDup (map fst (started (trace s))) /\ forall i t, In (i, t) (started (trace s)) -> 0 <= i < n /\ (t < T)%nat.
Proof. intros n interval T c l s Hr. eapply reach_at_most_once; eassumption. Qed.
Print Assumptions C23_at_most_once.

(** If a callback has raised, the caller sees one of the exceptions raised; by then every iteration
    that was begun has ended. *)
Theorem C23_rethrow : forall n interval T c l s, reach n interval T c l s -> finished T s -> thrown (trace s) <> [] ->
  (exists e, result s = Throw e /\ In e (thrown (trace s)))
  /\ forall i t, In (i, t) (started (trace s)) -> In (i, t) (completed (trace s)) \/ exists e, In (EThrow i t e) (trace s).
Proof.
  intros n interval T c l s Hr Hf Ht. split; [eapply finished_throws; eassumption|]. intros i t H. eapply finished_no_run; eassumption.
Qed.
Print Assumptions C23_rethrow.

(** The loop ends: no run has more than 12 n + T moves, and while a thread is in the loop some thread
    can move, whether its callback returns or raises. *)
Theorem C23_terminates : forall n interval T c l s, reach n interval T c l s ->
  (List.length l <= 12 * Z.to_nat n + T)%nat
  /\ (~ finished T s -> exists t, (t < T)%nat /\ forall ch, exists s', step n interval t ch s = Some s').
Proof.
  intros n interval T c l s Hr. split; [|intros Hf; eapply progress; eassumption].
  assert (H := reach_bounded _ _ _ _ _ _ Hr). lia.
Qed.
Print Assumptions C23_terminates.

(** Two threads on three iterations; the second callback of thread 1 raises while thread 0 is in
    another. *)
Definition moves (l : list nat) : list (nat * option error) := map (fun t => (t, None)) l.
Definition x_ok : list (nat * option error) := moves [0; 1; 0; 1; 1; 1; 1; 1; 1; 1; 1; 1; 1; 0; 0; 0; 0; 0]%nat.
Example C23_example_ok : exists s, reach 3 5 2 (fun _ => 0) x_ok s /\ finished 2 s /\ thrown (trace s) = []
  /\ started (trace s) = [(0, 0%nat); (1, 1%nat); (2, 1%nat)] /\ completed (trace s) = [(1, 1%nat); (2, 1%nat); (0, 0%nat)].
Proof.
  destruct (play 3 5 x_ok (init (fun _ => 0))) as [s|] eqn:E; [|vm_compute in E; discriminate].
  exists s. split; [apply (play_reach 3 5 2 (fun _ => 0) x_ok [] (init (fun _ => 0))); [constructor|repeat constructor|exact E]|].
  vm_compute in E. injection E as <-. split; [|repeat split; reflexivity].
  intros [|[|t]] Ht; [reflexivity|reflexivity|lia].
Qed.

Definition x_bad : list (nat * option error) :=
  moves [0; 1; 0; 1]%nat ++ [(1%nat, Some (ErrUser 7))] ++ moves [1; 1; 1; 1; 1; 1; 1]%nat ++ [(0%nat, Some (ErrUser 8))] ++ moves [0; 0; 0; 0; 0]%nat.
Example C23_example_bad : exists s, reach 3 5 2 (fun _ => 0) x_bad s /\ finished 2 s /\ thrown (trace s) = [ErrUser 7; ErrUser 8]
  /\ result s = Throw (ErrUser 8) /\ started (trace s) = [(0, 0%nat); (1, 1%nat)].
Proof.
  destruct (play 3 5 x_bad (init (fun _ => 0))) as [s|] eqn:E; [|vm_compute in E; discriminate].
  exists s. split; [apply (play_reach 3 5 2 (fun _ => 0) x_bad [] (init (fun _ => 0))); [constructor|repeat constructor|exact E]|].
  vm_compute in E. injection E as <-. split; [|repeat split; reflexivity].
  intros [|[|t]] Ht; [reflexivity|reflexivity|lia].
Qed.

(** Finding: the configured number of threads can be negative. *)
Theorem C23_thread_count_refuted : construct_threads 8 (Some (-100)) = -92.
Proof. reflexivity. Qed.
Print Assumptions C23_thread_count_refuted.
Theorem C23_thread_count : forall hw p, 0 < hw -> (forall n, p = Some n -> - hw < n) -> 0 < construct_threads hw p.
Proof.
  intros hw [n|] H H1; unfold construct_threads; [specialize (H1 n eq_refl)|]; destruct (Z.leb_spec 0 0); try lia.
  - destruct (Z.leb_spec n 0); lia.
  - destruct (Z.leb_spec hw 0); lia.
Qed.
Print Assumptions C23_thread_count.

(** C24: the values reported in one loop are non-decreasing. *)
Theorem C24_monotone : forall n interval T c l s, (forall t, 0 <= c t) -> reach n interval T c l s ->
  StronglySorted Z.le (reported (trace s)).
Proof. intros n interval T c l s Hc Hr. eapply reports_sorted; eassumption. Qed.
Print Assumptions C24_monotone.

(** C24, first loop of the process (no counters left): a report never exceeds the iterations completed
    when it is made, let alone the total. Missing: later loops, where this is false, see below. *)
Theorem C24_first_loop_partial : forall n interval T l s a z u b, reach n interval T (fun _ => 0) l s ->
  trace s = a ++ EReport z u :: b -> z <= Z.of_nat (List.length (completed a)) /\ (0 <= n -> z <= n).
Proof.
  intros n interval T l s a z u b Hr E.
  assert (H : z <= zsum T (fun _ => 0) + Z.of_nat (List.length (completed a))) by (eapply reports_bound; [|eassumption|eassumption]; intros; lia).
  assert (Z0 : zsum T (fun _ => 0) = 0). { clear. induction T as [|k IH]; cbn; lia. }
  rewrite Z0 in H. split; [lia|]. intros Hn.
  assert (I := reach_inv _ _ _ _ _ _ Hr).
  assert (C : (List.length (completed (trace s)) <= List.length (upto n))%nat).
  { rewrite <- (map_length fst). apply NoDup_incl_length.
    - apply (completed_nodup _ _ _ _ _ _ Hr).
    - intros j Hj. apply in_map_iff in Hj. destruct Hj as ([i t] & <- & Hj). apply (i_done_of _ _ _ I) in Hj.
      apply (i_range _ _ _ I) in Hj. apply upto_in. assert (Hx := i_next_n _ _ _ I). cbn. lia. }
  unfold upto in C. rewrite map_length, seq_length in C. rewrite E, completed_app, app_length in C. lia.
Qed.
Print Assumptions C24_first_loop_partial.

(** C24 for every loop in a history: a report exceeds the iterations completed by at most the counters
    that earlier loops left behind, and each of these is below the update interval. *)
Theorem C24_every_loop_partial : forall n interval T c l s, (forall t, 0 <= c t < Z.max 1 interval) -> reach n interval T c l s ->
  (forall a z u b, trace s = a ++ EReport z u :: b -> z <= zsum T c + Z.of_nat (List.length (completed a)))
  /\ (finished T s -> forall t, (t < T)%nat -> 0 <= count s t < Z.max 1 interval).
Proof.
  intros n interval T c l s Hc Hr. split.
  - intros a z u b E. eapply reports_bound; [|eassumption|eassumption]. intros t. specialize (Hc t). lia.
  - intros Hf t Ht. assert (H := reach_cinv _ _ _ _ _ _ Hc Hr t). rewrite (Hf t Ht) in H. assumption.
Qed.
Print Assumptions C24_every_loop_partial.

(** Finding: a loop of one iteration after another of one iteration reports 2 of 1. *)
Theorem C24_second_loop_refuted :
  exists l1 s1 l2 s2, reach 1 2 1 (fun _ => 0) l1 s1 /\ finished 1 s1 /\ reach 1 2 1 (count s1) l2 s2 /\ finished 1 s2
    /\ reported (trace s2) = [2].
Proof.
  set (l1 := moves [0; 0; 0; 0; 0; 0; 0]%nat). set (l2 := moves [0; 0; 0; 0; 0; 0; 0; 0; 0]%nat).
  destruct (play 1 2 l1 (init (fun _ => 0))) as [s1|] eqn:E1; [|vm_compute in E1; discriminate].
  destruct (play 1 2 l2 (init (count s1))) as [s2|] eqn:E2; [|vm_compute in E1; injection E1 as <-; vm_compute in E2; discriminate].
  exists l1, s1, l2, s2.
  split; [apply (play_reach 1 2 1 (fun _ => 0) l1 [] (init (fun _ => 0))); [constructor|repeat constructor|exact E1]|].
  split; [|split; [apply (play_reach 1 2 1 (count s1) l2 [] (init (count s1))); [constructor|repeat constructor|exact E2]|]].
  - vm_compute in E1. injection E1 as <-. intros [|t] Ht; [reflexivity|lia].
  - vm_compute in E1. injection E1 as <-. vm_compute in E2. injection E2 as <-. split; [|reflexivity]. intros [|t] Ht; [reflexivity|lia].
Qed.
Print Assumptions C24_second_loop_refuted.
