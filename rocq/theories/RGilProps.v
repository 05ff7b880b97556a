(** C110: rendering with components written in Python. *)
From Coq Require Import List Bool Arith Lia.
From Verif Require Import RGilModel RGilSpec RGilProofs.
Import ListNotations.

Section Props.
Context {E V A : Type}.
Implicit Types (p : plan E V A) (s : state E V A).

(** Only one thread at a time executes Python code, and none while other Python threads do. *)
Theorem C110_exclusive : forall p l s t u, run l (init p) = Some s -> t < team (cur s) -> u < team (cur s) ->
  in_python (pcs s t) -> (in_python (pcs s u) -> t = u) /\ gil s <> Some Others.
Proof.
  intros p l s t u H Ht Hu Pt. destruct (reach _ _ _ H) as [I _].
  assert (Q : forall w, in_python (pcs s w) -> holds (pcs s w) = true) by (intros w [[i ->]| ->]; reflexivity).
  pose proof (i_gil2 _ I t Ht (Q t Pt)) as Gt. split; [|congruence].
  intros Pu. pose proof (i_gil2 _ I u Hu (Q u Pu)) as Gu. congruence.
Qed.

(** No deadlock: whatever happened so far, unless other Python threads are just running (and then they can give way), the call
    can be brought to its end by letting the Python methods under way return, whatever they return. *)
Theorem C110_no_deadlock : forall p l s (v : V) (a : A), run l (init p) = Some s -> ended s = None ->
  (gil s = Some Others -> step OthersGive s <> None) /\
  (gil s <> Some Others -> exists r s', Forall (benign v a) r /\ run r s = Some s' /\ ended s' <> None).
Proof.
  intros p l s v a H He. destruct (reach _ _ _ H) as [I J]. split; intros Hg.
  - unfold step. rewrite He, Hg. discriminate.
  - exact (finish v a s I J He Hg).
Qed.

(** No livelock: an endless execution consists, from some time on, of pauses in Python methods and of other threads. *)
Theorem C110_no_livelock : forall p (h : nat -> action E V A) w, endless p h w ->
  ~ (forall K, exists k, K <= k /\ works (h k) (w k) = true).
Proof. intros p h w H. exact (no_endless p h w H). Qed.

(** In every loop each iteration is begun at most once, and every iteration if the loop is left without exception. *)
Theorem C110_each_once : forall p l s, run l (init p) = Some s ->
  NoDup (begun s) /\ (forall i, In i (begun s) -> i < size (cur s)) /\
  (0 < team (cur s) -> (forall t, t < team (cur s) -> pcs s t = Finished) -> exp s = None ->
   forall i, i < size (cur s) -> In i (begun s)).
Proof.
  intros p l s H. destruct (reach _ _ _ H) as [I _]. split; [exact (i_nodup _ I)|]. split.
  - intros i Hi. pose proof (i_lt _ I i Hi). pose proof (i_next _ I). lia.
  - intros HT Hf Hx i Hi. pose proof (i_fin _ I 0 HT (Hf 0 HT)) as Hn.
    assert (Hr : raised s = []).
    { destruct (raised s) as [|e x] eqn:Er; [reflexivity|exfalso]. destruct (i_seen _ I) as [Q|(t & e' & Ht & Q)]; [rewrite Er; discriminate|contradiction|].
      rewrite (Hf t Ht) in Q. destruct Q; discriminate. }
    assert (Hd : done s = false) by (destruct (done s) eqn:Ed; [exfalso; exact (i_done _ I Ed Hr)|reflexivity]).
    destruct (i_cover _ I Hd i ltac:(lia)) as [?|(t & Ht & Q)]; [assumption|]. rewrite (Hf t Ht) in Q. discriminate Q.
Qed.

(** When the call returns the caller has the interpreter lock again and gets an exception exactly if one was raised. *)
Theorem C110_returns : forall p l s r, run l (init p) = Some s -> ended s = Some (Returned r) ->
  gil s = Some (Thread 0) /\ (r = None <-> exceptions s = []) /\ (forall e, r = Some e -> In e (exceptions s)).
Proof.
  intros p l s r H Hr. destruct (reach _ _ _ H) as [_ J]. destruct (j_end _ J r Hr) as (Hc & -> & Hg).
  unfold exceptions. rewrite (j_ret _ J Hc), app_nil_r. split; [exact Hg|]. split; [|exact (j_some _ J)].
  split; [exact (j_none _ J)|]. intros Q. destruct (pending s) as [e|] eqn:Ep; [|reflexivity]. pose proof (j_some _ J e Ep) as X. rewrite Q in X. contradiction.
Qed.

(** The process is terminated only if a destructor, or code run while an exception is on its way, raised an exception. *)
Theorem C110_exception_reaches_caller_partial : forall p l s, run l (init p) = Some s -> ended s = Some Terminated ->
  (noexc (cur s) = true \/ pending s <> None) /\ raised s <> [].
Proof. intros p l s H Ht. destruct (reach _ _ _ H) as [_ J]. exact (j_term _ J Ht). Qed.
End Props.
Print Assumptions C110_exclusive. Print Assumptions C110_no_deadlock. Print Assumptions C110_no_livelock. Print Assumptions C110_each_once. Print Assumptions C110_returns. Print Assumptions C110_exception_reaches_caller_partial.

(** A renderer as src/scheduler.cpp:36-48: it reports the start of its work, renders four pixels on two threads, each asking a
    Python component for a number of further calls, and reports the end in a destructor (include/lm/progress.h:102-103). *)
Fixpoint ask (k : nat) : prog nat nat := match k with O => End | S k' => Call (fun _ => ask k') end.
Definition scheduler : plan nat nat unit :=
  let report := Loop true 1 1 (fun _ _ => ask 1) Ret (fun _ => Ret) in
  Loop false 1 1 (fun _ _ => ask 1) Ret (fun _ =>
  Loop false 2 4 (fun t i => Call (fun m => ask (m + if t =? 0 then 1 else 0))) report (fun _ => report)).

(** A thread takes n steps; Python methods return 1 *)
Definition steps (t n : nat) : list (action nat nat unit) := repeat (Step t (Return 1)) n.
(** All work done by thread 0, up to the last report *)
Definition rendered : list (action nat nat unit) := steps 0 7 ++ [Next tt] ++ steps 0 49 ++ steps 1 1 ++ [Next tt].

(** The claim that every exception reaches the caller is false: if the Python progress reporter raises in end(), which is called
    by a destructor, the process is terminated. *)
Theorem C110_exception_reaches_caller_refuted :
  ~ (forall l (s : state nat nat unit), run l (init scheduler) = Some s -> ended s <> Some Terminated).
Proof.
  intros H.
  set (l := rendered ++ steps 0 4 ++ [Step 0 (Raise 9)] ++ steps 0 3 ++ [Next tt]).
  assert (Q : option_map ended (run l (init scheduler)) = Some (Some Terminated)) by (vm_compute; reflexivity).
  destruct (run l (init scheduler)) as [s|] eqn:Er; [|discriminate Q]. apply (H _ s Er). injection Q as Q. exact Q.
Qed.
Print Assumptions C110_exception_reaches_caller_refuted.

(** The hypotheses are met: two threads in the loop, one in Python and one waiting for the interpreter lock. *)
Definition place (p : pc nat nat) : nat := match p with Running _ => 1 | Want _ => 2 | Finished => 3 | _ => 0 end.
Example C110_two_threads :
  option_map (fun s => (team (cur s), place (pcs s 0), place (pcs s 1), gil s, ended s, begun s)) (run (steps 0 7 ++ [Next tt] ++ steps 0 4 ++ steps 1 3) (init scheduler))
  = Some (2, 1, 2, Some (Thread 0), None, [0; 1]).
Proof. vm_compute. reflexivity. Qed.
(** A whole rendering that ends well, and one in which an exception of thread 1 reaches the caller. *)
Example C110_whole :
  option_map (fun s => (ended s, gil s)) (run (rendered ++ steps 0 7 ++ [Next tt; Next tt]) (init scheduler)) = Some (Some (Returned None), Some (Thread 0)) /\
  option_map (fun s => (place (pcs s 0), place (pcs s 1), begun s)) (run (steps 0 7 ++ [Next tt] ++ steps 0 49 ++ steps 1 1) (init scheduler)) = Some (3, 3, [0; 1; 2; 3]).
Proof. split; vm_compute; reflexivity. Qed.
Example C110_raises :
  option_map (fun s => (ended s, exceptions s))
   (run (steps 0 7 ++ [Next tt] ++ steps 0 1 ++ steps 1 4 ++ [Step 1 (Raise 9)] ++ steps 1 2 ++ steps 0 6 ++ steps 1 1 ++ [Next tt] ++ steps 0 7 ++ [Next tt; Next tt]) (init scheduler))
  = Some (Some (Returned (Some 9)), [9]).
Proof. vm_compute. reflexivity. Qed.
(** An endless execution: the other Python threads take and give the interpreter lock for ever. *)
Example C110_endless : exists h w, endless scheduler h w.
Proof.
  exists (fun k => if Nat.even k then OthersTake else OthersGive),
    (fun k => if Nat.even k then init scheduler else set_gil (init scheduler) (Some Others)). split; [reflexivity|].
  intros k. rewrite Nat.even_succ, <- Nat.negb_even. destruct (Nat.even k); reflexivity.
Qed.
