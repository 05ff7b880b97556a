(** C21 (samples per pixel), C22 (samples per image). *)
From Coq Require Import List ZArith Bool Lia Permutation.
From Verif Require Import Base ParModel ParSpec ParProofs ParProps SchedModel SchedSpec SchedProofs.
Import ListNotations.
Open Scope Z_scope.

(** C21: every run that returns has called the callback once for each pixel and sample, on valid
    threads, and returns the samples per pixel. [c] are the progress counters left by earlier loops. *)
Theorem C21_each_pixel_sample_once : forall interval T np spp c cs c' r, (0 < T)%nat -> 0 <= np ->
  spp_sample interval T np spp c cs c' (Ok r) ->
  r = spp /\ each_pair_once np spp (map fst cs) /\ forall x t, In (x, t) cs -> (t < T)%nat.
Proof. intros interval T np spp c cs c' r. apply spp_sample_ok. Qed.
Print Assumptions C21_each_pixel_sample_once.

(** Also when a callback raises, no call is repeated or outside the range. *)
Theorem C21_never_twice : forall interval T np spp c cs c' r, 0 <= np -> spp_sample interval T np spp c cs c' r ->
  NoDup (map fst cs) /\ (forall p s, In (p, s) (map fst cs) -> 0 <= p < np /\ 0 <= s < spp) /\ (r = Ok spp \/ exists e, r = Throw e).
Proof. intros interval T np spp c cs c' r. apply spp_sample_any. Qed.
Print Assumptions C21_never_twice.

(** The time-based scheduler makes passes until the clock has expired after one, at least one, each
    over all pixels, and returns their number. *)
Theorem C21_time_based : forall interval T np expired c cs c' r, (0 < T)%nat -> spp_time interval T np expired c cs c' (Ok r) ->
  exists m, r = Z.of_nat m /\ (1 <= m)%nat /\ (forall j, (j < m - 1)%nat -> expired j = false) /\ expired (m - 1)%nat = true
    /\ each_pair_once np r (map fst cs) /\ forall x t, In (x, t) cs -> (t < T)%nat.
Proof. intros interval T np expired c cs c' r. apply spp_time_ok. Qed.
Print Assumptions C21_time_based.

(** C22: samples 0 .. n-1 once each, and n is returned. *)
Theorem C22_consecutive : forall interval T n c cs c' r, (0 < T)%nat -> spi_sample interval T n c cs c' (Ok r) ->
  r = n /\ Permutation (map fst cs) (map (fun i => (0, i)) (upto n)) /\ forall x t, In (x, t) cs -> (t < T)%nat.
Proof. intros interval T n c cs c' r. apply spi_sample_ok. Qed.
Print Assumptions C22_consecutive.

(** The time-based scheduler makes at least one pass, numbers the samples of all passes 0 .. r-1
    without gap or repetition, and returns r, a multiple of the pass size. *)
Theorem C22_time_based : forall interval T n expired c cs c' r, (0 < T)%nat -> 0 <= n -> spi_time interval T n expired c cs c' (Ok r) ->
  exists m, r = Z.of_nat m * n /\ (1 <= m)%nat /\ (forall j, (j < m - 1)%nat -> expired j = false) /\ expired (m - 1)%nat = true
    /\ Permutation (map fst cs) (map (fun i => (0, i)) (upto r)) /\ forall x t, In (x, t) cs -> (t < T)%nat.
Proof. intros interval T n expired c cs c' r. apply spi_time_ok. Qed.
Print Assumptions C22_time_based.

(** One pixel, three samples, on the run of two threads shown for C23. *)
Example C21_example : exists cs c', spp_sample 5 2 1 3 (fun _ => 0) cs c' (Ok 3) /\ map fst cs = [(0, 0); (0, 1); (0, 2)].
Proof.
  destruct C23_example_ok as (s & Hr & Hf & Ht & Hs & _). exists (calls (fun i => (Z.quot i 3, Z.rem i 3)) (trace s)), (count s).
  split; [|unfold calls; rewrite Hs; reflexivity]. exists (trace s), (Ok tt). split; [|auto].
  exists x_ok, s. repeat split; auto. destruct (finished_ok 3 5 2 (fun _ => 0) x_ok s ltac:(lia) Hr Hf Ht) as (_ & _ & _ & E). now rewrite E.
Qed.
Example C22_example : exists cs c', spi_time 5 2 3 (fun k => true) (fun _ => 0) cs c' (Ok 3) /\ map fst cs = [(0, 0); (0, 1); (0, 2)].
Proof.
  destruct C23_example_ok as (s & Hr & Hf & Ht & Hs & _). exists (calls (fun i => (0, 0 + i)) (trace s)), (count s).
  split; [|unfold calls; rewrite Hs; reflexivity]. apply (pass_stop 5 2 3 (fun processed i => (0, processed + i)) 3 (fun _ => true) 0 0); [|reflexivity].
  exists x_ok, s. repeat split; auto. destruct (finished_ok 3 5 2 (fun _ => 0) x_ok s ltac:(lia) Hr Hf Ht) as (_ & _ & _ & E). now rewrite E.
Qed.
