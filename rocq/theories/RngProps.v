(** Properties of the random numbers. *)
From Coq Require Import List ZArith NArith Bool Reals Lra Lia.
From Flocq Require Import Core.Core IEEE754.BinarySingleNaN.
From Verif Require Import RngModel RngSpec RngProofs.
Import ListNotations.

(** ** C78: single-precision random numbers *)
(** For every double in [0,1) the float is finite and in [0,1), and it is the greatest float not above the double. *)
Theorem C78_single_precision (rd : f64) :
  is_finite rd = true -> (0 <= B2R rd < 1)%R ->
  is_finite (float_u rd) = true /\ (0 <= B2R (float_u rd) < 1)%R /\ (B2R (float_u rd) <= B2R rd)%R /\
  forall y : f32, is_finite y = true -> (B2R y <= B2R rd)%R -> (B2R y <= B2R (float_u rd))%R.
Proof. exact (float_u_spec rd). Qed.
Print Assumptions C78_single_precision.
(** Floats that are handed out are drawn again unchanged: no number is lost *)
Theorem C78_exact (rd : f64) (y : f32) :
  is_finite rd = true -> (0 <= B2R rd < 1)%R -> is_finite y = true -> B2R y = B2R rd -> B2R (float_u rd) = B2R y.
Proof.
  intros F B Fy E. destruct (float_u_spec rd F B) as [_ [_ [U V]]]. specialize (V y Fy ltac:(lra)). lra.
Qed.
Print Assumptions C78_exact.
(** A double that the conversion alone rounds to 1: 1 - 2^-53 *)
Definition near_one : f64 := @B754_finite 53 1024 false 9007199254740991 (-53) eq_refl.
Definition below_one : f32 := @B754_finite 24 128 false 16777215 (-24) eq_refl.
Example C78_example :
  is_finite near_one = true /\ (0 <= B2R near_one < 1)%R /\ B2R (to_f32 near_one) = 1%R /\ float_u near_one = below_one.
Proof.
  repeat split.
  - cbn. unfold F2R. cbn. lra.
  - cbn. unfold F2R. cbn. lra.
  - cbn. unfold F2R. cbn. lra.
  - apply B2SF_inj. reflexivity.
Qed.

(** ** C79: reproducible renderings *)
(** The engine is the one of the C++ standard, which prescribes this number *)
Fixpoint nth_draw (k : nat) (g : list N) : N := match k with O => fst (mt_next g) | S k => nth_draw k (snd (mt_next g)) end.
Example mt19937_check : nth_draw 9999 (mt_seed 5489) = 4123659995%N.
Proof. vm_compute. reflexivity. Qed.

(** Every thread goes through the numbers of its own generator, whatever the other threads do. *)
Theorem C79_threads {result} (body : Z -> list N -> result * list N) seed dev l m calls t :
  own t calls (fst (rng_render body seed dev l m calls)) = alone body (local_rng seed dev m l t) (samples_of t calls).
Proof. apply render_threads. Qed.
Print Assumptions C79_threads.

(** The first rendering of its kind in a process: with the same seed, and if the threads get the same samples, the
    results are the same, and they are those of engines seeded with the seed plus the number of the thread. *)
Theorem C79_first_partial {result} (body : Z -> list N -> result * list N) s dev dev' l m m' calls calls' :
  (forall t, m l t = None) -> (forall t, m' l t = None) -> same_work calls calls' ->
  forall t,
    own t calls (fst (rng_render body (Some s) dev l m calls)) = alone body (mt_seed ((s + Z.of_nat t) mod 2 ^ 32)) (samples_of t calls) /\
    own t calls (fst (rng_render body (Some s) dev l m calls)) = own t calls' (fst (rng_render body (Some s) dev' l m' calls')).
Proof.
  intros H H' W t. rewrite !render_threads. unfold local_rng. rewrite H, H', (W t). now split.
Qed.
Print Assumptions C79_first_partial.
(** With one thread there is only one schedule, and the first rendering is determined by the seed. *)
Theorem C79_one_thread_partial {result} (body : Z -> list N -> result * list N) s dev dev' l m m' samples :
  m l 0%nat = None -> m' l 0%nat = None ->
  fst (rng_render body (Some s) dev l m (map (pair 0%nat) samples)) = fst (rng_render body (Some s) dev' l m' (map (pair 0%nat) samples)).
Proof.
  intros H H'.
  rewrite <- (own_all _ samples (fst (rng_render body (Some s) dev l m _))) by now rewrite render_length, map_length.
  rewrite <- (own_all _ samples (fst (rng_render body (Some s) dev' l m' _))) by now rewrite render_length, map_length.
  rewrite !render_threads. unfold local_rng. now rewrite H, H'.
Qed.
Print Assumptions C79_one_thread_partial.

(** Two calls of thread 0 and one of thread 1, in two orders. *)
Example C79_example :
  let a := [(0%nat, 0%Z); (1%nat, 1%Z); (0%nat, 2%Z)] in let b := [(1%nat, 1%Z); (0%nat, 0%Z); (0%nat, 2%Z)] in
  same_work a b /\
  fst (rng_render draw_one (Some 42%Z) (fun _ => 0%Z) 0%nat fresh a) = [1608637542; 494155588; 3421126067]%N /\
  fst (rng_render draw_one (Some 42%Z) (fun _ => 1%Z) 0%nat fresh b) = [494155588; 1608637542; 3421126067]%N.
Proof.
  cbv zeta. repeat split; [|vm_compute; reflexivity..].
  intros [|[|t]]; reflexivity.
Qed.

(** The claim as users read it fails: the same rendering again in the same process, on one thread. *)
Theorem C79_again_refuted :
  ~ forall s dev l samples,
      let calls := map (pair 0%nat) samples in
      let first := rng_render draw_one (Some s) dev l fresh calls in
      fst (rng_render draw_one (Some s) dev l (snd first) calls) = fst first.
Proof.
  intros H. specialize (H 42%Z (fun _ => 0%Z) 0%nat [0%Z]). cbv zeta in H. vm_compute in H. discriminate H.
Qed.
Print Assumptions C79_again_refuted.
(** After a rendering of the same kind, the seed of the next one has no effect on the threads that took part, and
    so with every further rendering. *)
Theorem C79_seed_ignored_refuted {result} (body : Z -> list N -> result * list N) seed dev l m calls :
  let after := snd (rng_render body seed dev l m calls) in
  forall seed1 seed2 dev1 dev2 calls', incl (map fst calls') (map fst calls) ->
    rng_render body seed1 dev1 l after calls' = rng_render body seed2 dev2 l after calls'.
Proof.
  cbv zeta. intros s1 s2 d1 d2 calls' I. apply render_locals. intros t T. apply render_used. left. now apply I.
Qed.
Print Assumptions C79_seed_ignored_refuted.
(** The number that a sample gets depends on the thread that works on it. *)
Theorem C79_schedule_refuted :
  ~ forall s dev l a b, map snd a = map snd b ->
      fst (rng_render draw_one (Some s) dev l fresh a) = fst (rng_render draw_one (Some s) dev l fresh b).
Proof.
  intros H. specialize (H 42%Z (fun _ => 0%Z) 0%nat [(0%nat, 0%Z)] [(1%nat, 0%Z)] eq_refl). vm_compute in H. discriminate H.
Qed.
Print Assumptions C79_schedule_refuted.
(** Renderings with consecutive seeds are not independent: one thread of the first goes through the numbers of
    another thread of the second. *)
Theorem C79_consecutive_refuted {result} (body : Z -> list N -> result * list N) s dev dev' l t samples :
  fst (rng_render body (Some s) dev l fresh (map (pair (S t)) samples)) =
  fst (rng_render body (Some (s + 1)%Z) dev' l fresh (map (pair t) samples)).
Proof.
  assert (G : forall m m', local_rng (Some s) dev m l (S t) = local_rng (Some (s + 1)%Z) dev' m' l t ->
    fst (rng_render body (Some s) dev l m (map (pair (S t)) samples)) = fst (rng_render body (Some (s + 1)%Z) dev' l m' (map (pair t) samples))).
  { induction samples as [|i r IH]; intros m m' E; [easy|]. cbn [map rng_render]. unfold rng_call. cbn [fst snd]. rewrite E.
    destruct (body i (local_rng (Some (s + 1)%Z) dev' m' l t)) as [x g].
    specialize (IH (set_local m l (S t) g) (set_local m' l t g)).
    destruct (rng_render body (Some s) dev l (set_local m l (S t) g) _), (rng_render body (Some (s + 1)%Z) dev' l (set_local m' l t g) _). cbn in *.
    rewrite IH; [easy|]. unfold local_rng. now rewrite !set_local_same. }
  apply G. unfold local_rng, fresh, seed_of. do 2 f_equal. lia.
Qed.
Print Assumptions C79_consecutive_refuted.
