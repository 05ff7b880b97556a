(** Model of the schedulers (src/scheduler.cpp) on top of the parallel loop. A call of the renderer's
    callback is the triple (pixel index, sample index, thread). *)
From Coq Require Import List ZArith Bool.
From Verif Require Import Base ParModel ParSpec.
Import ListNotations.
Open Scope Z_scope.

(** One complete parallel loop: [tr] is the sequence of its events, [r] what its caller sees; [c] and
    [c'] are the thread-local progress counters before and after. src/parallel/parallel_openmp.cpp:41-100 (ParModel). *)
Definition loop (interval : Z) (T : nat) (n : Z) (c : nat -> Z) (tr : list event) (c' : nat -> Z) (r : outcome unit) : Prop :=
  exists l s, reach n interval T c l s /\ finished T s /\ tr = trace s /\ c' = count s /\ r = result s.

Section S.
  Variable interval : Z.
  Variable T : nat.

  (** The calls of the renderer's callback in a loop whose body turns iteration i into [body i]. src/scheduler.cpp:37-49. *)
  Definition calls (body : Z -> Z * Z) (tr : list event) : list (Z * Z * nat) :=
    map (fun e => (body (fst e), snd e)) (started tr).

  (** src/scheduler.cpp:37-49 Scheduler_SPP_Sample::run. Integer overflow of numPixels * spp_ is not
      modelled; / and % truncate. *)
  Definition spp_sample (num_pixels spp : Z) (c : nat -> Z) (cs : list (Z * Z * nat)) (c' : nat -> Z) (r : outcome Z) : Prop :=
    exists tr o, loop interval T (num_pixels * spp) c tr c' o
      /\ cs = calls (fun i => (Z.quot i spp, Z.rem i spp)) tr /\ r = obind o (fun _ => Ok spp).

  (** src/scheduler.cpp:128-137 Scheduler_SPI_Sample::run *)
  Definition spi_sample (num_samples : Z) (c : nat -> Z) (cs : list (Z * Z * nat)) (c' : nat -> Z) (r : outcome Z) : Prop :=
    exists tr o, loop interval T num_samples c tr c' o
      /\ cs = calls (fun i => (0, i)) tr /\ r = obind o (fun _ => Ok num_samples).

  (** The loop of the time-based schedulers, from the point where [done] has been processed and [k]
      passes have been made. [expired k]: the clock read after pass k is past render_time_. src/scheduler.cpp:77-106. *)
  Inductive passes (n : Z) (body : Z -> Z -> Z * Z) (inc : Z) (expired : nat -> bool) :
      nat -> Z -> (nat -> Z) -> list (Z * Z * nat) -> (nat -> Z) -> outcome Z -> Prop :=
  | pass_throw k d c tr c' e : loop interval T n c tr c' (Throw e) ->
      passes n body inc expired k d c (calls (body d) tr) c' (Throw e)
  | pass_stop k d c tr c' : loop interval T n c tr c' (Ok tt) -> expired k = true ->
      passes n body inc expired k d c (calls (body d) tr) c' (Ok (d + inc))
  | pass_next k d c tr c' cs c'' r : loop interval T n c tr c' (Ok tt) -> expired k = false ->
      passes n body inc expired (S k) (d + inc) c' cs c'' r ->
      passes n body inc expired k d c (calls (body d) tr ++ cs) c'' r.

  (** src/scheduler.cpp:77-106 Scheduler_SPP_Time::run *)
  Definition spp_time (num_pixels : Z) (expired : nat -> bool) := passes num_pixels (fun spp i => (i, spp)) 1 expired 0%nat 0.

  (** src/scheduler.cpp:161-187 Scheduler_SPI_Time::run *)
  Definition spi_time (samples_per_iter : Z) (expired : nat -> bool) :=
    passes samples_per_iter (fun processed i => (0, processed + i)) samples_per_iter expired 0%nat 0.
End S.
