(** C99 (what splatting sums up to in Float), C100 (the running average in Float). *)
From Coq Require Import List Reals ZArith Bool Lra Lia Psatz Permutation.
From Coq Require Import Floats.SpecFloat.
From Flocq Require Import Core.Core IEEE754.BinarySingleNaN.
From Verif Require Import RngModel FltModel FltProofs FDistSpec FDistProofs FBoundModel FBoundSpec FBoundProofs FFilmModel FFilmSpec FFilmProofs CasModel CasProofs CasProps.
Import ListNotations.
Local Open Scope R_scope.

(** All contributions to pixel [p], thread by thread *)
Definition contributions (T : nat) (progs : nat -> list (nat * fvec)) (p : nat) : list fvec := flat_map (fun t => splats_to p (progs t)) (seq 0 T).

Lemma linear_bound n : 2 * INR n * eps <= 1 -> (1 + eps) ^ n - 1 <= 2 * INR n * eps.
Proof. intros H. assert (P := eps_pos). assert (Q := pow_linear eps n ltac:(lra) H). lra. Qed.

(** C99: [T] threads splat finite values concurrently. In every interleaving every channel of every pixel ends
    as a finite number, at most 2 n 2^-53 times the sum of the absolute values away from the exact sum,
    [n] being the number of contributions to the pixel. *)
Theorem C99_sum : forall (m0 : nat -> fvec) T progs l s p i,
  reach fvec_eq m0 (fun t => splat_ops fvadd (progs t)) l s -> (forall t, todo (threads s t) = []) -> (forall t, (T <= t)%nat -> progs t = []) ->
  let vs := contributions T progs p in let n := INR (length vs) in let size := Rabs (val (fcomp (m0 p) i)) + abs_sum i vs in
  finite (fcomp (m0 p) i) = true -> all_finite i vs -> 2 * n * eps <= 1 -> size <= 2 ^ 1022 ->
  finite (fcomp (mem s p) i) = true /\
  Rabs (val (fcomp (mem s p) i) - (val (fcomp (m0 p) i) + sum_of i vs)) <= 2 * n * eps * size.
Proof.
  intros m0 T progs l s p i R D HT vs n size F A N B.
  destruct (splat_order fvadd fvec_eq m0 T progs l s fvec_eq_ok HT R D p) as (q & P & ->). fold (contributions T progs p) in P. fold vs in P.
  destruct (sum_perm i q vs P) as [S1 S2]. assert (L := Permutation_length P).
  destruct (fold_sum i (m0 p) F q) as [G E].
  - intros v V. apply A. now apply (Permutation_in _ P).
  - rewrite L. exact N.
  - rewrite S2. exact B.
  - split; [exact G|]. rewrite S1, S2, L in E. apply Rle_trans with (1 := E). apply Rmult_le_compat_r; [|now apply linear_bound].
    apply Rplus_le_le_0_compat; [apply Rabs_pos|apply abs_pos].
Qed.
Print Assumptions C99_sum.

(** Two runs of the same program can differ by rounding only. *)
Theorem C99_two_runs : forall (m0 : nat -> fvec) T progs l s l' s' p i,
  reach fvec_eq m0 (fun t => splat_ops fvadd (progs t)) l s -> (forall t, todo (threads s t) = []) ->
  reach fvec_eq m0 (fun t => splat_ops fvadd (progs t)) l' s' -> (forall t, todo (threads s' t) = []) -> (forall t, (T <= t)%nat -> progs t = []) ->
  let vs := contributions T progs p in let n := INR (length vs) in let size := Rabs (val (fcomp (m0 p) i)) + abs_sum i vs in
  finite (fcomp (m0 p) i) = true -> all_finite i vs -> 2 * n * eps <= 1 -> size <= 2 ^ 1022 ->
  Rabs (val (fcomp (mem s p) i) - val (fcomp (mem s' p) i)) <= 4 * n * eps * size.
Proof.
  intros m0 T progs l s l' s' p i R D R' D' HT vs n size F A N B.
  destruct (C99_sum m0 T progs l s p i R D HT F A N B) as [_ E]. destruct (C99_sum m0 T progs l' s' p i R' D' HT F A N B) as [_ E'].
  fold vs n size in E, E'. apply Rabs_le_inv in E, E'. apply Rabs_le. lra.
Qed.
Print Assumptions C99_two_runs.

(** Then the image is rescaled, usually by 1 over the number of samples. *)
Theorem C99_rescaled : forall (m0 : nat -> fvec) T progs l s p i k,
  reach fvec_eq m0 (fun t => splat_ops fvadd (progs t)) l s -> (forall t, todo (threads s t) = []) -> (forall t, (T <= t)%nat -> progs t = []) ->
  let vs := contributions T progs p in let n := INR (length vs) in let size := Rabs (val (fcomp (m0 p) i)) + abs_sum i vs in
  finite (fcomp (m0 p) i) = true -> all_finite i vs -> 2 * n * eps <= 1 -> size <= 2 ^ 1022 -> finite k = true -> Rabs (val k) <= 1 ->
  finite (fcomp (fvscale (mem s p) k) i) = true /\
  Rabs (val (fcomp (fvscale (mem s p) k) i) - (val (fcomp (m0 p) i) + sum_of i vs) * val k) <= (2 * n + 2) * eps * size * Rabs (val k) + / 2 ^ 1074.
Proof.
  intros m0 T progs l s p i k R D HT vs n size F A N B Fk Bk.
  destruct (C99_sum m0 T progs l s p i R D HT F A N B) as [G E]. fold vs n size in E.
  assert (X : fcomp (fvscale (mem s p) k) i = fmult (fcomp (mem s p) i) k) by (destruct i as [|[|i]]; reflexivity). rewrite X. clear X.
  set (x := fcomp (mem s p) i) in *. set (z := val (fcomp (m0 p) i) + sum_of i vs) in *.
  assert (S0 : 0 <= size) by (unfold size; apply Rplus_le_le_0_compat; [apply Rabs_pos|apply abs_pos]).
  assert (Z : Rabs z <= size).
  { unfold z, size. apply Rle_trans with (1 := Rabs_triang _ _). assert (W := sum_abs i vs). lra. }
  assert (P := eps_pos). assert (N0 : 0 <= n) by apply pos_INR.
  assert (Y : Rabs (val x) <= 2 * size).
  { assert (T1 := Rabs_triang (val x - z) z). replace (val x - z + z) with (val x) in T1 by ring.
    assert (2 * n * eps * size <= 1 * size) by (now apply Rmult_le_compat_r). lra. }
  destruct (fmult_key x k G Fk) as [Nm Km].
  assert (Pb : Rabs (val x * val k) <= 2 * 2 ^ 1022).
  { rewrite Rabs_mult. apply Rle_trans with (Rabs (val x) * 1); [apply Rmult_le_compat_l; [apply Rabs_pos|assumption]|lra]. }
  destruct (result_finite _ _ Nm Km) as [Fm Vm].
  { apply Rle_lt_trans with (bpow radix2 1023); [|apply bpow_lt; reflexivity].
    replace (2 * 2 ^ 1022) with (bpow radix2 1023) in Pb.
    - apply abs_round_le_generic; auto with typeclass_instances. apply generic_format_bpow. vm_compute. discriminate.
    - rewrite (pow_bpow 1022). change (Z.of_nat 1022) with 1022%Z. exact (bpow_plus radix2 1 1022). }
  split; [exact Fm|]. rewrite Vm. assert (W := rnd_any (val x * val k)). change e53 with eps in W. rewrite Rabs_mult in W.
  assert (K0 := Rabs_pos (val k)). assert (T1 := Rabs_triang (rnd (val x * val k) - val x * val k) ((val x - z) * val k)).
  replace (rnd (val x * val k) - val x * val k + (val x - z) * val k) with (rnd (val x * val k) - z * val k) in T1 by ring.
  rewrite (Rabs_mult (val x - z)) in T1.
  assert (Rabs (val x - z) * Rabs (val k) <= 2 * n * eps * size * Rabs (val k)) by (now apply Rmult_le_compat_r).
  assert (eps * (Rabs (val x) * Rabs (val k)) <= eps * (2 * size * Rabs (val k))) by (apply Rmult_le_compat_l; [lra|]; now apply Rmult_le_compat_r).
  lra.
Qed.
Print Assumptions C99_rescaled.

(** ** The schedule shows in the image *)
Fixpoint run {V} (veq : V -> V -> bool) (l : list nat) (s : state (V := V)) : option state :=
  match l with [] => Some s | t :: r => match step veq t false s with Some s' => run veq r s' | None => None end end.
Lemma run_reach {V} veq (m : nat -> V) progs : forall l k s s', reach veq m progs k s -> run veq l s = Some s' -> reach veq m progs (k ++ l) s'.
Proof.
  induction l as [|t l IH]; intros k s s' R E; cbn [run] in E; [injection E as <-; now rewrite app_nil_r|].
  destruct (step veq t false s) as [s1|] eqn:S; [|discriminate E].
  replace (k ++ t :: l) with ((k ++ [t]) ++ l) by (now rewrite <- app_assoc). apply (IH _ s1); [|assumption]. now apply reach_step with (1 := R) (2 := S).
Qed.

(** Thread 0 splats 1, thread 1 splats 2^-53 twice. *)
Definition x_grey (m e : Z) : fvec := FV (fmake m e) (fmake m e) (fmake m e).
Definition x_work (t : nat) : list (nat * fvec) :=
  match t with O => [(0%nat, x_grey 1 0)] | S O => [(0%nat, x_grey 1 (-53)); (0%nat, x_grey 1 (-53))] | _ => [] end.
Definition x_start : state := init (fun _ => fv0) (fun t => splat_ops fvadd (x_work t)).
Definition x_big_first : list nat := [0; 0; 1; 1; 1; 1]%nat.
Definition x_big_last : list nat := [1; 1; 1; 1; 0; 0]%nat.
Definition left_of (s : option (state (V := fvec))) : list nat := match s with Some s => map (fun t => length (todo (threads s t))) [0; 1]%nat | None => [9]%nat end.

Lemma x_run l m e : (left_of (run fvec_eq l x_start) = [0; 0]%nat) ->
  option_map (fun s => sf_num (B2SF (fcomp (mem s 0%nat) 0))) (run fvec_eq l x_start) = Some (Some (m, e)) ->
  (forall s, run fvec_eq l x_start = Some s -> forall t, (2 <= t)%nat -> todo (threads s t) = []) ->
  exists s, reach fvec_eq (fun _ => fv0) (fun t => splat_ops fvadd (x_work t)) l s /\ (forall t, todo (threads s t) = []) /\
  val (fcomp (mem s 0%nat) 0) = IZR m * bpow radix2 e.
Proof.
  intros L E H. destruct (run fvec_eq l x_start) as [s|] eqn:R; [|discriminate E]. exists s.
  split; [exact (run_reach _ _ _ _ [] _ _ (reach_init _ _ _) R)|]. cbn [left_of map] in L. injection L as L0 L1. cbn [option_map] in E. injection E as E.
  split; [|exact (proj2 (val_sf _ _ _ E))]. intros [|[|t]]; [now apply length_zero_iff_nil|now apply length_zero_iff_nil|]. apply (H s eq_refl). lia.
Qed.
Lemma x_others : forall l s s', (forall t, (2 <= t)%nat -> todo (threads s t) = []) -> run fvec_eq l s = Some s' -> forall t, (2 <= t)%nat -> todo (threads s' t) = [].
Proof.
  induction l as [|u l IH]; intros s s' H E t T; cbn [run] in E; [injection E as <-; now apply H|].
  destruct (step fvec_eq u false s) as [s1|] eqn:S; [|discriminate E]. apply (IH s1 s'); try assumption.
  intros t' T'. unfold step in S. destruct (todo (threads s u)) as [|o r] eqn:U; [discriminate S|].
  assert (Ne : t' <> u) by (intros ->; rewrite (H u T') in U; discriminate U). apply Nat.eqb_neq in Ne.
  destruct (expected (threads s u)) as [e|]; [destruct (negb false && _)|]; injection S as <-; cbn [threads]; unfold upd; rewrite Ne; now apply H.
Qed.
Lemma x_start_others : forall t, (2 <= t)%nat -> todo (threads x_start t) = [].
Proof. intros [|[|t]] T; [lia|lia|reflexivity]. Qed.

(** Not so: the result is the same in every interleaving. The same three splats give 1 or 1 + 2^-52. *)
Theorem C99_schedule_refuted : exists (m0 : nat -> fvec) progs l s l' s',
  reach fvec_eq m0 (fun t => splat_ops fvadd (progs t)) l s /\ (forall t, todo (threads s t) = []) /\
  reach fvec_eq m0 (fun t => splat_ops fvadd (progs t)) l' s' /\ (forall t, todo (threads s' t) = []) /\
  val (fcomp (mem s 0%nat) 0) = 1 /\ val (fcomp (mem s' 0%nat) 0) = 1 + / 2 ^ 52.
Proof.
  destruct (x_run x_big_first (2 ^ 52) (-52)) as (s & R & D & V); [vm_compute; reflexivity|vm_compute; reflexivity|intros s; apply x_others, x_start_others|].
  destruct (x_run x_big_last (2 ^ 52 + 1) (-52)) as (s' & R' & D' & V'); [vm_compute; reflexivity|vm_compute; reflexivity|intros s'; apply x_others, x_start_others|].
  exists (fun _ => fv0), x_work, x_big_first, s, x_big_last, s'. repeat (split; [assumption|]).
  assert (E : bpow radix2 (-52) = / IZR (2 ^ 52)) by reflexivity. assert (E2 : IZR (2 ^ 52) = 2 ^ 52) by (rewrite (pow_IZR 2 52); reflexivity).
  rewrite V, V', plus_IZR, E, E2. assert (0 < 2 ^ 52) by (apply pow_lt; lra). split; field; lra.
Qed.
Print Assumptions C99_schedule_refuted.

Example C99_example : exists s, reach fvec_eq (fun _ => fv0) (fun t => splat_ops fvadd (x_work t)) x_big_first s /\ (forall t, todo (threads s t) = []) /\
  length (contributions 2 x_work 0) = 3%nat /\ all_finite 0 (contributions 2 x_work 0) /\ 2 * INR 3 * eps <= 1 /\
  Rabs (val (fcomp fv0 0)) + abs_sum 0 (contributions 2 x_work 0) <= 2 ^ 1022.
Proof.
  destruct (x_run x_big_first (2 ^ 52) (-52)) as (s & R & D & V); [vm_compute; reflexivity|vm_compute; reflexivity|intros s; apply x_others, x_start_others|].
  exists s. do 2 (split; [assumption|]). split; [reflexivity|].
  destruct (val_sf (fmake 1 0) (2 ^ 52) (-52) ltac:(vm_compute; reflexivity)) as [F1 V1].
  destruct (val_sf (fmake 1 (-53)) (2 ^ 52) (-105) ltac:(vm_compute; reflexivity)) as [F2 V2].
  assert (X : contributions 2 x_work 0 = [x_grey 1 0; x_grey 1 (-53); x_grey 1 (-53)]) by reflexivity. rewrite X. split; [|split].
  - intros v [<-|[<-|[<-|[]]]]; assumption.
  - assert (Q := eps_small). cbn [INR]. lra.
  - cbn [abs_sum fold_right fcomp x_grey fx fv0]. rewrite V1, V2.
    assert (E1 : IZR (2 ^ 52) * bpow radix2 (-52) = 1) by (replace (IZR (2 ^ 52)) with (bpow radix2 52) by reflexivity; now rewrite <- bpow_plus).
    assert (E2 : IZR (2 ^ 52) * bpow radix2 (-105) <= 1).
    { replace (IZR (2 ^ 52)) with (bpow radix2 52) by reflexivity. rewrite <- bpow_plus. apply (bpow_le radix2 (52 + -105) 0). lia. }
    assert (E3 : 0 <= IZR (2 ^ 52) * bpow radix2 (-105)) by (apply Rmult_le_pos; [apply IZR_le; lia|apply bpow_ge_0]).
    rewrite E1, !(Rabs_pos_eq (_ * bpow radix2 (-105))), Rabs_R1 by assumption. replace (val fzero) with 0 by reflexivity. rewrite Rabs_R0.
    assert (2 ^ 2 <= 2 ^ 1022) by (apply Rle_pow; [lra|lia]). lra.
Qed.

(** ** The running average *)
Lemma ave_start m vs i c : m <= 2 ^ 1022 -> (forall v, In v vs -> finite (fcomp v i) = true /\ Rabs (val (fcomp v i)) <= m) ->
  finite (fcomp c i) = true -> val (fcomp c i) = 0 -> match vs with [] => True | v :: r =>
    exists c', fcomp (fave 0 vs c) i = fave_c 1 (map (fun v => fcomp v i) r) c' /\ finite c' = true /\ val c' = val (fcomp v i) end.
Proof.
  intros Hm A F Z. destruct vs as [|v r]; [exact I|]. destruct (A v (or_introl eq_refl)) as [Fv _].
  destruct (fave1_first (fcomp v i) (fcomp c i) Fv F Z) as [F1 V1]. exists (fave1 0 (fcomp v i) (fcomp c i)). split; [|now split].
  rewrite fcomp_fave. reflexivity.
Qed.

(** C100: [vs] are given to inc_ave for one pixel, numbered from 0, the pixel being 0 before. Then the pixel is
    within the range of the samples: exactly, in spite of rounding. *)
Theorem C100_range : forall vs c i lo hi, vs <> [] -> finite (fcomp c i) = true -> val (fcomp c i) = 0 -> (Z.of_nat (length vs) <= 2 ^ 53)%Z ->
  - 2 ^ 1022 <= lo -> hi <= 2 ^ 1022 -> (forall v, In v vs -> finite (fcomp v i) = true /\ lo <= val (fcomp v i) <= hi) ->
  finite (fcomp (fave 0 vs c) i) = true /\ lo <= val (fcomp (fave 0 vs c) i) <= hi.
Proof.
  intros vs c i lo hi N F Z L Hl Hh A. destruct vs as [|v r]; [contradiction|].
  destruct (ave_start (2 ^ 1022) (v :: r) i c ltac:(lra)) as (c' & -> & F' & V'); try assumption.
  { intros x X. destruct (A x X) as [Fx Bx]. split; [assumption|]. apply Rabs_le. lra. }
  destruct (A v (or_introl eq_refl)) as [_ Bv]. cbn [length] in L.
  apply fave_c_range; try assumption; [|lia|rewrite map_length; lia|lra].
  intros x X. apply in_map_iff in X as (y & <- & Y). apply A. now right.
Qed.
Print Assumptions C100_range.

(** Equal samples give exactly that value. *)
Theorem C100_constant : forall vs c i a, vs <> [] -> finite (fcomp c i) = true -> val (fcomp c i) = 0 -> (Z.of_nat (length vs) <= 2 ^ 53)%Z ->
  Rabs a <= 2 ^ 1022 -> (forall v, In v vs -> finite (fcomp v i) = true /\ val (fcomp v i) = a) -> val (fcomp (fave 0 vs c) i) = a.
Proof.
  intros vs c i a N F Z L B A. apply Rabs_le_inv in B. destruct (C100_range vs c i a a N F Z L) as [_ X]; [lra|lra| |lra].
  intros v V. destruct (A v V) as [Fv ->]. split; [assumption|lra].
Qed.
Print Assumptions C100_constant.

(** The pixel is close to the mean. *)
Theorem C100_mean : forall vs c i m, vs <> [] -> finite (fcomp c i) = true -> val (fcomp c i) = 0 -> (Z.of_nat (length vs) <= 2 ^ 53)%Z ->
  m <= 2 ^ 1022 -> (forall v, In v vs -> finite (fcomp v i) = true /\ Rabs (val (fcomp v i)) <= m) ->
  let n := INR (length vs) in Rabs (val (fcomp (fave 0 vs c) i) - sum_of i vs / n) <= n * (4 * eps * m + / 2 ^ 1074).
Proof.
  intros vs c i m N F Z L Hm A n. destruct vs as [|v r]; [contradiction|].
  destruct (ave_start m (v :: r) i c Hm A F Z) as (c' & -> & F' & V'). destruct (A v (or_introl eq_refl)) as [Fv Bv].
  assert (E := fave_c_error m (map (fun v => fcomp v i) r) Hm). cbn [length] in L.
  specialize (E ltac:(intros x X; apply in_map_iff in X as (y & <- & Y); apply A; now right) 1%Z c' (val (fcomp v i)) ltac:(lia) ltac:(rewrite map_length; lia) F' ltac:(rewrite V'; exact Bv)).
  cbv zeta in E. rewrite map_length in E.
  assert (Nz : IZR (1 + Z.of_nat (length r)) = n) by (unfold n; cbn [length]; rewrite S_INR, INR_IZR_INZ, plus_IZR; ring). rewrite Nz in E.
  assert (S : fsum (map (fun v => fcomp v i) r) = sum_of i r) by (clear; induction r as [|x r IH]; [reflexivity|]; cbn [map fsum fold_right sum_of] in *; unfold fsum, sum_of in *; now rewrite IH).
  rewrite S in E. replace (1 * val (fcomp v i) + sum_of i r) with (sum_of i (v :: r)) in E by (unfold sum_of; cbn [fold_right]; ring).
  assert (N0 : 0 < n) by (unfold n; cbn [length]; rewrite S_INR; assert (X := pos_INR (length r)); lra).
  apply Rmult_le_reg_l with n; [assumption|]. rewrite <- Rmult_assoc. apply E. rewrite V', Rminus_diag_eq, Rabs_R0 by reflexivity.
  assert (P := eps_pos). assert (0 < / 2 ^ 1074) by (apply Rinv_0_lt_compat, pow_lt; lra). assert (0 <= m) by (apply Rle_trans with (2 := Bv); apply Rabs_pos). nra.
Qed.
Print Assumptions C100_mean.

(** Not so without the pixel being 0 before: the first sample is to replace what is there, and 1 is lost
    beside 2^60. *)
Theorem C100_first_refuted : exists c v, finite c = true /\ finite v = true /\ val v = 1 /\ val (fave1 0 v c) = 0.
Proof.
  exists (fmake 1 60), fone. destruct (val_sf (fmake 1 60) (2 ^ 52) 8 ltac:(vm_compute; reflexivity)) as [F _].
  destruct (val_sf (fave1 0 fone (fmake 1 60)) 0 0 ltac:(vm_compute; reflexivity)) as [_ V].
  split; [assumption|]. split; [exact fone_finite|]. split; [exact fone_val|]. rewrite V. ring.
Qed.
Print Assumptions C100_first_refuted.

(** Three samples within [1/8, 1] *)
Definition x_samples : list fvec := [x_grey 1 0; x_grey 3 (-2); x_grey 1 (-3)].
Example C100_example : x_samples <> [] /\ finite (fcomp fv0 0) = true /\ val (fcomp fv0 0) = 0 /\
  (forall v, In v x_samples -> finite (fcomp v 0) = true /\ 1 / 8 <= val (fcomp v 0) <= 1).
Proof.
  split; [discriminate|]. split; [reflexivity|]. split; [reflexivity|].
  destruct (val_sf (fmake 1 0) (2 ^ 52) (-52) ltac:(vm_compute; reflexivity)) as [F1 V1].
  destruct (val_sf (fmake 3 (-2)) (3 * 2 ^ 51) (-53) ltac:(vm_compute; reflexivity)) as [F2 V2].
  destruct (val_sf (fmake 1 (-3)) (2 ^ 52) (-55) ltac:(vm_compute; reflexivity)) as [F3 V3].
  replace (bpow radix2 (-52)) with (/ IZR (2 ^ 52)) in V1 by reflexivity. replace (bpow radix2 (-53)) with (/ IZR (2 ^ 53)) in V2 by reflexivity.
  replace (bpow radix2 (-55)) with (/ IZR (2 ^ 55)) in V3 by reflexivity.
  intros v [<-|[<-|[<-|[]]]]; (split; [assumption|]); cbn [fcomp x_grey fx]; [rewrite V1|rewrite V2|rewrite V3]; cbn; lra.
Qed.
