(** * C123: progress messages of the default reporter *)
From Coq Require Import List ZArith Bool Lia.
From Verif Require Import Base EtaModel EtaSpec.
Import ListNotations.
Local Open Scope Z_scope.

Lemma due_iff now last : due now last = true <-> last + pause <= now.
Proof.
  unfold due, millis, pause. rewrite Z.ltb_lt. destruct (Z.le_gt_cases 0 (now - last)) as [H|H].
  - rewrite Z.quot_div_nonneg by lia. split; intros X.
    + assert (A := Z.mul_div_le (now - last) 1000000 ltac:(lia)). lia.
    + assert (B : 501 <= (now - last) / 1000000) by (apply Z.div_le_lower_bound; lia). lia.
  - split; [|lia]. intros X. assert (A : Z.quot (now - last) 1000000 <= 0); [|lia]. rewrite <- (Z.opp_involutive (now - last)), Z.quot_opp_l by lia. assert (B := Z.quot_pos (- (now - last)) 1000000). lia.
Qed.

Section Props.
Context {F : Type}.
Variable sub : F -> F -> F.
Notation calls := (calls sub).
Notation call_step := (call_step sub).

Lemma step_inv s now c s' ms : (forall m t ttm, c <> Start m t ttm) -> call_step (Some s) now c = Ok (s', ms) ->
  exists s1, s' = Some s1 /\ r_mode s1 = r_mode s /\ r_total s1 = r_total s /\ r_total_time s1 = r_total_time s /\ r_start s1 = r_start s /\
    ((r_last s1 = r_last s /\ filter is_progress ms = []) \/ (r_last s1 = now /\ r_last s + pause <= now /\ exists m, ms = [m] /\ is_progress m = true)).
Proof.
  intros N. destruct c as [m t ttm|n|e|]; [destruct (N m t ttm eq_refl)| | |]; cbn [call_step].
  - unfold update. destruct (r_mode s) eqn:M.
    + destruct (due now (r_last s)) eqn:D; cbn [negb].
      * apply due_iff in D. destruct (n =? 0); cbn [obind].
        -- intros [= <- <-]. eexists. split; [reflexivity|]. cbn. rewrite M. repeat split; auto. right. repeat split; auto. now eexists.
        -- destruct (eta_of s now n); cbn [obind]; try discriminate. intros [= <- <-]. eexists. split; [reflexivity|]. cbn. rewrite M. repeat split; auto. right. repeat split; auto. now eexists.
      * cbn [obind]. intros [= <- <-]. exists s. rewrite M. repeat split; auto.
    + cbn [obind]. intros [= <- <-]. exists s. rewrite M. repeat split; auto.
  - unfold update_time. destruct (r_mode s) eqn:M; [intros [= <- <-]; exists s; rewrite M; repeat split; auto|]. destruct (due now (r_last s)) eqn:D; cbn [negb].
    + apply due_iff in D. intros [= <- <-]. eexists. split; [reflexivity|]. cbn. rewrite M. repeat split; auto. right. repeat split; auto. now eexists.
    + intros [= <- <-]. exists s. rewrite M. repeat split; auto.
  - intros [= <- <-]. exists s. repeat split; auto.
Qed.
Lemma times_app (a b : list (Z * message F)) : progress_times (a ++ b) = progress_times a ++ progress_times b.
Proof. unfold progress_times. now rewrite filter_app, map_app. Qed.
Lemma times_of now (ms : list (message F)) : progress_times (map (fun m => (now, m)) ms) = map (fun _ => now) (filter is_progress ms).
Proof. induction ms as [|m ms IH]; [reflexivity|]. unfold progress_times in *. cbn [map filter snd fst]. destruct (is_progress m); cbn [map fst]; now rewrite IH. Qed.
Lemma last_cons (l : list Z) : forall d x, last (x :: l) d = last l x.
Proof. induction l as [|y l IH]; intros d x; [reflexivity|]. change (last (x :: y :: l) d) with (last (y :: l) d). rewrite !IH. reflexivity. Qed.
Lemma run_inv l : forall s s' r, no_start l -> calls (Some s) l = Ok (s', r) ->
  spaced (r_last s) (progress_times r) /\ exists s1, s' = Some s1 /\ r_mode s1 = r_mode s /\ r_total s1 = r_total s /\ r_total_time s1 = r_total_time s /\ r_start s1 = r_start s /\ r_last s1 = last (progress_times r) (r_last s).
Proof.
  induction l as [|[now c] l IH]; intros s s' r N; cbn [EtaModel.calls].
  - intros [= <- <-]. split; [exact I|]. now exists s.
  - destruct (call_step (Some s) now c) as [[s1 ms]| | |] eqn:E; cbn [obind]; try discriminate. destruct (EtaModel.calls sub s1 l) as [[s2 r2]| | |] eqn:E2; cbn [obind]; try discriminate. intros [= <- <-].
    apply step_inv in E as (s3 & -> & M & T & TT & S & W); [|intros m t ttm Q; exact (N (now, c) m t ttm (or_introl eq_refl) Q)].
    destruct (IH s3 s2 r2 ltac:(intros x m t ttm I; apply N; now right) E2) as (Sp & s4 & -> & M4 & T4 & TT4 & S4 & L4). rewrite times_app, times_of. destruct W as [(L & Z)|(L & P & m & -> & Hm)].
    + rewrite Z. cbn [map app]. rewrite L in *. split; [exact Sp|]. exists s4. repeat split; congruence.
    + cbn [filter]. rewrite Hm. cbn [map app]. rewrite L in *. split; [cbn [spaced]; split; assumption|]. exists s4. repeat split; try congruence. rewrite L4. symmetry. apply last_cons.
Qed.

(** Whatever is called and whatever the clock shows: two messages about progress are never less than 501 milliseconds apart, and
    the first comes at least 501 milliseconds after the start. *)
Theorem C123_spaced s0 m t ttm now l s' r : no_start l -> calls s0 ((now, Start m t ttm) :: l) = Ok (s', r) -> spaced now (progress_times r).
Proof.
  intros N. cbn [EtaModel.calls EtaModel.call_step obind]. destruct (EtaModel.calls sub _ l) as [[s2 r2]| | |] eqn:E; cbn [obind]; try discriminate. intros [= <- <-]. cbn [map app]. exact (proj1 (run_inv l _ _ _ N E)).
Qed.
(** So their number is bounded by the time. *)
Theorem C123_number s0 m t ttm now l s' r stop : no_start l -> calls s0 ((now, Start m t ttm) :: l) = Ok (s', r) -> now <= stop -> (forall x, In x (progress_times r) -> x <= stop) -> Z.of_nat (length (progress_times r)) * pause <= stop - now.
Proof.
  intros N E Q B. apply C123_spaced in E; [|exact N]. revert now Q E. clear N. induction (progress_times r) as [|x l' IH]; intros now Q; cbn [spaced length]; [lia|]. intros [A S]. assert (X := IH ltac:(intros y I; apply B; now right) x (B x ltac:(now left)) S). lia.
Qed.
(** When an update is reported: in this mode, and once the pause is over since the last message or the start. *)
Theorem C123_samples s0 t ttm now l s' r later n : no_start l -> calls s0 ((now, Start Samples t ttm) :: l) = Ok (s', r) ->
  let since := last (progress_times r) now in
  (later < since + pause -> call_step s' later (Update n) = Ok (s', [])) /\
  (since + pause <= later -> forall s'' ms, call_step s' later (Update n) = Ok (s'', ms) -> exists eta, ms = [Progress n t eta] /\ (eta = None <-> n = 0)) /\
  (forall e, call_step s' later (UpdateTime e) = Ok (s', [])).
Proof.
  intros N. cbn [EtaModel.calls EtaModel.call_step obind]. destruct (EtaModel.calls sub _ l) as [[s2 r2]| | |] eqn:E; cbn [obind]; try discriminate. intros [= <- <-]. cbn [map app]. destruct (run_inv l _ _ _ N E) as (_ & s1 & -> & M & T & TT & S & L). cbn in M, T, TT, S, L. cbn [EtaModel.call_step]. rewrite <- L. split; [|split].
  - intros B. unfold update. rewrite M. destruct (due later (r_last s1)) eqn:D; [apply due_iff in D; lia|]. reflexivity.
  - intros B s'' ms. apply due_iff in B. unfold update. rewrite M, B. cbn [negb]. destruct (Z.eqb_spec n 0) as [->|Nz]; cbn [obind]; [intros [= _ <-]; rewrite T; now exists None|]. destruct (eta_of s1 later n) as [e| | |]; cbn [obind]; try discriminate. intros [= _ <-]. rewrite T. exists (Some e). split; [reflexivity|]. split; [discriminate|contradiction].
  - intros e. unfold update_time. now rewrite M.
Qed.
Theorem C123_time s0 t ttm now l s' r later e : no_start l -> calls s0 ((now, Start Time t ttm) :: l) = Ok (s', r) ->
  let since := last (progress_times r) now in
  (later < since + pause -> call_step s' later (UpdateTime e) = Ok (s', [])) /\
  (since + pause <= later -> exists s'', call_step s' later (UpdateTime e) = Ok (s'', [ProgressTime e ttm (sub ttm e)])) /\
  (forall n, call_step s' later (Update n) = Ok (s', [])).
Proof.
  intros N. cbn [EtaModel.calls EtaModel.call_step obind]. destruct (EtaModel.calls sub _ l) as [[s2 r2]| | |] eqn:E; cbn [obind]; try discriminate. intros [= <- <-]. cbn [map app]. destruct (run_inv l _ _ _ N E) as (_ & s1 & -> & M & T & TT & S & L). cbn in M, T, TT, S, L. cbn [EtaModel.call_step]. rewrite <- L. split; [|split].
  - intros B. unfold update_time. rewrite M. destruct (due later (r_last s1)) eqn:D; [apply due_iff in D; lia|]. reflexivity.
  - intros B. apply due_iff in B. unfold update_time. rewrite M, B, TT. cbn [negb]. eexists. reflexivity.
  - intros n. unfold update. now rewrite M.
Qed.
(** The time left is the time so far, in whole milliseconds, times the share of the work that is left, rounded down. *)
Theorem C123_eta s0 t ttm now l s' r later n s'' eta total : no_start l -> calls s0 ((now, Start Samples t ttm) :: l) = Ok (s', r) -> now <= later -> 0 < n <= t ->
  call_step s' later (Update n) = Ok (s'', [Progress n total (Some eta)]) ->
  let sofar := (later - now) / 1000000 in total = t /\ eta * n <= sofar * (t - n) < (eta + 1) * n /\ 0 <= eta.
Proof.
  intros N. cbn [EtaModel.calls EtaModel.call_step obind]. destruct (EtaModel.calls sub _ l) as [[s2 r2]| | |] eqn:E; cbn [obind]; try discriminate. intros [= <- <-] Hl Hn. destruct (run_inv l _ _ _ N E) as (_ & s1 & -> & M & T & TT & S & L). cbn in M, T, TT, S, L. cbn [EtaModel.call_step]. unfold update. rewrite M. destruct (due later (r_last s1)); cbn [negb obind]; [|discriminate]. destruct (Z.eqb_spec n 0) as [->|Nz]; cbn [obind]; [lia|].
  unfold eta_of. rewrite S, T. cbv zeta. destruct (_ && _); cbn [obind]; [|discriminate]. intros [= _ Et Ee]. split; [now symmetry|]. assert (A : millis (later - now) = (later - now) / 1000000) by (apply Z.quot_div_nonneg; lia). assert (P : 0 <= (later - now) / 1000000) by (apply Z.div_pos; lia). rewrite A in Ee. rewrite Z.quot_div_nonneg in Ee by nia. subst eta.
  assert (X := Z.mul_div_le ((later - now) / 1000000 * (t - n)) n ltac:(lia)). assert (Y := Z.mul_succ_div_gt ((later - now) / 1000000 * (t - n)) n ltac:(lia)). assert (W : 0 <= (later - now) / 1000000 * (t - n) / n) by (apply Z.div_pos; nia). nia.
Qed.
(** Updates are defined as long as the time so far in milliseconds times the amount of work is below 2^63. *)
Theorem C123_defined_partial s0 t ttm now l s' r later n : no_start l -> calls s0 ((now, Start Samples t ttm) :: l) = Ok (s', r) -> now <= later -> 0 <= n <= t -> (later - now) / 1000000 * t < 2 ^ 63 -> t < 2 ^ 63 ->
  exists s'' ms, call_step s' later (Update n) = Ok (s'', ms).
Proof.
  intros N. cbn [EtaModel.calls EtaModel.call_step obind]. destruct (EtaModel.calls sub _ l) as [[s2 r2]| | |] eqn:E; cbn [obind]; try discriminate. intros [= <- <-] Hl Hn Hp Ht. destruct (run_inv l _ _ _ N E) as (_ & s1 & -> & M & T & TT & S & L). cbn in M, T, TT, S, L. cbn [EtaModel.call_step]. unfold update. rewrite M. destruct (due later (r_last s1)); cbn [negb obind]; [|do 2 eexists; reflexivity]. destruct (Z.eqb_spec n 0) as [->|Nz]; cbn [obind]; [do 2 eexists; reflexivity|].
  unfold eta_of. rewrite S, T. cbv zeta. assert (A : millis (later - now) = (later - now) / 1000000) by (apply Z.quot_div_nonneg; lia). assert (P : 0 <= (later - now) / 1000000) by (apply Z.div_pos; lia). rewrite A. set (p := (later - now) / 1000000) in *. assert (Q : 0 <= p * (t - n) <= p * t) by nia.
  assert (D : 0 <= Z.quot (p * (t - n)) n <= p * (t - n)). { rewrite Z.quot_div_nonneg by lia. split; [apply Z.div_pos; lia|]. apply Z.div_le_upper_bound; nia. }
  assert (I : forall z, 0 <= z < 2 ^ 63 -> in_ll z = true) by (intros z Hz; unfold in_ll; apply andb_true_iff; rewrite Z.leb_le, Z.ltb_lt; lia). rewrite !I by lia. cbn [andb obind]. do 2 eexists. reflexivity.
Qed.
(** The end is always reported. *)
Theorem C123_end s now : call_step s now End = Ok (s, [Completed]).
Proof. reflexivity. Qed.
(** Updates before the start read members that were never written. *)
Theorem C123_not_started now n e : call_step None now (Update n) = UB /\ call_step None now (UpdateTime e) = UB.
Proof. now split. Qed.
End Props.
Print Assumptions C123_spaced.
Print Assumptions C123_number.
Print Assumptions C123_samples.
Print Assumptions C123_time.
Print Assumptions C123_eta.
Print Assumptions C123_defined_partial.
Print Assumptions C123_end.
Print Assumptions C123_not_started.

(** After six days of an image of 1920 by 1080 pixels with 10000 samples each, the product overflows. *)
Theorem C123_defined_refuted : ~ forall later n, 0 <= later -> 0 <= n <= 1920 * 1080 * 10000 -> exists s'' ms, calls Z.sub None [(0, Start Samples (1920 * 1080 * 10000) 0); (later, Update n)] = Ok (s'', ms).
Proof.
  intros H. destruct (H (6 * 24 * 3600 * 1000000000) 1 ltac:(lia) ltac:(lia)) as (s & ms & E). vm_compute in E. discriminate.
Qed.
Print Assumptions C123_defined_refuted.

(** ** The hypotheses are met *)
Example C123_instance : exists s, calls Z.sub None [(0, Start Samples 100 0); (300000000, Update 10); (600000000, Update 20); (900000000, Update 30); (1200000000, Update 40); (1300000000, End)] = Ok (Some s, [(600000000, Progress 20 100 (Some 2400)); (1200000000, Progress 40 100 (Some 1800)); (1300000000, Completed)]).
Proof. eexists. vm_compute. reflexivity. Qed.
Example C123_instance_time : exists s, calls Z.sub None [(0, Start Time 0 60); (400000000, UpdateTime 1); (600000000, Update 20); (700000000, UpdateTime 2)] = Ok (Some s, [(700000000, ProgressTime 2 60 58)]).
Proof. eexists. vm_compute. reflexivity. Qed.
(** An image of 1920 by 1080 pixels with 10000 samples each, after a day *)
Example C123_instance_defined : (24 * 3600 * 1000000000 - 0) / 1000000 * (1920 * 1080 * 10000) < 2 ^ 63.
Proof. vm_compute. reflexivity. Qed.
Example C123_instance_no_start : no_start [(300000000, Update 10 : call Z); (600000000, Update 20)].
Proof. intros x m t ttm [<-|[<-|[]]]; discriminate. Qed.
