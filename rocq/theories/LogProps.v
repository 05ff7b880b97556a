(** C48 (logging), C49 (progress reporters), C50 (floating-point guard), C59 (progress line). *)
From Coq Require Import List ZArith Bool Ascii String Lia ZifyBool.
From Verif Require Import LogModel LogSpec LogProofs.
Import ListNotations.
Open Scope Z_scope.

Definition txt (s : string) : text := list_ascii_of_string s.

(** C48: a program of log calls, severity changes and indented blocks, left normally or by an exception,
    prints exactly what [prints_list] says: the messages of at least the configured severity, line by
    line, each line with the indentation of its nesting depth. In a block the depth is one more than
    around it; the commands after a block are at the depth of those before it. *)
Theorem C48_output : forall debug l s' o t, exec_list l (new_logger debug) = (s', o, t) ->
  exists v', prints_list 0 (if debug then -100 else 0) l v' t o.
Proof.
  intros debug l s' o t E. destruct (exec_list_prints l _ _ 0 (rep_new debug) s' o t E) as (v' & _ & P). exists v'. exact P.
Qed.
Print Assumptions C48_output.

(** The specification leaves no freedom: severity, exception flag and output are determined. *)
Theorem C48_unique : forall d v l v1 t1 o1 v2 t2 o2,
  prints_list d v l v1 t1 o1 -> prints_list d v l v2 t2 o2 -> v1 = v2 /\ t1 = t2 /\ o1 = o2.
Proof. intros. eapply (proj2 prints_det); eassumption. Qed.
Print Assumptions C48_unique.

(** Entering and leaving blocks, also by an exception, leaves the depth unchanged: whatever ran, a block
    changes at most the severity of the logger. *)
Theorem C48_scope_restores : forall debug l body s o t s' o' t', exec_list l (new_logger debug) = (s, o, t) ->
  exec (CScope body) s = (s', o', t') ->
  indentation s' = indentation s /\ indentation_string s' = indentation_string s.
Proof.
  intros debug l body s o t s' o' t' E E'. destruct (exec_list_prints l _ _ 0 (rep_new debug) s o t E) as (v & R & _).
  destruct (exec_prints (CScope body) s v 0 R s' o' t' E') as (v' & R' & _).
  destruct R as (_ & A & B & _), R' as (_ & A' & B' & _). split; congruence.
Qed.
Print Assumptions C48_scope_restores.

Definition x_program : list cmd :=
  [CLog level_info 10 (txt "H ") (txt "one"); CSeverity 20; CLog level_info 10 (txt "H ") (txt "hidden");
   CScope [CLog level_err 30 (txt "H ") (txt "two" ++ [newline] ++ txt "lines"); CScope [CLog level_warn 20 (txt "H ") []; CThrow]];
   CLog level_err 30 (txt "H ") (txt "never")].
Example C48_example : exists s', exec_list x_program (new_logger false) =
  (s', txt "H one" ++ [newline] ++ txt "H .. two" ++ [newline] ++ txt "H .. lines" ++ [newline] ++ txt "H .... " ++ [newline], true)
  /\ indentation s' = 0.
Proof. eexists. split; [vm_compute; reflexivity|reflexivity]. Qed.

(** Changes of the indentation outside of blocks: the depth is their sum, held at zero, so that ends without
    a beginning have no lasting effect; lines carry two dots per level. *)
Theorem C48_unbalanced : forall debug ns, let s := fold_left update_indentation ns (new_logger debug) in
  let depth := fold_left (fun d n => Z.max 0 (d + n)) ns 0 in
  indentation s = depth /\ indentation_string s = (if depth =? 0 then [] else repeat dot (Z.to_nat (2 * depth)) ++ [blank]).
Proof.
  intros debug ns. cbv zeta.
  assert (G : forall s d, indentation s = d -> indentation_string s = (if d =? 0 then [] else repeat dot (Z.to_nat (2 * d)) ++ [blank]) ->
    indentation (fold_left update_indentation ns s) = fold_left (fun d n => Z.max 0 (d + n)) ns d /\
    indentation_string (fold_left update_indentation ns s) =
      (if fold_left (fun d n => Z.max 0 (d + n)) ns d =? 0 then [] else repeat dot (Z.to_nat (2 * fold_left (fun d n => Z.max 0 (d + n)) ns d)) ++ [blank])).
  { induction ns as [|n ns IH]; intros s d A B; cbn [fold_left]; [now split|]. apply IH; unfold update_indentation; rewrite A; cbv zeta.
    - destruct (d + n >? 0) eqn:E; cbn [indentation]; lia.
    - destruct (d + n >? 0) eqn:E; cbn [indentation_string]; [|now replace (Z.max 0 (d + n)) with 0 by lia].
      replace (Z.max 0 (d + n)) with (d + n) by lia. now replace (d + n =? 0) with false by lia. }
  apply G; reflexivity.
Qed.
Print Assumptions C48_unbalanced.
Example C48_unbalanced_example : indentation_string (fold_left update_indentation [1; -3; 1] (new_logger false)) = txt ".. ".
Proof. reflexivity. Qed.

(** C49: a multiplexer delivers the whole sequence of events, in order, to each reporter; child [k] reads
    the clock at its own place. *)
Theorem C49_mux : forall evs l, exists l', deliver_all (Mux l) evs = Mux l' /\ List.length l' = List.length l
  /\ forall k r, nth_error l k = Some r ->
       nth_error l' k = Some (deliver_all r (map (fun x => (fst x, fun p => snd x (k :: p))) evs)).
Proof. exact mux_all. Qed.
Print Assumptions C49_mux.

(** C49, delayed reporter: it delivers a subsequence of the events; start and end always, an update exactly
    if at least the delay and one millisecond has passed since the last start or forwarded update. Missing
    for the full claim: an update less than one millisecond later than the delay is not forwarded, see
    [C49_delay_refuted]. *)
Theorem C49_delay_partial : forall evs d t0 r, 0 <= d -> exists last' h,
  map fst h = map (fun x => (fst x, snd x [])) evs
  /\ deliver_all (Delay d t0 r) evs
     = Delay d last' (deliver_all r (map (fun x => (fst x, fun p => snd x (0%nat :: p))) (map fst (filter snd (combine evs (map snd h))))))
  /\ delay_rule (fun ns => (d + 1) * 1000000 <= ns) t0 h.
Proof.
  intros evs d t0 r Hd. destruct (delay_all evs d t0 r) as [l' E]. exists l', (marks d t0 evs).
  split; [apply marks_events|]. split; [exact E|].
  intros before e now f after H. rewrite <- (to_ms_gt d _ Hd). exact (marks_rule evs d t0 before e now f after H).
Qed.
Print Assumptions C49_delay_partial.

(** An update 10.5 ms after the start is not forwarded with a delay of 10 ms. *)
Theorem C49_delay_refuted : exists d evs, ~ exists last' h,
  map fst h = map (fun x => (fst x, snd x [])) evs
  /\ deliver_all (Delay d 0 (Leaf [])) evs
     = Delay d last' (deliver_all (Leaf []) (map (fun x => (fst x, fun p => snd x (0%nat :: p))) (map fst (filter snd (combine evs (map snd h))))))
  /\ delay_rule (fun ns => d * 1000000 < ns) 0 h.
Proof.
  exists 10, [(EvStart, fun _ => 0); (EvUpdate 1, fun _ => 10500000)]. intros (last' & h & Hf & E & R).
  destruct h as [|[[e0 n0] f0] [|[[e1 n1] f1] [|x h]]]; try discriminate. cbn [map fst snd] in Hf. injection Hf as -> -> -> ->.
  assert (F1 := R [] EvStart 0 f0 [(EvUpdate 1, 10500000, f1)] eq_refl). cbn in F1.
  assert (F2 := R [(EvStart, 0, f0)] (EvUpdate 1) 10500000 f1 [] eq_refl). cbn in F2.
  destruct f0; [|destruct F1 as [_ F1]; discriminate F1; discriminate].
  destruct f1; [discriminate|]. destruct F2 as [_ F2]. discriminate F2. intros _. lia.
Qed.
Print Assumptions C49_delay_refuted.

(** A delayed reporter inside a multiplexer: of three updates only the second is late enough. *)
Example C49_example : deliver_all (Mux [Leaf []; Delay 100 0 (Leaf [])])
    [(EvStart, fun _ => 5000000); (EvUpdate 1, fun _ => 105000000); (EvUpdate 2, fun _ => 106000000); (EvUpdate 3, fun _ => 107000000); (EvEnd, fun _ => 108000000)]
  = Mux [Leaf [EvEnd; EvUpdate 3; EvUpdate 2; EvUpdate 1; EvStart]; Delay 100 106000000 (Leaf [EvEnd; EvUpdate 2; EvStart])].
Proof. reflexivity. Qed.

(** C50: a guard left in a program that entered it with exceptions enabled leaves them enabled, however
    guards and calls are nested inside and also when left by an exception; where the platform has no such
    exceptions nothing changes at all. Missing for the full claim: entering with exceptions disabled, see
    [C50_refuted]. *)
Theorem C50_restores_partial : forall windows body on, (windows = true -> on = true) ->
  exists t, fexec windows (FGuard body) on = (on, t).
Proof. intros [|] body on H; [rewrite (H eq_refl); apply guard_windows|apply fexec_other]. Qed.
Print Assumptions C50_restores_partial.

(** On other platforms every program leaves the state alone. *)
Theorem C50_other_platforms : forall c on, exists t, fexec false c on = (on, t).
Proof. exact fexec_other. Qed.
Print Assumptions C50_other_platforms.

(** A guard nested in another one enables the exceptions when it is left: the rest of the outer scope,
    which should run with exceptions disabled, runs with exceptions enabled. *)
Theorem C50_refuted : exists body on, forall t, fexec true (FGuard body) on <> (on, t).
Proof. exists [], false. intros t E. discriminate. Qed.
Print Assumptions C50_refuted.
Example C50_example : fexec true (FGuard [FGuard [FEnable]; FThrow]) true = (true, true)
  /\ fexec false (FGuard [FGuard []]) false = (false, false).
Proof. split; reflexivity. Qed.

(** C59: a progress message whose text is at least as long as that of the one before replaces it on the
    terminal. Missing for the full claim: shorter messages, see [C59_refuted]. *)
Theorem C59_replaces_partial : forall debug l s o t, exec_list l (new_logger debug) = (s, o, t) ->
  forall h1 m1 h2 m2 s1 o1 s2 o2, log s level_progress 100 h1 m1 = (s1, o1) -> log s1 level_progress 100 h2 m2 = (s2, o2) ->
  severity s <= 100 -> plain (h1 ++ indentation_string s ++ m1) -> plain (h2 ++ indentation_string s ++ m2) ->
  (List.length (h1 ++ m1) <= List.length (h2 ++ m2))%nat -> screen (o1 ++ o2) = h2 ++ indentation_string s ++ m2.
Proof.
  intros debug l s o t E h1 m1 h2 m2 s1 o1 s2 o2 E1 E2 Hs P1 P2 Hl.
  destruct (exec_list_prints l _ _ 0 (rep_new debug) s o t E) as (v & R & _).
  assert (Hv : v <= 100) by (destruct R as (A & _); lia).
  assert (Hi : indentation_string s = indent 0) by (destruct R as (_ & _ & A & _); exact A).
  destruct (progress_out s v 0 100 h1 m1 R Hv) as (s1' & F1 & R1). rewrite F1 in E1. injection E1 as <- <-.
  destruct (progress_out s1' v 0 100 h2 m2 R1 Hv) as (s2' & F2 & _). rewrite F2 in E2. injection E2 as <- <-.
  rewrite Hi in *. 
  transitivity (screen (((h1 ++ indent 0 ++ m1) ++ [cr]) ++ (h2 ++ indent 0 ++ m2) ++ [cr])); [f_equal; rewrite <- !app_assoc; reflexivity|].
  rewrite (screen_two _ _ P1 P2).
  rewrite skipn_all2; [rewrite app_nil_r; reflexivity|]. rewrite !app_length in *. lia.
Qed.
Print Assumptions C59_replaces_partial.

(** Because Progress and ProgressEnd are the same value, the padding that should cover a longer message is
    discarded after every message: the end of the longer one stays visible. *)
Theorem C59_refuted : exists s1 o1 s2 o2,
  log (new_logger false) level_progress 100 (txt "H ") (txt "Processing [iter=1000]") = (s1, o1)
  /\ log s1 level_progress 100 (txt "H ") (txt "Processing [end]") = (s2, o2)
  /\ screen (o1 ++ o2) = txt "H Processing [end]=1000]".
Proof. do 4 eexists. split; [vm_compute; reflexivity|]. split; [vm_compute; reflexivity|]. vm_compute. reflexivity. Qed.
Print Assumptions C59_refuted.
