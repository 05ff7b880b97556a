(** C111: the Python package and its notebook components. *)
From Coq Require Import List String Ascii ZArith Reals Lra Lia Bool ZifyBool Permutation.
From Verif Require Import Base Assoc RegModel LogModel PyModel JupModel JupSpec.
Import ListNotations.

(** ** Progress bar *)
Section Bar.
Local Open Scope R_scope.
Lemma bar_update n x : n + Rmax 0 (x - n) = Rmax n x.
Proof. unfold Rmax. destruct (Rle_dec 0 (x - n)), (Rle_dec n x); lra. Qed.
(** reports in the order they arrive *)
Definition reports (l : list R) : list pop := map PUpdate l.
Lemma run_reports l : forall n tot c, exists h, prun (reports l) (Some (mk_bar n tot c)) = Ok (h, Some (mk_bar (largest n l) tot c)) /\
  List.length h = List.length l /\ forall k, (k < List.length l)%nat -> nth k h 0 = largest n (firstn (S k) l).
Proof.
  induction l as [|x l IH]; intros n tot c; cbn [reports map prun].
  - exists []. split; [reflexivity|]. split; [reflexivity|]. cbn. intros; lia.
  - cbn [pstep obind]. unfold tqdm_update. cbn [shown total closed]. rewrite bar_update.
    destruct (IH (Rmax n x) tot c) as (h & E & L & N). unfold reports in E. rewrite E. cbn [obind].
    eexists. split; [reflexivity|]. split; [cbn; congruence|]. intros [|k] Hk; [destruct l; reflexivity|]. cbn in Hk |- *. apply N. lia.
Qed.
Lemma largest_ge l : forall n, n <= largest n l.
Proof. induction l as [|x l IH]; intros n; cbn; [lra|]. eapply Rle_trans; [apply Rmax_l|apply IH]. Qed.
Lemma largest_le l : forall n t, n <= t -> Forall (fun x => x <= t) l -> largest n l <= t.
Proof. induction l as [|x l IH]; intros n t Hn Hl; cbn; [lra|]. inversion Hl; subst. apply IH; [apply Rmax_lub; assumption|assumption]. Qed.
Lemma largest_in l : forall n x, In x l -> x <= largest n l.
Proof. induction l as [|y l IH]; intros n x H; [contradiction|]. destruct H as [->|H]; cbn; [eapply Rle_trans; [apply Rmax_r|apply largest_ge]|auto]. Qed.
Lemma largest_one l : forall n, largest n l = n \/ In (largest n l) l.
Proof. induction l as [|x l IH]; intros n; cbn; [auto|]. destruct (IH (Rmax n x)) as [E|E]; [|auto]. rewrite E. unfold Rmax. destruct (Rle_dec n x); auto. Qed.

(** Whatever is reported, the bar shows after each report the largest of 0 and the reports so far; so it never goes back. At the
    end it shows the total, unless a report was larger. *)
Theorem C111_bar : forall m tot time l, let all := match m with Samples => tot | Time => time end in
  exists h, prun (PStart m tot time :: reports l ++ [PEnd]) None = Ok (0 :: h ++ [Rmax (largest 0 l) all], Some (mk_bar (Rmax (largest 0 l) all) all true)) /\
  List.length h = List.length l /\
  (forall k, (k < List.length l)%nat -> let r := nth k h 0 in
     0 <= r /\ (forall x, In x (firstn (S k) l) -> x <= r) /\ (r = 0 \/ In r (firstn (S k) l)) /\ (k <> 0%nat -> nth (k - 1) h 0 <= r)) /\
  (0 <= all -> Forall (fun x => x <= all) l -> Rmax (largest 0 l) all = all /\ Forall (fun r => r <= all) h).
Proof.
  intros m tot time l all. destruct (run_reports l 0 all false) as (h & E & L & N). exists h.
  assert (App : forall a b s, prun (a ++ b) s = obind (prun a s) (fun '(h1, s1) => obind (prun b s1) (fun '(h2, s2) => Ok (h1 ++ h2, s2)))).
  { induction a as [|o a IHa]; intros b s; cbn [app prun].
    - cbn. destruct (prun b s) as [[? ?]| | |]; reflexivity.
    - destruct (pstep o s) as [s1| | |]; cbn [obind]; try reflexivity. rewrite IHa. destruct (prun a s1) as [[h1 s2]| | |]; cbn [obind]; try reflexivity.
      destruct (prun b s2) as [[h2 s3]| | |]; cbn [obind]; try reflexivity. destruct s1; reflexivity. }
  assert (St : prun (PStart m tot time :: reports l ++ [PEnd]) None = obind (prun (reports l ++ [PEnd]) (Some (mk_bar 0 all false))) (fun '(h, e) => Ok (0 :: h, e))).
  { cbn [prun]. destruct m; reflexivity. }
  split; [|split; [exact L|split]].
  - rewrite St, App, E. cbn [obind prun pstep tqdm_update shown total closed]. rewrite bar_update. reflexivity.
  - intros k Hk r. unfold r. rewrite (N k Hk). split; [apply largest_ge|]. split; [intros x Hx; apply largest_in; exact Hx|]. split; [apply largest_one|].
    intros Hk0. rewrite (N (k - 1)%nat ltac:(lia)). replace (S (k - 1)) with k by lia. 
    assert (G : forall l n k, largest n (firstn k l) <= largest n (firstn (S k) l)).
    { clear. induction l as [|x l IH]; intros n k; [destruct k; cbn; lra|]. destruct k as [|k]; [cbn; apply Rmax_l|]. cbn [firstn largest]. apply IH. }
    apply G.
  - intros H0 Hl. assert (Q : largest 0 l <= all) by (apply largest_le; assumption). split; [apply Rmax_right; exact Q|].
    apply Forall_forall. intros r Hr. apply (In_nth _ _ 0) in Hr as (k & Hk & <-). rewrite (N k ltac:(lia)).
    apply largest_le; [exact H0|]. apply Forall_forall. intros x Hx. rewrite Forall_forall in Hl. apply Hl. rewrite <- (firstn_skipn (S k) l). apply in_or_app. auto.
Qed.
Print Assumptions C111_bar.
Example C111_bar_case : exists h b, prun (PStart Samples 8 (-1) :: reports [2; 5; 4] ++ [PEnd]) None = Ok (h, Some b) /\ h = [0; 2; 5; 5; 8] /\ shown b = 8.
Proof.
  destruct (C111_bar Samples 8 (-1) [2; 5; 4]) as (h & E & L & N & _). eexists _, _. split; [exact E|].
  assert (Rm : forall a b, a <= b -> Rmax a b = b) by (intros; apply Rmax_right; assumption).
  assert (Rl : forall a b, b <= a -> Rmax a b = a) by (intros; apply Rmax_left; assumption).
  assert (Q : largest 0 [2; 5; 4] = 5) by (cbn; rewrite (Rm 0 2), (Rm 2 5), (Rl 5 4) by lra; reflexivity).
  rewrite Q, (Rm 5 8) by lra. split; [|reflexivity].
  destruct h as [|a [|b [|c [|]]]]; try discriminate L. cbn [List.length] in N.
  pose proof (N 0%nat ltac:(lia)) as (A0 & A1 & [A2|A2] & _); cbn in A0, A1, A2; pose proof (A1 2 ltac:(auto)); [lra|]; destruct A2 as [A2|[]].
  pose proof (N 1%nat ltac:(lia)) as (B0 & B1 & [B2|B2] & _); cbn in B0, B1, B2; pose proof (B1 5 ltac:(auto)); [lra|]; destruct B2 as [B2|[B2|[]]]; [lra|].
  pose proof (N 2%nat ltac:(lia)) as (D0 & D1 & [D2|D2] & _); cbn in D0, D1, D2; pose proof (D1 5 ltac:(auto)); [lra|]; destruct D2 as [D2|[D2|[D2|[]]]]; try lra.
  cbn. subst. reflexivity.
Qed.
End Bar.

(** ** Logger *)
Lemma getlines_one m : forall cur, ~ In newline m -> (cur <> [] \/ m <> []) -> getlines cur m = [rev cur ++ m].
Proof.
  induction m as [|c m IH]; intros cur Hn Hc; cbn [getlines].
  - destruct cur; [destruct Hc; contradiction|]. rewrite app_nil_r. reflexivity.
  - destruct (Ascii.eqb_spec c newline) as [->|]; [exfalso; apply Hn; left; reflexivity|].
    assert (H1 : ~ In newline m) by (intros Q; apply Hn; right; exact Q).
    assert (H2 : c :: cur <> []) by discriminate.
    rewrite (IH (c :: cur) H1 (or_introl H2)). cbn [rev]. rewrite <- app_assoc. reflexivity.
Qed.

(** For calls as the macros make them the notebook logger prints the same lines as the terminal logger of a release build. *)
Theorem C111_logger : forall l, orderly l 0 -> map snd (jrun l new_jlogger) = terminal l (new_logger false).
Proof.
  assert (G : forall l j s d, jseverity j = severity s -> jn j = d -> (0 <= d)%Z -> indentation s = d ->
    indentation_string s = (if (d >? 0)%Z then repeat dot (Z.to_nat (2 * d)) ++ [blank] else []) -> orderly l d ->
    map snd (jrun l j) = terminal l s).
  { induction l as [|o l IH]; intros j s d Hs Hn Hd Hi Hstr Ho; [reflexivity|]. destruct o as [level sev h m|n|v]; cbn [jrun terminal orderly] in *.
    - destruct Ho as (Hp & Hq & Hm & Ho).
      destruct (log s level sev h m) as [s' out] eqn:El. rewrite map_app.
      assert (Hs' : s' = s /\ map snd (jlog j level sev h m) = match out with [] => [] | _ => [out] end).
      { unfold log in El. unfold jlog. rewrite Hs. destruct (severity s >? sev)%Z; [injection El as <- <-; auto|].
        destruct (Z.eqb_spec level level_progress); [contradiction|]. destruct (Z.eqb_spec level level_progress_end); [contradiction|]. cbn [orb] in El.
        assert (Ln : h ++ (indentation_string s ++ m) ++ [newline] = h ++ (repeat dot (Z.to_nat (jn j * 2)) ++ (if (jn j >? 0)%Z then [blank] else [])) ++ m ++ [newline]).
        { rewrite Hstr, Hn. replace (d * 2)%Z with (2 * d)%Z by lia. rewrite <- !app_assoc. f_equal. destruct (d >? 0)%Z eqn:Ed; [rewrite <- ?app_assoc; reflexivity|].
          replace d with 0%Z by lia. reflexivity. }
        assert (Ne : h ++ (repeat dot (Z.to_nat (jn j * 2)) ++ (if (jn j >? 0)%Z then [blank] else [])) ++ m ++ [newline] <> []).
        { intros Q. apply (f_equal (@List.length ascii)) in Q. rewrite !app_length in Q. cbn in Q. lia. }
        destruct m as [|c m].
        - injection El as <- <-. split; [reflexivity|]. rewrite Ln. clear Ln. cbn [map snd]. revert Ne. match goal with |- ?x <> [] -> _ => generalize x end. intros X Ne. destruct X; [contradiction|reflexivity].
        - rewrite (getlines_one (c :: m) [] Hm ltac:(right; discriminate)) in El. cbn [rev app map List.concat] in El. rewrite app_nil_r in El.
          injection El as <- <-. split; [reflexivity|]. rewrite Ln. clear Ln. cbn [map snd]. revert Ne. match goal with |- ?x <> [] -> _ => generalize x end. intros X Ne. destruct X; [contradiction|reflexivity]. }
      destruct Hs' as [-> ->]. f_equal. apply (IH j s d); assumption.
    - destruct Ho as [Hd' Ho]. apply (IH (jupdate_indentation j n) (update_indentation s n) (d + n)%Z); auto; unfold update_indentation; cbv zeta; rewrite ?Hi.
      + destruct (d + n >? 0)%Z; exact Hs.
      + cbn. congruence.
      + destruct (d + n >? 0)%Z eqn:E; cbn; lia.
      + destruct (d + n >? 0)%Z eqn:E; reflexivity.
    - apply (IH (jset_severity j v) (set_severity s v) d); auto. }
  intros l Ho. apply (G l new_jlogger (new_logger false) 0%Z); auto; lia.
Qed.
Print Assumptions C111_logger.
Example C111_logger_case :
  let l := [LLog level_info 10 [dot] [dot]; LIndent 1; LSeverity 20; LLog level_info 10 [] [dot]; LLog level_err 30 [] [cr]; LIndent (-1)] in
  orderly l 0 /\ jrun l new_jlogger = [(Stdout, [dot; dot; newline]); (Stderr, [dot; dot; blank; cr; newline])].
Proof. cbn. repeat split; try discriminate; intuition discriminate. Qed.
(** Errors and warnings, and only these, go to the error stream. *)
Theorem C111_streams : forall l s x, In x (jrun l s) -> exists level sev h m, In (LLog level sev h m) l /\
  (fst x = Stderr <-> level = level_warn \/ level = level_err).
Proof.
  induction l as [|o l IH]; intros s x H; [contradiction|]. destruct o as [level sev h m|n|v]; cbn [jrun] in H.
  - apply in_app_or in H as [H|H].
    + exists level, sev, h, m. split; [left; reflexivity|]. unfold jlog in H. destruct (_ >? _)%Z; [contradiction|]. destruct H as [<-|[]]. cbn [fst].
      destruct (Z.eqb_spec level level_warn), (Z.eqb_spec level level_err); cbn [orb]; intuition discriminate.
    + destruct (IH _ _ H) as (a & b & c & d & I & Q). exists a, b, c, d. split; [right; exact I|exact Q].
  - destruct (IH _ _ H) as (a & b & c & d & I & Q). exists a, b, c, d. split; [right; exact I|exact Q].
  - destruct (IH _ _ H) as (a & b & c & d & I & Q). exists a, b, c, d. split; [right; exact I|exact Q].
Qed.
Print Assumptions C111_streams.
(** For other calls the loggers differ: if the indentation is reduced below zero, and for a message of two lines. *)
Theorem C111_logger_refuted : ~ (forall l, (forall level sev h m, In (LLog level sev h m) l -> level = level_info) -> map snd (jrun l new_jlogger) = terminal l (new_logger false)).
Proof.
  intros H. specialize (H [LIndent (-1); LIndent 1; LLog level_info 10 [] [dot]]).
  assert (Q : forall level sev h m, In (LLog level sev h m) [LIndent (-1); LIndent 1; LLog level_info 10 [] [dot]] -> level = level_info).
  { intros level sev h m [I|[I|[I|[]]]]; try discriminate I. congruence. }
  specialize (H Q). vm_compute in H. discriminate H.
Qed.
Print Assumptions C111_logger_refuted.

(** ** Names *)
(** registered_components() fails in every state: the binding has no function of the name it uses. *)
Theorem C111_registered_refuted : ~ (exists s l, registered_components s = Ok l) /\ forall s, registered_components s = Throw attribute_error.
Proof. assert (Q : forall s, registered_components s = Throw attribute_error) by reflexivity. split; [|exact Q]. intros (s & l & H). rewrite Q in H. discriminate H. Qed.
Print Assumptions C111_registered_refuted.
(** With the name the binding has it gives what comp::foreach_registered visits. *)
Theorem C111_registered_partial : forall ops, exists l, registered_with "foreach_registered" (reg_run ops) = Ok l /\
  forall k, In k l <-> exists f, alookup k (func_map (reg_run ops)) = Some f.
Proof.
  intros ops. eexists. split; [reflexivity|]. intros k. unfold foreach_registered, akeys. generalize (func_map (reg_run ops)). intros m.
  induction m as [|[x f] m IH]; cbn.
  - split; [contradiction|intros (f & Q); discriminate Q].
  - destruct (String.eqb_spec k x) as [->|]; [split; eauto|]. rewrite <- IH. split; [intros [Q|Q]; [congruence|exact Q]|auto].
Qed.
Print Assumptions C111_registered_partial.
Example C111_registered_case : exists l, registered_with "foreach_registered" (reg_run [Reg "a" "" (Build_factory 1 2); Reg "b" "c" (Build_factory 3 4); Unreg "a" ""]) = Ok l /\ l = ["b"%string].
Proof. eexists. split; reflexivity. Qed.

(** The reporter that shows the film raises on every report, for the same reason; also on the last one, which is made by a
    destructor (C110). *)
Theorem C111_film_refuted : film_update package_names = Throw attribute_error.
Proof. unfold film_update, getattr. destruct (in_dec string_dec "buffer" package_names) as [H|]; [exfalso|reflexivity]. vm_compute in H. repeat (destruct H as [H|H]; [discriminate H|]). exact H. Qed.
Print Assumptions C111_film_refuted.

(** Arrays made by lm.array are accepted by no function that takes vectors; with the element type of the library they are, and
    the vector has their elements. *)
Theorem C111_array_refuted : forall (T : Type) N (l : list T), load_vec N (array None l) = Throw type_error.
Proof. reflexivity. Qed.
Print Assumptions C111_array_refuted.
Theorem C111_array_partial : forall (T : Type) (l : list T), load_vec (List.length l) (array (Some Float64) l) = Ok l.
Proof.
  intros T l. unfold load_vec, array. cbn [same_type shape negb List.length Nat.eqb memory].
  assert (G : forall l2 l1 : list T, copy (fun i => if (i <? 0)%Z then None else nth_error (l1 ++ l2) (Z.to_nat i)) (Z.of_nat (List.length l1)) (List.length l2) = Ok l2).
  { induction l2 as [|x l2 IH]; intros l1; [reflexivity|]. cbn [List.length copy].
    destruct (Z.ltb_spec (Z.of_nat (List.length l1)) 0); [lia|]. rewrite Nat2Z.id, nth_error_app2, Nat.sub_diag by lia. cbn [nth_error].
    specialize (IH (l1 ++ [x])). rewrite <- app_assoc in IH. cbn [app] in IH.
    replace (Z.of_nat (List.length l1) + 1)%Z with (Z.of_nat (List.length (l1 ++ [x]))) by (rewrite app_length; cbn; lia). rewrite IH. reflexivity. }
  exact (G l []).
Qed.
Print Assumptions C111_array_partial.
Example C111_array_case : load_vec 3 (array (Some Float64) [1; 2; 3]%Z) = Ok [1; 2; 3]%Z /\ load_vec 3 (array None [1; 2; 3]%Z) = Throw type_error.
Proof. split; reflexivity. Qed.
