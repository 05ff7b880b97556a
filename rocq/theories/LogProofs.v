(** Proofs about the logger, the progress reporters and the guard. *)
From Coq Require Import List ZArith Bool Ascii Lia ZifyBool.
From Verif Require Import LogModel LogSpec.
Import ListNotations.
Open Scope Z_scope.

Definition unlines (ls : list text) : text := concat (map (fun l => l ++ [newline]) ls).

Lemma getlines_free : forall l cur, ~ In newline cur -> forall x, In x (getlines cur l) -> ~ In newline x.
Proof.
  induction l as [|c l IH]; intros cur Hc x Hx; cbn [getlines] in Hx.
  - destruct cur as [|a cur]; [destruct Hx|]. destruct Hx as [<-|[]]. rewrite <- in_rev. exact Hc.
  - destruct (Ascii.eqb c newline) eqn:E.
    + destruct Hx as [<-|Hx]; [rewrite <- in_rev; exact Hc|]. exact (IH [] (fun H => H) x Hx).
    + apply (IH (c :: cur)); [|exact Hx]. intros [H|H]; [|exact (Hc H)]. subst c. rewrite Ascii.eqb_refl in E. discriminate.
Qed.

Lemma getlines_unlines : forall l cur, ~ In newline cur ->
  unlines (getlines cur l) = rev cur ++ l /\ (rev cur ++ l = [] \/ exists m, rev cur ++ l = m ++ [newline])
  \/ unlines (getlines cur l) = rev cur ++ l ++ [newline] /\ forall m, rev cur ++ l <> m ++ [newline].
Proof.
  induction l as [|c l IH]; intros cur Hc; cbn [getlines].
  - destruct cur as [|a cur]; [left; split; [reflexivity|left; reflexivity]|].
    right. split; [unfold unlines; cbn [map concat]; rewrite app_nil_r; reflexivity|].
    intros m E. rewrite app_nil_r in E. apply Hc. rewrite in_rev. rewrite E. apply in_or_app. right. left. reflexivity.
  - destruct (Ascii.eqb c newline) eqn:E.
    + apply Ascii.eqb_eq in E. subst c. unfold unlines. cbn [map concat]. fold (unlines (getlines [] l)).
      destruct (IH [] (fun H => H)) as [[Hu Hm]|[Hu Hm]]; cbn [rev app] in Hu, Hm.
      * left. rewrite Hu. rewrite <- app_assoc. cbn [app]. split; [reflexivity|].
        right. destruct Hm as [->|[m ->]]; [exists (rev cur); reflexivity|exists (rev cur ++ newline :: m); rewrite <- app_assoc; reflexivity].
      * right. rewrite Hu, <- app_assoc. split; [reflexivity|]. intros m Em.
        destruct l as [|a l]; [cbn in Hu; discriminate|].
        destruct (exists_last (l := a :: l)) as [l' [x Ex]]; [discriminate|]. rewrite Ex in *.
        change (rev cur ++ newline :: l' ++ [x]) with (rev cur ++ (newline :: l') ++ [x]) in Em. rewrite app_assoc in Em.
        apply app_inj_tail in Em. destruct Em as [_ ->]. exact (Hm l' eq_refl).
    + destruct (IH (c :: cur)) as [[Hu Hm]|[Hu Hm]]; cbn [rev] in *; rewrite <- ?app_assoc in *; cbn [app] in *.
      * intros [H|H]; [|exact (Hc H)]. subst c. rewrite Ascii.eqb_refl in E. discriminate.
      * left. auto.
      * right. auto.
Qed.

Lemma getlines_lines_of m : m <> [] -> lines_of m (getlines [] m).
Proof.
  intros Hm. split; [exact (getlines_free m [] (fun H => H))|].
  destruct (getlines_unlines m [] (fun H => H)) as [[Hu _]|[Hu Hn]]; cbn [rev app] in *; [left|right]; auto.
Qed.

Lemma lines_of_empty : lines_of [] [[]].
Proof.
  split; [intros l [<-|[]] []|]. right. split; [reflexivity|]. intros [|a m]; discriminate.
Qed.

Lemma free_split : forall a b x y : text, ~ In newline a -> ~ In newline b -> a ++ newline :: x = b ++ newline :: y -> a = b /\ x = y.
Proof.
  induction a as [|c a IH]; intros [|e b] x y Ha Hb E; cbn [app] in E.
  - injection E as ->. auto.
  - injection E as E1 E2. exfalso. apply Hb. left. auto.
  - injection E as E1 E2. exfalso. apply Ha. left. auto.
  - injection E as -> E. destruct (IH b x y) as [-> ->]; auto; intros H; [apply Ha|apply Hb]; right; exact H.
Qed.

Lemma unlines_inj : forall l1 l2, (forall l, In l l1 -> ~ In newline l) -> (forall l, In l l2 -> ~ In newline l) ->
  unlines l1 = unlines l2 -> l1 = l2.
Proof.
  induction l1 as [|a l1 IH]; intros [|b l2] H1 H2 E; unfold unlines in E; cbn [map concat] in E; auto.
  - destruct b; discriminate.
  - destruct a; discriminate.
  - rewrite <- !app_assoc in E. cbn [app] in E. apply free_split in E; [|apply H1; left; reflexivity|apply H2; left; reflexivity].
    destruct E as [-> E]. f_equal. apply IH; [intros l H; apply H1; right; exact H|intros l H; apply H2; right; exact H|exact E].
Qed.

Lemma unlines_end : forall ls, ls <> [] -> exists m, unlines ls = m ++ [newline].
Proof.
  induction ls as [|a ls IH]; intros H; [contradiction|]. unfold unlines. cbn [map concat]. fold (unlines ls).
  destruct ls as [|b ls]; [exists a; cbn; rewrite app_nil_r; reflexivity|].
  destruct IH as [m Em]; [discriminate|]. rewrite Em. exists ((a ++ [newline]) ++ m). apply app_assoc.
Qed.

Lemma lines_of_unique m l1 l2 : lines_of m l1 -> lines_of m l2 -> l1 = l2.
Proof.
  intros [F1 H1] [F2 H2]. fold (unlines l1) in H1. fold (unlines l2) in H2.
  assert (Hmix : forall ls, unlines ls = m -> m <> [] -> (forall x, m <> x ++ [newline]) -> False).
  { intros ls E Hn Hx. destruct ls as [|a ls]; [cbn in E; auto|]. destruct (unlines_end (a :: ls)) as [x Ex]; [discriminate|].
    apply (Hx x). rewrite <- E. exact Ex. }
  apply unlines_inj; auto.
  destruct H1 as [[E1 N1]|[E1 N1]], H2 as [[E2 N2]|[E2 N2]]; try congruence; exfalso; [exact (Hmix l1 E1 N1 N2)|exact (Hmix l2 E2 N2 N1)].
Qed.

(** The state of the logger between calls. *)
Definition rep (s : logger) (v : Z) (d : nat) : Prop :=
  severity s = v /\ indentation s = Z.of_nat d /\ indentation_string s = indent d /\ max_len s = 0 /\ whitespaces s = [].

Lemma rep_new debug : rep (new_logger debug) (if debug then -100 else 0) 0.
Proof. repeat split. Qed.

Lemma rep_update s v d (n : Z) d' : rep s v d -> Z.of_nat d + n = Z.of_nat d' -> rep (update_indentation s n) v d'.
Proof.
  intros (A & B & C & D & E) Hd. unfold update_indentation. rewrite B, Hd.
  destruct d' as [|d']; [cbn; repeat split; auto|].
  destruct (Z.of_nat (S d') >? 0) eqn:G; [|lia]. repeat split; auto; cbn [indentation_string].
  unfold indent. f_equal. f_equal. lia.
Qed.

Lemma log_prints s v d level sev h m : rep s v d ->
  exists s' o, log s level sev h m = (s', o) /\ rep s' v d /\ prints d v (CLog level sev h m) v false o.
Proof.
  intros (A & B & C & D & E). unfold log. rewrite A.
  destruct (v >? sev) eqn:G.
  { exists s, []. split; [reflexivity|]. split; [repeat split; auto|]. apply pr_hidden. lia. }
  destruct ((level =? level_progress) || (level =? level_progress_end)) eqn:L.
  - assert (Hl : level = 100).
    { unfold level_progress, level_progress_end in L. destruct (Z.eqb_spec level 100); [auto|discriminate]. }
    subst level. cbn [Z.eqb level_progress_end Pos.eqb]. eexists. eexists. split; [reflexivity|].
    split; [repeat split; auto|].
    rewrite D, E, C. set (n := Z.of_nat _). destruct (0 >? n) eqn:G2; [subst n; lia|].
    cbn [app]. rewrite <- app_assoc. apply pr_progress; [lia|reflexivity].
  - assert (Hl : ~ is_progress level).
    { intros ->. discriminate. }
    assert (Hp : forall ls, lines_of m ls -> prints d v (CLog level sev h m) v false
               (concat (map (fun l => h ++ (indentation_string s ++ l) ++ [newline]) ls))).
    { intros ls Hls. rewrite C. replace (map (fun l => h ++ (indent d ++ l) ++ [newline]) ls)
        with (map (fun l => h ++ indent d ++ l ++ [newline]) ls) by (apply map_ext; intros l; rewrite <- app_assoc; reflexivity).
      apply pr_lines; [lia|exact Hl|exact Hls]. }
    destruct m as [|c m].
    + exists s. eexists. split; [reflexivity|]. split; [repeat split; auto|].
      specialize (Hp [[]] lines_of_empty). cbn [map concat] in Hp. rewrite app_nil_r in Hp. exact Hp.
    + exists s. eexists. split; [reflexivity|]. split; [repeat split; auto|]. apply Hp. apply getlines_lines_of. discriminate.
Qed.

Fixpoint exec_prints (c : cmd) : forall s v d, rep s v d -> forall s' o t, exec c s = (s', o, t) ->
  exists v', rep s' v' d /\ prints d v c v' t o.
Proof.
  intros s v d H s' o t E. destruct c as [level sev h m|n|body|].
  - cbn [exec] in E. destruct (log_prints s v d level sev h m H) as (s1 & o1 & E1 & R1 & P1). rewrite E1 in E.
    injection E as <- <- <-. exists v. auto.
  - cbn [exec] in E. injection E as <- <- <-. destruct H as (A & B & C & D & F). exists n. split; [repeat split; auto|constructor].
  - assert (HL : forall l s v d, rep s v d -> forall s' o t, exec_list l s = (s', o, t) -> exists v', rep s' v' d /\ prints_list d v l v' t o).
    { clear - exec_prints. induction l as [|c l IH]; intros s v d H s' o t E; cbn [exec_list] in E.
      - injection E as <- <- <-. exists v. split; [exact H|constructor].
      - destruct (exec c s) as [[s1 o1] t1] eqn:E1. destruct (exec_prints c s v d H s1 o1 t1 E1) as (v1 & R1 & P1).
        destruct t1.
        + injection E as <- <- <-. exists v1. split; [exact R1|]. constructor. exact P1.
        + destruct (exec_list l s1) as [[s2 o2] t2] eqn:E2. destruct (IH s1 v1 d R1 s2 o2 t2 E2) as (v2 & R2 & P2).
          injection E as <- <- <-. exists v2. split; [exact R2|]. econstructor; eassumption. }
    cbn [exec] in E. fold exec_list in E.
    destruct (exec_list body (update_indentation s 1)) as [[s1 o1] t1] eqn:E1. injection E as <- <- <-.
    destruct (HL body _ v (S d) (rep_update s v d 1 (S d) H ltac:(lia)) s1 o1 t1 E1) as (v1 & R1 & P1).
    exists v1. split; [apply (rep_update s1 v1 (S d) (-1) d R1); lia|]. constructor. exact P1.
  - cbn [exec] in E. injection E as <- <- <-. exists v. split; [exact H|constructor].
Qed.

Lemma exec_list_prints : forall l s v d, rep s v d -> forall s' o t, exec_list l s = (s', o, t) ->
  exists v', rep s' v' d /\ prints_list d v l v' t o.
Proof.
  induction l as [|c l IH]; intros s v d H s' o t E; cbn [exec_list] in E.
  - injection E as <- <- <-. exists v. split; [exact H|constructor].
  - destruct (exec c s) as [[s1 o1] t1] eqn:E1. destruct (exec_prints c s v d H s1 o1 t1 E1) as (v1 & R1 & P1).
    destruct t1.
    + injection E as <- <- <-. exists v1. split; [exact R1|]. constructor. exact P1.
    + destruct (exec_list l s1) as [[s2 o2] t2] eqn:E2. destruct (IH s1 v1 d R1 s2 o2 t2 E2) as (v2 & R2 & P2).
      injection E as <- <- <-. exists v2. split; [exact R2|]. econstructor; eassumption.
Qed.

Scheme prints_mind := Minimality for prints Sort Prop
  with prints_list_mind := Minimality for prints_list Sort Prop.
Combined Scheme prints_both from prints_mind, prints_list_mind.

Lemma prints_det :
  (forall d v c v' t o, prints d v c v' t o -> forall v2 t2 o2, prints d v c v2 t2 o2 -> v' = v2 /\ t = t2 /\ o = o2)
  /\ (forall d v l v' t o, prints_list d v l v' t o -> forall v2 t2 o2, prints_list d v l v2 t2 o2 -> v' = v2 /\ t = t2 /\ o = o2).
Proof.
  apply prints_both; intros.
  - inversion H0; subst; auto; lia.
  - inversion H2; subst; auto; try lia; try contradiction. assert (ls = ls0) by (eapply lines_of_unique; eassumption). subst. auto.
  - inversion H1; subst; auto; try lia; contradiction.
  - inversion H; subst; auto.
  - inversion H; subst; auto.
  - inversion H1; subst. apply H0. assumption.
  - inversion H; subst; auto.
  - inversion H1; subst; [apply H0; assumption|].
    match goal with P : prints _ _ _ _ false _ |- _ => destruct (H0 _ _ _ P) as (_ & X & _); discriminate end.
  - inversion H3; subst; [match goal with P : prints _ _ _ _ true _ |- _ => destruct (H0 _ _ _ P) as (_ & X & _); discriminate end|].
    match goal with P : prints _ _ _ _ false ?x |- context [?x ++ _] => destruct (H0 _ _ _ P) as (-> & _ & ->) end.
    match goal with P : prints_list _ _ _ _ _ ?x |- context [_ ++ ?x] => destruct (H2 _ _ _ P) as (-> & -> & ->) end. auto.
Qed.

Lemma skipn_plus {A} : forall a b (l : list A), skipn b (skipn a l) = skipn (a + b) l.
Proof. induction a as [|a IH]; intros b [|x l]; cbn [skipn Nat.add]; rewrite ?skipn_nil; auto. Qed.

Lemma put_plain : forall w line k, plain w -> (k <= length line)%nat ->
  fold_left put w (line, k) = (firstn k line ++ w ++ skipn (k + length w) line, (k + length w)%nat).
Proof.
  induction w as [|c w IH]; intros line k [Hc Hn] Hk; cbn [fold_left length app].
  - rewrite Nat.add_0_r, firstn_skipn. reflexivity.
  - assert (E1 : Ascii.eqb c cr = false) by (destruct (Ascii.eqb_spec c cr); [exfalso; apply Hc; left; auto|reflexivity]).
    assert (E2 : Ascii.eqb c newline = false) by (destruct (Ascii.eqb_spec c newline); [exfalso; apply Hn; left; auto|reflexivity]).
    unfold put at 2. rewrite E1, E2.
    assert (L : length (firstn k line) = k) by (rewrite firstn_length; lia).
    rewrite IH.
    + f_equal; [|lia].
      rewrite firstn_app, L. replace (S k - k)%nat with 1%nat by lia. rewrite (firstn_all2 (firstn k line)) by lia.
      cbn [firstn]. rewrite <- app_assoc. cbn [app]. do 3 f_equal.
      rewrite skipn_app, L. rewrite (skipn_all2 (firstn k line)) by lia. cbn [app].
      replace (S k + length w - k)%nat with (S (length w)) by lia. change (skipn (S (length w)) (c :: skipn (S k) line)) with (skipn (length w) (skipn (S k) line)).
      rewrite skipn_plus. f_equal. lia.
    + split; intros H; [apply Hc|apply Hn]; right; exact H.
    + rewrite app_length, L. cbn [length]. lia.
Qed.

Lemma screen_two w1 w2 : plain w1 -> plain w2 -> screen ((w1 ++ [cr]) ++ w2 ++ [cr]) = w2 ++ skipn (length w2) w1.
Proof.
  intros H1 H2. unfold screen. rewrite !fold_left_app. rewrite put_plain by (auto; cbn; lia).
  cbn [firstn app]. rewrite skipn_nil, app_nil_r. cbn [fold_left put]. rewrite Ascii.eqb_refl.
  rewrite put_plain by (auto; lia). cbn [firstn app]. cbn [put]. rewrite Ascii.eqb_refl. reflexivity.
Qed.

Lemma progress_out s v d sev h m : rep s v d -> v <= sev ->
  exists s', log s level_progress sev h m = (s', h ++ indent d ++ m ++ [cr]) /\ rep s' v d.
Proof.
  intros R H. destruct (log_prints s v d level_progress sev h m R) as (s' & o & E & R' & P). exists s'. split; [|exact R'].
  rewrite E. f_equal. inversion P; subst; [lia|exfalso; apply H9; reflexivity|reflexivity].
Qed.

(** ** Progress *)

Fixpoint deliver_each (i : nat) (l : list reporter) (e : event) (now : clock) : list reporter :=
  match l with [] => [] | r :: l' => deliver r e (below i now) :: deliver_each (S i) l' e now end.

Lemma deliver_mux l e now : deliver (Mux l) e now = Mux (deliver_each 0 l e now).
Proof.
  cbn [deliver]. f_equal. assert (H : forall l i,
    (fix all (i : nat) (l : list reporter) : list reporter :=
              match l with [] => [] | r :: l' => deliver r e (below i now) :: all (S i) l' end) i l = deliver_each i l e now).
  { induction l0 as [|r l0 IH]; intros i; [reflexivity|]. cbn [deliver_each]. rewrite <- IH. reflexivity. }
  apply H.
Qed.

Definition evs_below (i : nat) (evs : list (event * clock)) : list (event * clock) :=
  map (fun x => (fst x, below i (snd x))) evs.

Lemma deliver_each_nth : forall l i e now k r, nth_error l k = Some r ->
  nth_error (deliver_each i l e now) k = Some (deliver r e (below (i + k) now)).
Proof.
  induction l as [|a l IH]; intros i e now [|k] r H; cbn [nth_error] in H; try discriminate; cbn [deliver_each nth_error].
  - injection H as ->. rewrite Nat.add_0_r. reflexivity.
  - rewrite (IH (S i) e now k r H). f_equal. f_equal. f_equal. lia.
Qed.

Lemma deliver_each_length : forall l i e now, length (deliver_each i l e now) = length l.
Proof. induction l as [|a l IH]; intros; cbn [deliver_each length]; auto. Qed.

Lemma mux_all : forall evs l, exists l', deliver_all (Mux l) evs = Mux l' /\ length l' = length l
  /\ forall k r, nth_error l k = Some r -> nth_error l' k = Some (deliver_all r (evs_below k evs)).
Proof.
  induction evs as [|[e now] evs IH]; intros l.
  - exists l. auto.
  - destruct (IH (deliver_each 0 l e now)) as (l' & E & Hl & Hn). exists l'. split; [|split].
    + unfold deliver_all in *. cbn [fold_left fst snd]. rewrite deliver_mux. exact E.
    + rewrite Hl. apply deliver_each_length.
    + intros k r H. rewrite (Hn k _ (deliver_each_nth l 0 e now k r H)). reflexivity.
Qed.

(** What a delayed reporter does, as a history. *)
Fixpoint marks (d last : Z) (evs : list (event * clock)) : list (event * Z * bool) :=
  match evs with
  | [] => []
  | (e, now) :: evs' =>
      match e with
      | EvStart => (e, now [], true) :: marks d (now []) evs'
      | EvEnd => (e, now [], true) :: marks d last evs'
      | _ => if to_ms (now [] - last) >? d then (e, now [], true) :: marks d (now []) evs'
             else (e, now [], false) :: marks d last evs'
      end
  end.

Lemma delay_all : forall evs d last r, exists last',
  deliver_all (Delay d last r) evs = Delay d last' (deliver_all r (evs_below 0 (map fst (filter snd (combine evs (map snd (marks d last evs))))))).
Proof.
  induction evs as [|[e now] evs IH]; intros d last r; [exists last; reflexivity|].
  unfold deliver_all in *. cbn [fold_left fst snd].
  destruct e; cbn [deliver marks].
  - destruct (IH d (now []) (deliver r EvStart (below 0 now))) as [l' E]. exists l'. rewrite E. reflexivity.
  - destruct (to_ms (now [] - last) >? d).
    + destruct (IH d (now []) (deliver r (EvUpdate n) (below 0 now))) as [l' E]. exists l'. rewrite E. reflexivity.
    + destruct (IH d last r) as [l' E]. exists l'. rewrite E. reflexivity.
  - destruct (to_ms (now [] - last) >? d).
    + destruct (IH d (now []) (deliver r (EvUpdateTime n) (below 0 now))) as [l' E]. exists l'. rewrite E. reflexivity.
    + destruct (IH d last r) as [l' E]. exists l'. rewrite E. reflexivity.
  - destruct (IH d last (deliver r EvEnd (below 0 now))) as [l' E]. exists l'. rewrite E. reflexivity.
Qed.

Lemma marks_events : forall evs d last, map fst (marks d last evs) = map (fun x => (fst x, snd x [])) evs.
Proof.
  induction evs as [|[e now] evs IH]; intros d last; [reflexivity|].
  destruct e; cbn [marks map fst snd]; try (destruct (to_ms (now [] - last) >? d)); cbn [map fst]; rewrite IH; reflexivity.
Qed.

Lemma to_ms_gt d ns : 0 <= d -> d < to_ms ns <-> (d + 1) * 1000000 <= ns.
Proof.
  intros Hd. unfold to_ms. destruct (Z_le_gt_dec 0 ns) as [H|H].
  - rewrite Z.quot_div_nonneg by lia. split; intros G.
    + assert (Q := Z.mul_div_le ns 1000000 ltac:(lia)). lia.
    + assert (d + 1 <= ns / 1000000); [apply Z.div_le_lower_bound; lia|lia].
  - split; intros G; [|lia]. assert (Z.quot ns 1000000 <= 0); [|lia].
    apply Z.quot_le_upper_bound; lia.
Qed.

Lemma marks_rule : forall evs d last, delay_rule (fun ns => d < to_ms ns) last (marks d last evs).
Proof.
  induction evs as [|[e now] evs IH]; intros d last before e' now' f after E.
  - destruct before; discriminate.
  - destruct e; cbn [marks] in E; try (destruct (to_ms (now [] - last) >? d) eqn:G);
      (destruct before as [|b before]; cbn [app] in E;
        [injection E as <- <- <- _; cbn [is_update reference fold_left]; split; intros; try reflexivity; try discriminate; try lia
        |injection E as <- E; exact (IH _ _ before e' now' f after E)]).
    all: try (specialize (H eq_refl); lia).
Qed.

(** ** The guard *)

Definition fexec_list (w : bool) : list fcmd -> bool -> bool * bool :=
  fix go (l : list fcmd) (on : bool) : bool * bool :=
    match l with
    | [] => (on, false)
    | c :: l' => let '(on1, t1) := fexec w c on in if t1 : bool then (on1, true) else go l' on1
    end.

Lemma fexec_guard w body on :
  fexec w (FGuard body) on = let '(on', t) := fexec_list w body (disable_fpex w on) in (enable_fpex w on', t).
Proof. reflexivity. Qed.

Lemma guard_windows body on : exists t, fexec true (FGuard body) on = (true, t).
Proof. rewrite fexec_guard. destruct (fexec_list true body (disable_fpex true on)) as [a t]. exists t. reflexivity. Qed.

Fixpoint fexec_other (c : fcmd) : forall on, exists t, fexec false c on = (on, t).
Proof.
  intros on. destruct c as [| |body|]; try (eexists; reflexivity).
  assert (H : forall l on, exists t, fexec_list false l on = (on, t)).
  { clear - fexec_other. induction l as [|c l IH]; intros on; [eexists; reflexivity|].
    unfold fexec_list. fold (fexec_list false). destruct (fexec_other c on) as [t ->]. destruct t; [eexists; reflexivity|apply IH]. }
  rewrite fexec_guard. destruct (H body (disable_fpex false on)) as [t ->]. eexists. reflexivity.
Qed.
