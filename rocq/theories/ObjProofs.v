(** The parser reads what the text says. *)
From Coq Require Import List ZArith Bool Ascii String Lia ZifyBool.
From Verif Require Import Base LogModel LogProofs ObjModel ObjSpec.
Import ListNotations.
Open Scope Z_scope.

(** ** Characters *)

Lemma whitespace_spec c : whitespace c = true <-> is_blank c.
Proof.
  unfold whitespace, is_blank. rewrite orb_true_iff. rewrite !Ascii.eqb_eq. reflexivity.
Qed.
Lemma whitespace_false c : whitespace c = false <-> ~ is_blank c.
Proof. rewrite <- whitespace_spec. destruct (whitespace c); split; congruence. Qed.

Lemma blank_space c : is_blank c -> isspace c = true.
Proof. intros [->| ->]; reflexivity. Qed.
Lemma blank_stop c : is_blank c -> stop c = true.
Proof. intros [->| ->]; reflexivity. Qed.
Lemma blank_not_slash c : is_blank c -> Ascii.eqb c slash = false.
Proof. intros [->| ->]; reflexivity. Qed.

Lemma drop_app p b t : Forall (fun c => p c = true) b -> drop_while p (b ++ t) = drop_while p t.
Proof. induction 1 as [|c b Hc _ IH]; [reflexivity|]. cbn [app drop_while]. rewrite Hc. exact IH. Qed.
Lemma drop_stop p t : (t = [] \/ exists c r, t = c :: r /\ p c = false) -> drop_while p t = t.
Proof. intros [->|(c & r & -> & H)]; [reflexivity|]. cbn [drop_while]. rewrite H. reflexivity. Qed.
Lemma take_app p b t : Forall (fun c => p c = true) b -> take_while p (b ++ t) = b ++ take_while p t.
Proof. induction 1 as [|c b Hc _ IH]; [reflexivity|]. cbn [app take_while]. rewrite Hc, IH. reflexivity. Qed.
Lemma take_stop p t : (t = [] \/ exists c r, t = c :: r /\ p c = false) -> take_while p t = [].
Proof. intros [->|(c & r & -> & H)]; [reflexivity|]. cbn [take_while]. rewrite H. reflexivity. Qed.

Lemma skip_blanks b t : blanks b -> skip_spaces (b ++ t) = skip_spaces t.
Proof. intros H. apply drop_app. eapply Forall_impl; [|exact H]. intros c. apply whitespace_spec. Qed.
Lemma skip_all b : blanks b -> skip_spaces b = [].
Proof. intros H. rewrite <- (app_nil_r b). rewrite skip_blanks by exact H. reflexivity. Qed.

(** Words: first character not blank. *)
Definition unblank (w : text) : Prop := exists c r, w = c :: r /\ ~ is_blank c.
Lemma skip_word b w t : blanks b -> unblank w -> skip_spaces (b ++ w ++ t) = w ++ t.
Proof.
  intros H (c & r & -> & Hc). rewrite skip_blanks by exact H. apply drop_stop. right. exists c, (r ++ t). split; [reflexivity|].
  apply whitespace_false. exact Hc.
Qed.

Definition no_stop (w : text) : Prop := Forall (fun c => stop c = false) w.
Lemma stops rest : ends_word rest -> rest = [] \/ exists c r, rest = c :: r /\ negb (stop c) = false.
Proof.
  intros [->|(c & r & -> & H)]; [left; reflexivity|right]. exists c, r. split; [reflexivity|]. rewrite blank_stop by exact H. reflexivity.
Qed.
Lemma skip_comment w rest : no_stop w -> (rest = [] \/ exists c r, rest = c :: r /\ stop c = true) -> skip_spaces_or_comments (w ++ rest) = rest.
Proof.
  intros H Hr. unfold skip_spaces_or_comments. rewrite drop_app.
  - apply drop_stop. destruct Hr as [->|(c & r & -> & Hc)]; [left; reflexivity|right]. exists c, r. rewrite Hc. auto.
  - eapply Forall_impl; [|exact H]. intros c ->. reflexivity.
Qed.
Lemma ends_stop rest : ends_word rest -> rest = [] \/ exists c r, rest = c :: r /\ stop c = true.
Proof. intros [->|(c & r & -> & H)]; [left; reflexivity|right; exists c, r; split; [reflexivity|exact (blank_stop c H)]]. Qed.

(** ** Numbers *)

Definition digit_char (n : Z) : ascii := ascii_of_nat (48 + Z.to_nat n).
Lemma digit_facts n : 0 <= n <= 9 -> digit (digit_char n) = Some n /\ stop (digit_char n) = false
  /\ isspace (digit_char n) = false /\ Ascii.eqb (digit_char n) minus = false /\ Ascii.eqb (digit_char n) plus = false.
Proof.
  intros H. assert (C : n = 0 \/ n = 1 \/ n = 2 \/ n = 3 \/ n = 4 \/ n = 5 \/ n = 6 \/ n = 7 \/ n = 8 \/ n = 9) by lia.
  destruct C as [->|[->|[->|[->|[->|[->|[->|[->|[->| ->]]]]]]]]]; repeat split.
Qed.

Definition non_digit_head (rest : text) : Prop := rest = [] \/ exists c r, rest = c :: r /\ digit c = None.

Lemma digits_stop acc rest : non_digit_head rest -> digits acc rest = acc.
Proof. intros [->|(c & r & -> & H)]; [reflexivity|]. cbn [digits]. rewrite H. reflexivity. Qed.

Lemma decimal_facts n w : decimal n w -> 0 <= n /\ no_stop w
  /\ (exists d w', w = digit_char d :: w' /\ 0 <= d <= 9)
  /\ Forall (fun c => isspace c = false) w
  /\ forall acc rest, exists k, digits acc (w ++ rest) = digits (acc * 10 ^ k + n) rest.
Proof.
  induction 1 as [n H|m n w H IH Hn].
  - destruct (digit_facts n H) as (A & B & C & _). fold (digit_char n). split; [lia|]. split; [repeat constructor; exact B|].
    split; [exists n, []; auto|]. split; [repeat constructor; exact C|]. intros acc rest. exists 1. cbn [app digits]. rewrite A. f_equal. lia.
  - destruct IH as (P & Q & (d & w' & E & Hd) & T & R). destruct (digit_facts n Hn) as (A & B & C & _). fold (digit_char n).
    split; [lia|]. split; [apply Forall_app; split; [exact Q|repeat constructor; exact B]|].
    split; [exists d, (w' ++ [digit_char n]); rewrite E; auto|]. split; [apply Forall_app; split; [exact T|repeat constructor; exact C]|].
    intros acc rest. destruct (R acc ([digit_char n] ++ rest)) as [k Ek]. rewrite <- app_assoc, Ek. cbn [app digits]. rewrite A.
    destruct (Z_le_gt_dec 0 k) as [Hk|Hk].
    + exists (k + 1). f_equal. rewrite Z.pow_add_r by lia. lia.
    + rewrite Z.pow_neg_r in * by lia. exists k. rewrite Z.pow_neg_r by lia. f_equal. lia.
Qed.

Lemma decimal_digits n w rest : decimal n w -> non_digit_head rest -> digits 0 (w ++ rest) = n.
Proof.
  intros H Hr. destruct (decimal_facts n w H) as (_ & _ & _ & _ & R). destruct (R 0 rest) as [k ->]. rewrite digits_stop by exact Hr. lia.
Qed.

Lemma integer_facts i w : integer i w -> no_stop w /\ unblank w /\ Forall (fun c => isspace c = false) w
  /\ forall rest, non_digit_head rest -> atoi (w ++ rest) = i.
Proof.
  intros [H|(w' & -> & H)].
  - destruct (decimal_facts i w H) as (_ & A & (d & w1 & E & Hd) & T & _). destruct (digit_facts d Hd) as (D1 & D2 & D3 & D4 & D5).
    split; [exact A|]. split; [exists (digit_char d), w1; split; [exact E|intros B; rewrite (blank_space _ B) in D3; discriminate]|].
    split; [exact T|]. intros rest Hr. unfold atoi. rewrite E. cbn [app drop_while]. rewrite D3, D4, D5.
    change (digit_char d :: w1 ++ rest) with ((digit_char d :: w1) ++ rest). rewrite <- E. apply decimal_digits; assumption.
  - destruct (decimal_facts _ w' H) as (_ & A & _ & T & _).
    split; [constructor; [reflexivity|exact A]|]. split; [exists minus, w'; split; [reflexivity|intros [B|B]; discriminate]|].
    split; [constructor; [reflexivity|exact T]|]. intros rest Hr. unfold atoi. cbn [app drop_while]. change (isspace minus) with false.
    cbn iota. change (Ascii.eqb minus minus) with true. cbn iota. rewrite (decimal_digits _ w' rest H Hr). lia.
Qed.

Lemma slash_head r : non_digit_head (slash :: r).
Proof. right. exists slash, r. split; reflexivity. Qed.
Lemma ends_head rest : ends_word rest -> non_digit_head rest.
Proof. intros [->|(c & r & -> & [->| ->])]; [left; reflexivity|right; eexists; eexists; split; reflexivity|right; eexists; eexists; split; reflexivity]. Qed.

(** ** Indices *)

Lemma parse_index_denotes n i k : denotes n i k -> parse_index i n = k.
Proof. intros [[H ->]|[H ->]]; unfold parse_index; destruct (i <? 0) eqn:A; destruct (i >? 0) eqn:B; lia. Qed.

Lemma denotes_range n i k : denotes n i k -> 0 <= k < n.
Proof. intros [[H ->]|[H ->]]; lia. Qed.

Lemma vert_unblank v w : vert_text v w -> unblank w.
Proof.
  intros H. destruct H as [p w H|p t w w' H H'|p n w w' H H'|p t n w w' w'' H H' H'']; destruct (integer_facts _ _ H) as (_ & (c & r & -> & Hc) & _);
    eexists; eexists; (split; [reflexivity|exact Hc]).
Qed.

(** The text after a vertex: the code may also consume the blank that ends it. *)
Definition after (rest rest' : text) : Prop := rest' = rest \/ exists c, is_blank c /\ rest = c :: rest'.

Lemma parse_vert np nt nn v w f b rest : vert_text v w -> vert_denotes np nt nn v f -> blanks b -> ends_word rest ->
  exists rest', parse_indices np nt nn (b ++ w ++ rest) = (f, rest') /\ after rest rest'.
Proof.
  intros Hv Hd Hb He. unfold parse_indices. rewrite (skip_word b w rest Hb (vert_unblank v w Hv)).
  destruct f as [kp kt kn]. destruct Hv as [p w H|p t w w' H H'|p n w w' H H'|p t n w w' w'' H H' H'']; destruct Hd as (Dp & Dt & Dn);
    cbn [fp ft fn denotes_opt] in Dp, Dt, Dn; destruct (integer_facts _ _ H) as (Ns & _ & _ & At).
  - subst kt kn. rewrite (At rest (ends_head rest He)), (parse_index_denotes np p kp Dp). rewrite skip_comment by (auto using ends_stop).
    destruct He as [->|(c & r & -> & Hc)]; [exists []; split; [reflexivity|left; reflexivity]|].
    rewrite (blank_not_slash c Hc). cbn [negb]. exists r. split; [reflexivity|right; exists c; auto].
  - subst kn. destruct (integer_facts _ _ H') as (Ns' & _ & _ & At').
    rewrite <- app_assoc. cbn [app]. rewrite (At _ (slash_head _)), (parse_index_denotes np p kp Dp).
    rewrite skip_comment by (auto; right; eexists; eexists; split; reflexivity). cbn [negb Ascii.eqb]. change (Ascii.eqb slash slash) with true. cbn [negb].
    rewrite (At' rest (ends_head rest He)), (parse_index_denotes nt t kt Dt). rewrite skip_comment by (auto using ends_stop).
    destruct He as [->|(c & r & -> & Hc)]; [exists []; split; [reflexivity|left; reflexivity]|].
    rewrite (blank_not_slash c Hc). cbn [negb]. exists r. split; [reflexivity|right; exists c; auto].
  - subst kt. destruct (integer_facts _ _ H') as (Ns' & _ & _ & At').
    rewrite <- app_assoc. cbn [app]. rewrite (At _ (slash_head _)), (parse_index_denotes np p kp Dp).
    rewrite skip_comment by (auto; right; eexists; eexists; split; reflexivity). change (Ascii.eqb slash slash) with true. cbn [negb].
    change (atoi (slash :: w' ++ rest)) with 0. change (parse_index 0 nt) with (-1).
    change (skip_spaces_or_comments (slash :: w' ++ rest)) with (slash :: w' ++ rest). cbn iota. change (Ascii.eqb slash slash) with true. cbn [negb].
    rewrite (At' rest (ends_head rest He)), (parse_index_denotes nn n kn Dn). rewrite skip_comment by (auto using ends_stop).
    exists rest. split; [reflexivity|left; reflexivity].
  - destruct (integer_facts _ _ H') as (Ns' & _ & _ & At'). destruct (integer_facts _ _ H'') as (Ns'' & _ & _ & At'').
    rewrite <- app_assoc. cbn [app]. rewrite <- app_assoc. cbn [app]. rewrite (At _ (slash_head _)), (parse_index_denotes np p kp Dp).
    rewrite skip_comment by (auto; right; eexists; eexists; split; reflexivity). change (Ascii.eqb slash slash) with true. cbn [negb].
    rewrite (At' _ (slash_head _)), (parse_index_denotes nt t kt Dt).
    rewrite skip_comment by (auto; right; eexists; eexists; split; reflexivity). change (Ascii.eqb slash slash) with true. cbn [negb].
    rewrite (At'' rest (ends_head rest He)), (parse_index_denotes nn n kn Dn). rewrite skip_comment by (auto using ends_stop).
    exists rest. split; [reflexivity|left; reflexivity].
Qed.

Lemma sep_tail ws c r : Forall unblank ws -> separated ws (c :: r) -> is_blank c -> separated ws r.
Proof.
  intros Hu H Hc. inversion H as [t Hb E1 E2|b w rest ws' Hb He Hs E1 E2]; subst.
  - constructor. inversion Hb. assumption.
  - destruct b as [|x b].
    + exfalso. inversion Hu as [|? ? (y & s & -> & Hy) _]; subst. cbn in E2. injection E2 as -> _. exact (Hy Hc).
    + cbn in E2. injection E2 as -> <-. inversion Hb; subst. constructor; assumption.
Qed.

Lemma after_sep ws rest rest' : Forall unblank ws -> separated ws rest -> after rest rest' -> separated ws rest'.
Proof. intros Hu Hs [->|(c & Hc & ->)]; [exact Hs|]. exact (sep_tail ws c rest' Hu Hs Hc). Qed.

Lemma blanks_vertices : forall k np nt nn t, blanks t -> face_vertices k np nt nn t = repeat no_index k.
Proof.
  induction k as [|k IH]; intros np nt nn t Ht; [reflexivity|]. cbn [face_vertices repeat].
  destruct t as [|c t]; [f_equal; apply IH; constructor|].
  assert (E : parse_indices np nt nn (c :: t) = (no_index, [])).
  { unfold parse_indices. rewrite (skip_all (c :: t) Ht). reflexivity. }
  rewrite E. f_equal. apply IH. constructor.
Qed.

Lemma vertices : forall k np nt nn vs fs ws t, Forall2 vert_text vs ws -> Forall2 (vert_denotes np nt nn) vs fs ->
  separated ws t -> (List.length vs <= k)%nat -> face_vertices k np nt nn t = fs ++ repeat no_index (k - List.length vs).
Proof.
  induction k as [|k IH]; intros np nt nn vs fs ws t Hv Hd Hs Hk.
  - destruct Hv; [|cbn in Hk; lia]. inversion Hd. reflexivity.
  - destruct Hv as [|v w vs ws Hv Hvs].
    + inversion Hd; subst. inversion Hs; subst. rewrite blanks_vertices by assumption. reflexivity.
    + inversion Hd as [|? f ? fs' Hf Hfs]; subst. inversion Hs as [|b ? rest ? Hb He Hrest]; subst.
      assert (Hu : Forall unblank ws). { clear -Hvs. induction Hvs; constructor; [eapply vert_unblank; eassumption|assumption]. }
      destruct (parse_vert np nt nn v w f b rest Hv Hf Hb He) as (rest' & E & Ha).
      cbn [face_vertices]. destruct (b ++ w ++ rest) as [|c t] eqn:Et.
      { exfalso. destruct (vert_unblank v w Hv) as (x & r & -> & _). destruct b; discriminate. }
      rewrite E. cbn [app]. f_equal. cbn [List.length] in Hk |- *. cbn [Nat.sub]. apply (IH np nt nn vs fs' ws rest'); auto; [|lia].
      exact (after_sep ws rest rest' Hu Hrest Ha).
Qed.

Lemma f2_len {A B} (R : A -> B -> Prop) : forall l m, Forall2 R l m -> List.length l = List.length m.
Proof. induction 1; cbn [List.length]; auto. Qed.

Lemma vertices_many : forall k np nt nn vs fs ws t, Forall2 vert_text vs ws -> Forall2 (vert_denotes np nt nn) vs fs ->
  separated ws t -> (k <= List.length vs)%nat -> face_vertices k np nt nn t = firstn k fs.
Proof.
  induction k as [|k IH]; intros np nt nn vs fs ws t Hv Hd Hs Hk; [reflexivity|].
  destruct Hv as [|v w vs ws Hv Hvs]; [cbn in Hk; lia|].
  inversion Hd as [|? f ? fs' Hf Hfs]; subst. inversion Hs as [|b ? rest ? Hb He Hrest]; subst.
  assert (Hu : Forall unblank ws). { clear -Hvs. induction Hvs; constructor; [eapply vert_unblank; eassumption|assumption]. }
  destruct (parse_vert np nt nn v w f b rest Hv Hf Hb He) as (rest' & E & Ha).
  cbn [face_vertices]. destruct (b ++ w ++ rest) as [|c t] eqn:Et.
  { exfalso. destruct (vert_unblank v w Hv) as (x & r & -> & _). destruct b; discriminate. }
  rewrite E. cbn [firstn]. f_equal. cbn [List.length] in Hk. apply (IH np nt nn vs fs' ws rest'); auto; [|lia].
  exact (after_sep ws rest rest' Hu Hrest Ha).
Qed.

Lemma parse_face_many np nt nn vs fs ws t : (4 < List.length vs)%nat -> Forall2 vert_text vs ws -> Forall2 (vert_denotes np nt nn) vs fs ->
  separated ws t -> triples (parse_face np nt nn t) = triangles_of (firstn 4 fs).
Proof.
  intros Hl Hv Hd Hs. unfold parse_face. rewrite (vertices_many 4 np nt nn vs fs ws t Hv Hd Hs) by lia.
  assert (Hlen := f2_len _ _ _ Hd).
  destruct fs as [|f1 [|f2 [|f3 [|f4 fs]]]]; try (cbn in Hlen; lia). cbn [firstn].
  assert (Hf : fp f4 <> -1).
  { inversion Hd as [|? ? ? ? _ H1]; subst. inversion H1 as [|? ? ? ? _ H2]; subst. inversion H2 as [|? ? ? ? _ H3]; subst. inversion H3 as [|v ? ? ? H4 _]; subst.
    destruct v as [[p t0] n]. destruct H4 as (D & _). apply denotes_range in D. lia. }
  destruct (fp f4 =? -1) eqn:E; [lia|]. reflexivity.
Qed.

Lemma parse_face_ok np nt nn vs fs ws t : Forall2 vert_text vs ws -> Forall2 (vert_denotes np nt nn) vs fs -> separated ws t ->
  (List.length vs = 3 \/ List.length vs = 4)%nat ->
  (triples (parse_face np nt nn t) = triangles_of fs) /\ exists n, List.length (parse_face np nt nn t) = (3 * n)%nat.
Proof.
  intros Hv Hd Hs Hl. unfold parse_face. rewrite (vertices 4 np nt nn vs fs ws t Hv Hd Hs) by lia.
  assert (Hlen := f2_len _ _ _ Hd).
  destruct Hl as [Hl|Hl]; rewrite Hl in *; cbn [Nat.sub repeat].
  - destruct fs as [|f1 [|f2 [|f3 [|f4 fs]]]]; try discriminate. cbn. split; [reflexivity|exists 1%nat; reflexivity].
  - destruct fs as [|f1 [|f2 [|f3 [|f4 [|f5 fs]]]]]; try discriminate. cbn [app].
    assert (Hf : fp f4 <> -1).
    { inversion Hd as [|? ? ? ? _ H1]; subst. inversion H1 as [|? ? ? ? _ H2]; subst. inversion H2 as [|? ? ? ? _ H3]; subst. inversion H3 as [|v ? ? ? H4 _]; subst.
      destruct v as [[p t0] n]. destruct H4 as (D & _). apply denotes_range in D. lia. }
    destruct (fp f4 =? -1) eqn:E; [lia|]. split; [reflexivity|exists 2%nat; reflexivity].
Qed.

(** ** Words *)
Lemma number_facts w : number_word w -> no_stop w /\ unblank w.
Proof.
  intros [Hn H]. split.
  - eapply Forall_impl; [|exact H]. intros c [A B]. unfold stop. apply whitespace_false in B. rewrite B.
    destruct (Ascii.eqb_spec c slash); [contradiction|reflexivity].
  - destruct w as [|c w]; [contradiction|]. inversion H; subst. exists c, w. tauto.
Qed.

Section Floats.
Variable F : Type.
Variables zero one : F.
Variable num : text -> F.
Notation next_float := (next_float F num).
Notation next_vec3 := (next_vec3 F num).

Lemma next_float_ok b w rest : blanks b -> number_word w -> ends_word rest -> next_float (b ++ w ++ rest) = (num w, rest).
Proof.
  intros Hb Hw He. destruct (number_facts w Hw) as [Hs Hu]. unfold ObjModel.next_float. rewrite (skip_word b w rest Hb Hu).
  rewrite take_app by (eapply Forall_impl; [|exact Hs]; intros c ->; reflexivity).
  rewrite take_stop by exact (stops rest He). rewrite app_nil_r. rewrite skip_comment by (auto using ends_stop). reflexivity.
Qed.

Lemma one_ok t v : one_number F num t v -> fst (next_float t) = v.
Proof.
  intros (w & more & Hw & Hs & E). inversion Hs; subst. rewrite next_float_ok by assumption. reflexivity.
Qed.

Lemma two_ok t x y : two F num t x y -> fst (next_vec3 t) = (x, y).
Proof.
  intros (w1 & w2 & more & H1 & H2 & Hs & <- & <-). inversion Hs as [|b1 ? r1 ? B1 E1 S1]; subst. inversion S1 as [|b2 ? r2 ? B2 E2 S2]; subst.
  unfold ObjModel.next_vec3. rewrite next_float_ok by assumption. rewrite next_float_ok by assumption. destruct (next_float r2). reflexivity.
Qed.

Lemma three_ok t x y z : three F num t x y z -> next_vec3 t = (x, y, z).
Proof.
  intros (w1 & w2 & w3 & more & H1 & H2 & H3 & Hs & <- & <- & <-).
  inversion Hs as [|b1 ? r1 ? B1 E1 S1]; subst. inversion S1 as [|b2 ? r2 ? B2 E2 S2]; subst. inversion S2 as [|b3 ? r3 ? B3 E3 S3]; subst.
  unfold ObjModel.next_vec3. rewrite !next_float_ok by assumption. reflexivity.
Qed.

Lemma next_string_ok old n t : name_word n -> separated [n] t -> next_string old t = Ok n.
Proof.
  intros (Hn & Hs & Hl) H. inversion H as [|b ? r ? B E S]; subst. unfold next_string.
  rewrite drop_app by (eapply Forall_impl; [|exact B]; intros c; apply blank_space).
  destruct n as [|c n]; [contradiction|]. inversion Hs; subst.
  rewrite drop_stop by (right; exists c, (n ++ r); split; [reflexivity|assumption]).
  rewrite take_app by (eapply Forall_impl; [|exact Hs]; intros x ->; reflexivity).
  rewrite take_stop.
  - rewrite app_nil_r. destruct (Nat.ltb_spec (List.length (c :: n)) 256); [reflexivity|cbn in *; lia].
  - destruct E as [->|(x & s & -> & Hx)]; [left; reflexivity|right; exists x, s; rewrite blank_space by exact Hx; auto].
Qed.

(** ** Commands *)
Lemma command_ok c x args : is_blank x -> command (c ++ x :: args) c = Some args.
Proof.
  intros Hx. induction c as [|a c IH]; cbn [app command]; [apply whitespace_spec in Hx; rewrite Hx; reflexivity|].
  rewrite Ascii.eqb_refl. exact IH.
Qed.
Lemma command_inv : forall c t args, command t c = Some args -> exists x, is_blank x /\ t = c ++ x :: args.
Proof.
  induction c as [|a c IH]; intros [|y t] args H; cbn [command] in H; try discriminate.
  - destruct (whitespace y) eqn:E; [|discriminate]. injection H as ->. exists y. split; [apply whitespace_spec; exact E|reflexivity].
  - destruct (Ascii.eqb_spec a y) as [->|]; [|discriminate]. destruct (IH t args H) as (x & Hx & ->). exists x. auto.
Qed.
Lemma skip_inv : forall l, exists b, blanks b /\ l = b ++ skip_spaces l.
Proof.
  induction l as [|c l (b & Hb & E)]; [exists []; split; [constructor|reflexivity]|].
  unfold skip_spaces in *. cbn [drop_while]. destruct (whitespace c) eqn:W.
  - exists (c :: b). split; [constructor; [apply whitespace_spec; exact W|exact Hb]|]. cbn [app]. f_equal. exact E.
  - exists []. split; [constructor|reflexivity].
Qed.
Lemma no_command c l : (forall args, ~ command_line c args l) -> command (skip_spaces l) (str c) = None.
Proof.
  intros H. destruct (command (skip_spaces l) (str c)) as [args|] eqn:E; [|reflexivity]. exfalso.
  destruct (command_inv _ _ _ E) as (x & Hx & E'). destruct (skip_inv l) as (b & Hb & El). apply (H args). exists b, x.
  split; [exact Hb|]. split; [exact Hx|]. rewrite El at 1. rewrite E'. reflexivity.
Qed.
Lemma line_text c args l : unblank (str c) -> command_line c args l ->
  exists x, is_blank x /\ skip_spaces l = str c ++ x :: args.
Proof.
  intros Hu (b & x & Hb & Hx & ->). exists x. split; [exact Hx|]. exact (skip_word b (str c) (x :: args) Hb Hu).
Qed.

End Floats.
