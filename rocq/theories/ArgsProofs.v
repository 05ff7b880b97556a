From Coq Require Import List Ascii Bool Arith Lia.
From Verif Require Import Base LogModel ArgsModel ArgsSpec.
Import ListNotations.
Local Open Scope char_scope. Local Open Scope nat_scope.

Scheme jtext_mut := Induction for jtext Sort Prop
with jelems_mut := Induction for jelems Sort Prop
with jmembers_mut := Induction for jmembers Sort Prop.
Combined Scheme jtext_all from jtext_mut, jelems_mut, jmembers_mut.

(** ** The template *)
Lemma fmt_brace (c : ascii) r args : (c = "{" \/ c = "}") -> fmt (c :: c :: r) args = obind (fmt r args) (fun w => Ok (c :: w)).
Proof. intros [-> | ->]; reflexivity. Qed.
Lemma fmt_other c r args : c <> "{" -> c <> "}" -> fmt (c :: r) args = obind (fmt r args) (fun w => Ok (c :: w)).
Proof.
  intros A B. destruct c as [[] [] [] [] [] [] [] []]; try reflexivity; [now contradiction B|now contradiction A].
Qed.
Lemma fmt_written l : forall args, fmt (written l) args = match fill l args with Some w => Ok w | None => Throw format_error end.
Proof.
  induction l as [|[c|] l IH]; intros args; [reflexivity| |].
  - cbn [written flat_map write1 fill]. destruct (Ascii.eqb_spec c "{") as [->|A]; [|destruct (Ascii.eqb_spec c "}") as [->|B]]; cbn [orb app].
    + rewrite fmt_brace by now left. fold (written l). rewrite IH. now destruct (fill l args).
    + rewrite fmt_brace by now right. fold (written l). rewrite IH. now destruct (fill l args).
    + rewrite fmt_other by assumption. fold (written l). rewrite IH. now destruct (fill l args).
  - cbn [written flat_map write1 fill app]. fold (written l). destruct args as [|a args]; [reflexivity|]. cbn [fmt]. rewrite IH. now destruct (fill l args).
Qed.

(** ** The parser *)
Lemma blank_ok s : blanks s -> forall c, In c s -> blank_char c = true.
Proof. intros B c I. destruct (B c I) as [-> |[-> |[-> | ->]]]; reflexivity. Qed.
Lemma digit_ok c : digit c -> digit_char c = true.
Proof. intros I. cbn in I. repeat (destruct I as [<-|I]; [reflexivity|]). destruct I. Qed.
Definition stops (r : text) : Prop := match r with c :: _ => digit_char c = false | [] => True end.
Lemma digits_ok t r : (forall c, In c t -> digit c) -> stops r -> digits (t ++ r) = (List.length t, r).
Proof.
  induction t as [|c t IH]; intros D E.
  - destruct r as [|c r]; [reflexivity|]. cbn in *. now rewrite E.
  - cbn [app digits]. rewrite digit_ok by (apply D; now left). rewrite IH; [reflexivity| |exact E]. intros d I. apply D. now right.
Qed.
Lemma exp_ok e : exp_part e -> stops e /\ (forall c, In c e -> num_char c = true) /\ match e with "." :: _ => False | _ => True end /\
  exponent e = true.
Proof.
  intros [-> |(c & s & d & -> & C & S & [N D])]; [repeat split; intros ? []|].
  assert (Q : forall x, In x d -> num_char x = true) by (intros x I; unfold num_char; now rewrite digit_ok by now apply D).
  split; [destruct C as [-> | ->]; reflexivity|]. split.
  { intros x [<-|I]; [destruct C as [-> | ->]; reflexivity|]. apply in_app_or in I. destruct I as [I|I]; [|now apply Q]. destruct S as [-> |[-> | ->]]; cbn in I; [destruct I| |]; (destruct I as [<-|[]]; reflexivity). }
  split; [destruct C as [-> | ->]; exact I|].
  assert (E : (Ascii.eqb c "e" || Ascii.eqb c "E") = true) by (destruct C as [-> | ->]; reflexivity). cbn [exponent]. rewrite E.
  assert (F : exp_unsign (s ++ d) = d).
  { destruct S as [-> |[-> | ->]]; [|reflexivity|reflexivity]. cbn [app]. destruct d as [|x d]; [reflexivity|]. assert (H := D x ltac:(now left)). cbn in H. repeat (destruct H as [<-|H]; [reflexivity|]). destruct H. }
  rewrite F. assert (G := digits_ok d [] D I). rewrite app_nil_r in G. rewrite G. destruct d as [|x d]; [contradiction|]. reflexivity.
Qed.
Lemma frac_ok f e : frac_part f -> exp_part e -> stops (f ++ e) /\ (forall c, In c f -> num_char c = true) /\
  fraction (f ++ e) = (true, e).
Proof.
  intros F E. destruct (exp_ok e E) as (E1 & E2 & E3 & _). destruct F as [-> |(d & -> & [N D])].
  - split; [exact E1|]. split; [intros ? []|]. cbn [app]. destruct e as [|x e]; [reflexivity|]. clear - E3. destruct x as [[] [] [] [] [] [] [] []]; try reflexivity. destruct E3.
  - split; [reflexivity|]. split; [intros x [<-|I]; [reflexivity|unfold num_char; now rewrite digit_ok by now apply D]|]. cbn [app fraction]. rewrite digits_ok by assumption. destruct d; [contradiction|reflexivity].
Qed.
Lemma number_known t : number t -> number_ok t = true /\ forall c, In c t -> num_char c = true.
Proof.
  intros (s & i & f & e & -> & S & J & F & E). destruct (exp_ok e E) as (E1 & E2 & _ & E4). destruct (frac_ok f e F E) as (F1 & F2 & F3).
  assert (I : i <> [] /\ (forall c, In c i -> digit c) /\ lead (i ++ f ++ e) (List.length i) = true).
  { destruct J as [-> |(c & r & -> & Z & N & D)]; [split; [discriminate|]; split; [|reflexivity]; intros c [<-|[]]; now left|]. split; [discriminate|]. split; [exact D|].
    cbn [app List.length]. clear - Z. destruct c as [[] [] [] [] [] [] [] []]; try reflexivity. now contradiction Z. }
  destruct I as (I1 & I2 & I3). split.
  - unfold number_ok. assert (X : unsign (s ++ i ++ f ++ e) = i ++ f ++ e).
    { destruct S as [-> | ->]; [|reflexivity]. destruct i as [|c i]; [contradiction|]. cbn [app]. assert (H := I2 c ltac:(now left)). cbn in H. repeat (destruct H as [<-|H]; [reflexivity|]). destruct H. }
    rewrite X. rewrite digits_ok by assumption. now rewrite F3, I3, E4.
  - intros c H. apply in_app_or in H. destruct H as [H|H]; [destruct S as [-> | ->]; [destruct H|destruct H as [<-|[]]; reflexivity]|].
    apply in_app_or in H. destruct H as [H|H]; [unfold num_char; now rewrite digit_ok by now apply I2|]. apply in_app_or in H. destruct H as [H|H]; [now apply F2|now apply E2].
Qed.
Lemma skip_blanks s r : blanks s -> skip (s ++ r) = skip r.
Proof. induction s as [|c s IH]; intros B; [reflexivity|]. cbn [app skip]. rewrite (blank_ok _ B c) by now left. apply IH. intros d D. apply B. now right. Qed.
Lemma skip_to s c r : blanks s -> blank_char c = false -> skip (s ++ c :: r) = c :: r.
Proof. intros B C. rewrite skip_blanks by assumption. cbn [skip]. now rewrite C. Qed.
Lemma str_plain a r : plain a -> str (a ++ quote :: r) = Ok (a, r).
Proof.
  induction a as [|c a IH]; intros P; [reflexivity|]. destruct (P c ltac:(now left)) as (Q & S & G). cbn [app str].
  destruct (Ascii.eqb_spec c quote); [contradiction|]. destruct (Ascii.eqb_spec c backslash); [contradiction|]. destruct (Nat.ltb_spec (nat_of_ascii c) 32); [lia|].
  rewrite IH; [reflexivity|]. intros d D. apply P. now right.
Qed.
Definition ends (r : text) : Prop := match r with c :: _ => num_char c = false | [] => True end.
Lemma span_num t r : (forall c, In c t -> num_char c = true) -> ends r -> span (t ++ r) = (t, r).
Proof.
  induction t as [|c t IH]; intros N E.
  - destruct r as [|c r]; [reflexivity|]. cbn in *. now rewrite E.
  - cbn [app span]. rewrite (N c) by now left. rewrite IH; auto. intros d D. apply N. now right.
Qed.
Lemma blank_ends s r : blanks s -> ends r -> ends (s ++ r).
Proof.
  destruct s as [|c s]; [trivial|]. intros B _. cbn. assert (H := blank_ok _ B c ltac:(now left)). revert H. clear. destruct c as [[] [] [] [] [] [] [] []]; vm_compute; congruence.
Qed.
Lemma pvalue_skip n s r : blanks s -> pvalue n (s ++ r) = pvalue n r.
Proof. intros B. destruct n; [reflexivity|]. cbn [pvalue]. now rewrite skip_blanks. Qed.
Lemma text_head v w : jtext v w -> exists c r, w = c :: r /\ blank_char c = false /\ (c = "]" -> False) /\ (c = "}" -> False).
Proof.
  intros []; try (eexists; eexists; split; [reflexivity|]; split; [reflexivity|split; discriminate]). apply number_known in H. destruct H as [O N].
  destruct t as [|c t]; [discriminate|]. exists c, t. split; [reflexivity|]. assert (H := N c ltac:(now left)). revert H. clear.
  destruct c as [[] [] [] [] [] [] [] []]; vm_compute; intros H; try discriminate; repeat split; discriminate.
Qed.
Lemma elems_head l w r : jelems l w -> exists c r', skip (w ++ r) = c :: r' /\ c <> "]".
Proof.
  intros J. destruct J as [v w s1 s2 T A _|v w l w' s1 s2 T A _ _]; destruct (text_head v w T) as (c & x & -> & B & C & D);
    rewrite <- !app_assoc; cbn [app]; rewrite skip_to by assumption; exists c; eexists; split; [reflexivity| |reflexivity|]; intros E; now apply C.
Qed.
Lemma members_head l w r : jmembers l w -> exists r', skip (w ++ r) = quote :: r'.
Proof. intros J. destruct J as [k v w s1 s2 s3 s4 P T A|k v w l w' s1 s2 s3 s4 P T A]; rewrite <- !app_assoc; unfold quoted; cbn [app]; (rewrite skip_to by (assumption || reflexivity)); eexists; reflexivity. Qed.

Theorem parser_ok :
  (forall v w, jtext v w -> forall n r, List.length w <= n -> ends r -> pvalue n (w ++ r) = Ok (v, r)) /\
  (forall l w, jelems l w -> forall n r, List.length w < n -> pelems n (w ++ "]" :: r) = Ok (l, r)) /\
  (forall l w, jmembers l w -> forall n r, List.length w < n -> pmembers n (w ++ "}" :: r) = Ok (l, r)).
Proof.
  apply jtext_all.
  - intros a P n r L _. destruct n; [cbn in L; lia|]. cbn [pvalue]. unfold quoted. cbn [app skip]. change (blank_char quote) with false. cbn match. rewrite Ascii.eqb_refl. rewrite <- app_assoc. cbn [app]. now rewrite str_plain.
  - intros t M n r L E. apply number_known in M. destruct M as [O N]. destruct n; [destruct t; [discriminate|cbn in L; lia]|]. destruct t as [|c t]; [discriminate|].
    assert (H := N c ltac:(now left)). assert (S := span_num (c :: t) r N E). cbn [app] in S. cbn [pvalue app skip].
    assert (X : blank_char c = false /\ Ascii.eqb c quote = false /\ Ascii.eqb c "[" = false /\ Ascii.eqb c "{" = false).
    { revert H. clear. destruct c as [[] [] [] [] [] [] [] []]; vm_compute; intros H; try discriminate; repeat split; reflexivity. }
    destruct X as (X1 & X2 & X3 & X4). rewrite X1, X2, X3, X4, H, S, O. reflexivity.
  - intros s B n r L _. destruct n; [cbn in L; lia|]. cbn [pvalue app skip]. change (blank_char "[") with false. cbn match. cbn [Ascii.eqb Bool.eqb quote ascii_of_nat]. rewrite <- app_assoc. cbn [app]. change (Ascii.eqb "[" quote) with false. cbn match. now rewrite skip_to by (assumption || reflexivity).
  - intros l w J IH n r L _. destruct n; [cbn in L; lia|]. cbn [pvalue app skip]. change (blank_char "[") with false. cbn match. change (Ascii.eqb "[" quote) with false. change (Ascii.eqb "[" "[") with true. cbn match.
    rewrite <- app_assoc. cbn [app]. destruct (elems_head l w ("]" :: r) J) as (c & r' & E & N). rewrite E. cbn [List.length] in L. rewrite app_length in L. cbn [List.length] in L.
    rewrite IH by lia. cbn [obind]. destruct c as [[] [] [] [] [] [] [] []]; try reflexivity. now contradiction N.
  - intros s B n r L _. destruct n; [cbn in L; lia|]. cbn [pvalue app skip]. change (blank_char "{") with false. cbn match. change (Ascii.eqb "{" quote) with false. change (Ascii.eqb "{" "[") with false. change (Ascii.eqb "{" "{") with true. cbn match. rewrite <- app_assoc. cbn [app]. now rewrite skip_to by (assumption || reflexivity).
  - intros l w J IH n r L _. destruct n; [cbn in L; lia|]. cbn [pvalue app skip]. change (blank_char "{") with false. cbn match. change (Ascii.eqb "{" quote) with false. change (Ascii.eqb "{" "[") with false. change (Ascii.eqb "{" "{") with true. cbn match.
    rewrite <- app_assoc. cbn [app]. destruct (members_head l w ("}" :: r) J) as (r' & E). rewrite E. cbn [List.length] in L. rewrite app_length in L. cbn [List.length] in L.
    rewrite IH by lia. reflexivity.
  - intros v w s1 s2 T IH A B n r L. destruct n; [lia|]. cbn [pelems]. rewrite <- !app_assoc, pvalue_skip by assumption. rewrite !app_length in L.
    rewrite IH; [|lia|apply blank_ends; [assumption|reflexivity]]. cbn [obind]. now rewrite skip_to by (assumption || reflexivity).
  - intros v w l w' s1 s2 T IH A B J IH' n r L. destruct n; [lia|]. cbn [pelems]. rewrite <- !app_assoc, pvalue_skip by assumption. rewrite !app_length in L. cbn [List.length] in L.
    cbn [app]. rewrite IH; [|lia|apply blank_ends; [assumption|reflexivity]]. cbn [obind]. rewrite skip_to by (assumption || reflexivity).
    rewrite IH' by lia. reflexivity.
  - intros k v w s1 s2 s3 s4 P T IH A1 A2 A3 A4 n r L. destruct n; [lia|]. cbn [pmembers]. unfold quoted in *. rewrite <- !app_assoc. cbn [app]. rewrite <- !app_assoc. rewrite skip_to by (assumption || reflexivity). rewrite Ascii.eqb_refl. cbn [app]. rewrite str_plain by assumption. cbn [obind].
    rewrite skip_to by (assumption || reflexivity). rewrite pvalue_skip by assumption. repeat (rewrite app_length in L || cbn [List.length] in L).
    rewrite IH; [|lia|apply blank_ends; [assumption|reflexivity]]. cbn [obind]. now rewrite skip_to by (assumption || reflexivity).
  - intros k v w l w' s1 s2 s3 s4 P T IH A1 A2 A3 A4 J IH' n r L. destruct n; [lia|]. cbn [pmembers]. unfold quoted in *. rewrite <- !app_assoc. cbn [app]. rewrite <- !app_assoc. rewrite skip_to by (assumption || reflexivity). rewrite Ascii.eqb_refl. cbn [app]. rewrite str_plain by assumption. cbn [obind].
    rewrite skip_to by (assumption || reflexivity). rewrite pvalue_skip by assumption. repeat (rewrite app_length in L || cbn [List.length] in L). cbn [app].
    rewrite IH; [|lia|apply blank_ends; [assumption|reflexivity]]. cbn [obind]. rewrite skip_to by (assumption || reflexivity). rewrite IH' by lia. reflexivity.
Qed.
Theorem parse_ok v w s1 s2 : jtext v w -> blanks s1 -> blanks s2 -> parse (s1 ++ w ++ s2) = Ok v.
Proof.
  intros T A B. unfold parse. rewrite pvalue_skip by assumption. rewrite (proj1 parser_ok v w T).
  - cbn [obind]. replace s2 with (s2 ++ []) by apply app_nil_r. now rewrite skip_blanks.
  - rewrite !app_length. lia.
  - replace s2 with (s2 ++ []) by apply app_nil_r. now apply blank_ends.
Qed.
