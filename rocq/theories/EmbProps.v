(** * C117: parameters of the Embree structures *)
From Coq Require Import List String ZArith Bool Lia.
From Verif Require Import Base JsonModel EmbModel EmbSpec.
Import ListNotations.
Local Open Scope string_scope. Local Open Scope Z_scope.

Section Params.
Context {F : Type}.
Variables (of_Z : Z -> F) (trunc truncu : F -> option Z) (narrow : F -> F) (one : F).
Notation flags_from := (flags_from of_Z trunc).
Notation args_from := (args_from of_Z trunc truncu narrow one).
Notation construct := (construct of_Z trunc truncu narrow one).

Lemma flag_is j i name : flags_typed j -> In (i, name) flag_names -> flag of_Z trunc j name = Ok (asked j name).
Proof.
  intros T H. unfold flag, jvalue_def, asked. destruct (jfind name j) as [v|] eqn:E; [|reflexivity]. destruct (T i name H v E) as [b ->]. reflexivity.
Qed.
Lemma flags_are j : flags_typed j -> flags_from 0 j =
  Ok (if asked j "dynamic" || asked j "compact" || asked j "robust" then Z.lor (if asked j "dynamic" then 1 else 0) (Z.lor (if asked j "compact" then 2 else 0) (Z.lor (if asked j "robust" then 4 else 0) (if asked j "filter" then 8 else 0))) else 0).
Proof.
  intros T. unfold EmbModel.flags_from. rewrite (flag_is j 0 "dynamic"), (flag_is j 1 "compact"), (flag_is j 2 "robust"), (flag_is j 3 "filter") by (assumption || (cbn; tauto)). cbn [obind].
  destruct (asked j "dynamic"), (asked j "compact"), (asked j "robust"), (asked j "filter"); reflexivity.
Qed.
Lemma high_bits sf : 0 <= sf < 16 -> forall i, 4 <= i -> Z.testbit sf i = false.
Proof. intros B i I. rewrite <- (Z.mod_small sf (2 ^ 4)) by (change (2 ^ 4) with 16; lia). apply Z.mod_pow2_bits_high. lia. Qed.

Lemma quality_is j q : says j "quality" (- 2 ^ 31) (2 ^ 31) q -> jvalue_def of_Z trunc CI32 j "quality" 1 = Ok (or_else q 1).
Proof.
  intros Q. unfold jvalue_def. destruct q as [z|]; cbn [says or_else] in *; [destruct Q as [-> Bz]|now rewrite Q]. cbn [conv]. unfold wrap32. f_equal. rewrite Z.mod_small by (change (2 ^ 31) with 2147483648 in *; change (2 ^ 32) with 4294967296; lia). lia.
Qed.
Lemma quality_read j a : args_from j = Ok a -> jvalue_def of_Z trunc CI32 j "quality" 1 = Ok (quality a).
Proof.
  unfold EmbModel.args_from. destruct (jvalue_def of_Z trunc CI32 j "quality" 1) as [q| | |]; cbn [obind]; try discriminate. repeat (match goal with |- obind ?x _ = _ -> _ => destruct x; cbn [obind]; try discriminate end). now intros [= <-].
Qed.

(** The flags that the library receives are exactly those asked for, unless the filter function is the only one; the quality is the one
    asked for. *)
Theorem C117_flags_partial j e e' n o : flags_typed j -> says j "quality" (- 2 ^ 31) (2 ^ 31) o -> construct j e = (e', Ok tt) ->
  asked j "filter" = false \/ asked j "dynamic" = true \/ asked j "compact" = true \/ asked j "robust" = true ->
  exists sf, build_calls n e' = Ok (List.concat (repeat [SetFlags sf; SetQuality (or_else o 1)] n)) /\ exactly j sf.
Proof.
  intros T Q C H. unfold EmbModel.construct in C. destruct (args_from j) as [a| | |] eqn:A; try discriminate. rewrite flags_are in C by assumption. injection C as <-.
  apply quality_read in A. rewrite (quality_is j o Q) in A. injection A as A. rewrite A. eexists. split; [reflexivity|]. split.
  - intros i name [I|[I|[I|[I|[]]]]]; injection I as <- <-; revert H; destruct (asked j "dynamic"), (asked j "compact"), (asked j "robust"), (asked j "filter"); cbn; intros [H|[H|[H|H]]]; (discriminate || reflexivity).
  - apply high_bits. destruct (asked j "dynamic"), (asked j "compact"), (asked j "robust"), (asked j "filter"); cbn; lia.
Qed.
(** If the filter function is the only flag asked for, no flag is set. *)
Theorem C117_filter_lost j : flags_typed j -> asked j "dynamic" = false -> asked j "compact" = false -> asked j "robust" = false -> flags_from 0 j = Ok 0.
Proof. intros T A B C. rewrite flags_are, A, B, C by assumption. reflexivity. Qed.
(** Whatever flags an instance has, its JSON form gives them back, except for the filter function alone. *)
Theorem C117_flags_again sf : 0 <= sf < 16 -> flags_from 0 (flags_to sf) = Ok (if sf =? 8 then 0 else sf).
Proof.
  intros B. assert (C : sf = 0 \/ sf = 1 \/ sf = 2 \/ sf = 3 \/ sf = 4 \/ sf = 5 \/ sf = 6 \/ sf = 7 \/ sf = 8 \/ sf = 9 \/ sf = 10 \/ sf = 11 \/ sf = 12 \/ sf = 13 \/ sf = 14 \/ sf = 15) by lia.
  repeat (destruct C as [->|C]; [reflexivity|]). subst. reflexivity.
Qed.
Lemma unsigned_is j name def o : says j name 0 (2 ^ 32) o -> unsigned truncu j name def = Ok (or_else o def).
Proof. destruct o as [z|]; cbn [says or_else]; unfold unsigned; [intros [-> B]; now rewrite Z.mod_small|now intros ->]. Qed.
Lemma single_is j name o : says_cost j name o -> single of_Z narrow one j name = Ok (match o with Some x => narrow x | None => one end).
Proof. destruct o as [x|]; cbn [says_cost]; unfold single; now intros ->. Qed.
(** The build arguments are those given, the documented defaults otherwise. *)
Theorem C117_arguments j q d b s l m t i :
  says j "quality" (- 2 ^ 31) (2 ^ 31) q -> says j "maxDepth" 0 (2 ^ 32) d -> says j "maxBranchingFactor" 0 (2 ^ 32) b -> says j "sahBlockSize" 0 (2 ^ 32) s ->
  says j "minLeafSize" 0 (2 ^ 32) l -> says j "maxLeafSize" 0 (2 ^ 32) m -> says_cost j "travcost" t -> says_cost j "intcost" i ->
  args_from j = Ok (mk_args (or_else q 1) (or_else d 18) (or_else b 2) (or_else s 1) (or_else l 1) (or_else m 32)
                            (match t with Some x => narrow x | None => one end) (match i with Some x => narrow x | None => one end)).
Proof.
  intros Q D B S L M T I. unfold EmbModel.args_from.
  rewrite (quality_is j q Q). cbn [obind]. rewrite (unsigned_is _ _ _ _ D), (unsigned_is _ _ _ _ B), (unsigned_is _ _ _ _ S), (unsigned_is _ _ _ _ L), (unsigned_is _ _ _ _ M). cbn [obind].
  rewrite (single_is _ _ _ T), (single_is _ _ _ I). reflexivity.
Qed.
(** Their JSON form, which is logged, gives them back. *)
Theorem C117_arguments_again a : - 2 ^ 31 <= quality a < 2 ^ 31 -> (forall z, In z [max_depth a; max_branching a; sah_block a; min_leaf a; max_leaf a] -> 0 <= z < 2 ^ 32) ->
  narrow (trav_cost a) = trav_cost a -> narrow (int_cost a) = int_cost a -> args_from (args_to a) = Ok a.
Proof.
  intros Q B T I. destruct a as [q d b s l m t i]. cbn [quality max_depth max_branching sah_block min_leaf max_leaf trav_cost int_cost] in *.
  rewrite (C117_arguments _ (Some q) (Some d) (Some b) (Some s) (Some l) (Some m) (Some t) (Some i)); cbn [or_else]; [now rewrite T, I| | | | | | | |];
    try (split; [reflexivity|first [exact Q|apply B; cbn; tauto]]); reflexivity.
Qed.
(** The library receives the quality and the flags only: whatever else the user gives makes no difference. *)
Theorem C117_ignored n j1 j2 e1 e2 e1' e2' : flags_typed j1 -> flags_typed j2 -> construct j1 e1 = (e1', Ok tt) -> construct j2 e2 = (e2', Ok tt) ->
  jfind "quality" j1 = jfind "quality" j2 -> (forall i name, In (i, name) flag_names -> asked j1 name = asked j2 name) -> build_calls n e1' = build_calls n e2'.
Proof.
  intros T1 T2 C1 C2 Q A. unfold EmbModel.construct in C1, C2. destruct (args_from j1) as [a1| | |] eqn:E1; try discriminate. destruct (args_from j2) as [a2| | |] eqn:E2; try discriminate.
  rewrite flags_are in C1, C2 by assumption. injection C1 as <-. injection C2 as <-. cbn [build_calls settings sflags].
  rewrite (A 0 "dynamic"), (A 1 "compact"), (A 2 "robust"), (A 3 "filter") by (cbn; tauto).
  apply quality_read in E1. apply quality_read in E2. unfold jvalue_def in E1, E2. rewrite Q in E1. rewrite E1 in E2. injection E2 as <-. reflexivity.
Qed.
(** A failed construct: the new arguments are in force with the flags of before. *)
Theorem C117_failed j e a : args_from j = Ok a -> (exists x, flags_from 0 j = Throw x) ->
  exists x, construct j e = (mk_embree (Some a) (sflags e), Throw x).
Proof. intros A [x B]. exists x. unfold EmbModel.construct. now rewrite A, B. Qed.
End Params.
Print Assumptions C117_flags_partial.
Print Assumptions C117_filter_lost.
Print Assumptions C117_flags_again.
Print Assumptions C117_arguments.
Print Assumptions C117_arguments_again.
Print Assumptions C117_ignored.
Print Assumptions C117_failed.

(** ** Refuted *)
Definition c117_construct := construct (F := Z) (fun z => z) Some Some (fun z => z) 1.
(** {filter: true} *)
Definition c117_filter : json Z := JObj [("filter", JBool true)].
(** Not every choice of flags reaches the library. *)
Theorem C117_flags_refuted : ~ forall j e e', flags_typed j -> c117_construct j e = (e', Ok tt) ->
  exists sf q, build_calls 1 e' = Ok [SetFlags sf; SetQuality q] /\ exactly j sf.
Proof.
  intros H. destruct (H c117_filter new_embree (mk_embree (Some (mk_args 1 18 2 1 1 32 1 1)) (Some 0))) as (sf & q & B & X & _).
  - intros i name _ v. unfold c117_filter. cbn [jfind mfind]. destruct (String.eqb _ _); [intros [= <-]; now exists true|discriminate].
  - reflexivity.
  - injection B as <- _. specialize (X 3 "filter" ltac:(cbn; tauto)). discriminate.
Qed.
Print Assumptions C117_flags_refuted.
(** The maximal depth that the user gives makes no difference to what the library receives. *)
Definition c117_deep (d : Z) : json Z := JObj [("maxDepth", JInt d); ("quality", JInt 2)].
Theorem C117_depth_refuted : ~ forall d1 d2 n e1 e2, 0 <= d1 < 2 ^ 32 -> 0 <= d2 < 2 ^ 32 -> d1 <> d2 ->
  snd (c117_construct (c117_deep d1) new_embree) = Ok tt -> snd (c117_construct (c117_deep d2) new_embree) = Ok tt ->
  e1 = fst (c117_construct (c117_deep d1) new_embree) -> e2 = fst (c117_construct (c117_deep d2) new_embree) -> build_calls (S n) e1 <> build_calls (S n) e2.
Proof. intros H. refine (H 1 5 0%nat _ _ _ _ _ _ _ eq_refl eq_refl _); (lia || reflexivity). Qed.
Print Assumptions C117_depth_refuted.
(** A failed construct does not leave the instance as it was. *)
Definition c117_bad : json Z := JObj [("quality", JInt 2); ("robust", JInt 1)].
Theorem C117_failed_refuted : ~ forall j e x, snd (c117_construct j e) = Throw x -> fst (c117_construct j e) = e.
Proof. intros H. specialize (H c117_bad new_embree ErrJsonType eq_refl). discriminate. Qed.
Print Assumptions C117_failed_refuted.

(** ** The hypotheses are met *)
Definition c117_two : json Z := JObj [("filter", JBool true); ("maxDepth", JInt 7); ("robust", JBool true)].
Example C117_flags_instance : flags_typed c117_two /\ c117_construct c117_two new_embree = (mk_embree (Some (mk_args 1 7 2 1 1 32 1 1)) (Some 12), Ok tt).
Proof.
  split; [|reflexivity]. intros i name [I|[I|[I|[I|[]]]]]; injection I as <- <-; cbn; intros v [= <-]; eauto.
Qed.
Example C117_filter_instance : flags_typed c117_filter /\ asked c117_filter "filter" = true /\ asked c117_filter "robust" = false.
Proof. split; [|split; reflexivity]. intros i name [I|[I|[I|[I|[]]]]]; injection I as <- <-; cbn; intros v [= <-]; eauto. Qed.
Example C117_arguments_instance : says c117_two "maxDepth" 0 (2 ^ 32) (Some 7) /\ says c117_two "quality" (- 2 ^ 31) (2 ^ 31) None.
Proof. split; [split; [reflexivity|lia]|reflexivity]. Qed.
Example C117_failed_instance : exists a x, args_from (F := Z) (fun z => z) Some Some (fun z => z) 1 c117_bad = Ok a /\ flags_from (F := Z) (fun z => z) Some 0 c117_bad = Throw x.
Proof. eexists. eexists. split; reflexivity. Qed.
