(** C93: a component lives as long as it is used. *)
From Coq Require Import List ZArith Bool Lia.
From Verif Require Import Base HoldSpec HoldModel.
Import ListNotations.
Open Scope Z_scope.

Lemma run_history k (inv : use -> comp -> Prop) :
  (forall u o u' s, inv u s -> after u o = Some u' -> exists s', step k o s = Ok s' /\ inv u' s') ->
  forall h u u' s, inv u s -> history u h = Some u' -> exists s', run k h s = Ok s' /\ inv u' s'.
Proof.
  intros Hs. induction h as [|o r IH]; intros u u' s Hi Hh; cbn in Hh.
  - injection Hh as <-. exists s. split; [reflexivity|exact Hi].
  - destruct (after u o) as [u1|] eqn:E; [|discriminate].
    destruct (Hs _ _ _ _ Hi E) as (s1 & E1 & H1). cbn [run]. rewrite E1. cbn [obind]. exact (IH _ _ _ H1 Hh).
Qed.

Lemma decref_some f k s : rc s - 1 <> 0 -> decref (S f) k s = Ok (with_rc (rc s - 1) s).
Proof. intros H. destruct s as [r ? ? ? ? ? ?]. cbn in *. destruct (Z.eqb_spec (r - 1) 0); [contradiction|reflexivity]. Qed.
Ltac zcase := match goal with |- context [?a =? ?b] => destruct (Z.eqb_spec a b); try lia end.

(** Of a Python class loaded as an asset: the count is the number of references of Python code and one for the framework. *)
Definition py_inv (u : use) (s : comp) : Prop :=
  owner s = true /\ has_cpp s = true /\ holder s = true
  /\ rc s = Z.of_nat (by_python u) + (if by_cpp u then 1 else 0)
  /\ has_obj s = (by_cpp u || (0 <? by_python u)%nat)%bool /\ release_set s = by_cpp u
  /\ destroyed s = (if (by_cpp u || (0 <? by_python u)%nat)%bool then 0 else 1)%nat.

Lemma py_step : forall u o u' s, py_inv u s -> after u o = Some u' -> exists s', step InPython o s = Ok s' /\ py_inv u' s'.
Proof.
  intros [c n] o u' [r ho hc hd ow re de] H Ha. unfold py_inv in H; cbn in H.
  destruct H as (-> & -> & -> & Hr & Hh & -> & Hd).
  destruct o; cbn in Ha.
  - destruct c; [|discriminate]. injection Ha as <-. cbn in Hh, Hd. subst. eexists. split; [reflexivity|].
    unfold py_inv; cbn -[Z.of_nat Z.add]. repeat split; lia.
  - destruct n as [|n]; [discriminate|]. injection Ha as <-. rewrite orb_true_r in Hh, Hd. cbn in Hh, Hd. eexists. split; [reflexivity|].
    unfold py_inv; cbn -[Z.of_nat Z.add]. rewrite Hh, ?orb_true_r. repeat split; lia.
  - destruct n as [|n]; [discriminate|]. injection Ha as <-. destruct c; cbn in Hh, Hd; subst.
    + eexists. split.
      * unfold step; cbn [decref with_rc rc has_obj has_cpp holder owner release_set destroyed]. zcase. reflexivity.
      * unfold py_inv; cbn -[Z.of_nat Z.add]. repeat split; lia.
    + destruct n as [|n].
      * eexists. split; [reflexivity|]. unfold py_inv; cbn. repeat split; lia.
      * eexists. split.
        -- unfold step; cbn [decref with_rc rc has_obj has_cpp holder owner release_set destroyed]. zcase. reflexivity.
        -- unfold py_inv; cbn -[Z.of_nat Z.add]. repeat split; lia.
  - destruct n as [|n]; [discriminate|]. injection Ha as <-. rewrite orb_true_r in Hh, Hd. cbn in Hh, Hd. subst. eexists. split; [reflexivity|].
    unfold py_inv; cbn -[Z.of_nat Z.add]. rewrite ?orb_true_r. repeat split; lia.
  - destruct c; [|discriminate]. injection Ha as <-. cbn in Hh, Hd. subst. eexists. split; [reflexivity|].
    unfold py_inv; cbn -[Z.of_nat Z.add]. repeat split; lia.
  - destruct c; [|discriminate]. injection Ha as <-. cbn in Hh, Hd. subst. destruct n as [|n].
    + eexists. split; [reflexivity|]. unfold py_inv; cbn. repeat split; lia.
    + eexists. split.
      * cbn [step deleter release_set has_obj owner andb]. rewrite decref_some by (cbn -[Z.of_nat Z.add]; lia). cbn [obind].
        rewrite decref_some by (cbn -[Z.of_nat Z.add Z.sub]; lia). reflexivity.
      * unfold py_inv; cbn -[Z.of_nat Z.add]. repeat split; lia.
Qed.

(** C93, components of Python classes loaded by the framework: in every possible history of the framework and of Python code,
    nothing is used after its destruction, the component is not destroyed while in use, and it is destroyed exactly once when
    the last use ends. *)
Theorem C93_python_asset_partial : forall s0 h u, asset InPython = Ok s0 -> history (mk_use true 0) h = Some u ->
  exists s, run InPython h s0 = Ok s /\ (in_use u -> destroyed s = 0%nat) /\ (~ in_use u -> destroyed s = 1%nat).
Proof.
  intros s0 h u H0 Hh. vm_compute in H0. injection H0 as <-.
  destruct (run_history InPython py_inv py_step h (mk_use true 0) u (mk_comp 1 true true true true true 0) ltac:(vm_compute; intuition reflexivity) Hh) as (s & Hs & Hi).
  exists s. split; [exact Hs|]. destruct Hi as (_ & _ & _ & _ & _ & _ & Hd). unfold in_use. destruct u as [c n]. cbn in *.
  destruct c; cbn in Hd; [split; [auto|intuition congruence]|].
  destruct n; cbn in Hd; split; intros; auto; try (intuition (congruence || lia)).
Qed.
Print Assumptions C93_python_asset_partial.

(** C++ component made in Python: owned by its Python object *)
Definition mc_inv (u : use) (s : comp) : Prop :=
  by_cpp u = false /\ owner s = false /\ holder s = true /\ release_set s = true
  /\ rc s = Z.of_nat (by_python u) /\ has_obj s = (0 <? by_python u)%nat /\ has_cpp s = (0 <? by_python u)%nat
  /\ destroyed s = (if (0 <? by_python u)%nat then 0 else 1)%nat.
Lemma mc_step : forall u o u' s, mc_inv u s -> after u o = Some u' -> exists s', step InCpp o s = Ok s' /\ mc_inv u' s'.
Proof.
  intros [c n] o u' [r ho hc hd ow re de] H Ha. unfold mc_inv in H; cbn -[Z.of_nat] in H.
  destruct H as (-> & -> & -> & -> & -> & -> & -> & ->).
  destruct o; cbn in Ha; try discriminate; destruct n as [|n]; try discriminate; injection Ha as <-.
  - eexists. split; [reflexivity|]. unfold mc_inv; cbn -[Z.of_nat Z.add]. repeat split; lia.
  - destruct n as [|n].
    + eexists. split; [reflexivity|]. unfold mc_inv; cbn. repeat split; lia.
    + eexists. split.
      * unfold step; cbn [decref with_rc rc has_obj has_cpp holder owner release_set destroyed]. zcase. reflexivity.
      * unfold mc_inv; cbn -[Z.of_nat Z.add]. repeat split; lia.
  - eexists. split; [reflexivity|]. unfold mc_inv; cbn -[Z.of_nat Z.add]. repeat split; lia.
Qed.

(** The same of components of C++ classes made by X.create in Python *)
Theorem C93_made_in_python_partial : forall s0 h u, made_in_python InCpp = Ok s0 -> history (mk_use false 1) h = Some u ->
  exists s, run InCpp h s0 = Ok s /\ (in_use u -> destroyed s = 0%nat) /\ (~ in_use u -> destroyed s = 1%nat).
Proof.
  intros s0 h u H0 Hh. vm_compute in H0. injection H0 as <-.
  destruct (run_history InCpp mc_inv mc_step h (mk_use false 1) u (mk_comp 1 true true true false true 0) ltac:(vm_compute; intuition reflexivity) Hh) as (s & Hs & Hi).
  exists s. split; [exact Hs|]. destruct Hi as (Hc & _ & _ & _ & _ & _ & _ & Hd). unfold in_use. destruct u as [c n]. cbn in *. subst c.
  destruct n; cbn in Hd; split; intros; auto; try (intuition (congruence || lia)).
Qed.
Print Assumptions C93_made_in_python_partial.

(** Component of a Python class made by X.create in Python: never destroyed, even when no reference is left *)
Definition mp_inv (u : use) (s : comp) : Prop :=
  by_cpp u = false /\ owner s = true /\ has_obj s = true /\ has_cpp s = true /\ rc s = Z.of_nat (by_python u) + 1 /\ destroyed s = 0%nat.
Lemma mp_step : forall u o u' s, mp_inv u s -> after u o = Some u' -> exists s', step InPython o s = Ok s' /\ mp_inv u' s'.
Proof.
  intros [c n] o u' [r ho hc hd ow re de] H Ha. unfold mp_inv in H; cbn -[Z.of_nat] in H.
  destruct H as (-> & -> & -> & -> & -> & ->).
  destruct o; cbn in Ha; try discriminate; destruct n as [|n]; try discriminate; injection Ha as <-.
  - eexists. split; [reflexivity|]. unfold mp_inv; cbn -[Z.of_nat Z.add]. repeat split; lia.
  - eexists. split.
    + unfold step; cbn [decref with_rc rc has_obj has_cpp holder owner release_set destroyed]. zcase. reflexivity.
    + unfold mp_inv; cbn -[Z.of_nat Z.add]. repeat split; lia.
  - eexists. split; [reflexivity|]. unfold mp_inv; cbn -[Z.of_nat Z.add]. repeat split; lia.
Qed.
Theorem C93_leak_refuted : forall s0 h u, made_in_python InPython = Ok s0 -> history (mk_use false 1) h = Some u ->
  exists s, run InPython h s0 = Ok s /\ destroyed s = 0%nat.
Proof.
  intros s0 h u H0 Hh. vm_compute in H0. injection H0 as <-.
  destruct (run_history InPython mp_inv mp_step h (mk_use false 1) u (mk_comp 2 true true true true true 0) ltac:(vm_compute; intuition reflexivity) Hh) as (s & Hs & Hi).
  exists s. split; [exact Hs|]. apply Hi.
Qed.
Print Assumptions C93_leak_refuted.

(** Component of a C++ class loaded as an asset: destroyed once, when the framework releases it. *)
Definition ca_inv (u : use) (s : comp) : Prop :=
  owner s = false /\ holder s = false /\ release_set s = true /\ has_cpp s = by_cpp u
  /\ rc s = Z.of_nat (by_python u) /\ has_obj s = (0 <? by_python u)%nat /\ destroyed s = (if by_cpp u then 0 else 1)%nat.
Lemma ca_step : forall u o u' s, ca_inv u s -> after u o = Some u' -> (o = PythonUses -> by_cpp u = true) ->
  exists s', step InCpp o s = Ok s' /\ ca_inv u' s'.
Proof.
  intros [c n] o u' [r ho hc hd ow re de] H Ha Hu. unfold ca_inv in H; cbn -[Z.of_nat] in H.
  destruct H as (-> & -> & -> & -> & -> & -> & ->). cbn [by_cpp] in Hu.
  destruct o; cbn in Ha.
  - destruct c; [|discriminate]. injection Ha as <-. destruct n; (eexists; split; [reflexivity|]; unfold ca_inv; cbn -[Z.of_nat Z.add]; repeat split; lia).
  - destruct n as [|n]; [discriminate|]. injection Ha as <-. eexists. split; [reflexivity|]. unfold ca_inv; cbn -[Z.of_nat Z.add]. repeat split; lia.
  - destruct n as [|n]; [discriminate|]. injection Ha as <-. destruct n as [|n].
    + eexists. split; [reflexivity|]. unfold ca_inv; cbn. repeat split; lia.
    + eexists. split.
      * unfold step; cbn [decref with_rc rc has_obj has_cpp holder owner release_set destroyed]. zcase. reflexivity.
      * unfold ca_inv; cbn -[Z.of_nat Z.add]. repeat split; lia.
  - destruct n as [|n]; [discriminate|]. injection Ha as <-. rewrite (Hu eq_refl). eexists. split; [reflexivity|]. unfold ca_inv; cbn -[Z.of_nat Z.add]. repeat split; lia.
  - destruct c; [|discriminate]. injection Ha as <-. eexists. split; [reflexivity|]. unfold ca_inv; cbn -[Z.of_nat Z.add]. repeat split; lia.
  - destruct c; [|discriminate]. injection Ha as <-. eexists. split; [reflexivity|]. unfold ca_inv; cbn -[Z.of_nat Z.add]. repeat split; lia.
Qed.
(** As long as Python code does not use its references after the framework releases the component *)
Theorem C93_cpp_asset_partial : forall s0 h u, asset InCpp = Ok s0 -> history (mk_use true 0) h = Some u ->
  (forall h1 h2 u1, h = h1 ++ PythonUses :: h2 -> history (mk_use true 0) h1 = Some u1 -> by_cpp u1 = true) ->
  exists s, run InCpp h s0 = Ok s /\ destroyed s = (if by_cpp u then 0 else 1)%nat.
Proof.
  intros s0 h u H0 Hh Hu. vm_compute in H0. injection H0 as <-.
  assert (forall h u0 s, ca_inv u0 s -> history u0 h = Some u -> (forall h1 h2 u1, h = h1 ++ PythonUses :: h2 -> history u0 h1 = Some u1 -> by_cpp u1 = true) ->
    exists s', run InCpp h s = Ok s' /\ ca_inv u s') as H.
  { clear. induction h as [|o r IH]; intros u0 s Hi Hh Hu; cbn in Hh.
    - injection Hh as <-. exists s. split; [reflexivity|exact Hi].
    - destruct (after u0 o) as [u1|] eqn:E; [|discriminate].
      destruct (ca_step _ _ _ _ Hi E) as (s1 & E1 & H1).
      { intros ->. exact (Hu [] r u0 eq_refl eq_refl). }
      cbn [run]. rewrite E1. cbn [obind]. apply (IH _ _ H1 Hh).
      intros h1 h2 u2 -> H2. apply (Hu (o :: h1) h2 u2 eq_refl). cbn. rewrite E. exact H2. }
  destruct (H h (mk_use true 0) (mk_comp 0 false true false false true 0) ltac:(vm_compute; intuition reflexivity) Hh Hu) as (s & Hs & Hi).
  exists s. split; [exact Hs|]. apply Hi.
Qed.
Print Assumptions C93_cpp_asset_partial.

(** A reference in Python to a C++ asset is in use and yet dangling once the asset is released, for instance by loading another
    under its name: the next use is undefined. *)
Theorem C93_dangling_refuted : exists s0 h, asset InCpp = Ok s0 /\ history (mk_use true 0) h = Some (mk_use false 1) /\ run InCpp h s0 = UB.
Proof. exists (mk_comp 0 false true false false true 0), [PythonGets; CppReleases; PythonUses]. repeat split. Qed.
Print Assumptions C93_dangling_refuted.

(** A Python asset that Python code still holds when the framework releases it, used and dropped later *)
Example C93_example :
  history (mk_use true 0) [PythonGets; CppUses; PythonCopies; CppReleases; PythonUses; PythonDrops; PythonUses; PythonDrops] = Some (mk_use false 0)
  /\ obind (asset InPython) (run InPython [PythonGets; CppUses; PythonCopies; CppReleases; PythonUses; PythonDrops; PythonUses; PythonDrops])
     = Ok (mk_comp 0 false true true true false 1).
Proof. split; reflexivity. Qed.
