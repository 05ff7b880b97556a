(** C106: construction of the acceleration structure computed with Float, and queries of what it builds. *)
From Coq Require Import List Reals ZArith Bool Lra Lia Permutation Arith.
From Coq Require Import Floats.SpecFloat.
From Flocq Require Import Core.Core IEEE754.BinarySingleNaN.
From Verif Require Import Base RngModel FltModel FltProofs FBoundModel FBoundSpec FBoundProofs FBoundProps FBvhModel FBvhSpec FBvhProofs FBvhProps FTreeModel FTreeProofs.
From Verif Require BvhModel.
Import ListNotations.
Local Open Scope nat_scope.

(** The number of triangles is an int; the corners are Floats, not infinite or NaN (of size up to 2^200, see FBvhSpec); sorting permutes. *)
Definition buildable (trs : list ftri) (sort : nat -> list nat -> list nat) : Prop :=
  (Z.of_nat (length trs) < 2 ^ 31)%Z /\ Forall usual_tri trs /\ forall a l, Permutation (sort a l) l.
Lemma buildable_boxes trs sort : buildable trs sort -> Forall (fun k => box_ok (ftb k)) trs.
Proof. intros (_ & A & _). eapply Forall_impl; [|exact A]. intros k. apply usual_box. Qed.

(** Whatever the costs are after rounding, and for every schedule, the construction ends, *)
Theorem C106_terminates : forall trs sort T l s, buildable trs sort -> freach trs sort T l s -> length l <= 40 * length trs + 2 * T.
Proof.
  intros trs sort T l s B R. destruct (B) as (S & _ & P). pose proof (reach_mu trs sort P (buildable_boxes _ _ B) S T l s R) as H. unfold fnt in H. lia.
Qed.
Print Assumptions C106_terminates.
(** never gets stuck, *)
Theorem C106_progress : forall trs sort T l s, buildable trs sort -> freach trs sort T l s -> ~ ffinished T s ->
  exists t s', t < T /\ (fthreads s t = Waiting -> fdone s = true) /\ fstep trs sort t s = Some s'.
Proof. intros trs sort T l s B. destruct (B) as (S & _ & P). exact (progress trs sort P (buildable_boxes _ _ B) S T l s). Qed.
Print Assumptions C106_progress.
(** does nothing undefined, *)
Theorem C106_safe : forall trs sort T l s, buildable trs sort -> freach trs sort T l s ->
  fcrashed s = false /\ Permutation (findices s) (seq 0 (length trs)) /\ fnn s <= 2 * length trs - 1.
Proof.
  intros trs sort T l s B R. destruct (B) as (S & _ & P). destruct (reach_inv trs sort P (buildable_boxes _ _ B) S T l s R) as (h & u & I).
  split; [apply I|]. split; [apply I|]. pose proof (ptree_bounds _ _ _ _ _ _ _ _ (i_tree _ _ _ _ _ I)) as (_ & Sz & _).
  rewrite (Permutation_length (i_used _ _ _ _ _ I)), seq_length in Sz. unfold fnt in Sz. lia.
Qed.
Print Assumptions C106_safe.
(** and builds a tree over all triangles whose boxes, compared as Floats, are around everything below them. *)
Theorem C106_tree : forall trs sort T l s, buildable trs sort -> freach trs sort T l s -> 0 < T -> ffinished T s ->
  exists d used, ftree trs (fnodes s) (findices s) 0 0 (length trs) d used /\ NoDup used /\
    forall k, In k used -> k < 2 * length trs - 1 /\ box_ok (fnb (fnodes s k)).
Proof.
  intros trs sort T l s B R P F. destruct (B) as (S & _ & Q). apply (built trs sort Q (buildable_boxes _ _ B) S T l s R P F).
Qed.
Print Assumptions C106_tree.

Lemma ftree_height trs nds idx ni s e d u : ftree trs nds idx ni s e d u -> d + 1 <= e - s /\ length u + 1 <= 2 * (e - s).
Proof.
  induction 1 as [ni s e L Lf S E C|ni s m e d1 d2 u1 u2 Lf C T1 IH1 T2 IH2]; cbn [length]; [lia|]. rewrite app_length. lia.
Qed.
(** C106: a query of what has been built, by any schedule, reports a triangle that the test of triangles hits, and none whose
    own box passes up to its hit is nearer. Missing: triangles whose own box fails by rounding (C101_lost_refuted), rays
    along a coordinate plane, more than 99 triangles where the tree is deeper than the stack (C35). *)
Theorem C106_query_partial : forall trs sort T l s, buildable trs sort -> freach trs sort T l s -> 0 < T -> ffinished T s ->
  exists d used, ftree trs (fnodes s) (findices s) 0 0 (length trs) d used /\
  (d <= 98 \/ length trs <= 99 -> forall r tmin tmax fuel, usual_ray r -> slanted r -> finite tmin = true -> finite tmax = true -> 2 * length trs <= fuel ->
  exists res, fquery trs (fnodes s) (2 * length trs - 1) (findices s) r tmin fuel tmax = Ok res /\
  match res with
  | None => forall k t x y, In k trs -> ftri_isect k r tmin tmax = Some (t, x, y) -> fisect (ftb k) r tmin t = false
  | Some (t, x, y, j) => (exists k, nth_error trs j = Some k /\ ftri_isect k r tmin tmax = Some (t, x, y)) /\
      forall k' t' x' y', In k' trs -> ftri_isect k' r tmin tmax = Some (t', x', y') -> fisect (ftb k') r tmin t' = true -> (val t <= val t')%R
  end).
Proof.
  intros trs sort T l s B R P F. destruct (C106_tree trs sort T l s B R P F) as (d & u & Tr & ND & U). exists d, u. split; [exact Tr|].
  intros D r tmin tmax fuel Ur Sl Fl Fh Fu. destruct (B) as (_ & A & _). destruct (ftree_height _ _ _ _ _ _ _ _ Tr) as [H1 H2].
  apply (C101_nearest_partial trs (fnodes s) (2 * length trs - 1) (findices s) r tmin tmax d u fuel A Ur Fl Fh).
  - intros k _ i. left. apply Sl.
  - apply (C106_safe trs sort T l s B R).
  - exact Tr.
  - intros k K. destruct (U k K) as [K1 K2]. split; [exact K1|]. split; [exact K2|]. intros i. left. apply Sl.
  - lia.
  - lia.
Qed.
Print Assumptions C106_query_partial.

(** ** Example: two triangles of FBvhProps, one worker *)
Definition c106_sort (_ : nat) (l : list nat) : list nat := rev l.
Fixpoint c106_run (l : list nat) (s : fstate) : option fstate :=
  match l with [] => Some s | t :: l => match fstep x_trs c106_sort t s with Some s => c106_run l s | None => None end end.
Lemma c106_reach T l : (forall t, In t l -> t < T) -> forall l0 s s', freach x_trs c106_sort T l0 s -> c106_run l s = Some s' -> freach x_trs c106_sort T (l0 ++ l) s'.
Proof.
  induction l as [|t l IH]; intros H l0 s s' R E; cbn [c106_run] in E.
  - rewrite app_nil_r. congruence.
  - destruct (fstep x_trs c106_sort t s) as [s1|] eqn:S; [|discriminate]. replace (l0 ++ t :: l) with ((l0 ++ [t]) ++ l) by now rewrite <- app_assoc.
    apply (IH (fun t' I => H t' (or_intror I)) _ s1); [|exact E]. apply freach_step with s; [exact R|apply H; now left|exact S].
Qed.
Example C106_example : buildable x_trs c106_sort /\ exists l s, freach x_trs c106_sort 1 l s /\ ffinished 1 s /\ 3 = fnn s /\ fleaf (fnodes s 0) = false /\ usual_ray x_ray /\ slanted x_ray.
Proof.
  split; [split; [cbn; lia|split; [apply x_usual|intros a l; symmetry; apply Permutation_rev]]|].
  set (l := repeat 0 9).
  assert (E : match finit x_trs with Ok s => match c106_run l s with Some s' => (match fthreads s' 0 with Exited => true | _ => false end) && (fnn s' =? 3) && negb (fleaf (fnodes s' 0)) | None => false end | _ => false end = true) by (vm_compute; reflexivity).
  destruct (finit x_trs) as [s| | |] eqn:I; try discriminate E. destruct (c106_run l s) as [s'|] eqn:R; [|discriminate E].
  apply andb_prop in E as [E E3]. apply andb_prop in E as [E1 E2]. exists l, s'. split.
  - apply (c106_reach 1 l) with (l0 := []) (s := s); [|constructor; exact I|exact R]. intros t H. apply repeat_spec in H. lia.
  - split; [intros t L; replace t with 0 by lia; destruct (fthreads s' 0); try discriminate E1; reflexivity|]. apply Nat.eqb_eq in E2. split; [congruence|].
    split; [now destruct (fleaf (fnodes s' 0))|]. split; [apply x_usual|]. intros [|[|i]]; vm_compute; reflexivity.
Qed.
