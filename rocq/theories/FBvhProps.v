(** C101: ray queries computed with Float. *)
From Coq Require Import List Reals ZArith Bool Lra Lia Psatz Permutation Arith.
From Coq Require Import Floats.SpecFloat.
From Flocq Require Import Core.Core IEEE754.BinarySingleNaN.
From Verif Require Import Base RngModel FltModel FltProofs FDistSpec FDistProofs FBoundModel FBoundSpec FBoundProofs FBoundProps FBvhModel FBvhSpec FBvhProofs.
Import ListNotations.
Local Open Scope R_scope.

(** What the test of a triangle reports is in range in spite of rounding: the distance exactly within the interval
    asked for, the coordinates between 0 and 1, and their sum at most 1 + 2^-51. *)
Theorem C101_hit_in_range : forall k r tl th t u v, usual_tri k -> usual_ray r -> finite tl = true -> finite th = true ->
  ftri_isect k r tl th = Some (t, u, v) ->
  finite t = true /\ val tl <= val t <= val th /\
  finite u = true /\ finite v = true /\ 0 <= val u <= 1 /\ 0 <= val v <= 1 /\ val u + val v <= 1 + / 2 ^ 51.
Proof.
  intros k r tl th t u v K R Fl Fh H. destruct (hit_parts k r K R tl th t u v Fl Fh H) as (A & B & C & D & E & F & G).
  repeat (split; [assumption|]). replace (/ 2 ^ 51) with (4 * eps); [assumption|].
  change eps with (/ 2 ^ 53). change (2 ^ 53) with (2 * (2 * 2 ^ 51)). field.
Qed.
Print Assumptions C101_hit_in_range.

(** C101: the query reports a triangle that the test of triangles hits, with what that test says, and none whose own
    box passes up to its hit is nearer; it reports nothing only where there is no such triangle. Missing: triangles
    whose own box fails by rounding; rays within a face of a box; trees of more than 98 levels; see below. *)
Theorem C101_nearest_partial : forall trs nds num_nodes idx r tmin tmax d u fuel,
  Forall usual_tri trs -> usual_ray r -> finite tmin = true -> finite tmax = true ->
  (forall k, In k trs -> off_faces (ftb k) r) -> Permutation idx (seq 0 (length trs)) -> ftree trs nds idx 0 0 (length trs) d u ->
  (forall k, In k u -> (k < num_nodes)%nat /\ box_ok (fnb (nds k)) /\ off_faces (fnb (nds k)) r) -> (d <= 98)%nat -> (length u < fuel)%nat ->
  exists res, fquery trs nds num_nodes idx r tmin fuel tmax = Ok res /\
  match res with
  | None => forall k t x y, In k trs -> ftri_isect k r tmin tmax = Some (t, x, y) -> fisect (ftb k) r tmin t = false
  | Some (t, x, y, j) => (exists k, nth_error trs j = Some k /\ ftri_isect k r tmin tmax = Some (t, x, y)) /\
      forall k' t' x' y', In k' trs -> ftri_isect k' r tmin tmax = Some (t', x', y') -> fisect (ftb k') r tmin t' = true -> val t <= val t'
  end.
Proof.
  intros trs nds num_nodes idx r tmin tmax d u fuel A R Fl Fh Of P T U D F.
  assert (I : forall i k, nth_error idx i = Some k -> (k < length trs)%nat).
  { intros i k H. apply nth_error_In in H. apply (Permutation_in _ P) in H. apply in_seq in H. lia. }
  destruct (query_ok trs nds num_nodes idx r tmin A R Of Fl I d u _ fuel tmax eq_refl P T U D F Fh) as (res & E & Q).
  exists res. split; [exact E|]. destruct res as [[[[t x] y] j]|].
  - destruct Q as (k & K & H & Q). split; [now exists k|]. intros k' t' x' y' I' H' B'. exact (Q k' (t', x', y') I' H' B').
  - intros k t x y K H. exact (Q k (t, x, y) K H).
Qed.
Print Assumptions C101_nearest_partial.

Lemma usual_box_size k : usual_tri k -> vec_moderate (fbmin (ftb k)) /\ vec_moderate (fbmax (ftb k)).
Proof.
  assert (Up : bpow radix2 200 <= 2 ^ 1022) by (rewrite pow_bpow; apply bpow_le; lia).
  assert (M : forall x, sized 200 x -> moderate x) by (intros x [F B]; split; [assumption|lra]).
  assert (I : forall i, sized 200 (fcomp (fbmin new_fbound) i) /\ sized 200 (fcomp (fbmax new_fbound) i)).
  { assert (X : finite fInf = true /\ val fInf = IZR 5242880000000000 * bpow radix2 (-19)) by (apply val_sf; vm_compute; reflexivity). destruct X as [F V].
    assert (Y : Rabs (val fInf) <= bpow radix2 200).
    { rewrite V, Rabs_pos_eq by (apply Rmult_le_pos; [apply IZR_le; lia|apply bpow_ge_0]). replace (bpow radix2 200) with (bpow radix2 219 * bpow radix2 (-19)) by (now rewrite <- bpow_plus).
      apply Rmult_le_compat_r; [apply bpow_ge_0|]. rewrite <- (IZR_Zpower radix2 219) by lia. apply IZR_le. vm_compute. discriminate. }
    assert (Z : sized 200 fInf /\ sized 200 (Bopp fInf)).
    { split; split; [assumption|assumption|unfold finite; now rewrite is_finite_Bopp|unfold val; rewrite B2R_Bopp, Rabs_Ropp; exact Y]. }
    intros [|[|i]]; exact Z. }
  assert (S : forall b p, (forall i, sized 200 (fcomp (fbmin b) i) /\ sized 200 (fcomp (fbmax b) i)) -> vsized 200 p ->
    forall i, sized 200 (fcomp (fbmin (fmerge_point b p)) i) /\ sized 200 (fcomp (fbmax (fmerge_point b p)) i)).
  { intros b p B P i. assert (Bi := B i). assert (Pi := P i). destruct i as [|[|i]]; cbn in *; unfold fmin, fmax; destruct Bi as [B1 B2];
      (split; [destruct (flt_ltb _ (_ (fbmin b))); assumption|destruct (flt_ltb (_ (fbmax b)) _); assumption]). }
  intros (p1 & p2 & p3 & A & B & C & ->). cbn [new_ftri ftb].
  assert (W := S _ p3 (S _ p2 (S _ p1 I A) B) C). split; intros i; apply M, W.
Qed.

(** In particular no triangle is missed where the exact ray is in the triangle's box at the distance of the hit by
    more than four roundings. *)
Theorem C101_clear_partial : forall trs nds num_nodes idx r tmin tmax d u fuel k t x y,
  Forall usual_tri trs -> usual_ray r -> dir_moderate (fd r) -> finite tmin = true -> finite tmax = true ->
  (forall k, In k trs -> off_faces (ftb k) r) -> Permutation idx (seq 0 (length trs)) -> ftree trs nds idx 0 0 (length trs) d u ->
  (forall k, In k u -> (k < num_nodes)%nat /\ box_ok (fnb (nds k)) /\ off_faces (fnb (nds k)) r) -> (d <= 98)%nat -> (length u < fuel)%nat ->
  In k trs -> ftri_isect k r tmin tmax = Some (t, x, y) -> (forall i, clearly_between (ftb k) r (val t) i) ->
  exists t' x' y' j, fquery trs nds num_nodes idx r tmin fuel tmax = Ok (Some (t', x', y', j)) /\ val t' <= val t.
Proof.
  intros trs nds num_nodes idx r tmin tmax d u fuel k t x y A R Dm Fl Fh Of P T U D F K H C.
  assert (Uk : usual_tri k) by (rewrite Forall_forall in A; now apply A).
  destruct (C101_hit_in_range k r tmin tmax t x y Uk R Fl Fh H) as (Ft & Bt & _). destruct (usual_box_size k Uk) as [B1 B2].
  assert (B : fisect (ftb k) r tmin t = true).
  { apply (margin (ftb k) r tmin t (val t)); try assumption; [|lra]. destruct R as [Ro _]. intros i. destruct (Ro i) as [G L]. split; [assumption|].
    apply Rle_trans with (1 := L). rewrite pow_bpow. apply bpow_le. lia. }
  destruct (C101_nearest_partial trs nds num_nodes idx r tmin tmax d u fuel A R Fl Fh Of P T U D F) as (res & E & Q).
  destruct res as [[[[t' x'] y'] j]|].
  - exists t', x', y', j. split; [exact E|]. destruct Q as [_ Q]. exact (Q k t x y K H B).
  - rewrite (Q k t x y K H) in B. discriminate B.
Qed.
Print Assumptions C101_clear_partial.

(** ** Examples *)
(** Two parallel triangles, an inner node over two leaves, and a ray that hits both *)
Definition x_far := new_ftri (fv (-16) (-16) 64) (fv 48 (-16) 64) (fv (-16) 48 64).
Definition x_near := new_ftri (fv (-16) (-16) 32) (fv 48 (-16) 32) (fv (-16) 48 32).
Definition x_trs := [x_far; x_near].
Definition x_nodes (ni : nat) : fnode :=
  match ni with
  | O => mk_fnode (fnode_box [ftb x_far; ftb x_near]) false 0 0 1 2
  | 1%nat => mk_fnode (fnode_box [ftb x_far]) true 0 1 0 0
  | _ => mk_fnode (fnode_box [ftb x_near]) true 1 2 0 0
  end.
Definition x_ray := mk_fray (fv 0 0 0) (fv 1 1 16).

Lemma small_size z : finite (fz_ z) = true /\ val (fz_ z) = IZR z -> (Z.abs z <= 1024)%Z -> sized 200 (fz_ z).
Proof.
  intros [F V] L. split; [assumption|]. rewrite V, <- abs_IZR. apply Rle_trans with (bpow radix2 10); [change (bpow radix2 10) with (IZR 1024); now apply IZR_le|apply bpow_le; lia].
Qed.
Lemma x_usual : Forall usual_tri x_trs /\ usual_ray x_ray.
Proof.
  small (-16)%Z. small 48%Z. small 64%Z. small 32%Z. small 0%Z. small 1%Z. small 16%Z.
  split.
  - repeat constructor; do 3 eexists; (split; [|split; [|split; [|reflexivity]]]); intros [|[|i]]; cbn [fcomp fv fx fy fz]; apply small_size; (assumption || lia).
  - split; intros [|[|i]]; cbn [fcomp fv fx fy fz fo fd x_ray]; apply small_size; (assumption || lia).
Qed.
Lemma x_boxes l : (forall k, In k l -> In k x_trs) -> box_ok (fnode_box (map ftb l)) /\ forall k, In k l -> inside (ftb k) (fnode_box (map ftb l)).
Proof.
  intros H. assert (A := proj1 x_usual). rewrite Forall_forall in A.
  destruct (fold_merge_ok (map ftb l) new_fbound new_fbound_ok) as (B & _ & N).
  - intros b I. apply in_map_iff in I as (k & <- & K). now apply usual_box, A, H.
  - split; [exact B|]. intros k K. apply N. now apply in_map.
Qed.
Example C101_example : Forall usual_tri x_trs /\ usual_ray x_ray /\ (forall k, In k x_trs -> off_faces (ftb k) x_ray) /\ dir_moderate (fd x_ray) /\
  Permutation [0; 1]%nat (seq 0 (length x_trs)) /\
  (exists u, ftree x_trs x_nodes [0; 1]%nat 0 0 (length x_trs) 1 u /\ (forall k, In k u -> (k < 3)%nat /\ box_ok (fnb (x_nodes k)) /\ off_faces (fnb (x_nodes k)) x_ray) /\ (length u < 6)%nat) /\
  match fquery x_trs x_nodes 3 [0; 1]%nat x_ray fzero 6 fInf with Ok (Some (_, _, _, j)) => j = 1%nat | _ => False end.
Proof.
  destruct x_usual as [A R]. do 2 (split; [assumption|]).
  assert (S : slanted x_ray) by (intros [|[|i]]; vm_compute; reflexivity). assert (Of : forall b, off_faces b x_ray) by (intros b i; left; apply S).
  split; [intros k _; apply Of|]. split.
  { small 1%Z. small 16%Z. assert (T : / 2 ^ 1022 <= 1) by (rewrite <- Rinv_1; apply Rinv_le; [lra|]; replace 1 with (2 ^ 0) by ring; apply Rle_pow; [lra|lia]).
    assert (Up : bpow radix2 200 <= 2 ^ 1022) by (rewrite pow_bpow; apply bpow_le; lia).
    destruct R as [_ Rd]. intros i. destruct (Rd i) as [F B]. split; [split; [assumption|lra]|right].
    destruct i as [|[|i]]; cbn [fcomp fv fx fy fz fd x_ray]; [rewrite (proj2 K)|rewrite (proj2 K)|rewrite (proj2 K0)]; rewrite Rabs_pos_eq; lra. }
  split; [reflexivity|]. split.
  - destruct (x_boxes [x_far; x_near]) as [B0 I0]; [cbn; tauto|]. destruct (x_boxes [x_far]) as [B1 I1]; [cbn; tauto|]. destruct (x_boxes [x_near]) as [B2 I2]; [cbn; tauto|].
    exists ([0] ++ [1] ++ [2])%nat. split; [|split; [|cbn; lia]].
    + apply (ftree_inner _ _ _ 0%nat 0%nat 1%nat 2%nat 0%nat 0%nat [1%nat] [2%nat]); [reflexivity| | |].
      * intros i k tr Hi E1 E2. destruct i as [|[|i]]; [| |lia]; injection E1 as <-; injection E2 as <-; apply I0; cbn; auto.
      * apply ftree_leaf; try reflexivity; [lia|]. intros i k tr Hi E1 E2. replace i with 0%nat in E1 by lia. injection E1 as <-. injection E2 as <-. apply I1. cbn. auto.
      * apply ftree_leaf; try reflexivity; [lia|]. intros i k tr Hi E1 E2. replace i with 1%nat in E1 by lia. injection E1 as <-. injection E2 as <-. apply I2. cbn. auto.
    + intros k [<-|[<-|[<-|[]]]]; (split; [lia|]; split; [assumption|apply Of]).
  - vm_compute. reflexivity.
Qed.

(** Not so: every triangle that the test of triangles hits is reported. With the triangle and the ray of C98 the query
    reports nothing. *)
Definition x_one (k : ftri) (ni : nat) : fnode := mk_fnode (fnode_box [ftb k]) true 0 1 0 0.
Lemma x_one_tree k : box_ok (ftb k) -> ftree [k] (x_one k) [0%nat] 0 0 1 0 [0%nat] /\ box_ok (fnode_box [ftb k]).
Proof.
  intros B. destruct (fold_merge_ok [ftb k] new_fbound new_fbound_ok) as (B' & _ & N); [intros b [<-|[]]; assumption|]. split; [|exact B'].
  apply ftree_leaf; try reflexivity; [lia|]. intros i j tr Hi E1 E2. replace i with 0%nat in E1 by lia. injection E1 as <-. injection E2 as <-. apply N. now left.
Qed.
Lemma c98_usual : usual_tri c98_tri /\ usual_ray c98_dir.
Proof.
  small 1%Z. small 49%Z. small 5%Z. small 10%Z. small 2%Z. small 8%Z. small (-4)%Z. small 0%Z. split.
  - do 3 eexists. (split; [|split; [|split; [|reflexivity]]]); intros [|[|i]]; cbn [fcomp fv fx fy fz]; apply small_size; (assumption || lia).
  - split; intros [|[|i]]; cbn [fcomp fv fx fy fz fo fd c98_dir]; apply small_size; (assumption || lia).
Qed.
Theorem C101_lost_refuted : ~ forall trs nds num_nodes idx r tmin tmax d u fuel k h,
  Forall usual_tri trs -> usual_ray r -> finite tmin = true -> finite tmax = true ->
  (forall k, In k trs -> off_faces (ftb k) r) -> Permutation idx (seq 0 (length trs)) -> ftree trs nds idx 0 0 (length trs) d u ->
  (forall k, In k u -> (k < num_nodes)%nat /\ box_ok (fnb (nds k)) /\ off_faces (fnb (nds k)) r) -> (d <= 98)%nat -> (length u < fuel)%nat ->
  In k trs -> ftri_isect k r tmin tmax = Some h -> exists x, fquery trs nds num_nodes idx r tmin fuel tmax = Ok (Some x).
Proof.
  intros H. destruct c98_lost as [[h Hh] _]. destruct c98_usual as [Uk Ur]. destruct (x_one_tree c98_tri (usual_box _ Uk)) as [T B].
  assert (S : slanted c98_dir) by (intros [|[|i]]; vm_compute; reflexivity). assert (Of : forall b, off_faces b c98_dir) by (intros b i; left; apply S).
  destruct (H [c98_tri] (x_one c98_tri) 1%nat [0%nat] c98_dir fzero fInf 0%nat [0%nat] 2%nat c98_tri h) as [x X]; try assumption; try reflexivity; try (cbn; lia).
  - repeat constructor. assumption.
  - intros k _. apply Of.
  - intros k [<-|[]]. split; [lia|]. split; [exact B|apply Of].
  - now left.
  - assert (E : match fquery [c98_tri] (x_one c98_tri) 1 [0%nat] c98_dir fzero 2 fInf with Ok None => true | _ => false end = true) by (vm_compute; reflexivity).
    rewrite X in E. discriminate E.
Qed.
Print Assumptions C101_lost_refuted.

(** Nor is what it reports a number for every triangle of finite coordinates: with edges of length 2^600 the
    products overflow, and no comparison rejects what results. *)
Definition x_huge := new_ftri (fv (-1) (-1) 5) (FV (fmake 1 600) (fz_ (-1)) (fz_ 5)) (FV (fz_ (-1)) (fmake 1 600) (fz_ 5)).
Definition x_up := mk_fray (fv 0 0 0) (fv 1 1 64).
Theorem C101_nan_refuted : exists p1 p2 p3 r, vec_ok p1 /\ vec_ok p2 /\ vec_ok p3 /\ ray_ok r /\
  exists t u v, fquery [new_ftri p1 p2 p3] (x_one (new_ftri p1 p2 p3)) 1 [0%nat] r fzero 2 fInf = Ok (Some (t, u, v, 0%nat)) /\ is_nan t = true.
Proof.
  exists (fv (-1) (-1) 5), (FV (fmake 1 600) (fz_ (-1)) (fz_ 5)), (FV (fz_ (-1)) (fmake 1 600) (fz_ 5)), x_up. fold x_huge.
  split; [intros [|[|i]]; vm_compute; reflexivity|]. split; [intros [|[|i]]; vm_compute; reflexivity|]. split; [intros [|[|i]]; vm_compute; reflexivity|].
  split; [split; intros [|[|i]]; vm_compute; reflexivity|].
  assert (E : match fquery [x_huge] (x_one x_huge) 1 [0%nat] x_up fzero 2 fInf with Ok (Some (t, _, _, O)) => is_nan t | _ => false end = true) by (vm_compute; reflexivity).
  destruct (fquery [x_huge] (x_one x_huge) 1 [0%nat] x_up fzero 2 fInf) as [[[[[t u] v] [|j]]|]| | |]; try discriminate E. exists t, u, v. split; [reflexivity|exact E].
Qed.
Print Assumptions C101_nan_refuted.
