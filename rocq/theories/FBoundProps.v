(** C98: bounding boxes and rays computed with Float. *)
From Coq Require Import List Reals ZArith Bool Lra Lia Psatz.
From Flocq Require Import Core.Core IEEE754.BinarySingleNaN.
From Verif Require Import RngModel FltModel FltProofs FBoundModel FBoundSpec FBoundProofs.
Import ListNotations.
Local Open Scope R_scope.

(** Merging does not round: the merged box contains both, and each point merged into it. *)
Theorem C98_merge a b p : box_ok a -> box_ok b -> vec_ok p ->
  box_ok (fmerge a b) /\ inside a (fmerge a b) /\ inside b (fmerge a b) /\
  box_ok (fmerge_point a p) /\ inside a (fmerge_point a p) /\ point_in (fmerge_point a p) p.
Proof.
  intros A B P. destruct (fmerge_ok a b A B) as (X & Y & Z). destruct (fmerge_point_ok a p A P) as (U & V & W). repeat split; try assumption; try apply X; try apply U; try apply Y; try apply Z; try apply V; apply W.
Qed.
Print Assumptions C98_merge.

(** Whatever is rounded, a ray that passes the test of a box passes that of every box around it, with the same
    or a longer range. *)
Theorem C98_nested_partial a b r l h l' h' : box_ok a -> box_ok b -> ray_ok r -> off_faces a r -> off_faces b r -> inside a b ->
  finite l = true -> finite h = true -> finite l' = true -> finite h' = true -> val l' <= val l -> val h <= val h' ->
  fisect a r l h = true -> fisect b r l' h' = true.
Proof. exact (nested a b r l h l' h'). Qed.
Print Assumptions C98_nested_partial.

(** So a traversal gets to each triangle whose own box passes: no node above it is skipped, neither for rounding
    nor for the range being shorter now than when the node was tested. *)
Theorem C98_ancestors_partial (ks : list fbound) k r l h l' h' : (forall x, In x ks -> box_ok x) -> In k ks -> ray_ok r ->
  (forall i, finite (fdivide fone (fcomp (fd r) i)) = true) ->
  finite l = true -> finite h = true -> finite l' = true -> finite h' = true -> val l' <= val l -> val h <= val h' ->
  fisect k r l h = true -> fisect (fnode_box ks) r l' h' = true.
Proof.
  intros K I Rr Fr. destruct (fold_merge_ok ks new_fbound new_fbound_ok K) as (B & _ & N). apply nested; [now apply K|exact B|assumption| | |now apply N].
  - intros i. left. apply Fr.
  - intros i. left. apply Fr.
Qed.
Print Assumptions C98_ancestors_partial.

(** Where the exact ray is in the box at some distance in the range, by more than four roundings, the test succeeds. *)
Theorem C98_margin_partial b r l h t : vec_moderate (fbmin b) -> vec_moderate (fbmax b) -> vec_moderate (fo r) -> dir_moderate (fd r) ->
  finite l = true -> finite h = true -> val l <= t <= val h -> (forall i, clearly_between b r t i) -> fisect b r l h = true.
Proof. exact (margin b r l h t). Qed.
Print Assumptions C98_margin_partial.

(** ** Examples *)
Definition fz_ (z : Z) : flt := fmake z 0.
Definition fv (x y z : Z) : fvec := FV (fz_ x) (fz_ y) (fz_ z).
Lemma fz_ok z m e : sf_num (B2SF (fz_ z)) = Some (m, e) -> (IZR m * bpow radix2 e = IZR z) -> finite (fz_ z) = true /\ val (fz_ z) = IZR z.
Proof. intros E V. destruct (val_sf _ _ _ E) as [F W]. split; [assumption|congruence]. Qed.
Lemma mant z k e : z = (k * 2 ^ e)%Z -> (0 <= e)%Z -> IZR z * bpow radix2 (- e) = IZR k.
Proof. intros -> E. rewrite mult_IZR. change (2 ^ e)%Z with (radix2 ^ e)%Z. rewrite (IZR_Zpower radix2 e E), Rmult_assoc, <- bpow_plus. replace (e + - e)%Z with 0%Z by lia. cbn [bpow]. ring. Qed.
Ltac small z := let H := fresh "K" in
  match eval vm_compute in (sf_num (B2SF (fz_ z))) with
  | Some (?m, Zneg ?e) => assert (H : finite (fz_ z) = true /\ val (fz_ z) = IZR z) by (apply (fz_ok z m (Zneg e)); [vm_compute; reflexivity|apply (mant m z (Zpos e)); [vm_compute; reflexivity|lia]])
  | Some (?m, ?e) => assert (H : finite (fz_ z) = true /\ val (fz_ z) = IZR z) by (apply (fz_ok z m e); [vm_compute; reflexivity|cbn [bpow]; ring])
  end.

(** A box of width 2 in one of width 4, and a ray towards them *)
Definition c98_small := mk_fbound (fv (-1) (-1) (-1)) (fv 1 1 1).
Definition c98_large := mk_fbound (fv (-2) (-2) (-2)) (fv 2 2 2).
Definition c98_ray := mk_fray (fv (-8) 0 0) (fv 1 0 0).
Example C98_example : box_ok c98_small /\ box_ok c98_large /\ ray_ok c98_ray /\ off_faces c98_small c98_ray /\ off_faces c98_large c98_ray /\
  inside c98_small c98_large /\ fisect c98_small c98_ray fzero fInf = true /\
  vec_moderate (fbmin c98_small) /\ vec_moderate (fbmax c98_small) /\ vec_moderate (fo c98_ray) /\ dir_moderate (fd c98_ray) /\
  forall i, clearly_between c98_small c98_ray 8 i.
Proof.
  small (-1)%Z. small 1%Z. small (-2)%Z. small 2%Z. small (-8)%Z. small 0%Z.
  assert (Big : 8 <= 2 ^ 1022) by (replace 8 with (2 ^ 3) by ring; apply Rle_pow; [lra|lia]).
  assert (Tiny : / 2 ^ 1022 <= 1) by (rewrite <- Rinv_1; apply Rinv_le; lra).
  assert (Mod : forall z, finite (fz_ z) = true /\ val (fz_ z) = IZR z -> (Z.abs z <= 8)%Z -> moderate (fz_ z)).
  { intros z [F V] L. split; [assumption|]. rewrite V, <- abs_IZR. apply Rle_trans with 8; [now apply IZR_le|assumption]. }
  assert (Fin : forall i, finite (fcomp (fd c98_ray) i) = true) by (intros [|[|i]]; [apply K0|apply K4|apply K4]).
  assert (V : vec_moderate (fbmin c98_small) /\ vec_moderate (fbmax c98_small) /\ vec_moderate (fo c98_ray)).
  { split; [|split]; intros [|[|i]]; cbn [fcomp fv fx fy fz fbmin fbmax fo c98_small c98_ray]; apply Mod; (assumption || lia). }
  split; [split; intros i; apply V|]. split; [split; intros [|[|i]]; (apply K1 || apply K2)|].
  split; [split; [intros i; apply V|exact Fin]|].
  split; [intros [|[|i]]; [left; vm_compute; reflexivity|right|right]; cbn [fcomp fv fx fy fz fbmin fbmax fo c98_small c98_ray]; rewrite (proj2 K), (proj2 K0), (proj2 K4); lra|].
  split; [intros [|[|i]]; [left; vm_compute; reflexivity|right|right]; cbn [fcomp fv fx fy fz fbmin fbmax fo c98_large c98_ray]; rewrite (proj2 K1), (proj2 K2), (proj2 K4); lra|].
  split; [intros [|[|i]]; cbn [fcomp fv fx fy fz fbmin fbmax c98_large c98_small]; rewrite (proj2 K), (proj2 K0), (proj2 K1), (proj2 K2); lra|].
  split; [vm_compute; reflexivity|]. split; [apply V|]. split; [apply V|]. split; [apply V|].
  split.
  - intros [|[|i]]; cbn [fcomp fv fx fy fz fd c98_ray]; (split; [apply Mod; (assumption || lia)|]); [right; rewrite (proj2 K0), Rabs_pos_eq; lra|left; apply K4|left; apply K4].
  - assert (P : 0 < / 2 ^ 53 <= / 1024) by exact e53_small. assert (Q : / 2 ^ 1074 <= / 2).
    { apply Rinv_le; [lra|]. replace 2 with (2 ^ 1) at 1 by ring. apply Rle_pow; [lra|lia]. }
    intros [|[|i]]; unfold clearly_between, cross_lower, cross_upper, slack; cbn [fcomp fv fx fy fz fbmin fbmax fo fd c98_small c98_ray]; rewrite ?(proj2 K), ?(proj2 K0), ?(proj2 K4), ?(proj2 K3).
    + destruct (Req_EM_T 1 0); [lra|]. destruct (Rlt_dec 0 1); [|lra].
      replace ((-1 - -8) / 1) with 7 by field. replace ((1 - -8) / 1) with 9 by field. rewrite !Rabs_pos_eq by lra. lra.
    + destruct (Req_EM_T 0 0); lra.
    + destruct (Req_EM_T 0 0); lra.
Qed.

(** A triangle with a vertex at (1, 49, 1), and the ray from the origin to that vertex. The ray is at the vertex at
    distance 1 and the triangle test says so, but the test of the triangle's own box fails: 49 (1/49) is
    rounded to a number below 1. So the acceleration structure does not report the triangle. *)
Definition c98_tri := new_ftri (fv 1 49 1) (fv 5 10 2) (fv 8 (-4) 5).
Definition c98_dir := mk_fray (fv 0 0 0) (fv 1 49 1).
Lemma c98_lost : (exists h, ftri_isect c98_tri c98_dir fzero fInf = Some h) /\ fisect (ftb c98_tri) c98_dir fzero fInf = false /\
  fisect (fnode_box [ftb c98_tri]) c98_dir fzero fInf = false.
Proof.
  split.
  - assert (E : match ftri_isect c98_tri c98_dir fzero fInf with Some _ => true | None => false end = true) by (vm_compute; reflexivity).
    destruct (ftri_isect c98_tri c98_dir fzero fInf) as [h|]; [now exists h|discriminate E].
  - split; vm_compute; reflexivity.
Qed.
Theorem C98_lost_refuted : ~ forall p1 p2 p3 r l h x, vec_ok p1 -> vec_ok p2 -> vec_ok p3 -> ray_ok r ->
  ftri_isect (new_ftri p1 p2 p3) r l h = Some x -> fisect (ftb (new_ftri p1 p2 p3)) r l h = true.
Proof.
  intros H. destruct c98_lost as [[x T] [B _]].
  assert (F : fisect (ftb c98_tri) c98_dir fzero fInf = true).
  { apply (H _ _ _ _ _ _ x); try exact T.
    - intros [|[|i]]; vm_compute; reflexivity.
    - intros [|[|i]]; vm_compute; reflexivity.
    - intros [|[|i]]; vm_compute; reflexivity.
    - split; intros [|[|i]]; vm_compute; reflexivity. }
  rewrite F in B. discriminate B.
Qed.
Print Assumptions C98_lost_refuted.

(** The same for points: the exact ray is in the box at distance 1. *)
Theorem C98_conservative_refuted : ~ forall b r l h t, box_ok b -> ray_ok r -> finite l = true -> finite h = true -> val l <= t <= val h ->
  (forall i, val (fcomp (fbmin b) i) <= val (fcomp (fo r) i) + t * val (fcomp (fd r) i) <= val (fcomp (fbmax b) i)) -> fisect b r l h = true.
Proof.
  small 0%Z. small 1%Z. small 49%Z. small 8%Z. small (-4)%Z. small 5%Z.
  intros H. set (b := mk_fbound (fv 1 (-4) 1) (fv 8 49 5)).
  assert (F : fisect b c98_dir (fz_ 0) (fz_ 8) = false) by (vm_compute; reflexivity).
  rewrite (H b c98_dir (fz_ 0) (fz_ 8) 1) in F; [discriminate F| | | | | |].
  - split; intros [|[|i]]; vm_compute; reflexivity.
  - split; intros [|[|i]]; vm_compute; reflexivity.
  - apply K.
  - apply K2.
  - rewrite (proj2 K), (proj2 K2). lra.
  - intros [|[|i]]; cbn [fcomp fv fx fy fz fbmin fbmax fo fd b c98_dir]; rewrite ?(proj2 K), ?(proj2 K0), ?(proj2 K1), ?(proj2 K2), ?(proj2 K3), ?(proj2 K4); lra.
Qed.
Print Assumptions C98_conservative_refuted.

(** A ray that runs within a face of the smaller box passes its test although the box is behind it, and not that of
    the larger one. *)
Theorem C98_nested_refuted : ~ forall a b r l h, box_ok a -> box_ok b -> ray_ok r -> inside a b -> finite l = true -> finite h = true ->
  fisect a r l h = true -> fisect b r l h = true.
Proof.
  small 0%Z. small 1%Z. small (-2)%Z. small (-1)%Z.
  intros H. set (a := mk_fbound (fv 0 (-2) (-2)) (fv 1 (-1) (-1))). set (b := mk_fbound (fv (-1) (-2) (-2)) (fv 1 (-1) (-1))).
  set (r := mk_fray (fv 0 0 0) (fv 0 1 1)).
  assert (F : fisect b r (fz_ 0) (fz_ 1) = false) by (vm_compute; reflexivity).
  rewrite (H a b r (fz_ 0) (fz_ 1)) in F; [discriminate F| | | | | | |].
  - split; intros [|[|i]]; vm_compute; reflexivity.
  - split; intros [|[|i]]; vm_compute; reflexivity.
  - split; intros [|[|i]]; vm_compute; reflexivity.
  - intros [|[|i]]; cbn [fcomp fv fx fy fz fbmin fbmax a b]; rewrite ?(proj2 K), ?(proj2 K0), ?(proj2 K1), ?(proj2 K2); lra.
  - apply K.
  - apply K0.
  - vm_compute; reflexivity.
Qed.
Print Assumptions C98_nested_refuted.
