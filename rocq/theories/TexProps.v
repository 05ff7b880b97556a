(** C45: texture lookup. *)
From Coq Require Import List Reals Lra Psatz ZArith Bool Lia.
From Verif Require Import Base RBase VecBase GeoModel SurfModel DistModel MatModel MatProofs TexModel.
Import ListNotations.
Open Scope R_scope.

(** An image of [w] times [h] texels with [c] components each. *)
Definition image (b : bitmap) : Prop := (0 < bw b)%Z /\ (0 < bh b)%Z /\ (0 < bc b)%Z /\ Z.of_nat (length (bdata b)) = (bw b * bh b * bc b)%Z.
(** Component [j] of the texel in column [x] and row [y]. *)
Definition component (b : bitmap) (x y j : Z) : R := nth (Z.to_nat ((y * bw b + x) * bc b + j)) (bdata b) 0.

Lemma floor_spec t : IZR (Int_part t) <= t < IZR (Int_part t) + 1.
Proof. destruct (base_Int_part t). lra. Qed.
Lemma fract_range t : 0 <= fract t < 1. Proof. unfold fract. assert (H := floor_spec t). lra. Qed.
Lemma fract_shift t k : fract (t + IZR k) = fract t.
Proof.
  unfold fract. assert (H := floor_spec t). rewrite (Int_part_spec (t + IZR k) (Int_part t + k)); [rewrite plus_IZR; ring| |]; rewrite plus_IZR; lra.
Qed.
Lemma clamp_index_ok u n : 0 <= u < 1 -> (0 < n)%Z -> exists i, clamp_index u n = Val i /\ (0 <= i < n)%Z /\ IZR i <= u * IZR n < IZR i + 1.
Proof.
  intros Hu Hn. unfold clamp_index. destruct (Z.ltb_spec (n - 1) 0); [lia|]. assert (P := IZR_lt 0 n Hn). assert (B : 0 <= u * IZR n) by nra.
  assert (C := trunc_range (u * IZR n) n B ltac:(nra)). eexists. split; [reflexivity|]. assert (T := trunc_bounds _ B).
  rewrite zclamp_id by lia. split; [lia|assumption].
Qed.
Lemma data_at b x y j : image b -> (0 <= x < bw b)%Z -> (0 <= y < bh b)%Z -> (0 <= j < bc b)%Z ->
  at_index (bdata b) (bc b * (bw b * y + x) + j) = Val (component b x y j).
Proof.
  intros (Hw & Hh & Hc & L) Hx Hy Hj. unfold component. replace (bc b * (bw b * y + x) + j)%Z with ((y * bw b + x) * bc b + j)%Z by ring. set (i := ((y * bw b + x) * bc b + j)%Z).
  assert (I : (0 <= i < bw b * bh b * bc b)%Z).
  { unfold i. assert (y * bw b + x <= bw b * bh b - 1)%Z by nia. split; nia. }
  unfold at_index. destruct (Z.ltb_spec i 0); [lia|]. destruct (nth_error (bdata b) (Z.to_nat i)) as [r|] eqn:E.
  - f_equal. symmetry. now apply nth_error_nth.
  - apply nth_error_None in E. lia.
Qed.
Lemma texel_ok b t : image b -> exists x y, (0 <= x < bw b)%Z /\ (0 <= y < bh b)%Z
  /\ IZR x <= fract (v2x t) * IZR (bw b) < IZR x + 1 /\ IZR y <= fract (v2y t) * IZR (bh b) < IZR y + 1 /\ texel b t = Val (bw b * y + x)%Z.
Proof.
  intros (Hw & Hh & _). destruct (clamp_index_ok (fract (v2x t)) (bw b) (fract_range _) Hw) as (x & Ex & Hx & Bx). destruct (clamp_index_ok (fract (v2y t)) (bh b) (fract_range _) Hh) as (y & Ey & Hy & By).
  exists x, y. unfold texel. rewrite Ex, Ey. auto.
Qed.
Lemma at_texel_ok b x y : image b -> (3 <= bc b)%Z -> (0 <= x < bw b)%Z -> (0 <= y < bh b)%Z ->
  at_texel b (bw b * y + x) = Val (V3 (component b x y 0) (component b x y 1) (component b x y 2)).
Proof.
  intros I Hc Hx Hy. unfold at_texel. replace (bc b * (bw b * y + x))%Z with (bc b * (bw b * y + x) + 0)%Z at 1 by ring. rewrite !data_at by (assumption || lia). reflexivity.
Qed.

(** For every texture coordinate the value read is that of the texel of the image the coordinate, wrapped
    into the unit square, falls into. *)
Theorem C45_lookup : forall b t, image b -> (3 <= bc b)%Z -> exists x y fx fy, (0 <= x < bw b)%Z /\ (0 <= y < bh b)%Z
  /\ IZR x <= (v2x t - IZR fx) * IZR (bw b) < IZR x + 1 /\ 0 <= v2x t - IZR fx < 1
  /\ IZR y <= (v2y t - IZR fy) * IZR (bh b) < IZR y + 1 /\ 0 <= v2y t - IZR fy < 1
  /\ bitmap_eval b t = Val (V3 (component b x y 0) (component b x y 1) (component b x y 2)).
Proof.
  intros b t I Hc. destruct (texel_ok b t I) as (x & y & Hx & Hy & Bx & By & E). exists x, y, (Int_part (v2x t)), (Int_part (v2y t)).
  split; [assumption|]. split; [assumption|]. split; [exact Bx|]. split; [exact (fract_range (v2x t))|]. split; [exact By|]. split; [exact (fract_range (v2y t))|].
  unfold bitmap_eval. rewrite E. cbn [fbind]. now apply at_texel_ok.
Qed.
Print Assumptions C45_lookup.

(** Adding integers to the coordinates does not change the value; this holds for every image. *)
Theorem C45_periodic : forall b t i j, bitmap_eval b (V2 (v2x t + IZR i) (v2y t + IZR j)) = bitmap_eval b t
  /\ bitmap_alpha b (V2 (v2x t + IZR i) (v2y t + IZR j)) = bitmap_alpha b t.
Proof. intros b t i j. unfold bitmap_eval, bitmap_alpha, texel. cbn [v2x v2y]. rewrite !fract_shift. split; reflexivity. Qed.
Print Assumptions C45_periodic.

(** Lookup by pixel coordinates agrees with lookup anywhere in the texel. *)
Theorem C45_pixels : forall b x y a c, image b -> (3 <= bc b)%Z -> (0 <= x < bw b)%Z -> (0 <= y < bh b)%Z -> 0 <= a < 1 -> 0 <= c < 1 ->
  bitmap_pixel b x y = Val (V3 (component b x y 0) (component b x y 1) (component b x y 2))
  /\ bitmap_eval b (V2 ((IZR x + a) / IZR (bw b)) ((IZR y + c) / IZR (bh b))) = bitmap_pixel b x y.
Proof.
  intros b x y a c I Hc Hx Hy Ha Hb. unfold bitmap_pixel, bitmap_eval. rewrite at_texel_ok by assumption. split; [reflexivity|].
  set (t := V2 _ _). destruct (texel_ok b t I) as (x' & y' & Hx' & Hy' & Bx & By & E). rewrite E. cbn [fbind].
  assert (G : forall n i (e : R), (0 < n)%Z -> (0 <= i < n)%Z -> 0 <= e < 1 -> fract ((IZR i + e) / IZR n) * IZR n = IZR i + e).
  { intros n i e Hn Hi He. assert (P := IZR_lt 0 n Hn). assert (0 <= IZR i) by (apply (IZR_le 0); lia). assert (IZR i + 1 <= IZR n) by (rewrite <- plus_IZR; apply IZR_le; lia).
    unfold fract. rewrite (Int_part_spec _ 0).
    - field. lra.
    - apply Rmult_le_reg_r with (IZR n); [assumption|]. unfold Rdiv. rewrite Rmult_assoc, Rinv_l by lra. lra.
    - apply Rmult_lt_reg_r with (IZR n); [assumption|]. unfold Rdiv. rewrite Rmult_assoc, Rinv_l by lra. lra. }
  destruct I as (Hw & Hh & I). unfold t in Bx, By. cbn [v2x v2y] in Bx, By. rewrite G in Bx, By by assumption.
  assert (x' = x). { assert (x < x' + 1)%Z by (apply lt_IZR; rewrite plus_IZR; lra). assert (x' < x + 1)%Z by (apply lt_IZR; rewrite plus_IZR; lra). lia. }
  assert (y' = y). { assert (y < y' + 1)%Z by (apply lt_IZR; rewrite plus_IZR; lra). assert (y' < y + 1)%Z by (apply lt_IZR; rewrite plus_IZR; lra). lia. }
  subst. apply at_texel_ok; try assumption. split; [assumption|]. split; [assumption|]. exact I.
Qed.
Print Assumptions C45_pixels.

(** A texture that reports an alpha component has one, and the lookup reads the fourth component of the
    texel that the color is read from. *)
Theorem C45_alpha : forall b t, image b -> bitmap_has_alpha b = true -> exists x y, (0 <= x < bw b)%Z /\ (0 <= y < bh b)%Z
  /\ bitmap_eval b t = Val (V3 (component b x y 0) (component b x y 1) (component b x y 2)) /\ bitmap_alpha b t = Val (component b x y 3).
Proof.
  intros b t I Ha. apply Z.eqb_eq in Ha. destruct (texel_ok b t I) as (x & y & Hx & Hy & _ & _ & E). exists x, y. split; [assumption|]. split; [assumption|].
  unfold bitmap_eval, bitmap_alpha. rewrite E. cbn [fbind]. rewrite at_texel_ok, data_at by (assumption || lia). split; reflexivity.
Qed.
Print Assumptions C45_alpha.

(** Loading gives an image of the loaded size, or raises an I/O error. *)
Theorem C45_load : forall img, (load img = Throw ErrIOError <-> img = None)
  /\ (forall i, img = Some i -> image i -> load img = Ok i).
Proof.
  intros img. split; [destruct img; split; (discriminate || reflexivity)|]. intros i -> (Hw & Hh & Hc & L). unfold load. rewrite <- L, Nat2Z.id, firstn_all. now destruct i.
Qed.
Print Assumptions C45_load.

Theorem C45_constant : forall k t t' x y, const_eval k t = const_eval k t' /\ const_pixel k x y = const_eval k t
  /\ (const_has_alpha k = true -> exists a, const_alpha k t = Val a /\ k_alpha k = Some a).
Proof. intros k t t' x y. split; [reflexivity|]. split; [reflexivity|]. unfold const_has_alpha, const_alpha. destruct (k_alpha k); [eauto|discriminate]. Qed.
Print Assumptions C45_constant.

(** Finding: a greyscale image (one or two components) is read beyond its end, for instance at the last
    texel, although it is loaded without an error. *)
Theorem C45_grey_refuted : forall b, image b -> (bc b < 3)%Z -> load (Some b) = Ok b /\ bitmap_eval b (V2 (IZR (bw b - 1) / IZR (bw b)) (IZR (bh b - 1) / IZR (bh b))) = Undefined.
Proof.
  intros b I Hc. split; [now apply C45_load|]. set (t := V2 _ _). destruct (texel_ok b t I) as (x & y & Hx & Hy & Bx & By & E). unfold bitmap_eval. rewrite E. cbn [fbind].
  assert (G : forall n, (0 < n)%Z -> fract (IZR (n - 1) / IZR n) * IZR n = IZR (n - 1)).
  { intros n Hn. assert (P := IZR_lt 0 n Hn). assert (1 <= IZR n) by (apply IZR_le; lia). rewrite minus_IZR. unfold fract. rewrite (Int_part_spec _ 0).
    - field. lra.
    - apply Rmult_le_reg_r with (IZR n); [assumption|]. unfold Rdiv. rewrite Rmult_assoc, Rinv_l by lra. lra.
    - apply Rmult_lt_reg_r with (IZR n); [assumption|]. unfold Rdiv. rewrite Rmult_assoc, Rinv_l by lra. lra. }
  destruct I as (Hw & Hh & Hc0 & L). unfold t in Bx, By. cbn [v2x v2y] in Bx, By. rewrite G in Bx, By by assumption.
  assert (x = bw b - 1)%Z. { assert (bw b - 1 < x + 1)%Z by (apply lt_IZR; rewrite plus_IZR; lra). lia. }
  assert (y = bh b - 1)%Z. { assert (bh b - 1 < y + 1)%Z by (apply lt_IZR; rewrite plus_IZR; lra). lia. }
  subst x y. unfold at_texel.
  assert (U : at_index (bdata b) (bc b * (bw b * (bh b - 1) + (bw b - 1)) + 2) = Undefined).
  { unfold at_index. destruct (Z.ltb_spec (bc b * (bw b * (bh b - 1) + (bw b - 1)) + 2) 0); [reflexivity|]. rewrite (proj2 (nth_error_None _ _)); [reflexivity|]. nia. }
  rewrite U. destruct (at_index (bdata b) (bc b * _)) as [r| |] eqn:E0; [|unfold at_index in E0; destruct (_ <? _)%Z; [discriminate|]; destruct (nth_error _ _); discriminate|reflexivity].
  cbn [fbind]. destruct (at_index (bdata b) (_ + 1)) as [r1| |] eqn:E1; [|unfold at_index in E1; destruct (_ <? _)%Z; [discriminate|]; destruct (nth_error _ _); discriminate|reflexivity]. reflexivity.
Qed.
Print Assumptions C45_grey_refuted.

Example C45_example : let b := mk_bitmap 2 1 3 [1; 2; 3; 4; 5; 6] in image b /\ bitmap_pixel b 1 0 = Val (V3 4 5 6) /\ image (mk_bitmap 1 1 1 [1]).
Proof. cbn zeta. repeat split. Qed.
