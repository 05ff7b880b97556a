(** C112: points on triangles in floating point. *)
From Coq Require Import List Reals ZArith Bool Lra Lia Psatz.
From Flocq Require Import Core.Core IEEE754.BinarySingleNaN.
From Verif Require Import Base RBase RngModel FltModel FltProofs FDistModel FDistSpec FDistProofs FDistProps FBoundModel FBoundSpec FBoundProofs FFilmModel FFilmProofs FBvhModel FBvhSpec FBvhProofs FDirModel FDirSpec FDirProofs FRasterSpec FCamModel FCamSpec FCamProofs FTriModel FTriSpec FTriProofs.
Import ListNotations.
Local Open Scope R_scope.

(** The coordinates sampled on a triangle are in [0,1] and add up to at most 1 up to rounding. *)
Theorem C112_weights u1 u2 : unit_number u1 -> unit_number u2 -> let '(u, v) := fsample_bary u1 u2 in barycentric u v.
Proof. intros A B. generalize (bary_ok u1 u2 A B). destruct (fsample_bary u1 u2). exact (fun H => H). Qed.
Print Assumptions C112_weights.

(** Interpolating three vertices gives a point which is, up to rounding, a point of the triangle. *)
Theorem C112_point k t u v : (-900 <= k <= 1000)%Z -> tsized k t -> barycentric u v ->
  near_triangle (20 * eps * bpow radix2 k) t (fmix (tp1 t) (tp2 t) (tp3 t) u v).
Proof. apply near_ok. Qed.
Print Assumptions C112_point.

(** It is the point of those coordinates. *)
Theorem C112_interpolates k t u v i : (-900 <= k <= 1000)%Z -> tsized k t -> barycentric u v ->
  Rabs (val (fcomp (fmix (tp1 t) (tp2 t) (tp3 t) u v) i) -
    ((1 - val u - val v) * val (fcomp (tp1 t) i) + val u * val (fcomp (tp2 t) i) + val v * val (fcomp (tp3 t) i))) <= 12 * eps * bpow radix2 k.
Proof.
  intros K T H. destruct (mix_close k t u v i K T H) as [_ E].
  replace ((1 - val u - val v) * val (fcomp (tp1 t) i) + val u * val (fcomp (tp2 t) i) + val v * val (fcomp (tp3 t) i)) with
    (val (fcomp (tp1 t) i) * (1 - val u - val v) + val (fcomp (tp2 t) i) * val u + val (fcomp (tp3 t) i) * val v) by ring. exact E.
Qed.
Print Assumptions C112_interpolates.

(** The position of every hit is, up to rounding, a point of the triangle hit. *)
Theorem C112_hit k t r tl th d u v : (-900 <= k <= 200)%Z -> tsized k t -> usual_ray r -> finite tl = true -> finite th = true ->
  ftri_isect (new_ftri (tp1 t) (tp2 t) (tp3 t)) r tl th = Some (d, u, v) ->
  near_triangle (20 * eps * bpow radix2 k) t (fmix (tp1 t) (tp2 t) (tp3 t) u v).
Proof.
  intros K T Hr Fl Fh H. assert (U : usual_tri (new_ftri (tp1 t) (tp2 t) (tp3 t))).
  { destruct T as (A & B & C). exists (tp1 t), (tp2 t), (tp3 t). assert (W : forall x, vsized k x -> vsized 200 x) by (intros x X i; apply (sized_le k); [lia|apply X]). auto. }
  destruct (hit_parts _ r U Hr tl th d u v Fl Fh H) as (_ & _ & Q). apply near_ok; [lia|assumption|exact Q].
Qed.
Print Assumptions C112_hit.

(** The weight of a triangle in the table of an area light is its area up to rounding. *)
Theorem C112_area k t : (-200 <= k <= 200)%Z -> tsized k t ->
  finite (farea t) = true /\ 0 <= val (farea t) /\ Rabs (val (farea t) - area t) <= 128 * eps * (bpow radix2 k * bpow radix2 k).
Proof. intros K T. exact (area_ok k K t T). Qed.
Print Assumptions C112_area.

Lemma fareas_map ts : fareas ts = fold_left fadd (map farea ts) fempty.
Proof. unfold fareas. generalize fempty. induction ts as [|t ts IH]; intros d; [reflexivity|apply IH]. Qed.

(** Every position sampled on an area light is, up to rounding, a point of one of its triangles, one of positive weight. *)
Theorem C112_light k ts u1 u2 upc : (-200 <= k <= 200)%Z -> (forall t, In t ts -> tsized k t) -> summable (map farea ts) ->
  unit_number u1 -> unit_number u2 -> finite upc = true -> 0 <= val upc < 1 ->
  exists t p, In t ts /\ flight_point ts u1 u2 upc = Ok p /\ 0 < val (farea t) /\ near_triangle (20 * eps * bpow radix2 k) t p.
Proof.
  intros K T S H1 H2 F U.
  assert (W : weights (map farea ts)).
  { intros w Iw. apply in_map_iff in Iw as (t & <- & It). destruct (area_ok k K t (T t It)) as (A & B & _). now split. }
  destruct (C97_sample (map farea ts) upc W S F U) as (i & w & N & E & P & _).
  rewrite nth_error_map in N. destruct (nth_error ts i) as [t|] eqn:Nt; [|discriminate]. injection N as <-.
  exists t, (let '(u, v) := fsample_bary u1 u2 in fmix (tp1 t) (tp2 t) (tp3 t) u v).
  split; [eapply nth_error_In; eassumption|]. split.
  - unfold flight_point. rewrite fareas_map. fold (fmade_of (map farea ts)). rewrite E. cbn [obind]. rewrite Nat2Z.id, Nt. now destruct (fsample_bary u1 u2).
  - split; [assumption|]. assert (Bu := bary_ok u1 u2 H1 H2). destruct (fsample_bary u1 u2) as [u v]. apply near_ok; [lia|now apply T; eapply nth_error_In; eassumption|exact Bu].
Qed.
Print Assumptions C112_light.

(** ** Instances *)
(** The triangle (0,0,c), (1,0,c), (0,1,c) *)
Definition c112_flat (c : flt) : ftriangle := mk_ftriangle (FV fzero fzero c) (FV fone fzero c) (FV fzero fone c).
Definition tenth : flt := fmake 7205759403792794 (-56).
Lemma tenth_ok : finite tenth = true /\ 0 <= val tenth <= 1.
Proof.
  destruct (val_sf tenth 7205759403792794 (-56) ltac:(vm_compute; reflexivity)) as [F V]. split; [assumption|]. rewrite V. split.
  - apply Rmult_le_pos; [apply IZR_le; lia|apply bpow_ge_0].
  - change (-56)%Z with (-53 + -3)%Z. rewrite bpow_plus. replace (bpow radix2 (-53)) with (/ 9007199254740992) by reflexivity. replace (bpow radix2 (-3)) with (/ 8) by reflexivity. lra.
Qed.
Lemma flat_sized c : finite c = true -> 0 <= val c <= 1 -> tsized 0 (c112_flat c).
Proof.
  intros F H. assert (Z : sized 0 fzero) by (split; [reflexivity|replace (val fzero) with 0 by reflexivity; rewrite Rabs_R0; cbn [bpow]; lra]).
  assert (O : sized 0 fone) by (split; [apply fone_finite|rewrite fone_val, Rabs_R1; cbn [bpow]; lra]).
  assert (C : sized 0 c) by (split; [assumption|cbn [bpow]; apply Rabs_le; lra]).
  repeat split; destruct i as [|[|i]]; cbn [c112_flat tp1 tp2 tp3 fcomp fx fy fz]; (apply Z || apply O || apply C).
Qed.
(** Quarter and eighth as coordinates *)
Definition quarter : flt := fmake 1 (-2).
Definition eighth : flt := fmake 1 (-3).
Lemma quarter_ok : finite quarter = true /\ val quarter = / 4.
Proof. destruct (val_sf quarter (2 ^ 52) (-54) ltac:(vm_compute; reflexivity)) as [F V]. split; [assumption|]. rewrite V. change (IZR (2 ^ 52)) with (bpow radix2 52). rewrite <- bpow_plus. reflexivity. Qed.
Lemma eighth_ok : finite eighth = true /\ val eighth = / 8.
Proof. destruct (val_sf eighth (2 ^ 52) (-55) ltac:(vm_compute; reflexivity)) as [F V]. split; [assumption|]. rewrite V. change (IZR (2 ^ 52)) with (bpow radix2 52). rewrite <- bpow_plus. reflexivity. Qed.
Lemma c112_bary : barycentric quarter eighth.
Proof. destruct quarter_ok as [F V]. destruct eighth_ok as [G W]. assert (P := eps_pos). unfold barycentric. rewrite V, W. repeat split; auto; lra. Qed.

(** The position of a point of a flat triangle need not be in its plane, and the box of the triangle need not contain it. *)
Theorem C112_plane_refuted : ~ forall k t u v i, (-900 <= k <= 1000)%Z -> tsized k t -> barycentric u v ->
  val (fcomp (tp1 t) i) = val (fcomp (tp2 t) i) -> val (fcomp (tp2 t) i) = val (fcomp (tp3 t) i) ->
  val (fcomp (fmix (tp1 t) (tp2 t) (tp3 t) u v) i) = val (fcomp (tp1 t) i).
Proof.
  intros H. destruct tenth_ok as [F V]. specialize (H 0%Z (c112_flat tenth) quarter eighth 2%nat ltac:(lia) (flat_sized tenth F V) c112_bary eq_refl eq_refl).
  cbn [c112_flat tp1 tp2 tp3 fcomp fx fy fz] in H.
  assert (L : flt_ltb (fz (fmix (FV fzero fzero tenth) (FV fone fzero tenth) (FV fzero fone tenth) quarter eighth)) tenth = true) by (vm_compute; reflexivity).
  assert (Fp : finite (fz (fmix (FV fzero fzero tenth) (FV fone fzero tenth) (FV fzero fone tenth) quarter eighth)) = true) by (vm_compute; reflexivity).
  rewrite ltb_key, !key_finite in L by (assumption || now apply finite_not_nan). revert L. rewrite H. case Rlt_bool_spec; [lra|discriminate].
Qed.
Print Assumptions C112_plane_refuted.

(** A proper triangle may have no area: it is never sampled, and the density of a light made of it is infinite. *)
Definition speck : flt := fmake 1 (-300).
Definition c112_speck : ftriangle := mk_ftriangle (FV fzero fzero fzero) (FV speck fzero fzero) (FV fzero speck fzero).
Lemma speck_ok : finite speck = true /\ val speck = bpow radix2 (-300).
Proof. destruct (val_sf speck (2 ^ 52) (-352) ltac:(vm_compute; reflexivity)) as [F V]. split; [assumption|]. rewrite V. change (IZR (2 ^ 52)) with (bpow radix2 52). rewrite <- bpow_plus. reflexivity. Qed.
Theorem C112_area_refuted : ~ forall t, tsized 0 t -> proper t -> 0 < val (farea t).
Proof.
  intros H. destruct speck_ok as [F V]. assert (P : 0 < bpow radix2 (-300)) by apply bpow_gt_0.
  assert (T : tsized 0 c112_speck).
  { assert (Z : sized 0 fzero) by (split; [reflexivity|replace (val fzero) with 0 by reflexivity; rewrite Rabs_R0; cbn [bpow]; lra]).
    assert (O : sized 0 speck) by (split; [assumption|rewrite V, Rabs_pos_eq by lra; apply bpow_le; lia]).
    repeat split; destruct i as [|[|i]]; cbn [c112_speck tp1 tp2 tp3 fcomp fx fy fz]; (apply Z || apply O). }
  assert (Pr : proper c112_speck).
  { exists 2%nat. cbn [cross_exact c112_speck tp1 tp2 tp3 fcomp fx fy fz]. replace (val fzero) with 0 by reflexivity. rewrite V.
    assert (Q := Rmult_lt_0_compat _ _ P P). lra. }
  specialize (H c112_speck T Pr). assert (L : flt_ltb fzero (farea c112_speck) = false) by (vm_compute; reflexivity).
  assert (Fp : finite (farea c112_speck) = true) by (vm_compute; reflexivity).
  rewrite ltb_key, !key_finite in L by (reflexivity || assumption || now apply finite_not_nan). revert L. replace (val fzero) with 0 by reflexivity. case Rlt_bool_spec; [discriminate|lra].
Qed.
Print Assumptions C112_area_refuted.
Example C112_speck_density : finite (finvA [c112_speck]) = false.
Proof. vm_compute. reflexivity. Qed.

(** Unless it is small compared to its coordinates, a triangle has a positive weight. *)
Theorem C112_area_partial k t : (-200 <= k <= 200)%Z -> tsized k t -> 128 * eps * (bpow radix2 k * bpow radix2 k) < area t -> 0 < val (farea t).
Proof. intros K T L. destruct (C112_area k t K T) as (_ & _ & E). apply Rabs_le_inv in E. lra. Qed.
Print Assumptions C112_area_partial.

Example C112_weights_instance : unit_number quarter /\ unit_number eighth.
Proof. destruct quarter_ok as [F V], eighth_ok as [G W]. unfold unit_number. rewrite V, W. repeat split; auto; lra. Qed.
Example C112_point_instance : tsized 0 (c112_flat tenth) /\ barycentric quarter eighth.
Proof. destruct tenth_ok as [F V]. split; [now apply flat_sized|exact c112_bary]. Qed.
(** A ray straight down on (1/4, 1/8) *)
Definition c112_ray : fray := mk_fray (FV quarter eighth fone) (FV fzero fzero (Bopp fone)).
Example C112_hit_instance : usual_ray c112_ray /\ exists d u v, ftri_isect (new_ftri (tp1 (c112_flat fzero)) (tp2 (c112_flat fzero)) (tp3 (c112_flat fzero))) c112_ray fzero fInf = Some (d, u, v).
Proof.
  split.
  - destruct quarter_ok as [F V], eighth_ok as [G W]. assert (B : 1 <= bpow radix2 200) by (change 1 with (bpow radix2 0); apply bpow_le; lia).
    assert (Z : sized 200 fzero) by (split; [reflexivity|replace (val fzero) with 0 by reflexivity; rewrite Rabs_R0; lra]).
    assert (O : sized 200 fone) by (split; [apply fone_finite|rewrite fone_val, Rabs_R1; lra]).
    assert (M : sized 200 (Bopp fone)) by (destruct val_neg1 as [Fm Vm]; split; [assumption|rewrite Vm, Rabs_left; lra]).
    assert (Q : sized 200 quarter) by (split; [assumption|rewrite V, Rabs_pos_eq; lra]). assert (E : sized 200 eighth) by (split; [assumption|rewrite W, Rabs_pos_eq; lra]).
    repeat split; destruct i as [|[|i]]; cbn [c112_ray fo fd fcomp fx fy fz]; (apply Z || apply O || apply M || apply Q || apply E).
  - destruct (ftri_isect (new_ftri (tp1 (c112_flat fzero)) (tp2 (c112_flat fzero)) (tp3 (c112_flat fzero))) c112_ray fzero fInf) as [[[d u] v]|] eqn:E; [eauto|].
    exfalso. assert (N : match ftri_isect (new_ftri (tp1 (c112_flat fzero)) (tp2 (c112_flat fzero)) (tp3 (c112_flat fzero))) c112_ray fzero fInf with None => false | Some _ => true end = true) by (vm_compute; reflexivity).
    rewrite E in N. discriminate.
Qed.
Example C112_light_instance : summable (map farea [c112_flat fzero; c112_flat tenth]).
Proof.
  assert (F : finite (ftotal (map farea [c112_flat fzero; c112_flat tenth])) = true) by (vm_compute; reflexivity). split; [assumption|].
  assert (L : flt_ltb fzero (ftotal (map farea [c112_flat fzero; c112_flat tenth])) = true) by (vm_compute; reflexivity).
  rewrite ltb_key, !key_finite in L by (reflexivity || assumption || now apply finite_not_nan). revert L. replace (val fzero) with 0 by reflexivity. case Rlt_bool_spec; [trivial|discriminate].
Qed.
Example C112_area_instance : area (c112_flat fzero) = / 2.
Proof.
  unfold area. cbn [cross_exact c112_flat tp1 tp2 tp3 fcomp fx fy fz]. replace (val fzero) with 0 by reflexivity. rewrite fone_val.
  match goal with |- _ * sqrt ?x = _ => replace x with 1 by ring end. rewrite sqrt_1. ring.
Qed.
