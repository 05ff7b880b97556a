(** C102: directions computed with Float as it is. *)
From Coq Require Import List Reals ZArith Bool Lra Lia Psatz.
From Flocq Require Import Core.Core IEEE754.BinarySingleNaN.
From Verif Require Import RngModel FltModel FltProofs FDistSpec FDistProofs FBoundModel FBoundSpec FBoundProofs FFilmProofs FBvhSpec FBvhProofs FDirModel FDirSpec FDirProofs FBoundProps.
Local Open Scope R_scope.

(** A normalised vector has components that are numbers between -1 and 1, not merely up to rounding, so that they are
    in the domain of std::acos; and its length is 1 up to eight roundings. *)
Theorem C102_normalize v : usual_vec v -> near_unit (fnormalize v).
Proof. intros U. split; [now apply normalize_cube|now apply normalize_length]. Qed.
Print Assumptions C102_normalize.

(** A direction sampled with the cosine distribution is a unit vector of the upper hemisphere: the components are between
    -1 and 1, the third is not negative, the first two are sqrt(u) (cos, sin) up to rounding. *)
Theorem C102_cosine u c s : finite u = true -> 0 <= val u <= 1 -> unit_pair c s -> let d := fcosine_weighted u c s in
  in_cube d /\ 0 <= val (fz d) /\ Rabs (length2 d - 1) <= 64 * eps /\
  Rabs (val (fx d) - sqrt (val u) * val c) <= 8 * eps /\ Rabs (val (fy d) - sqrt (val u) * val s) <= 8 * eps.
Proof.
  intros Fu Hu U d. assert (L := cosine_length u c s Fu Hu U). destruct U as (Fc & Fs & Hc & Hs & _).
  destruct (cosine_cube u c s Fu Hu Fc Fs Hc Hs) as [C Z]. fold d in C, Z, L. tauto.
Qed.
Print Assumptions C102_cosine.

(** A direction sampled on the sphere: components between -1 and 1, height 1 - 2 u, length 1 up to rounding, and the
    azimuth is that of (cos, sin). *)
Theorem C102_sphere u c s : finite u = true -> 0 <= val u <= 1 -> unit_pair c s -> let d := funiform_sphere u c s in
  in_cube d /\ Rabs (length2 d - 1) <= 64 * eps /\ Rabs (val (fz d) - (1 - 2 * val u)) <= 8 * eps /\
  Rabs (val (fx d) * val s - val (fy d) * val c) <= 8 * eps /\ 0 <= val (fx d) * val c /\ 0 <= val (fy d) * val s.
Proof.
  intros Fu Hu U d. assert (L := sphere_length u c s Fu Hu U). destruct U as (Fc & Fs & Hc & Hs & _).
  assert (C := sphere_cube u c s Fu Hu Fc Fs Hc Hs). fold d in C, L. tauto.
Qed.
Print Assumptions C102_sphere.

(** The basis of a normal that is a unit vector up to rounding: no division by zero and no overflow, both vectors are
    unit vectors, perpendicular to each other and to the normal, and their cross product is the normal, all up to 128 roundings.
    This includes normals close to or equal to the pole (0, 0, -1). *)
Theorem C102_basis n : near_unit n -> let u := fst (fbasis n) in let v := snd (fbasis n) in
  (forall i, finite (fcomp u i) = true /\ finite (fcomp v i) = true) /\
  Rabs (length2 u - 1) <= 128 * eps /\ Rabs (length2 v - 1) <= 128 * eps /\
  Rabs (rdot3 u v) <= 128 * eps /\ Rabs (rdot3 u n) <= 128 * eps /\ Rabs (rdot3 v n) <= 128 * eps /\
  Rabs (val (fy u) * val (fz v) - val (fz u) * val (fy v) - val (fx n)) <= 128 * eps /\
  Rabs (val (fz u) * val (fx v) - val (fx u) * val (fz v) - val (fy n)) <= 128 * eps /\
  Rabs (val (fx u) * val (fy v) - val (fy u) * val (fx v) - val (fz n)) <= 128 * eps.
Proof. intros H. exact (basis_ok n H). Qed.
Print Assumptions C102_basis.

(** The reflection of a direction: each component is that of the exact reflection up to 42 roundings, and the length is 1
    up to 512 roundings. *)
Theorem C102_reflection_partial w n : near_unit w -> near_unit n ->
  (forall i, finite (fcomp (freflection w n) i) = true /\
    Rabs (val (fcomp (freflection w n) i) - (2 * rdot3 w n * val (fcomp n i) - val (fcomp w i))) <= 42 * eps) /\
  Rabs (length2 (freflection w n) - 1) <= 512 * eps.
Proof. intros W N. split; [intros i; apply (refl_close w n W N)|exact (refl_length w n W N)]. Qed.
Print Assumptions C102_reflection_partial.

Lemma ints_usual x y z : (forall k, In k (x :: y :: z :: nil) -> finite (fz_ k) = true /\ val (fz_ k) = IZR k /\ (Z.abs k <= 1000)%Z) -> x <> 0%Z -> usual_vec (fv x y z).
Proof.
  intros H X. assert (S : forall k, In k (x :: y :: z :: nil) -> finite (fz_ k) = true /\ Rabs (val (fz_ k)) <= bpow radix2 500).
  { intros k I. destruct (H k I) as (F & V & L). split; [assumption|]. rewrite V, <- abs_IZR. apply Rle_trans with 1000; [now apply IZR_le|].
    apply Rle_trans with (bpow radix2 10); [change (bpow radix2 10) with 1024; lra|apply bpow_le; lia]. }
  split.
  - intros [|[|i]]; cbn [fcomp fv fx fy fz]; apply S; cbn; auto.
  - exists 0%nat. cbn [fcomp fv fx]. destruct (H x (or_introl eq_refl)) as (F & V & _). rewrite V, <- abs_IZR.
    apply Rle_trans with (bpow radix2 0); [apply bpow_le; lia|]. change (bpow radix2 0) with 1. apply IZR_le. lia.
Qed.
(** A vector with components 1, 5, 0 and one with 10, 24, 0 *)
Definition c102_n := fv 1 5 0.
Definition c102_w := fv 10 24 0.
Lemma c102_usual : usual_vec c102_n /\ usual_vec c102_w.
Proof.
  small 1%Z. small 5%Z. small 0%Z. small 10%Z. small 24%Z.
  split; apply ints_usual; try lia; intros k; cbn [In]; intros H; repeat (destruct H as [H|H]; [subst k; repeat split; (tauto || lia)|]); destruct H.
Qed.

(** The components of a reflected direction are not always between -1 and 1: reflecting one normalised vector about
    another gives a vertical component greater than 1. Its arc cosine, which the environment light takes, is not a number. *)
Theorem C102_reflection_refuted : exists v w, usual_vec v /\ usual_vec w /\ let d := freflection (fnormalize w) (fnormalize v) in
  finite (fy d) = true /\ 1 < val (fy d).
Proof.
  exists c102_n, c102_w. destruct c102_usual as [Un Uw]. split; [assumption|]. split; [assumption|]. cbv zeta.
  destruct (val_sf (fy (freflection (fnormalize c102_w) (fnormalize c102_n))) (2 ^ 52 + 2) (-52) ltac:(vm_compute; reflexivity)) as [F V].
  split; [assumption|]. rewrite V. rewrite plus_IZR, Rmult_plus_distr_r. change (IZR (2 ^ 52)) with (bpow radix2 52). rewrite <- bpow_plus. change (bpow radix2 (52 + -52)) with 1.
  assert (0 < bpow radix2 (-52)) by apply bpow_gt_0. lra.
Qed.
Print Assumptions C102_reflection_refuted.

(** The hypotheses are met: the two vectors above, their normalisations, and a quarter turn with the number 1/4. *)
Example C102_example : usual_vec c102_n /\ near_unit (fnormalize c102_n) /\ near_unit (fnormalize c102_w) /\
  unit_pair fzero fone /\ finite (fmake 1 (-2)) = true /\ 0 <= val (fmake 1 (-2)) <= 1.
Proof.
  destruct c102_usual as [Un Uw]. split; [assumption|]. split; [now apply C102_normalize|]. split; [now apply C102_normalize|].
  assert (E := eps_pos). split.
  - assert (Z : val fzero = 0) by reflexivity. assert (F := fone_finite). unfold unit_pair. rewrite fone_val, Z. repeat split; try assumption; try lra.
    replace (0 * 0 + 1 * 1 - 1) with 0 by ring. rewrite Rabs_R0. lra.
  - destruct (val_sf (fmake 1 (-2)) (2 ^ 52) (-54) ltac:(vm_compute; reflexivity)) as [F V]. split; [assumption|]. rewrite V.
    change (IZR (2 ^ 52)) with (bpow radix2 52). rewrite <- bpow_plus. change (bpow radix2 (52 + -54)) with (/ 4). lra.
Qed.
