(** C113: the geometry term in floating point. *)
From Coq Require Import List Reals ZArith Bool Lra Lia Psatz.
From Flocq Require Import Core.Core IEEE754.BinarySingleNaN.
From Verif Require Import Base RngModel FltModel FltProofs FDistModel FDistSpec FDistProofs FBoundModel FBoundSpec FBoundProofs FFilmModel FFilmProofs FBvhModel FBvhSpec FBvhProofs FDirModel FDirSpec FDirProofs FRasterSpec FCamModel FCamSpec FCamProofs FTriModel FTriSpec FTriProofs FTriProps FGtermModel FGtermSpec FGtermProofs.
Local Open Scope R_scope.

(** The geometry term is the same number from both ends: bit for bit, for every pair of points, also with infinities, NaN
    and points at infinity. *)
Theorem C113_symmetric s1 s2 : fgeometry_term s1 s2 = fgeometry_term s2 s1.
Proof. apply term_symmetric. Qed.
Print Assumptions C113_symmetric.
(** So is the distance. *)
Theorem C113_distance_symmetric s1 s2 : fgeom_distance s1 s2 = fgeom_distance s2 s1.
Proof. apply distance_symmetric. Qed.
Print Assumptions C113_distance_symmetric.

(** Times the square of the distance, it is the product of the cosines, up to rounding. *)
Theorem C113_term s1 s2 : usual_point s1 -> usual_point s2 -> apart s1 s2 ->
  finite (fgeometry_term s1 s2) = true /\ 0 <= val (fgeometry_term s1 s2) /\
  Rabs (val (fgeometry_term s1 s2) * dist2 s1 s2 - cosine s1 s1 s2 * cosine s2 s1 s2) <= 200 * eps.
Proof. apply term_ok. Qed.
Print Assumptions C113_term.
(** The distance has a small relative error. *)
Theorem C113_distance s1 s2 : usual_point s1 -> usual_point s2 -> apart s1 s2 ->
  finite (fgeom_distance s1 s2) = true /\ Rabs (val (fgeom_distance s1 s2) - sqrt (dist2 s1 s2)) <= 75 / 10 * eps * sqrt (dist2 s1 s2).
Proof. apply distance_ok. Qed.
Print Assumptions C113_distance.
(** The term is at most one over the square of the distance, up to rounding. *)
Theorem C113_bound s1 s2 : usual_point s1 -> usual_point s2 -> apart s1 s2 -> val (fgeometry_term s1 s2) * dist2 s1 s2 <= 1003 / 1000.
Proof.
  intros U1 U2 Ap. destruct (term_ok s1 s2 U1 U2 Ap) as (_ & _ & E). apply Rabs_le_inv in E. assert (Es := eps_fine). assert (P := eps_pos).
  destruct (cosine_ok s1 s2 U1 U2 Ap s1 _ (or_introl eq_refl) (vneg_opp _)) as (_ & _ & _ & B1). destruct (cosine_ok s1 s2 U1 U2 Ap s2 _ (or_intror eq_refl) (vneg_opp _)) as (_ & _ & _ & B2).
  assert (cosine s1 s1 s2 * cosine s2 s1 s2 <= 1001 / 1000 * (1001 / 1000)) by (apply Rmult_le_compat; lra). lra.
Qed.
Print Assumptions C113_bound.

(** ** Instances *)
(** A surface point above the origin looking down, and one at a quarter, eighth looking up *)
Definition c113_top : fgeom := mk_fgeom false false (FV fzero fzero fone) (FV fzero fzero (Bopp fone)) (FV fzero fzero fzero).
Definition c113_low : fgeom := mk_fgeom false false (FV quarter eighth fzero) (FV fzero fzero fone) (FV fzero fzero fzero).
Definition c113_sky : fgeom := mk_fgeom false true (FV fzero fzero fzero) (FV fzero fzero fzero) (FV fzero fzero (Bopp fone)).
Lemma small_sized x : finite x = true -> Rabs (val x) <= 1 -> sized 200 x.
Proof. intros F B. split; [assumption|]. apply Rle_trans with (1 := B). change 1 with (bpow radix2 0). apply bpow_le. lia. Qed.
Lemma vsized_small x y z : sized 200 x -> sized 200 y -> sized 200 z -> vsized 200 (FV x y z).
Proof. intros A B C [|[|i]]; assumption. Qed.
Lemma zero_sized : sized 200 fzero. Proof. apply small_sized; [reflexivity|]. replace (val fzero) with 0 by reflexivity. rewrite Rabs_R0. lra. Qed.
Lemma one_sized : sized 200 fone. Proof. apply small_sized; [apply fone_finite|]. rewrite fone_val, Rabs_R1. lra. Qed.
Lemma unit_z z : finite z = true -> val z = 1 \/ val z = -1 -> near_unit (FV fzero fzero z).
Proof.
  intros F V. split.
  - assert (B : -1 <= val z <= 1) by (destruct V; lra). intros [|[|i]]; cbn [fcomp fx fy fz]; (split; [reflexivity || assumption|]); try assumption; replace (val fzero) with 0 by reflexivity; lra.
  - unfold length2. cbn [fx fy fz]. replace (val fzero) with 0 by reflexivity. assert (P := eps_pos). replace (0 * 0 + 0 * 0 + val z * val z - 1) with 0 by (destruct V as [V|V]; rewrite V; ring). rewrite Rabs_R0. lra.
Qed.
Example C113_term_instance : usual_point c113_top /\ usual_point c113_low /\ apart c113_top c113_low /\ dist2 c113_top c113_low = 69 / 64.
Proof.
  destruct quarter_ok as [Fq Vq], eighth_ok as [Fe Ve], val_neg1 as [Fm Vm].
  assert (Sq : sized 200 quarter) by (apply small_sized; [assumption|rewrite Vq, Rabs_pos_eq; lra]). assert (Se : sized 200 eighth) by (apply small_sized; [assumption|rewrite Ve, Rabs_pos_eq; lra]).
  split; [|split; [|split]].
  - split; [reflexivity|]. split; [apply vsized_small; auto using zero_sized, one_sized|]. right. apply unit_z; [assumption|]. right. exact Vm.
  - split; [reflexivity|]. split; [apply vsized_small; auto using zero_sized|]. right. apply unit_z; [apply fone_finite|]. left. apply fone_val.
  - exists 2%nat. split; [lia|]. unfold between. cbn [c113_top c113_low fg_p fcomp fz]. replace (val fzero) with 0 by reflexivity. rewrite fone_val. replace (0 - 1) with (- (1)) by ring. rewrite Rabs_Ropp, Rabs_R1. change 1 with (bpow radix2 0). apply bpow_le. lia.
  - unfold dist2, between. cbn [c113_top c113_low fg_p fcomp fx fy fz]. replace (val fzero) with 0 by reflexivity. rewrite fone_val, Vq, Ve. field.
Qed.
(** The sky straight above: the term is the cosine. *)
Example C113_infinite_instance : fgeometry_term c113_sky c113_low = fone /\ fgeometry_term c113_sky c113_sky = fzero.
Proof. split; [|reflexivity]. apply B2R_Bsign_inj; try (vm_compute; reflexivity). Qed.

(** For two points at the same place the term is NaN. *)
Theorem C113_coincident_refuted : ~ forall s1 s2, usual_point s1 -> usual_point s2 -> is_nan (fgeometry_term s1 s2) = false.
Proof.
  intros H. destruct C113_term_instance as (U & _). specialize (H _ _ U U). revert H. vm_compute. discriminate.
Qed.
Print Assumptions C113_coincident_refuted.
