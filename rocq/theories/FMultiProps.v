(** * C121: densities of combined volumes and tracking in binary64 *)
From Coq Require Import Reals List ZArith Bool Lra Lia.
From Flocq Require Import Core.Core IEEE754.BinarySingleNaN.
From Verif Require Import RngModel FltModel FltProofs FBoundModel FBoundSpec FBoundProofs FDirModel FFilmModel FDistSpec FMathModel FMathProofs FMultiModel FMultiSpec FMultiProofs.
Import ListNotations.
Local Open Scope R_scope.

(** The reported maximum bounds the density, exactly, whatever was rounded in either sum: for volumes nested to any depth, and at
    every point. *)
Theorem C121_bounded v p : built v -> finite (fv_scalar v p) = true /\ 0 <= val (fv_scalar v p) <= val (fv_max v).
Proof. intros H. destruct (built_bounded v H) as [_ B]. apply B. Qed.
Print Assumptions C121_bounded.
(** So it does for a combination of any other volumes whose maxima bound their densities. *)
Theorem C121_multi l : (forall v, In v l -> bounded v) -> finite (fv_max (fmulti l)) = true -> bounded (fmulti l).
Proof. apply multi_bounded. Qed.
Print Assumptions C121_multi.
(** The density is the sum of those of the volumes whose box contains the point, up to one rounding for each volume. *)
Theorem C121_sum l p inn : (forall v, In v l -> bounded v) -> finite (fv_max (fmulti l)) = true -> vec_ok p -> (forall v, In v l -> box_ok (fv_bound v)) ->
  (forall v, In v l -> inn v = true <-> point_in (fv_bound v) p) ->
  exact_density inn l p * (1 - / 2 ^ 53) ^ List.length l <= val (fv_scalar (fmulti l) p) <= exact_density inn l p * (1 + / 2 ^ 53) ^ List.length l.
Proof.
  intros H F P B Hi. destruct (sum_accuracy p inn l fzero fzero H) as [_ Q]; try reflexivity; try exact F; [|rewrite fzero_val; lra|rewrite fzero_val, Rplus_0_l in Q; exact Q].
  intros v I. assert (W := in_bound_iff p (fv_bound v) P (B v I)). specialize (Hi v I). destruct (fin_bound p (fv_bound v)), (inn v); try reflexivity; [symmetry; apply Hi, W; reflexivity|apply W, Hi; reflexivity].
Qed.
Print Assumptions C121_sum.
(** Its box contains those of all volumes, and the density is zero at points in none of these. *)
Theorem C121_box l v : (forall w, In w l -> box_ok (fv_bound w)) -> In v l -> inside (fv_bound v) (fv_bound (fmulti l)).
Proof.
  intros H I. cbn [fmulti fv_bound]. destruct (fold_merge_ok (map fv_bound l) new_fbound new_fbound_ok) as (_ & _ & A); [intros k K; apply in_map_iff in K as (w & <- & J); now apply H|]. apply A. now apply in_map.
Qed.
Print Assumptions C121_box.
Theorem C121_outside l p : (forall v, In v l -> exists i, (i < 3)%nat /\ (flt_ltb (fcomp p i) (fcomp (fbmin (fv_bound v)) i) = true \/ flt_ltb (fcomp (fbmax (fv_bound v)) i) (fcomp p i) = true)) ->
  val (fv_scalar (fmulti l) p) = 0.
Proof.
  assert (L : forall x y, flt_ltb x y = true -> flt_leb y x = false).
  { intros x y. unfold flt_ltb, flt_leb, Bltb, Bleb, SpecFloat.SFltb, SpecFloat.SFleb. change (SpecFloat.SFcompare (B2SF x) (B2SF y)) with (Bcompare x y). change (SpecFloat.SFcompare (B2SF y) (B2SF x)) with (Bcompare y x). rewrite (Bcompare_swap _ _ x y). destruct (Bcompare x y) as [[| |]|]; try discriminate; reflexivity. }
  cbn [fmulti fv_scalar]. intros H. assert (G : fmulti_scalar l p fzero = fzero).
  { induction l as [|v l IH]; [reflexivity|]. cbn [fmulti_scalar]. replace (fin_bound p (fv_bound v)) with false; [apply IH; intros w I; apply H; now right|]. symmetry. unfold fin_bound, fbetween. destruct (H v ltac:(now left)) as (i & Li & [Q|Q]); apply L in Q; (destruct i as [|[|[|i]]]; [| | |lia]); cbn [fcomp] in Q; rewrite Q, ?andb_false_r; reflexivity. }
  now rewrite G.
Qed.
Print Assumptions C121_outside.

(** The probability of a collision is between 0 and 1, and the ratio of the densities up to rounding. *)
Theorem C121_collision m d : usual_max m -> finite d = true -> 0 <= val d <= val m ->
  finite (fcollide m d) = true /\ 0 <= val (fcollide m d) <= 1 /\ Rabs (val (fcollide m d) - val d / val m) <= 3 * / 2 ^ 53.
Proof. apply collide_ok. Qed.
Print Assumptions C121_collision.
(** The estimated transmittance is a number between 0 and 1, for any logarithm, any random numbers and any number of steps. *)
Theorem C121_transmittance log v r tmin tmax us res : built v -> usual_max (fv_max v) -> ftransmittance log v r tmin tmax us = Some res -> finite res = true /\ 0 <= val res <= 1.
Proof.
  intros Hb U. unfold ftransmittance. destruct (fisect_range _ _ _ _) as [[hit l] h]. destruct hit; cbn [negb]; [|intros [= <-]; split; [exact fone_finite|rewrite fone_val; lra]].
  intros E. destruct (ratio_ok log v r h us (built_bounded v Hb) U l fone res fone_finite ltac:(rewrite fone_val; lra) E) as [A B]. rewrite fone_val in B. now split.
Qed.
Print Assumptions C121_transmittance.
(** One step multiplies it by a number between 0 and 1, the exact factor up to rounding. *)
Theorem C121_factor m d : usual_max m -> finite d = true -> 0 <= val d <= val m ->
  finite (fminus fone (fcollide m d)) = true /\ 0 <= val (fminus fone (fcollide m d)) <= 1 /\ Rabs (val (fminus fone (fcollide m d)) - (1 - val d / val m)) <= 5 * / 2 ^ 53.
Proof. apply factor_ok. Qed.
Print Assumptions C121_factor.
(** Collisions happen before the end of the segment, and only where the density is not zero. *)
Theorem C121_sample log v r tmin tmax us t : built v -> usual_max (fv_max v) -> (forall u, In u us -> finite u = true /\ 0 <= val u) -> fsample_distance log v r tmin tmax us = Some (Some t) ->
  flt_leb (snd (fisect_range (fv_bound v) r tmin tmax)) t = false /\ 0 < val (fv_scalar v (fvadd (fo r) (fvmul (fd r) t))).
Proof.
  intros Hb U. unfold fsample_distance. destruct (fisect_range _ _ _ _) as [[hit l] h]. destruct hit; cbn [negb snd]; [|discriminate]. destruct (built_bounded v Hb) as [_ B].
  assert (G : forall n us l, (List.length us <= n)%nat -> (forall u, In u us -> finite u = true /\ 0 <= val u) -> fdelta log v r h us l = Some (Some t) -> flt_leb h t = false /\ 0 < val (fv_scalar v (fvadd (fo r) (fvmul (fd r) t)))).
  { clear us l. induction n as [|n IH]; intros us l Ln Hu; [destruct us; [discriminate|cbn in Ln; lia]|]. destruct us as [|u us]; [discriminate|]. cbn [fdelta]. cbv zeta. set (t' := fminus l _). destruct (flt_leb h t') eqn:E; [discriminate|]. destruct us as [|w us]; [discriminate|].
    destruct (flt_ltb w _) eqn:C.
    - intros [= <-]. split; [exact E|]. destruct (B (fvadd (fo r) (fvmul (fd r) t'))) as [Fd Hd]. destruct (Rle_lt_or_eq_dec _ _ (proj1 Hd)) as [Q|Q]; [exact Q|]. exfalso. destruct (Hu w ltac:(right; now left)) as [Fw Pw].
      destruct (recip_max _ U) as (Fi & _). destruct (collide_ok _ _ U Fd Hd) as (Fc & _ & _). rewrite ltb_key, !key_finite in C by (try assumption; now apply finite_not_nan). destruct (fmult_key _ _ Fd Fi) as [N K]. fold (fcollide (fv_max v) (fv_scalar v (fvadd (fo r) (fvmul (fd r) t')))) in N, K.
      rewrite (finite_result _ _ N K Fc), <- Q, Rmult_0_l, rnd_0 in C. rewrite Rlt_bool_false in C by exact Pw. discriminate.
    - intros Z. apply (IH us t'); [cbn in Ln; lia|intros x I; apply Hu; now right; right|exact Z]. }
  intros Hu E. exact (G _ us l (Nat.le_refl _) Hu E).
Qed.
Print Assumptions C121_sample.

(** ** Refuted *)
Definition c121_vec (a b c : Z) : fvec := FV (fmake a 0) (fmake b 0) (fmake c 0).
Definition c121_box : fbound := mk_fbound (c121_vec (-1) (-1) (-1)) (c121_vec 1 1 1).
Definition c121_ray : fray := mk_fray (c121_vec 0 0 0) (c121_vec 1 1 1).
(** A volume of density zero: if the first random number is zero, tracking never ends. *)
Theorem C121_ends_refuted log rest : log fone = fzero ->
  ftransmittance log (fconstant c121_box fzero) c121_ray fzero fone (fzero :: rest) = None /\ fsample_distance log (fconstant c121_box fzero) c121_ray fzero fone (fzero :: rest) = None.
Proof.
  intros L.
  assert (N : forall x, fminus B754_nan x = B754_nan) by (intros x; now destruct x).
  assert (E1 : fminus fone fzero = fone) by (apply B2SF_inj; vm_compute; reflexivity). assert (E2 : fdivide fone fzero = B754_infinity false) by (apply B2SF_inj; vm_compute; reflexivity). assert (E3 : fmult fzero (B754_infinity false) = B754_nan) by reflexivity.
  assert (N2 : forall x, fminus x B754_nan = B754_nan) by (intros x; now destruct x). assert (N3 : forall x, flt_leb x B754_nan = false) by (intros x; now destruct x).
  assert (N4 : forall x, flt_ltb x B754_nan = false) by (intros x; now destruct x).
  unfold ftransmittance, fsample_distance. destruct (fisect_range _ _ _ _) as [[hit l] h] eqn:I. assert (Hh : hit = true) by (change hit with (fst (fst (hit, l, h))); rewrite <- I; vm_compute; reflexivity). rewrite Hh. cbn [negb]. split.
  - cbn [fratio fconstant fv_max]. cbv zeta. rewrite E1, L, E2, E3, N2, N3. match goal with |- fratio _ _ _ _ _ _ ?x = None => generalize x end. clear. assert (N : forall x, fminus B754_nan x = B754_nan) by (intros x; now destruct x). assert (N3 : forall x, flt_leb x B754_nan = false) by (intros x; now destruct x).
    induction rest as [|u us IH]; intros tr; [reflexivity|]. cbn [fratio]. cbv zeta. rewrite N, N3. apply IH.
  - assert (C : fcollide fzero fzero = B754_nan) by (unfold fcollide; rewrite E2; exact E3).
    assert (G : forall n us, (List.length us <= n)%nat -> fdelta log (fconstant c121_box fzero) c121_ray h us B754_nan = None).
    { induction n as [|n IH]; intros us Ln; [destruct us; [reflexivity|cbn in Ln; lia]|]. destruct us as [|u us]; [reflexivity|]. cbn [fdelta fconstant fv_max fv_scalar]. cbv zeta. rewrite N, N3. destruct us as [|w us]; [reflexivity|]. rewrite C, N4. apply IH. cbn in Ln. lia. }
    cbn [fdelta fconstant fv_max fv_scalar]. cbv zeta. rewrite E1, L, E2, E3, N2, N3. destruct rest as [|w us]; [reflexivity|]. rewrite C, N4. exact (G _ us (Nat.le_refl _)).
Qed.
Print Assumptions C121_ends_refuted.
(** Where the density is the maximum, a collision is not certain: the product with the rounded reciprocal can be below one. *)
Theorem C121_certain_refuted : ~ forall m, usual_max m -> val (fcollide m m) = 1.
Proof.
  intros H. assert (F : finite (fmake 49 0) = true) by reflexivity. assert (V : val (fmake 49 0) = 49).
  { destruct (val_sf (fmake 49 0) 6896136929411072 (-47)) as [_ V]; [reflexivity|]. rewrite V. cbn [bpow]. change (Z.pow_pos radix2 47) with 140737488355328%Z. lra. }
  assert (U : usual_max (fmake 49 0)).
  { split; [exact F|]. rewrite V. split; [apply Rle_trans with 1; [|lra]; rewrite inv_pow_bpow; change 1 with (bpow radix2 0); apply bpow_le; lia|]. apply Rle_trans with (2 ^ 6); [lra|]. apply Rle_pow; [lra|lia]. }
  assert (E := H _ U). assert (W : exists m e, sf_num (B2SF (fcollide (fmake 49 0) (fmake 49 0))) = Some (m, e) /\ (m = 9007199254740991)%Z /\ (e = -53)%Z) by (do 2 eexists; vm_compute; repeat split). destruct W as (mm & e & S & -> & ->). apply val_sf in S as [_ S]. rewrite S in E. cbn [bpow] in E. change (Z.pow_pos radix2 53) with 9007199254740992%Z in E. lra.
Qed.
Print Assumptions C121_certain_refuted.

(** ** The hypotheses are met *)
Example C121_instance : built (fmulti [fconstant c121_box fone; fmulti [fsphere c121_box (c121_vec 0 0 0) fone fone; fconstant c121_box (fmake 3 (-2))]]).
Proof.
  assert (P1 : 0 <= val fone) by (rewrite fone_val; lra). assert (P2 : 0 <= val (fmake 3 (-2))).
  { destruct (val_sf (fmake 3 (-2)) 6755399441055744 (-53)) as [_ V]; [reflexivity|]. rewrite V. apply Rmult_le_pos; [lra|apply bpow_ge_0]. }
  apply Built_multi; [|vm_compute; reflexivity]. intros v [<-|[<-|[]]]; [now constructor; [exact fone_finite|]|]. apply Built_multi; [|vm_compute; reflexivity]. intros v [<-|[<-|[]]]; constructor; try assumption; try exact fone_finite.
Qed.
Example C121_usual_instance : usual_max fone.
Proof. split; [exact fone_finite|]. rewrite fone_val. split; [rewrite inv_pow_bpow; change 1 with (bpow radix2 0); apply bpow_le; lia|]. apply pow_R1_Rle. lra. Qed.
