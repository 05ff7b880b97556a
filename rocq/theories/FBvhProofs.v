From Coq Require Import List Reals ZArith Bool Lra Lia Psatz Permutation Arith.
From Flocq Require Import Core.Core IEEE754.BinarySingleNaN.
From Verif Require Import Base RngModel FltModel FltProofs FDistSpec FDistProofs FBoundModel FBoundSpec FBoundProofs FFilmProofs FBvhModel FBvhSpec.
Import ListNotations.
Local Open Scope R_scope.

(** ** Sizes *)
Lemma bpow_format k : (-1074 <= k)%Z -> generic_format radix2 fexp64 (bpow radix2 k).
Proof. intros H. apply generic_format_bpow. unfold fexp64, SpecFloat.fexp, SpecFloat.emin. lia. Qed.
Lemma rnd_size x k : (-1074 <= k)%Z -> Rabs x <= bpow radix2 k -> Rabs (rnd x) <= bpow radix2 k.
Proof. intros K H. apply abs_round_le_generic; auto with typeclass_instances. now apply bpow_format. Qed.
Lemma of_key z x k : (-1074 <= k < 1024)%Z -> is_nan z = false /\ key z = clamp (rnd x) -> Rabs x <= bpow radix2 k -> sized k z /\ val z = rnd x.
Proof.
  intros K [N E] B. assert (R := rnd_size x k ltac:(lia) B). destruct (result_finite z x N E) as [F V].
  - apply Rle_lt_trans with (1 := R). apply bpow_lt. lia.
  - split; [split; [assumption|]|assumption]. now rewrite V.
Qed.
Lemma sized_plus k x y : (-1074 <= k + 1 < 1024)%Z -> sized k x -> sized k y -> sized (k + 1) (fplus x y).
Proof.
  intros K [Fx Bx] [Fy By]. refine (proj1 (of_key _ _ _ K (fplus_key x y Fx Fy) _)).
  apply Rle_trans with (1 := Rabs_triang _ _). rewrite bpow_plus. change (bpow radix2 1) with 2. lra.
Qed.
Lemma sized_minus k x y : (-1074 <= k + 1 < 1024)%Z -> sized k x -> sized k y -> sized (k + 1) (fminus x y).
Proof.
  intros K [Fx Bx] [Fy By]. refine (proj1 (of_key _ _ _ K (fminus_key x y Fx Fy) _)). unfold Rminus.
  apply Rle_trans with (1 := Rabs_triang _ _). rewrite Rabs_Ropp, bpow_plus. change (bpow radix2 1) with 2. lra.
Qed.
Lemma sized_mult j k x y : (-1074 <= j + k < 1024)%Z -> sized j x -> sized k y -> sized (j + k) (fmult x y).
Proof.
  intros K [Fx Bx] [Fy By]. refine (proj1 (of_key _ _ _ K (fmult_key x y Fx Fy) _)).
  rewrite Rabs_mult, bpow_plus. apply Rmult_le_compat; auto using Rabs_pos.
Qed.
Lemma sized_le j k x : (j <= k)%Z -> sized j x -> sized k x.
Proof. intros L [F B]. split; [assumption|]. apply Rle_trans with (1 := B). now apply bpow_le. Qed.

Lemma fvsub_size k a b : (-1074 <= k + 1 < 1024)%Z -> vsized k a -> vsized k b -> vsized (k + 1) (fvsub a b).
Proof. intros K A B [|[|i]]; cbn; apply sized_minus; auto; [apply (A 0%nat)|apply (B 0%nat)|apply (A 1%nat)|apply (B 1%nat)|apply (A 2%nat)|apply (B 2%nat)]. Qed.
Lemma fcross_size j k a b : (-1074 <= j + k)%Z -> (j + k + 1 < 1024)%Z -> vsized j a -> vsized k b -> vsized (j + k + 1) (fcross a b).
Proof.
  intros K L A B. assert (M : forall i i', sized (j + k) (fmult (fcomp a i) (fcomp b i')) /\ sized (j + k) (fmult (fcomp b i) (fcomp a i'))).
  { intros i i'. split; [|rewrite Z.add_comm]; apply sized_mult; try lia; auto. }
  intros [|[|i]]; cbn; (apply sized_minus; [lia| |]).
  - apply (M 1%nat 2%nat). - apply (M 1%nat 2%nat). - apply (M 2%nat 0%nat). - apply (M 2%nat 0%nat). - apply (M 0%nat 1%nat). - apply (M 0%nat 1%nat).
Qed.
Lemma fdot_size j k a b : (-1074 <= j + k)%Z -> (j + k + 2 < 1024)%Z -> vsized j a -> vsized k b -> sized (j + k + 2) (fdot a b).
Proof.
  intros K L A B. assert (M : forall i, sized (j + k) (fmult (fcomp a i) (fcomp b i))) by (intros i; apply sized_mult; auto; lia).
  unfold fdot. replace (j + k + 2)%Z with (j + k + 1 + 1)%Z by lia. apply sized_plus; [lia| |].
  - apply sized_plus; [lia|apply (M 0%nat)|apply (M 1%nat)].
  - apply sized_le with (j := (j + k)%Z); [lia|apply (M 2%nat)].
Qed.

Lemma val_neg1 : finite (Bopp fone) = true /\ val (Bopp fone) = -1.
Proof. split; [unfold finite; rewrite is_finite_Bopp; exact fone_finite|unfold val; rewrite B2R_Bopp; fold (val fone); rewrite fone_val; lra]. Qed.

Lemma tiny_eta : / 2 ^ 1074 <= eps / 8.
Proof.
  rewrite inv_pow_bpow. change eps with (/ 2 ^ 53). rewrite inv_pow_bpow. replace (bpow radix2 (- Z.of_nat 53) / 8) with (bpow radix2 (-53 + -3)) by (rewrite bpow_plus; unfold Rdiv; reflexivity).
  apply bpow_le. lia.
Qed.

(** ** The triangle test *)
Section Tri.
  Variable k : ftri. Variable r : fray. Hypothesis K : usual_tri k. Hypothesis Hr : usual_ray r.

  Lemma edges : vsized 200 (fp1 k) /\ vsized 201 (fe1 k) /\ vsized 201 (fe2 k).
  Proof.
    destruct K as (p1 & p2 & p3 & A & B & C & ->). cbn [new_ftri fp1 fe1 fe2]. split; [assumption|].
    split; apply (fvsub_size 200); auto; lia.
  Qed.

  Lemma hit_parts tl th t u v : finite tl = true -> finite th = true -> ftri_isect k r tl th = Some (t, u, v) ->
    finite t = true /\ val tl <= val t <= val th /\
    finite u = true /\ finite v = true /\ 0 <= val u <= 1 /\ 0 <= val v <= 1 /\ val u + val v <= 1 + 4 * eps.
  Proof.
    intros Fl Fh. destruct edges as (P1 & E1 & E2). destruct Hr as [Ho Hd]. unfold ftri_isect.
    set (p := fcross (fd r) (fe2 k)). set (tv := fvsub (fo r) (fp1 k)). set (q := fcross tv (fe1 k)). set (d := fdot (fe1 k) p).
    assert (Sp : vsized 402 p) by (apply (fcross_size 200 201); auto; lia).
    assert (St : vsized 201 tv) by (apply (fvsub_size 200); auto; lia).
    assert (Sq : vsized 403 q) by (apply (fcross_size 201 201); auto; lia).
    assert (Sd : sized 605 d) by (apply (fdot_size 201 402); auto; lia).
    assert (Su : sized 605 (fdot tv p)) by (apply (fdot_size 201 402); auto; lia).
    assert (Sv : sized 605 (fdot (fd r) q)) by (apply (fdot_size 200 403); auto; lia).
    assert (Sn : sized 606 (fdot (fe2 k) q)) by (apply (fdot_size 201 403); auto; lia).
    set (s := if Bsign d then Bopp fone else fone).
    assert (Ss : sized 0 s).
    { unfold s. destruct val_neg1 as [F V]. destruct (Bsign d); split; auto using fone_finite; [rewrite V|rewrite fone_val]; cbn [bpow]; rewrite ?Rabs_R1; [|lra]. rewrite Rabs_left; lra. }
    set (u0 := fmult (fdot tv p) s). set (v0 := fmult (fdot (fd r) q) s).
    assert (Su0 : sized 605 u0) by (apply (sized_mult 605 0); auto; lia).
    assert (Sv0 : sized 605 v0) by (apply (sized_mult 605 0); auto; lia).
    set (ad := Babs d). assert (Sa : sized 605 ad /\ 0 <= val ad).
    { destruct Sd as [F B]. unfold ad. split; [split; [unfold finite; now rewrite is_finite_Babs|]|]; unfold val; rewrite B2R_Babs; fold (val d); [|apply Rabs_pos].
      now rewrite Rabs_Rabsolu. }
    destruct Sa as [Sa Pa].
    assert (Sw : sized 606 (fplus u0 v0)) by (apply (sized_plus 605); auto; lia).
    destruct (flt_ltb ad ftri_eps) eqn:Ta; [discriminate|]. destruct (flt_ltb u0 fzero) eqn:Tu; [discriminate|].
    destruct (flt_ltb v0 fzero) eqn:Tv; [discriminate|]. destruct (flt_ltb ad (fplus u0 v0)) eqn:Tw; [discriminate|]. cbn [orb].
    destruct Su0 as [Fu Bu], Sv0 as [Fv Bv], Sa as [Fa Ba], Sw as [Fw Bw], Sn as [Fn Bn], Sd as [Fd Bd].
    assert (Fe : finite ftri_eps = true /\ val ftri_eps = IZR 6189700196426902 * bpow radix2 (-79)) by (apply val_sf; vm_compute; reflexivity).
    destruct Fe as [Fe Ve].
    assert (Cmp : forall x y, finite x = true -> finite y = true -> flt_ltb x y = false -> val y <= val x).
    { intros x y Fx Fy. rewrite ltb_key by now apply finite_not_nan. rewrite !key_finite by assumption. case Rlt_bool_spec; [discriminate|trivial]. }
    apply Cmp in Ta; auto. apply Cmp in Tu; [|assumption|reflexivity]. apply Cmp in Tv; [|assumption|reflexivity]. apply Cmp in Tw; auto.
    replace (val fzero) with 0 in Tu, Tv by reflexivity.
    (* the divisor is not small *)
    assert (Big : bpow radix2 (-27) <= val ad).
    { apply Rle_trans with (2 := Ta). rewrite Ve. replace (bpow radix2 (-27)) with (bpow radix2 52 * bpow radix2 (-79)) by (now rewrite <- bpow_plus).
      apply Rmult_le_compat_r; [apply bpow_ge_0|]. replace (bpow radix2 52) with (IZR (2 ^ 52)) by reflexivity. apply IZR_le. lia. }
    assert (Pos : 0 < bpow radix2 (-27)) by apply bpow_gt_0.
    assert (Ad : Rabs (val d) = val ad) by (unfold ad, val; now rewrite B2R_Babs).
    assert (D0 : val d <> 0) by (intros Z; rewrite Z, Rabs_R0 in Ad; lra).
    destruct (of_key (fdivide (fdot (fe2 k) q) d) _ 633 ltac:(lia) (fdivide_key _ d Fn Fd D0)) as [[Ft Bt] _].
    { unfold Rdiv. rewrite Rabs_mult, Rabs_inv, Ad. change 633%Z with (606 + 27)%Z. rewrite bpow_plus.
      apply Rmult_le_compat; auto using Rabs_pos; [left; apply Rinv_0_lt_compat; lra|].
      replace (bpow radix2 27) with (/ bpow radix2 (-27)) by (rewrite <- bpow_opp; reflexivity). apply Rinv_le; lra. }
    destruct (flt_ltb (fdivide (fdot (fe2 k) q) d) tl) eqn:T1; [discriminate|]. destruct (flt_ltb th (fdivide (fdot (fe2 k) q) d)) eqn:T2; [discriminate|].
    cbn [orb]. intros [= <- <- <-]. apply Cmp in T1; auto. apply Cmp in T2; auto.
    split; [assumption|]. split; [lra|].
    (* the coordinates *)
    destruct (fplus_key u0 v0 Fu Fv) as [Nw Kw]. assert (Vw := finite_result _ _ Nw Kw Fw).
    assert (Uw : val u0 <= val ad) by (apply Rle_trans with (2 := Tw); rewrite Vw, <- (rnd_val u0) at 1; apply rnd_mono; lra).
    assert (Vv : val v0 <= val ad) by (apply Rle_trans with (2 := Tw); rewrite Vw, <- (rnd_val v0) at 1; apply rnd_mono; lra).
    assert (Quot : forall x, finite x = true -> 0 <= val x <= val ad -> finite (fdivide x ad) = true /\ val (fdivide x ad) = rnd (val x / val ad) /\ 0 <= val (fdivide x ad) <= 1).
    { intros x Fx Bx. assert (In : 0 <= val x / val ad <= 1).
      { split; [apply Rmult_le_pos; [lra|left; apply Rinv_0_lt_compat; lra]|]. apply Rmult_le_reg_r with (val ad); [lra|]. unfold Rdiv. rewrite Rmult_assoc, Rinv_l by lra. lra. }
      destruct (of_key (fdivide x ad) _ 0 ltac:(lia) (fdivide_key x ad Fx Fa ltac:(lra))) as [[F B] V].
      - cbn [bpow]. rewrite Rabs_pos_eq; lra.
      - split; [assumption|]. split; [assumption|]. rewrite V. rewrite <- rnd_1, <- rnd_0 at 1. split; apply rnd_mono; lra. }
    destruct (Quot u0 Fu ltac:(lra)) as (Qu1 & Qu2 & Qu3). destruct (Quot v0 Fv ltac:(lra)) as (Qv1 & Qv2 & Qv3).
    repeat (split; [assumption || lra|]). rewrite Qu2, Qv2.
    destruct (plus_error u0 v0) as (de & De & E). apply Rabs_le_inv in De. assert (P := eps_pos). assert (Es := eps_small).
    rewrite <- Vw in E.
    assert (Ru := rnd_any (val u0 / val ad)). assert (Rv := rnd_any (val v0 / val ad)). assert (Eta := tiny_eta). revert Ru Rv Eta.
    generalize (/ 2 ^ 1074). intros eta Ru Rv Eta. change (/ 2 ^ 53) with eps in Ru, Rv.
    rewrite Rabs_pos_eq with (x := val u0 / val ad) in Ru by (apply Rmult_le_pos; [lra|left; apply Rinv_0_lt_compat; lra]).
    rewrite Rabs_pos_eq with (x := val v0 / val ad) in Rv by (apply Rmult_le_pos; [lra|left; apply Rinv_0_lt_compat; lra]).
    apply Rabs_le_inv in Ru, Rv.
    assert (Sum : val u0 / val ad + val v0 / val ad <= 1 + 2 * eps).
    { apply Rmult_le_reg_r with (val ad); [lra|]. replace ((val u0 / val ad + val v0 / val ad) * val ad) with (val u0 + val v0) by (field; lra).
      assert (H : (val u0 + val v0) * (1 - eps) <= val ad) by (apply Rle_trans with ((val u0 + val v0) * (1 + de)); [apply Rmult_le_compat_l; lra|rewrite <- E; exact Tw]).
      assert (H2 : (val u0 + val v0) <= 2 * val ad) by lra. nra. }
    nra.
  Qed.

  Lemma hit_widen tl th th' t u v : finite tl = true -> finite th = true -> finite th' = true -> val th <= val th' ->
    ftri_isect k r tl th = Some (t, u, v) -> ftri_isect k r tl th' = Some (t, u, v).
  Proof.
    intros Fl Fh Fh' L H. destruct (hit_parts tl th t u v Fl Fh H) as (Ft & Bt & _). revert H. unfold ftri_isect.
    destruct (_ || _ || _ || _); [discriminate|]. set (t' := fdivide _ _). destruct (flt_ltb t' tl) eqn:T1; [discriminate|]. destruct (flt_ltb th t') eqn:T2; [discriminate|].
    cbn [orb]. intros H. assert (E1 : t' = t) by congruence. assert (X : flt_ltb th' t' = false).
    { rewrite E1. rewrite ltb_key by now apply finite_not_nan. rewrite !key_finite by assumption. apply Rlt_bool_false. lra. }
    rewrite X. exact H.
  Qed.
  Lemma hit_shrink tl th th' t u v : finite tl = true -> finite th = true -> finite th' = true -> val t <= val th' ->
    ftri_isect k r tl th = Some (t, u, v) -> ftri_isect k r tl th' = Some (t, u, v).
  Proof.
    intros Fl Fh Fh' L H. destruct (hit_parts tl th t u v Fl Fh H) as (Ft & Bt & _). revert H. unfold ftri_isect.
    destruct (_ || _ || _ || _); [discriminate|]. set (t' := fdivide _ _). destruct (flt_ltb t' tl) eqn:T1; [discriminate|]. destruct (flt_ltb th t') eqn:T2; [discriminate|].
    cbn [orb]. intros H. assert (E1 : t' = t) by congruence. assert (X : flt_ltb th' t' = false).
    { rewrite E1. rewrite ltb_key by now apply finite_not_nan. rewrite !key_finite by assumption. apply Rlt_bool_false. lra. }
    rewrite X. exact H.
  Qed.
End Tri.

(** ** The traversal *)
Lemma usual_box k : usual_tri k -> box_ok (ftb k).
Proof.
  intros (p1 & p2 & p3 & A & B & C & ->). cbn [new_ftri ftb].
  assert (V : forall v, vsized 200 v -> vec_ok v) by (intros v V i; apply V).
  repeat (apply fmerge_point_ok; [|auto]). exact new_fbound_ok.
Qed.

Lemma ftree_bounds trs nds idx ni s e d u : ftree trs nds idx ni s e d u -> (s < e)%nat.
Proof. induction 1; lia. Qed.
Lemma ftree_height trs nds idx ni s e d u : ftree trs nds idx ni s e d u -> (d + 1 <= e - s /\ length u + 1 <= 2 * (e - s))%nat.
Proof.
  induction 1 as [ni s e L Lf S E C|ni s m e d1 d2 u1 u2 Lf C T1 IH1 T2 IH2]; [cbn; lia|].
  apply ftree_bounds in T1, T2. cbn [length]. rewrite app_length. lia.
Qed.

Section Query.
  Local Open Scope nat_scope.
  Variable trs : list ftri.
  Variable nds : nat -> fnode.
  Variable num_nodes : nat.
  Variable idx : list nat.
  Variable r : fray.
  Variable tmin : flt.
  Hypothesis all_usual : Forall usual_tri trs.
  Hypothesis ray_usual : usual_ray r.
  Hypothesis ray_off : forall k, In k trs -> off_faces (ftb k) r.
  Hypothesis fin_min : finite tmin = true.
  Hypothesis idx_ok : forall i k, nth_error idx i = Some k -> k < length trs.

  Definition at_pos (i : nat) (k : ftri) : Prop := exists j, nth_error idx i = Some j /\ nth_error trs j = Some k.
  Definition tval (h : flt * flt * flt) : R := val (fst (fst h)).
  Definition found (h : flt * flt * flt) (i : nat) : fbest := mk_fbest (Some (h, i)) (fst (fst h)).

  Definition good (s e : nat) (b b' : fbest) : Prop :=
    finite (fb_tmax b') = true /\ (val (fb_tmax b') <= val (fb_tmax b))%R
    /\ (b' = b \/ exists i k h, s <= i < e /\ at_pos i k /\ ftri_isect k r tmin (fb_tmax b) = Some h /\ b' = found h i)
    /\ (forall i k h, s <= i < e -> at_pos i k -> ftri_isect k r tmin (fb_tmax b) = Some h -> fisect (ftb k) r tmin (fst (fst h)) = true ->
          (val (fb_tmax b') <= tval h)%R /\ fb_hit b' <> None).

  Lemma at_usual i k : at_pos i k -> usual_tri k.
  Proof. intros (j & _ & H). rewrite Forall_forall in all_usual. eapply all_usual, nth_error_In, H. Qed.
  Lemma hit_fin k th h : usual_tri k -> finite th = true -> ftri_isect k r tmin th = Some h -> finite (fst (fst h)) = true /\ (tval h <= val th)%R.
  Proof. destruct h as [[t u] v]. intros K F H. destruct (hit_parts k r K ray_usual tmin th t u v fin_min F H) as (A & B & _). split; [exact A|]. unfold tval. cbn. lra. Qed.
  Lemma widen k th th' h : usual_tri k -> finite th = true -> finite th' = true -> (val th <= val th')%R -> ftri_isect k r tmin th = Some h -> ftri_isect k r tmin th' = Some h.
  Proof. destruct h as [[t u] v]. intros K A B C D. exact (hit_widen k r K ray_usual tmin th th' t u v fin_min A B C D). Qed.
  Lemma shrink k th th' h : usual_tri k -> finite th = true -> finite th' = true -> (tval h <= val th')%R -> ftri_isect k r tmin th = Some h -> ftri_isect k r tmin th' = Some h.
  Proof. destruct h as [[t u] v]. intros K A B C D. exact (hit_shrink k r K ray_usual tmin th th' t u v fin_min A B C D). Qed.

  Lemma good_refl s b : finite (fb_tmax b) = true -> good s s b b.
  Proof. intros F. split; [assumption|]. split; [lra|]. split; [auto|]. intros; lia. Qed.

  (** Two stretches one after the other, searched in either order *)
  Lemma good_join s e s1 e1 s2 e2 b b1 b2 : finite (fb_tmax b) = true -> (forall i, s1 <= i < e1 \/ s2 <= i < e2 <-> s <= i < e) ->
    good s1 e1 b b1 -> good s2 e2 b1 b2 -> good s e b b2.
  Proof.
    intros F0 L (F1 & A1 & B1 & C1) (F2 & A2 & B2 & C2). split; [assumption|]. split; [lra|]. split.
    - destruct B2 as [->|(i & k & h & I & P & T & ->)].
      + destruct B1 as [->|(i & k & h & I & P & T & ->)]; [auto|]. right. exists i, k, h. repeat split; auto; apply L; auto.
      + right. exists i, k, h. split; [apply L; auto|]. split; [auto|]. split; [|auto]. eapply widen with (th := fb_tmax b1); eauto using at_usual.
    - intros i k h I P T X. assert (U := at_usual _ _ P). destruct (hit_fin k _ h U F0 T) as [Fh Lh]. apply L in I as [I|I].
      + destruct (C1 i k h I P T X) as [Q Y]. split; [lra|]. destruct B2 as [->|(i2 & k2 & h2 & _ & _ & _ & ->)]; [auto|]. cbn. discriminate.
      + destruct (Rle_dec (tval h) (val (fb_tmax b1))) as [L1|L1].
        * apply (C2 i k h); auto. eapply shrink; [assumption|exact F0|exact F1|exact L1|exact T].
        * split; [lra|]. destruct B1 as [->|(i1 & k1 & h1 & _ & _ & _ & ->)]; [exfalso; lra|].
          destruct B2 as [->|(i2 & k2 & h2 & _ & _ & _ & ->)]; cbn; discriminate.
  Qed.

  (** A box that the ray misses has no triangle to offer whose own box passes. *)
  Lemma good_skip s e b bx : finite (fb_tmax b) = true -> box_ok bx /\ off_faces bx r -> fcovers trs idx bx s e -> fisect bx r tmin (fb_tmax b) = false -> good s e b b.
  Proof.
    intros F [Bk Bo] C N. split; [assumption|]. split; [lra|]. split; [auto|]. intros i k h I P T X. exfalso.
    assert (U := at_usual _ _ P). destruct (hit_fin k _ h U F T) as [Fh Lh]. destruct P as (j & P1 & P2).
    assert (Y : fisect bx r tmin (fb_tmax b) = true).
    { refine (nested (ftb k) bx r tmin _ tmin _ (usual_box k U) Bk _ _ _ (C i j k I P1 P2) fin_min Fh fin_min F _ Lh X).
      - split; intros a; apply ray_usual.
      - eapply ray_off, nth_error_In, P2.
      - exact Bo.
      - lra. }
    congruence.
  Qed.

  Lemma leaf_loop_ok n : forall s b, finite (fb_tmax b) = true -> s + n <= length idx -> exists b', fleaf_loop trs idx r tmin (seq s n) b = Ok b' /\ good s (s + n) b b'.
  Proof.
    induction n as [|n IH]; intros s b F L; cbn [seq fleaf_loop].
    - exists b. split; auto. rewrite Nat.add_0_r. now apply good_refl.
    - destruct (nth_error idx s) as [k|] eqn:Ek; [|apply nth_error_None in Ek; lia].
      pose proof (idx_ok _ _ Ek) as Lk. destruct (nth_error trs k) as [tri|] eqn:Et; [|apply nth_error_None in Et; lia].
      assert (P : at_pos s tri) by (exists k; auto). assert (U := at_usual _ _ P).
      assert (One : forall i k', s <= i < S s -> at_pos i k' -> k' = tri).
      { intros i k' I (j & J1 & J2). replace i with s in J1 by lia. congruence. }
      replace (s + S n) with (S s + n) by lia.
      destruct (ftri_isect tri r tmin (fb_tmax b)) as [[[t u] v]|] eqn:T.
      + destruct (hit_fin tri _ _ U F T) as [Fh Lh]. cbn [fst] in Fh.
        destruct (IH (S s) (mk_fbest (Some (t, u, v, s)) t)) as (b' & E & G); [assumption|lia|]. exists b'. split; auto.
        eapply (good_join s _ s (S s)); [assumption| | |exact G]; [intros; lia|].
        split; [assumption|]. split; [exact Lh|]. split.
        * right. exists s, tri, (t, u, v). repeat split; auto; lia.
        * intros i k' h' I P' T' X. rewrite (One i k') in T' by auto. rewrite T in T'. injection T' as <-. cbn. split; [unfold tval; cbn; lra|discriminate].
      + destruct (IH (S s) b) as (b' & E & G); [assumption|lia|]. exists b'. split; auto.
        eapply (good_join s _ s (S s)); [assumption| | |exact G]; [intros; lia|]. split; [assumption|]. split; [lra|]. split; [auto|].
        intros i k' h' I P' T'. rewrite (One i k') in T' by auto. congruence.
  Qed.

  Lemma run_ok ni s e d u : ftree trs nds idx ni s e d u -> e <= length idx -> (forall k, In k u -> k < num_nodes /\ box_ok (fnb (nds k)) /\ off_faces (fnb (nds k)) r) ->
    forall rest b, finite (fb_tmax b) = true -> length rest + 1 + d <= 99 ->
    exists n b', n <= length u /\ good s e b b' /\ forall f, frun trs nds num_nodes idx r tmin (n + f) (ni :: rest) b = frun trs nds num_nodes idx r tmin f rest b'.
  Proof.
    induction 1 as [ni s e L Lf S E C|ni s m e d1 d2 u1 u2 Lf C T1 IH1 T2 IH2]; intros Le U rest b F D.
    - destruct (U ni (or_introl eq_refl)) as [Hn Bn]. apply Nat.leb_gt in Hn.
      destruct (fisect (fnb (nds ni)) r tmin (fb_tmax b)) eqn:Is.
      + destruct (leaf_loop_ok (e - s) s b F) as (b' & E1 & G); [lia|]. replace (s + (e - s)) with e in G by lia.
        exists 1, b'. split; [cbn; lia|]. split; [exact G|]. intros f. cbn [Nat.add frun]. rewrite Hn, Is, Lf, S, E. cbn [negb]. rewrite E1. reflexivity.
      + exists 1, b. split; [cbn; lia|]. split; [eapply good_skip; eauto|]. intros f. cbn [Nat.add frun]. rewrite Hn, Is. reflexivity.
    - destruct (U ni (or_introl eq_refl)) as [Hn Bn]. apply Nat.leb_gt in Hn.
      pose proof (ftree_bounds _ _ _ _ _ _ _ _ T1) as L1. pose proof (ftree_bounds _ _ _ _ _ _ _ _ T2) as L2.
      destruct (fisect (fnb (nds ni)) r tmin (fb_tmax b)) eqn:Is.
      + destruct (IH2 Le) with (rest := fc1 (nds ni) :: rest) (b := b) as (n2 & b2 & N2 & G2 & R2).
        { intros k K. apply U. right. apply in_app_iff; auto. } { assumption. } { cbn [length]. lia. }
        destruct IH1 with (rest := rest) (b := b2) as (n1 & b1 & N1 & G1 & R1).
        { lia. } { intros k K. apply U. right. apply in_app_iff; auto. } { apply G2. } { lia. }
        exists (1 + (n2 + n1)), b1. split; [cbn; rewrite app_length; lia|]. split.
        * eapply (good_join s e m e s m); [exact F| |exact G2|exact G1]. intros; lia.
        * intros f. cbn [Nat.add frun]. rewrite Hn, Is, Lf. cbn [negb].
          destruct (Nat.ltb_spec 99 (length rest + 2)) as [O|O]; [lia|].
          replace (n2 + n1 + f) with (n2 + (n1 + f)) by lia. rewrite R2, R1. reflexivity.
      + exists 1, b. split; [cbn; lia|]. split; [eapply good_skip; eauto|]. intros f. cbn [Nat.add frun]. rewrite Hn, Is. reflexivity.
  Qed.

  Lemma query_ok d u nt fuel tmax : nt = length trs -> Permutation idx (seq 0 nt) -> ftree trs nds idx 0 0 nt d u ->
    (forall k, In k u -> k < num_nodes /\ box_ok (fnb (nds k)) /\ off_faces (fnb (nds k)) r) -> d <= 98 -> length u < fuel -> finite tmax = true ->
    exists res, fquery trs nds num_nodes idx r tmin fuel tmax = Ok res
      /\ match res with
         | None => forall k h, In k trs -> ftri_isect k r tmin tmax = Some h -> fisect (ftb k) r tmin (fst (fst h)) = false
         | Some (t, x, y, j) => exists k, nth_error trs j = Some k /\ ftri_isect k r tmin tmax = Some (t, x, y)
             /\ forall k' h, In k' trs -> ftri_isect k' r tmin tmax = Some h -> fisect (ftb k') r tmin (fst (fst h)) = true -> (val t <= tval h)%R
         end.
  Proof.
    intros En P T U D F Fm.
    assert (Ll : length idx = nt) by (rewrite (Permutation_length P), seq_length; auto).
    assert (Pos : forall k, In k trs -> exists i, 0 <= i < nt /\ at_pos i k).
    { intros k I. apply In_nth_error in I. destruct I as (j & J). assert (Lj : j < length trs) by (apply nth_error_Some; congruence).
      assert (I : In j idx) by (eapply Permutation_in; [symmetry; exact P|]; apply in_seq; lia).
      apply In_nth_error in I. destruct I as (i & I). exists i. split; [|exists j; auto].
      assert (i < length idx) by (apply nth_error_Some; congruence). lia. }
    destruct (run_ok _ _ _ _ _ T ltac:(lia) U [] (mk_fbest None tmax) Fm ltac:(cbn; lia)) as (n & b' & N & (G0 & G1 & G2 & G3) & R).
    unfold fquery. replace fuel with (n + S (fuel - n - 1)) by lia. rewrite R. cbn [frun obind]. cbn [fb_tmax] in *.
    destruct G2 as [->|(i & k & h & I & (j & J1 & J2) & Tk & ->)]; cbn [fb_hit found].
    - exists None. split; auto. intros k h I E. destruct (fisect _ _ _ _) eqn:X; auto. exfalso.
      destruct (Pos k I) as (i & Hi & At). destruct (G3 i k h Hi At E X) as [_ Y]. auto.
    - destruct h as [[t x] y]. rewrite J1, J2. eexists. split; [reflexivity|]. cbn [fb_tmax fst]. exists k. split; [assumption|]. split; [assumption|].
      intros k' h' I' E' X'. destruct (Pos k' I') as (i' & Hi & At). destruct (G3 i' k' h' Hi At E' X') as [Y _]. exact Y.
  Qed.
End Query.
