(** * C116: hits computed in double precision are the hits there are, up to rounding *)
From Coq Require Import List Reals ZArith Bool Lra Lia Psatz.
From Flocq Require Import Core.Core IEEE754.BinarySingleNaN.
From Verif Require Import Base RBase RngModel FltModel FltProofs FDistModel FDistSpec FDistProofs FDistProps FBoundModel FBoundSpec FBoundProofs FFilmModel FFilmProofs FBvhModel FBvhSpec FBvhProofs FDirModel FDirSpec FDirProofs FRasterSpec FCamModel FCamSpec FCamProofs FTriModel FTriSpec FTriProofs FTriProps FHitSpec FHitProofs.
Import ListNotations.
Local Open Scope R_scope.

Section Hits.
Variables (k : Z) (t : ftriangle) (r : fray).
Hypothesis Hk : (-200 <= k <= 200)%Z.
Hypothesis Ht : tsized k t.
Hypothesis Hr : rsized k r.
Let K := bpow radix2 k.

(** Whatever the triangle and the ray, where a hit is reported the point of the ray at the reported distance is that of the
    triangle with the reported coordinates, up to rounding. *)
Theorem C116_point tl th x u v i : ftri_isect (held t) r tl th = Some (x, u, v) ->
  Rabs (ray_pos r (val x) i - tri_pos t (val u) (val v) i) <= eps * (3400 * 134217728 * (K * K * K) + 3 * Rabs (val x) + 5 * K).
Proof.
  intros H. assert (R := residual k t r Hk Ht Hr _ _ _ _ _ i H). fold K in R. apply Rle_trans with (1 := R).
  destruct (hit_is k t r Hk Ht Hr _ _ _ _ _ H) as (Big & _). assert (E := eps_big). assert (Kp : 0 < K) by apply bpow_gt_0. assert (K3 : 0 < K * K * K) by (repeat apply Rmult_lt_0_compat; assumption).
  apply Rmult_le_compat_l; [left; apply eps_pos|]. do 2 apply Rplus_le_compat_r.
  assert (P : 0 < bpow radix2 (-27)) by apply bpow_gt_0. assert (I : / Rabs (val (fD t r)) <= 134217728).
  { replace 134217728 with (/ bpow radix2 (-27)) by (rewrite <- bpow_opp; reflexivity). apply Rinv_le; lra. }
  unfold Rdiv. replace (3400 * 134217728 * (K * K * K)) with (3400 * (K * K * K) * 134217728) by ring. apply Rmult_le_compat_l; lra.
Qed.
(** The more the triangle faces the ray, the better. *)
Theorem C116_point_facing tl th x u v i : 6000 * eps * (K * K) <= facing r t -> ftri_isect (held t) r tl th = Some (x, u, v) ->
  Rabs (ray_pos r (val x) i - tri_pos t (val u) (val v) i) <= eps * (3700 * (K * K * K) / facing r t + 3 * Rabs (val x) + 5 * K).
Proof.
  intros G H. rewrite facing_D in *. assert (G' : 6000 * (eps * K ^ 2) <= Rabs (D t r)) by (replace (6000 * (eps * K ^ 2)) with (6000 * eps * (K * K)) by ring; exact G).
  assert (R := residual k t r Hk Ht Hr _ _ _ _ _ i H). fold K in R. apply Rle_trans with (1 := R).
  assert (P := D_pos k t r G'). destruct (same_sign k t r Hk Ht Hr G') as [_ S]. assert (Kp : 0 < K) by apply bpow_gt_0. assert (K3 : 0 < K * K * K) by (repeat apply Rmult_lt_0_compat; assumption).
  apply Rmult_le_compat_l; [left; apply eps_pos|]. do 2 apply Rplus_le_compat_r. unfold Rdiv.
  assert (I : / Rabs (val (fD t r)) <= 15 / 14 * / Rabs (D t r)).
  { replace (15 / 14 * / Rabs (D t r)) with (/ (14 / 15 * Rabs (D t r))) by (field; lra). apply Rinv_le; lra. }
  assert (Q : 0 < / Rabs (D t r)) by now apply Rinv_0_lt_compat.
  apply Rle_trans with (3400 * (K * K * K) * (15 / 14 * / Rabs (D t r))); [apply Rmult_le_compat_l; lra|].
  replace (3400 * (K * K * K) * (15 / 14 * / Rabs (D t r))) with (3400 * (15 / 14) * (K * K * K) * / Rabs (D t r)) by ring. apply Rmult_le_compat_r; lra.
Qed.
(** A ray not parallel to the plane of the triangle meets it in one point. *)
Theorem C116_meeting : facing r t <> 0 ->
  exists x u v, meets r t x u v /\ forall x' u' v', meets r t x' u' v' -> x' = x /\ u' = u /\ v' = v.
Proof.
  intros N. rewrite facing_D in N. assert (D0 : D t r <> 0) by (intros Z; apply N; rewrite Z; apply Rabs_R0).
  exists (T t r / D t r), (U t r / D t r), (V t r / D t r). split; [now apply parts_meet|]. intros x' u' v' M. destruct (meets_parts t r x' u' v' M) as (A & B & C). rewrite A, B, C. repeat split; field; assumption.
Qed.
Lemma blur_is : blur k r t = 2000 * (eps * K ^ 2) / Rabs (D t r).
Proof. unfold blur. rewrite facing_D. fold K. f_equal. ring. Qed.
(** Where a hit is reported on a triangle that faces the ray enough, the ray meets the triangle at about that distance and
    these coordinates. *)
Theorem C116_accurate tl th x u v : 6000 * eps * (K * K) <= facing r t -> ftri_isect (held t) r tl th = Some (x, u, v) ->
  exists x' u' v', meets r t x' u' v' /\ Rabs (val x - x') <= blur k r t * (K + Rabs x') /\
    Rabs (val u - u') <= blur k r t /\ Rabs (val v - v') <= blur k r t /\
    - blur k r t <= u' /\ - blur k r t <= v' /\ u' + v' <= 1 + 3 * blur k r t.
Proof.
  intros G H. assert (G' : 6000 * (eps * K ^ 2) <= Rabs (D t r)) by (rewrite <- facing_D; replace (6000 * (eps * K ^ 2)) with (6000 * eps * (K * K)) by ring; exact G).
  destruct (hit_is k t r Hk Ht Hr _ _ _ _ _ H) as (_ & _ & Ex & Eu & Ev & Iu & Iv). assert (D0 := D_not0 k t r G').
  exists (T t r / D t r), (U t r / D t r), (V t r / D t r). split; [now apply parts_meet|]. rewrite blur_is.
  destruct (U_close k t r Hk Ht Hr) as (_ & _ & _ & Uc), (V_close k t r Hk Ht Hr) as (_ & _ & _ & Vc).
  assert (Nu := coord_near k t r Hk Ht Hr G' _ _ Uc Iu). assert (Nv := coord_near k t r Hk Ht Hr G' _ _ Vc Iv). rewrite <- Eu in Nu. rewrite <- Ev in Nv. fold K in Nu, Nv.
  split; [rewrite Ex; exact (dist_near k t r Hk Ht Hr G')|]. split; [assumption|]. split; [assumption|].
  assert (UT : usual_tri (held t)).
  { destruct Ht as (A & B & C). assert (Up : forall w, vsized k w -> vsized 200 w) by (intros w W i; apply (sized_le k); [lia|apply W]). exists (tp1 t), (tp2 t), (tp3 t). auto. }
  assert (UR : usual_ray r).
  { destruct Hr as (A & B). split; intros i; [apply (sized_le k); [lia|apply A]|apply (sized_le 1); [lia|apply B]]. }
  assert (Ed := eps_del k t r Hk Ht Hr G'). fold K in Ed. set (de := 2000 * (eps * K ^ 2) / Rabs (D t r)) in *.
  assert (Bc : 0 <= val u /\ 0 <= val v /\ val u + val v <= 1 + 4 * eps).
  { revert H. rewrite test_is. intros H. clear - H UT UR Eu Ev Iu Iv Hk Ht Hr. rewrite Eu, Ev. rewrite <- rnd_0 at 1 2. split; [apply rnd_mono; lra|]. split; [apply rnd_mono; lra|].
    rewrite <- Eu, <- Ev. rewrite <- (test_is t r tl th) in H.
    assert (Hh : exists tl' th', finite tl' = true /\ finite th' = true /\ ftri_isect (held t) r tl' th' = Some (x, u, v)).
    { exists x, x. revert H. rewrite !test_is. cbv zeta. destruct (_ || _ || _ || _) eqn:Q; [discriminate|]. destruct (flt_ltb (fdivide (fT t r) (fD t r)) tl || flt_ltb th (fdivide (fT t r) (fD t r))); [discriminate|]. intros [= <- <- <-].
      assert (Fx : finite (fdivide (fT t r) (fD t r)) = true).
      { apply orb_false_elim in Q. destruct Q as [Q _]. apply orb_false_elim in Q. destruct Q as [Q _]. apply orb_false_elim in Q. destruct Q as [Q _].
        destruct (fad_ok k t r Hk Ht Hr) as [Fa Va]. apply ltb_false in Q; [|assumption|apply eps_ok]. rewrite Va in Q. assert (E := eps_big). apply (quot_ok k t r Hk Ht Hr). lra. }
      split; [assumption|]. split; [assumption|]. assert (L : flt_ltb (fdivide (fT t r) (fD t r)) (fdivide (fT t r) (fD t r)) = false) by (apply ltb_false; auto; lra). rewrite L. reflexivity. }
    destruct Hh as (tl' & th' & Fl & Fh & Hh). destruct (hit_parts (held t) r UT UR tl' th' x u v Fl Fh Hh) as (_ & _ & _ & _ & _ & _ & W). exact W. }
  apply Rabs_le_inv in Nu. apply Rabs_le_inv in Nv. assert (Dp : 0 < de) by (exact (del_pos k t r G')). lra.
Qed.
(** Where the ray meets the triangle well inside it, well inside the range of distances, a hit is reported. *)
Theorem C116_found_partial tl th x u v : meets r t x u v -> / 50000000 <= facing r t ->
  blur k r t <= u -> blur k r t <= v -> u + v <= 1 - blur k r t ->
  range_holds tl th (x - blur k r t * (K + Rabs x)) (x + blur k r t * (K + Rabs x)) ->
  exists x' u' v', ftri_isect (held t) r tl th = Some (x', u', v') /\
    Rabs (val x' - x) <= blur k r t * (K + Rabs x) /\ Rabs (val u' - u) <= blur k r t /\ Rabs (val v' - v) <= blur k r t.
Proof.
  intros M Fc Bu Bv Bw (Fl & Fh & Bl & Bh). rewrite blur_is in *. rewrite facing_D in Fc. set (de := 2000 * (eps * K ^ 2) / Rabs (D t r)) in *.
  assert (P : 0 < Rabs (D t r)) by lra. assert (E2 : de * Rabs (D t r) = 2000 * (eps * K ^ 2)) by (unfold de; field; lra).
  assert (G' : 6000 * (eps * K ^ 2) <= Rabs (D t r)).
  { replace (6000 * (eps * K ^ 2)) with (3 * (de * Rabs (D t r))) by lra. assert (X := Rmult_le_compat_r (Rabs (D t r)) (3 * de) 1 ltac:(lra) ltac:(lra)). lra. }
  destruct (meets_parts t r x u v M) as (EU & EV & ET). assert (D0 := D_not0 k t r G'). assert (K2 := K2_pos k). fold K in K2. destruct (same_sign k t r Hk Ht Hr G') as [Sg Sd].
  destruct (D_close k t r Hk Ht Hr) as (_ & _ & _ & Dc), (U_close k t r Hk Ht Hr) as (_ & _ & _ & Uc), (V_close k t r Hk Ht Hr) as (_ & _ & _ & Vc). fold K in Dc, Uc, Vc.
  destruct (fu0_ok k t r Hk Ht Hr) as [Fu Vu], (fv0_ok k t r Hk Ht Hr) as [Fv Vv], (fad_ok k t r Hk Ht Hr) as [Fa Va], eps_ok as [Fe Ve], (sum_ok k t r Hk Ht Hr) as [Fw Vw].
  assert (Sz : forall z, Rabs (sgn t r * z) = Rabs z) by (intros z; rewrite Rabs_mult; unfold sgn; destruct (Bsign _); [rewrite (Rabs_left (-1)) by lra|rewrite Rabs_R1]; ring).
  assert (Cu : Rabs (val (fu0 t r) - u * Rabs (D t r)) <= 400 * (eps * K ^ 2)) by (rewrite Vu, <- Sg; replace (sgn t r * val (fU t r) - u * (sgn t r * D t r)) with (sgn t r * (val (fU t r) - U t r)) by (rewrite EU; ring); now rewrite Sz).
  assert (Cv : Rabs (val (fv0 t r) - v * Rabs (D t r)) <= 400 * (eps * K ^ 2)) by (rewrite Vv, <- Sg; replace (sgn t r * val (fV t r) - v * (sgn t r * D t r)) with (sgn t r * (val (fV t r) - V t r)) by (rewrite EV; ring); now rewrite Sz).
  assert (Ca : Rabs (val (fad t r) - Rabs (D t r)) <= 400 * (eps * K ^ 2)).
  { rewrite Va. apply Rle_trans with (2 := Dc). apply Rabs_triang_inv2. }
  apply Rabs_le_inv in Cu. apply Rabs_le_inv in Cv. apply Rabs_le_inv in Ca.
  assert (Mu := Rmult_le_compat_r _ _ _ (Rlt_le _ _ P) Bu). assert (Mv := Rmult_le_compat_r _ _ _ (Rlt_le _ _ P) Bv). assert (Mw := Rmult_le_compat_r _ _ _ (Rlt_le _ _ P) Bw).
  rewrite Rmult_plus_distr_r, Rmult_minus_distr_r, Rmult_1_l in Mw.
  assert (Pu : 0 <= val (fu0 t r)) by lra. assert (Pv : 0 <= val (fv0 t r)) by lra.
  assert (Lw : val (fplus (fu0 t r) (fv0 t r)) <= val (fad t r)) by (rewrite Vw, <- (rnd_val (fad t r)); apply rnd_mono; lra).
  assert (El : val ftri_eps <= 14 / 15 * Rabs (D t r)).
  { rewrite Ve. apply Rle_trans with (14 / 15 * / 50000000); [|lra]. replace (bpow radix2 (-79)) with (/ IZR (2 ^ 79)) by reflexivity.
    apply Rmult_le_reg_r with (IZR (2 ^ 79)); [apply IZR_lt; lia|]. rewrite Rmult_assoc, Rinv_l by (apply not_0_IZR; lia). change (2 ^ 79)%Z with 604462909807314587353088%Z. lra. }
  assert (Ea : val ftri_eps <= val (fad t r)) by lra. assert (Eb := eps_big).
  assert (N' : val (fD t r) <> 0) by (intros Z; rewrite Z, Rabs_R0 in Sd; lra).
  destruct (quot_ok k t r Hk Ht Hr ltac:(lra)) as [Fx Vx].
  assert (Uw : val (fu0 t r) <= val (fad t r)) by (apply Rle_trans with (2 := Lw); rewrite Vw, <- (rnd_val (fu0 t r)) at 1; apply rnd_mono; lra).
  assert (Vw' : val (fv0 t r) <= val (fad t r)) by (apply Rle_trans with (2 := Lw); rewrite Vw, <- (rnd_val (fv0 t r)) at 1; apply rnd_mono; lra).
  destruct (coord_ok k t r Hk Ht Hr _ _ Fu Vu N' ltac:(lra)) as (_ & Eu & Iu). destruct (coord_ok k t r Hk Ht Hr _ _ Fv Vv N' ltac:(lra)) as (_ & Ev & Iv).
  assert (Nu := coord_near k t r Hk Ht Hr G' _ _ Uc Iu). assert (Nv := coord_near k t r Hk Ht Hr G' _ _ Vc Iv). assert (Nx := dist_near k t r Hk Ht Hr G'). fold K in Nu, Nv, Nx. fold de in Nu, Nv, Nx.
  rewrite <- Eu in Nu. rewrite <- Ev in Nv. rewrite <- Vx in Nx. replace (T t r / D t r) with x in Nx by (rewrite ET; field; assumption).
  replace (U t r / D t r) with u in Nu by (rewrite EU; field; assumption). replace (V t r / D t r) with v in Nv by (rewrite EV; field; assumption).
  exists (fdivide (fT t r) (fD t r)), (fdivide (fu0 t r) (fad t r)), (fdivide (fv0 t r) (fad t r)). split; [|now split]. rewrite test_is.
  assert (Z0 : finite fzero = true) by reflexivity. assert (Z1 : val fzero = 0) by reflexivity.
  assert (T1 : flt_ltb (fad t r) ftri_eps = false) by (apply ltb_false; auto).
  assert (T2 : flt_ltb (fu0 t r) fzero = false) by (apply ltb_false; auto; lra).
  assert (T3 : flt_ltb (fv0 t r) fzero = false) by (apply ltb_false; auto; lra).
  assert (T4 : flt_ltb (fad t r) (fplus (fu0 t r) (fv0 t r)) = false) by (apply ltb_false; auto).
  rewrite T1, T2, T3, T4. cbn [orb]. cbv zeta. apply Rabs_le_inv in Nx.
  assert (T5 : flt_ltb (fdivide (fT t r) (fD t r)) tl = false) by (apply ltb_false; auto; lra). rewrite T5.
  assert (T6 : flt_ltb th (fdivide (fT t r) (fD t r)) = false).
  { apply ltb_false; auto; lra. }
  rewrite T6. reflexivity.
Qed.
(** The same code overlooks every triangle that faces the ray too little, however well the ray meets it: those whose area
    is below about 5e-9 are never hit. *)
Theorem C116_invisible tl th : facing r t + 400 * eps * (K * K) <= 9 / 1000000000 -> ftri_isect (held t) r tl th = None.
Proof.
  intros L. rewrite facing_D in L. destruct (D_close k t r Hk Ht Hr) as (_ & _ & _ & Dc). fold K in Dc. destruct (fad_ok k t r Hk Ht Hr) as [Fa Va], eps_ok as [Fe Ve].
  rewrite test_is. assert (T1 : flt_ltb (fad t r) ftri_eps = true).
  { apply ltb_true; auto. rewrite Va. assert (B : Rabs (val (fD t r)) <= Rabs (D t r) + Rabs (val (fD t r) - D t r)) by (replace (val (fD t r)) with (D t r + (val (fD t r) - D t r)) at 1 by ring; apply Rabs_triang).
    replace (400 * (eps * K ^ 2)) with (400 * eps * (K * K)) in Dc by ring. apply Rle_lt_trans with (9 / 1000000000); [lra|]. rewrite Ve. replace (bpow radix2 (-79)) with (/ IZR (2 ^ 79)) by reflexivity.
    apply Rmult_lt_reg_r with (IZR (2 ^ 79)); [apply IZR_lt; lia|]. rewrite (Rmult_assoc (IZR 6189700196426902)), Rinv_l by (apply not_0_IZR; lia). change (2 ^ 79)%Z with 604462909807314587353088%Z. lra. }
  rewrite T1. reflexivity.
Qed.
End Hits.
Print Assumptions C116_point.
Print Assumptions C116_point_facing.
Print Assumptions C116_meeting.
Print Assumptions C116_accurate.
Print Assumptions C116_found_partial.
Print Assumptions C116_invisible.

(** ** The hypotheses are met *)
Lemma small_numbers : sized 0 fzero /\ sized 0 fone /\ sized 0 (Bopp fone) /\ sized 0 quarter /\ sized 0 eighth.
Proof.
  destruct quarter_ok as [F V], eighth_ok as [G W], val_neg1 as [Fm Vm].
  repeat split; auto using fone_finite; cbn [bpow]; [replace (val fzero) with 0 by reflexivity; rewrite Rabs_R0|rewrite fone_val, Rabs_R1|rewrite Vm, Rabs_left|rewrite V, Rabs_pos_eq|rewrite W, Rabs_pos_eq]; lra.
Qed.
Lemma c116_ray_sized : rsized 0 c112_ray.
Proof.
  destruct small_numbers as (Z & O & M & Q & E). split; intros i; destruct i as [|[|i]]; cbn [c112_ray fo fd fcomp fx fy fz]; try (apply Z || apply O || apply Q || apply E);
    apply (sized_le 0); (lia || apply Z || apply M).
Qed.
Lemma c116_flat_sized : tsized 0 (c112_flat fzero).
Proof. apply flat_sized; [reflexivity|]. replace (val fzero) with 0 by reflexivity. lra. Qed.
Lemma c116_facing : facing c112_ray (c112_flat fzero) = 1.
Proof.
  unfold facing. cbn [cross_exact c112_ray c112_flat fo fd tp1 tp2 tp3 fcomp fx fy fz]. replace (val fzero) with 0 by reflexivity. destruct val_neg1 as [_ ->]. rewrite fone_val.
  match goal with |- Rabs ?x = _ => replace x with (-1) by ring end. rewrite Rabs_left; lra.
Qed.
Lemma c116_meets : meets c112_ray (c112_flat fzero) 1 (/ 4) (/ 8).
Proof.
  destruct quarter_ok as [_ V], eighth_ok as [_ W], val_neg1 as [_ N]. intros [|[|i]]; unfold ray_pos, tri_pos; cbn [c112_ray c112_flat fo fd tp1 tp2 tp3 fcomp fx fy fz];
    rewrite ?V, ?W, ?N, ?fone_val; replace (val fzero) with 0 by reflexivity; lra.
Qed.
Lemma c116_blur : blur 0 c112_ray (c112_flat fzero) <= / 100.
Proof.
  unfold blur. rewrite c116_facing. cbn [bpow]. unfold eps. assert (P : 2 ^ 53 = 9007199254740992) by ring. rewrite P. lra.
Qed.
(** The ray straight down meets the triangle at distance 1, and the test finds it. *)
Example C116_found_instance : 6000 * eps * (bpow radix2 0 * bpow radix2 0) <= facing c112_ray (c112_flat fzero) /\
  exists x u v, ftri_isect (held (c112_flat fzero)) c112_ray fzero fInf = Some (x, u, v) /\ Rabs (val x - 1) <= / 50.
Proof.
  assert (B := c116_blur). assert (F := c116_facing). assert (P : 0 <= blur 0 c112_ray (c112_flat fzero)).
  { unfold blur. rewrite F. cbn [bpow]. assert (ep := eps_pos). unfold Rdiv. rewrite Rinv_1. lra. }
  split.
  - revert B. unfold blur. rewrite F. cbn [bpow]. unfold Rdiv. rewrite Rinv_1. lra.
  - destruct (C116_found_partial 0 (c112_flat fzero) c112_ray ltac:(lia) c116_flat_sized c116_ray_sized fzero fInf 1 (/ 4) (/ 8) c116_meets) as (x & u & v & H & X & _); try (rewrite ?F; lra).
    + cbn [bpow]. rewrite Rabs_R1. assert (X : finite fInf = true /\ val fInf = IZR 5242880000000000 * bpow radix2 (-19)) by (apply val_sf; vm_compute; reflexivity). destruct X as [Fi Vi].
      split; [reflexivity|]. split; [assumption|]. split; [replace (val fzero) with 0 by reflexivity; lra|]. rewrite Vi. replace (bpow radix2 (-19)) with (/ 524288) by reflexivity. lra.
    + exists x, u, v. split; [assumption|]. cbn [bpow] in X. rewrite Rabs_R1 in X. lra.
Qed.

(** ** Small triangles *)
(** A triangle of edges 2^-14, met in its middle by the same ray moved *)
Definition c116_edge : flt := fmake 1 (-14).
Definition c116_off : flt := fmake 1 (-16).
Definition c116_small : ftriangle := mk_ftriangle (FV fzero fzero fzero) (FV c116_edge fzero fzero) (FV fzero c116_edge fzero).
Definition c116_ray : fray := mk_fray (FV c116_off c116_off fone) (FV fzero fzero (Bopp fone)).
Lemma edge_ok : finite c116_edge = true /\ val c116_edge = / 16384.
Proof. destruct (val_sf c116_edge (2 ^ 52) (-66) ltac:(vm_compute; reflexivity)) as [F V]. split; [assumption|]. rewrite V. change (IZR (2 ^ 52)) with (bpow radix2 52). rewrite <- bpow_plus. reflexivity. Qed.
Lemma off_ok : finite c116_off = true /\ val c116_off = / 65536.
Proof. destruct (val_sf c116_off (2 ^ 52) (-68) ltac:(vm_compute; reflexivity)) as [F V]. split; [assumption|]. rewrite V. change (IZR (2 ^ 52)) with (bpow radix2 52). rewrite <- bpow_plus. reflexivity. Qed.
(** Not every ray that goes through a triangle at a right angle, far from its edges, hits it. *)
Theorem C116_found_refuted : ~ forall t r x u v, tsized 0 t -> rsized 0 r -> proper t -> meets r t x u v -> 0 < x -> / 4 <= u -> / 4 <= v -> u + v <= / 2 ->
  ftri_isect (held t) r fzero fInf <> None.
Proof.
  intros H. destruct edge_ok as [Fe Ve], off_ok as [Fo Vo]. destruct small_numbers as (Z & O & M & _).
  assert (E : sized 0 c116_edge) by (split; [assumption|cbn [bpow]; rewrite Ve, Rabs_pos_eq; lra]). assert (F : sized 0 c116_off) by (split; [assumption|cbn [bpow]; rewrite Vo, Rabs_pos_eq; lra]).
  apply (H c116_small c116_ray 1 (/ 4) (/ 4)); try lra.
  - repeat split; destruct i as [|[|i]]; cbn [c116_small tp1 tp2 tp3 fcomp fx fy fz]; (apply Z || apply E).
  - split; intros i; destruct i as [|[|i]]; cbn [c116_ray fo fd fcomp fx fy fz]; try (apply F || apply O); apply (sized_le 0); (lia || apply Z || apply M).
  - exists 2%nat. cbn [cross_exact c116_small tp1 tp2 tp3 fcomp fx fy fz]. rewrite Ve. replace (val fzero) with 0 by reflexivity. lra.
  - destruct val_neg1 as [_ N]. intros [|[|i]]; unfold ray_pos, tri_pos; cbn [c116_ray c116_small fo fd tp1 tp2 tp3 fcomp fx fy fz]; rewrite ?Ve, ?Vo, ?N, ?fone_val; replace (val fzero) with 0 by reflexivity; lra.
  - vm_compute. reflexivity.
Qed.
Print Assumptions C116_found_refuted.
Example C116_invisible_instance : facing c116_ray c116_small + 400 * eps * (bpow radix2 0 * bpow radix2 0) <= 9 / 1000000000.
Proof.
  destruct edge_ok as [_ Ve]. unfold facing. cbn [cross_exact c116_ray c116_small fo fd tp1 tp2 tp3 fcomp fx fy fz bpow]. rewrite Ve. destruct val_neg1 as [_ ->]. replace (val fzero) with 0 by reflexivity.
  rewrite Rabs_left by lra. unfold eps. assert (P : 2 ^ 53 = 9007199254740992) by ring. rewrite P. lra.
Qed.
