(** C67: phase functions. *)
From Coq Require Import Reals Lra Psatz ZArith Bool.
From Verif Require Import Base RBase VecBase GeoModel SurfModel SurfSpec SurfProofs SurfWarpProofs MatModel MatSpec MatProofs CamModel CamProofs LightProofs PhaseModel.
Open Scope R_scope.

Inductive phase_made : phase -> Prop :=
| pm_iso : phase_made isotropic
| pm_hg neg0 g : phase_made (henyey_greenstein neg0 g).

(** C42 for phase functions: weight times density is the value, for every sample with a finite density. *)
Theorem C42_phase : forall f, phase_made f -> forall ud wi wo w q, ph_sample f ud wi = Val (Some (wo, w)) -> ph_pdf f wi wo = Val q ->
  ph_eval f wi wo = Val (vscale q w).
Proof.
  intros f [|neg0 g] ud wi wo w q S P.
  - cbn in *. injection S as <- <-. injection P as <-. f_equal. unfold grey. vring.
  - cbn in *. fb S. assert (w = grey 1) as -> by now injection S. rewrite P. cbn. f_equal. unfold grey. vring.
Qed.
Print Assumptions C42_phase.

(** ** A warp of the square to the sphere by the cosine of the polar angle *)
Definition polar (c : R -> R) (u : vec2) : vec3 :=
  V3 (safe_sqrt (1 - c (v2x u) * c (v2x u)) * cos (2 * PI * v2y u)) (safe_sqrt (1 - c (v2x u) * c (v2x u)) * sin (2 * PI * v2y u)) (c (v2x u)).
Lemma polar_area c c' u : derivable_pt_lim c (v2x u) c' -> -1 < c (v2x u) < 1 -> area_element (polar c) u (2 * PI * Rabs c').
Proof.
  intros D B. pose proof PI_RGT_0 as P. set (x := v2x u) in *. set (z := c x) in *. set (t := 2 * PI * v2y u). set (r := sqrt (1 - z * z)).
  assert (Q : 0 < 1 - z * z) by nra. assert (R0 : 0 < r) by (apply sqrt_lt_R0; auto). assert (RR : r * r = 1 - z * z) by (apply sqrt_sqrt; lra).
  assert (DQ : derivable_pt_lim (fun x => 1 - c x * c x) x (- (2 * z * c'))).
  { refine (d_eq (fun x => 1 + -1 * (c x * c x)) _ _ _ _ _ _ _).
    - apply (d_add (fun _ => 1) (fun x => -1 * (c x * c x)) x 0); [apply d_const|]. apply d_scal. apply (derivable_pt_lim_mult c c x c' c' D D).
    - intros y. cbn. ring.
    - fold z. ring. }
  assert (DR : derivable_pt_lim (fun x => safe_sqrt (1 - c x * c x)) x (/ (2 * r) * - (2 * z * c'))).
  { apply (d_comp (fun x => 1 - c x * c x) safe_sqrt x (- (2 * z * c')) (/ (2 * sqrt (1 - c x * c x))) DQ). apply d_sqrt. exact Q. }
  set (rp := / (2 * r) * - (2 * z * c')) in *. assert (RP : r * rp = - (z * c')) by (unfold rp; field; lra).
  exists (V3 (rp * cos t) (rp * sin t) c'), (V3 (r * (- sin t * (2 * PI))) (r * (cos t * (2 * PI))) 0).
  split; [|split].
  - repeat split; unfold partial1, polar; cbn [vx vy vz v2x v2y]; fold t x.
    + refine (d_eq (fun y => cos t * safe_sqrt (1 - c y * c y)) _ _ _ _ (d_scal _ (cos t) _ _ DR) _ _); [intros y; cbn; ring|ring].
    + refine (d_eq (fun y => sin t * safe_sqrt (1 - c y * c y)) _ _ _ _ (d_scal _ (sin t) _ _ DR) _ _); [intros y; cbn; ring|ring].
    + exact D.
  - repeat split; unfold partial2, polar; cbn [vx vy vz v2x v2y]; fold x z; rewrite ?safe_sqrt_sqrt; fold r.
    + refine (d_eq _ _ _ _ _ (d_scal _ r _ _ (d_cos (2 * PI) (v2y u))) _ _); [intros y; reflexivity|reflexivity].
    + refine (d_eq _ _ _ _ _ (d_scal _ r _ _ (d_sin (2 * PI) (v2y u))) _ _); [intros y; reflexivity|reflexivity].
    + apply d_const.
  - symmetry. unfold vlen. apply sqrt_lem_1; [apply dot_self_nonneg|apply Rmult_le_pos; [lra|apply Rabs_pos]|].
    unfold dot, cross. cbn [vx vy vz].
    replace (2 * PI * Rabs c' * (2 * PI * Rabs c')) with (4 * PI * PI * (c' * c')).
    2: { transitivity (4 * PI * PI * (Rabs c' * Rabs c')); [|ring]. rewrite <- Rabs_mult, (Rabs_pos_eq (c' * c')) by nra. ring. }
    transitivity (4 * PI * PI * (c' * c' * (r * r) * (cos t * cos t + sin t * sin t) + (r * rp) * (r * rp) * ((cos t * cos t + sin t * sin t) * (cos t * cos t + sin t * sin t)))); [|ring].
    rewrite cs1, RP, RR. ring.
Qed.
Lemma polar_unit c u : -1 <= c (v2x u) <= 1 -> unit (polar c u).
Proof.
  intros B. unfold unit, dot, polar. cbn [vx vy vz]. rewrite safe_sqrt_sqrt. set (z := c (v2x u)) in *. set (t := 2 * PI * v2y u).
  assert (RR : sqrt (1 - z * z) * sqrt (1 - z * z) = 1 - z * z) by (apply sqrt_sqrt; nra). set (r := sqrt (1 - z * z)) in *.
  transitivity (r * r * (cos t * cos t + sin t * sin t) + z * z); [ring|]. rewrite cs1, RR. ring.
Qed.
Lemma rotate_area f u J a b n : frame a b n -> area_element f u J -> area_element (fun u => mmul (M3 a b n) (f u)) u J.
Proof.
  intros F (d1 & d2 & (A1 & A2 & A3) & (B1 & B2 & B3) & ->). exists (mmul (M3 a b n) d1), (mmul (M3 a b n) d2).
  assert (L : forall (f1 f2 f3 : R -> R) x m1 m2 m3 k1 k2 k3, derivable_pt_lim f1 x m1 -> derivable_pt_lim f2 x m2 -> derivable_pt_lim f3 x m3 ->
    derivable_pt_lim (fun y => f1 y * k1 + f2 y * k2 + f3 y * k3) x (m1 * k1 + m2 * k2 + m3 * k3)).
  { intros f1 f2 f3 x m1 m2 m3 k1 k2 k3 H1 H2 H3. refine (d_eq (fun y => k1 * f1 y + k2 * f2 y + k3 * f3 y) _ _ _ _ _ _ _).
    - apply (d_add (fun y => k1 * f1 y + k2 * f2 y) (fun y => k3 * f3 y)); [apply d_add|]; apply d_scal; eassumption.
    - intros y. cbn. ring.
    - ring. }
  split; [|split].
  - unfold partials1, partial1, mmul, vadd, vscale in *. cbn [vx vy vz col0 col1 col2] in *. repeat split; now apply L.
  - unfold partials2, partial2, mmul, vadd, vscale in *. cbn [vx vy vz col0 col1 col2] in *. repeat split; now apply L.
  - destruct (frame_cross a b n F) as [Vn Nu]. pose proof F as (Ua & Ub & Un & D1 & D2 & D3 & C). unfold unit in *.
    assert (E : cross (mmul (M3 a b n) d1) (mmul (M3 a b n) d2) = mmul (M3 a b n) (cross d1 d2)).
    { unfold mmul. cbn [col0 col1 col2].
      transitivity (vadd (vadd (vscale (vx d1 * vy d2 - vy d1 * vx d2) (cross a b)) (vscale (vy d1 * vz d2 - vz d1 * vy d2) (cross b n))) (vscale (vz d1 * vx d2 - vx d1 * vz d2) (cross n a))).
      - clear. destruct a, b, n, d1, d2. vring.
      - rewrite C, Vn, Nu. clear. destruct a, b, n, d1, d2. vring. }
    rewrite E. unfold vlen. f_equal. set (w := cross d1 d2). unfold mmul. cbn [col0 col1 col2].
    transitivity (vx w * vx w * dot a a + vy w * vy w * dot b b + vz w * vz w * dot n n + 2 * vx w * vy w * dot a b + 2 * vx w * vz w * dot a n + 2 * vy w * vz w * dot b n).
    + rewrite Ua, Ub, Un, D1, D2, D3. unfold dot. ring.
    + vring.
Qed.
Lemma rotate_unit w a b n : frame a b n -> unit w -> unit (mmul (M3 a b n) w) /\ dot n (mmul (M3 a b n) w) = vz w.
Proof.
  intros (Ua & Ub & Un & D1 & D2 & D3 & _) U. unfold unit, mmul in *. cbn [col0 col1 col2]. split.
  - transitivity (vx w * vx w * dot a a + vy w * vy w * dot b b + vz w * vz w * dot n n + 2 * vx w * vy w * dot a b + 2 * vx w * vz w * dot a n + 2 * vy w * vz w * dot b n); [vring|].
    rewrite Ua, Ub, Un, D1, D2, D3. unfold dot in U. lra.
  - transitivity (vx w * dot a n + vy w * dot b n + vz w * dot n n); [vring|]. rewrite D2, D3, Un. ring.
Qed.

Lemma rotate_coords a b n w : frame a b n -> w = V3 (dot a (mmul (M3 a b n) w)) (dot b (mmul (M3 a b n) w)) (dot n (mmul (M3 a b n) w)).
Proof.
  intros (Ua & Ub & Un & D1 & D2 & D3 & _). unfold unit, mmul in *. cbn [col0 col1 col2]. apply vec3_eq; cbn [vx vy vz].
  - transitivity (vx w * dot a a + vy w * dot a b + vz w * dot a n); [rewrite Ua, D1, D2; ring|vring].
  - transitivity (vx w * dot a b + vy w * dot b b + vz w * dot b n); [rewrite Ub, D1, D3; ring|vring].
  - transitivity (vx w * dot a n + vy w * dot b n + vz w * dot n n); [rewrite Un, D2, D3; ring|vring].
Qed.
(** The cosine as a function and its derivative *)
Definition hg_c (g u : R) : R := if Rlt_dec (Rabs g) Eps then 1 - 2 * u else (1 + g * g - (1 - g * g) / (1 - g + 2 * g * u) * ((1 - g * g) / (1 - g + 2 * g * u))) / (2 * g).
Lemma hg_den g u : -1 < g < 1 -> 0 <= u <= 1 -> 0 < 1 - g + 2 * g * u.
Proof.
  intros G U. replace (1 - g + 2 * g * u) with ((1 - g) * (1 - u) + (1 + g) * u) by ring.
  destruct (Rle_lt_dec u (/ 2)); [assert (0 < (1 - g) * (1 - u)) by (apply Rmult_lt_0_compat; lra); assert (0 <= (1 + g) * u) by (apply Rmult_le_pos; lra)|assert (0 <= (1 - g) * (1 - u)) by (apply Rmult_le_pos; lra); assert (0 < (1 + g) * u) by (apply Rmult_lt_0_compat; lra)]; lra.
Qed.
Lemma eps_g g : ~ Rabs g < Eps -> g <> 0.
Proof. intros H Z. apply H. rewrite Z, Rabs_R0. unfold Eps. lra. Qed.
Lemma hg_cos_c g u : -1 < g < 1 -> 0 <= u <= 1 -> hg_cos g u = Val (hg_c g u).
Proof.
  intros G U. unfold hg_cos, hg_c. destruct (Rlt_dec (Rabs g) Eps) as [|N]; [reflexivity|]. pose proof (hg_den g u G U). apply eps_g in N.
  rewrite rdiv_ok by lra. cbn [fbind]. rewrite rdiv_ok by lra. reflexivity.
Qed.
Lemma hg_c_range g u : -1 < g < 1 -> 0 <= u <= 1 -> -1 <= hg_c g u <= 1 /\ (0 < u < 1 -> -1 < hg_c g u < 1).
Proof.
  intros G U. unfold hg_c. destruct (Rlt_dec (Rabs g) Eps) as [|N]; [lra|]. apply eps_g in N. pose proof (hg_den g u G U) as D. set (d := 1 - g + 2 * g * u) in *.
  assert (E1 : (1 + g * g - (1 - g * g) / d * ((1 - g * g) / d)) / (2 * g) + 1 = (1 + g) * (1 + g) * u * (d + (1 - g)) / (d * d)).
  { replace ((1 + g) * (1 + g) * u * (d + (1 - g))) with ((1 + g) * (1 + g) * (d * d - (1 - g) * (1 - g)) / (2 * g)) by (unfold d; field; assumption). unfold d. field. repeat split; auto. fold d. lra. }
  assert (E2 : 1 - (1 + g * g - (1 - g * g) / d * ((1 - g * g) / d)) / (2 * g) = (1 - g) * (1 - g) * (1 - u) * (1 + g + d) / (d * d)).
  { replace ((1 - g) * (1 - g) * (1 - u) * (1 + g + d)) with ((1 - g) * (1 - g) * ((1 + g) * (1 + g) - d * d) / (2 * g)) by (unfold d; field; assumption). unfold d. field. repeat split; auto. fold d. lra. }
  assert (P1 : 0 < (1 + g) * (1 + g) * (d + (1 - g)) / (d * d)) by (apply Rdiv_lt_0_compat; [apply Rmult_lt_0_compat; [apply Rmult_lt_0_compat; lra|lra]|apply Rmult_lt_0_compat; lra]).
  assert (P2 : 0 < (1 - g) * (1 - g) * (1 + g + d) / (d * d)) by (apply Rdiv_lt_0_compat; [apply Rmult_lt_0_compat; [apply Rmult_lt_0_compat; lra|lra]|apply Rmult_lt_0_compat; lra]).
  replace ((1 + g) * (1 + g) * u * (d + (1 - g)) / (d * d)) with (u * ((1 + g) * (1 + g) * (d + (1 - g)) / (d * d))) in E1 by (field; lra).
  replace ((1 - g) * (1 - g) * (1 - u) * (1 + g + d) / (d * d)) with ((1 - u) * ((1 - g) * (1 - g) * (1 + g + d) / (d * d))) in E2 by (field; lra).
  set (p1 := (1 + g) * (1 + g) * (d + (1 - g)) / (d * d)) in *. set (p2 := (1 - g) * (1 - g) * (1 + g + d) / (d * d)) in *. assert (0 <= u * p1) by (apply Rmult_le_pos; lra). assert (0 <= (1 - u) * p2) by (apply Rmult_le_pos; lra).
  split; [split; lra|]. intros U'. assert (0 < u * p1) by (apply Rmult_lt_0_compat; lra). assert (0 < (1 - u) * p2) by (apply Rmult_lt_0_compat; lra). split; lra.
Qed.
Lemma hg_c_deriv g u : -1 < g < 1 -> 0 <= u <= 1 -> derivable_pt_lim (hg_c g) u
  (if Rlt_dec (Rabs g) Eps then -2 else 2 * (1 - g * g) * (1 - g * g) / ((1 - g + 2 * g * u) * (1 - g + 2 * g * u) * (1 - g + 2 * g * u))).
Proof.
  intros G U. unfold hg_c. destruct (Rlt_dec (Rabs g) Eps) as [|N].
  - refine (d_eq (fun u => 1 + -2 * u) _ _ _ _ (d_add (fun _ => 1) (fun u => -2 * u) u 0 _ (d_const 1 u) (d_scal _ (-2) _ _ (d_id u))) _ _); [intros y; ring|ring].
  - apply eps_g in N. pose proof (hg_den g u G U) as D.
    assert (DD : derivable_pt_lim (fun u => 1 - g + 2 * g * u) u (2 * g)).
    { refine (d_eq _ _ _ _ _ (d_add (fun _ => 1 - g) (fun u => 2 * g * u) u 0 _ (d_const _ u) (d_scal _ (2 * g) _ _ (d_id u))) _ _); [intros y; reflexivity|ring]. }
    assert (DI : derivable_pt_lim (fun u => / (1 - g + 2 * g * u)) u (- (2 * g) / Rsqr (1 - g + 2 * g * u))).
    { refine (d_eq _ _ _ _ _ (derivable_pt_lim_div (fct_cte 1) (fun u => 1 - g + 2 * g * u) u 0 (2 * g) (derivable_pt_lim_const 1 u) DD _) _ _); [lra|intros y; unfold div_fct, fct_cte; unfold Rdiv; ring|unfold fct_cte, Rsqr; field; lra]. }
    assert (DM := derivable_pt_lim_mult _ _ _ _ _ DI DI).
    refine (d_eq (fun y => (1 + g * g) / (2 * g) + - ((1 - g * g) * (1 - g * g) / (2 * g)) * (/ (1 - g + 2 * g * y) * / (1 - g + 2 * g * y))) _ _ _ _ (d_add (fun _ => (1 + g * g) / (2 * g)) _ u 0 _ (d_const _ u) (d_scal _ _ _ _ DM)) _ _).
    + intros y. cbn. unfold Rdiv. ring.
    + unfold Rsqr. field. split; lra.
Qed.

(** Sampling directions with the Henyey-Greenstein function: for every asymmetry in (-1, 1) that is zero or at
    least 1/1000 in size, every sample is a unit vector and the reported density is that of the warp. *)
Definition directions (neg0 : bool) (g : R) (wi : vec3) (u : vec2) : vec3 :=
  match ph_sample (henyey_greenstein neg0 g) u wi with Val (Some (wo, _)) => wo | _ => v0 end.
Lemma directions_form neg0 g wi u : -1 < g < 1 -> 0 <= v2x u <= 1 ->
  ph_sample (henyey_greenstein neg0 g) u wi = Val (Some (directions neg0 g wi u, grey 1)) /\
  directions neg0 g wi u = mmul (M3 (fst (orthonormal_basis neg0 (vneg wi))) (snd (orthonormal_basis neg0 (vneg wi))) (vneg wi)) (polar (hg_c g) u).
Proof.
  intros G U. unfold directions. cbn [ph_sample henyey_greenstein]. rewrite hg_cos_c by assumption. cbn [fbind]. split; [reflexivity|]. unfold hg_direction. destruct (orthonormal_basis neg0 (vneg wi)). reflexivity.
Qed.
Lemma hg_pdf_val neg0 g wi u : unit wi -> -1 < g < 1 -> 0 <= v2x u <= 1 -> let wo := directions neg0 g wi u in
  unit wo /\ dot wi wo = - hg_c g (v2x u)
  /\ (~ Rabs g < Eps -> hg_pdf g wi wo = Val ((1 - g + 2 * g * v2x u) * (1 - g + 2 * g * v2x u) * (1 - g + 2 * g * v2x u) / ((1 - g * g) * (1 - g * g)) / (PI * 4))).
Proof.
  intros Uw G U. cbn zeta. rewrite (proj2 (directions_form neg0 g wi u G U)).
  assert (N : unit (vneg wi)) by (unfold unit in *; rewrite <- Uw; vring). pose proof (basis_frame neg0 (vneg wi) N) as F.
  destruct (hg_c_range g (v2x u) G U) as [R _]. destruct (rotate_unit (polar (hg_c g) u) _ _ _ F (polar_unit (hg_c g) u R)) as [A B]. cbn [vz polar] in B.
  set (wo := mmul _ _) in *. assert (C : dot wi wo = - hg_c g (v2x u)) by (rewrite <- B; vring). split; [assumption|]. split; [assumption|]. intros NE.
  unfold hg_pdf. rewrite C. pose proof (hg_den g (v2x u) G U) as D. set (d := 1 - g + 2 * g * v2x u) in *.
  assert (Q : 1 + g * g + 2 * g * - hg_c g (v2x u) = (1 - g * g) / d * ((1 - g * g) / d)).
  { unfold hg_c. destruct (Rlt_dec (Rabs g) Eps) as [L|_]; [contradiction|]. fold d. apply eps_g in NE. field. split; lra. }
  cbv zeta. rewrite Q. set (s := (1 - g * g) / d). assert (S : 0 < s) by (apply Rdiv_lt_0_compat; nra).
  unfold pow32. destruct (Rlt_dec (s * s) 0); [nra|]. cbn [fbind]. rewrite sqrt_square by lra. assert (0 < s * s * s) by (apply Rmult_lt_0_compat; [apply Rmult_lt_0_compat|]; exact S). rewrite rdiv_ok by lra. cbn [fbind]. pose proof PI_RGT_0. rewrite rdiv_ok by lra. f_equal. unfold s. field. repeat split; try nra; lra.
Qed.
Theorem C67_henyey_greenstein_partial : forall neg0 g wi u, unit wi -> -1 < g < 1 -> g = 0 \/ / 1000 <= Rabs g -> interior u ->
  exists wo q, ph_sample (henyey_greenstein neg0 g) u wi = Val (Some (wo, V3 1 1 1)) /\ ph_pdf (henyey_greenstein neg0 g) wi wo = Val q
    /\ unit wo /\ 0 < q /\ area_element (directions neg0 g wi) u (/ q).
Proof.
  intros neg0 g wi u Uw G Hg I. assert (U : 0 <= v2x u <= 1) by (destruct I; lra). destruct (directions_form neg0 g wi u G U) as [E1 E2].
  destruct (hg_pdf_val neg0 g wi u Uw G U) as (A & B & C). cbn zeta in *. pose proof PI_RGT_0 as P.
  destruct (hg_c_range g (v2x u) G U) as [_ R]. specialize (R (proj1 I)).
  assert (N : unit (vneg wi)) by (unfold unit in *; rewrite <- Uw; vring). pose proof (basis_frame neg0 (vneg wi) N) as F.
  assert (AR : area_element (directions neg0 g wi) u (2 * PI * Rabs (if Rlt_dec (Rabs g) Eps then -2 else 2 * (1 - g * g) * (1 - g * g) / ((1 - g + 2 * g * v2x u) * (1 - g + 2 * g * v2x u) * (1 - g + 2 * g * v2x u))))).
  { assert (AE := rotate_area _ _ _ _ _ _ F (polar_area (hg_c g) _ u (hg_c_deriv g (v2x u) G U) R)).
    destruct AE as (d1 & d2 & (P1 & P2 & P3) & (Q1 & Q2 & Q3) & J). exists d1, d2. split; [|split; [|exact J]].
    - assert (NB : forall f f' l, derivable_pt_lim f (v2x u) l -> (forall y, 0 < y < 1 -> f y = f' y) -> derivable_pt_lim f' (v2x u) l).
      { intros f f' l Hd He e He0. destruct (Hd e He0) as (del & Hdel). destruct I as [[I1 I2] _].
        set (m := Rmin del (Rmin (v2x u) (1 - v2x u))). assert (M : 0 < m) by (unfold m; apply Rmin_pos; [apply cond_pos|]; apply Rmin_pos; lra).
        exists (mkposreal m M). intros h H0 Hh. cbn in Hh. assert (m <= del) by apply Rmin_l. assert (m <= v2x u) by (unfold m; eapply Rle_trans; [apply Rmin_r|apply Rmin_l]). assert (m <= 1 - v2x u) by (unfold m; eapply Rle_trans; [apply Rmin_r|apply Rmin_r]).
        apply Rabs_def2 in Hh. rewrite <- !He by lra. apply Hdel; [assumption|]. apply Rabs_def1; lra. }
      unfold partials1, partial1. repeat split; (eapply NB; [eassumption|]); intros y Hy; cbn beta; rewrite (proj2 (directions_form neg0 g wi (V2 y (v2y u)) G ltac:(cbn; lra))); reflexivity.
    - unfold partials2, partial2. assert (E : forall y, directions neg0 g wi (V2 (v2x u) y) = mmul (M3 (fst (orthonormal_basis neg0 (vneg wi))) (snd (orthonormal_basis neg0 (vneg wi))) (vneg wi)) (polar (hg_c g) (V2 (v2x u) y))) by (intros y; apply (proj2 (directions_form neg0 g wi (V2 (v2x u) y) G U))).
      repeat split; [refine (d_eq _ _ _ _ _ Q1 _ eq_refl)|refine (d_eq _ _ _ _ _ Q2 _ eq_refl)|refine (d_eq _ _ _ _ _ Q3 _ eq_refl)]; intros y; now rewrite E. }
  exists (directions neg0 g wi u). cbn [ph_pdf henyey_greenstein]. pose proof (hg_den g (v2x u) G U) as D.
  destruct (Rlt_dec (Rabs g) Eps) as [L|L].
  - assert (g = 0) by (destruct Hg as [|Hg]; [assumption|unfold Eps in L; lra]). subst g.
    exists (1 / (PI * 4)). split; [exact E1|]. split; [|split; [assumption|split; [apply Rdiv_lt_0_compat; lra|]]].
    + unfold hg_pdf. cbv zeta. replace (1 + 0 * 0 + 2 * 0 * dot wi (directions neg0 0 wi u)) with 1 by ring. unfold pow32. destruct (Rlt_dec 1 0); [lra|]. cbn [fbind]. rewrite sqrt_1, rdiv_ok by lra. cbn [fbind]. rewrite rdiv_ok by lra. f_equal. field. lra.
    + replace (/ (1 / (PI * 4))) with (2 * PI * Rabs (-2)) by (rewrite Rabs_left by lra; field; lra). exact AR.
  - set (d := 1 - g + 2 * g * v2x u) in *. eexists. split; [exact E1|]. split; [now apply C|]. split; [assumption|].
    assert (0 < (1 - g * g)) by nra. assert (0 < d * d * d) by (apply Rmult_lt_0_compat; [nra|assumption]).
    split; [apply Rdiv_lt_0_compat; [apply Rdiv_lt_0_compat; [assumption|nra]|lra]|].
    replace (/ (d * d * d / ((1 - g * g) * (1 - g * g)) / (PI * 4))) with (2 * PI * Rabs (2 * (1 - g * g) * (1 - g * g) / (d * d * d))); [exact AR|].
    rewrite Rabs_pos_eq; [field; repeat split; try lra; nra|]. apply Rlt_le, Rdiv_lt_0_compat; [nra|assumption].
Qed.
Print Assumptions C67_henyey_greenstein_partial.

(** Every direction other than straight on and straight back is sampled by exactly one point of the square. *)
Lemma hg_c_onto g z : -1 < g < 1 -> -1 < z < 1 -> exists u, 0 < u < 1 /\ hg_c g u = z.
Proof.
  intros G Z. unfold hg_c. destruct (Rlt_dec (Rabs g) Eps) as [L|L]; [exists ((1 - z) / 2); split; [lra|field]|]. apply eps_g in L.
  assert (T : 0 < 1 + g * g - 2 * g * z) by (assert (0 <= (g - z) * (g - z)) by apply Rle_0_sqr; nra). set (s := sqrt (1 + g * g - 2 * g * z)).
  assert (S : 0 < s) by (apply sqrt_lt_R0; exact T). assert (SS : s * s = 1 + g * g - 2 * g * z) by (apply sqrt_sqrt; lra).
  assert (X : (1 - g + 2 * g * (((1 - g * g) / s - (1 - g)) / (2 * g))) = (1 - g * g) / s) by (field; split; lra).
  exists (((1 - g * g) / s - (1 - g)) / (2 * g)). split.
  - set (u := ((1 - g * g) / s - (1 - g)) / (2 * g)) in *.
    assert (U : 2 * g * u * s = (1 - g) * (1 + g - s)) by (unfold u; field; split; lra).
    assert (V : 2 * g * (1 - u) * s = (1 + g) * (s - (1 - g))) by (unfold u; field; split; lra).
    destruct (Rlt_dec 0 g) as [GP|GN].
    + assert (s < 1 + g) by (apply Rsqr_incrst_0; unfold Rsqr; try lra; nra). assert (1 - g < s) by (apply Rsqr_incrst_0; unfold Rsqr; try lra; nra).
      assert (A : 0 < (1 - g) * (1 + g - s)) by (apply Rmult_lt_0_compat; lra). assert (B : 0 < (1 + g) * (s - (1 - g))) by (apply Rmult_lt_0_compat; lra).
      assert (GS : 0 < g * s) by (apply Rmult_lt_0_compat; lra). split; nra.
    + assert (1 + g < s) by (apply Rsqr_incrst_0; unfold Rsqr; try lra; nra). assert (s < 1 - g) by (apply Rsqr_incrst_0; unfold Rsqr; try lra; nra).
      assert (A : 0 < (1 - g) * (s - (1 + g))) by (apply Rmult_lt_0_compat; lra). assert (B : 0 < (1 + g) * ((1 - g) - s)) by (apply Rmult_lt_0_compat; lra).
      assert (GS : 0 < - g * s) by (apply Rmult_lt_0_compat; lra). split; nra.
  - rewrite X. assert (1 - g * g <> 0) by nra. replace ((1 - g * g) / ((1 - g * g) / s)) with s by (field; split; lra). rewrite SS. field. assumption.
Qed.
Lemma hg_c_inj g u v : -1 < g < 1 -> 0 < u < 1 -> 0 < v < 1 -> hg_c g u = hg_c g v -> u = v.
Proof.
  intros G U V. unfold hg_c. destruct (Rlt_dec (Rabs g) Eps) as [L|L]; [lra|]. apply eps_g in L. intros E.
  pose proof (hg_den g u G ltac:(lra)) as D. pose proof (hg_den g v G ltac:(lra)) as D'. set (d := 1 - g + 2 * g * u) in *. set (d' := 1 - g + 2 * g * v) in *.
  assert (K : 0 < 1 - g * g) by nra. assert (P : 0 < (1 - g * g) / d) by (apply Rdiv_lt_0_compat; assumption). assert (P' : 0 < (1 - g * g) / d') by (apply Rdiv_lt_0_compat; assumption).
  assert (E' : (1 - g * g) / d * ((1 - g * g) / d) = (1 - g * g) / d' * ((1 - g * g) / d')).
  { apply (f_equal (fun x => 2 * g * x)) in E. replace (2 * g * ((1 + g * g - (1 - g * g) / d * ((1 - g * g) / d)) / (2 * g))) with (1 + g * g - (1 - g * g) / d * ((1 - g * g) / d)) in E by (field; split; lra).
    replace (2 * g * ((1 + g * g - (1 - g * g) / d' * ((1 - g * g) / d')) / (2 * g))) with (1 + g * g - (1 - g * g) / d' * ((1 - g * g) / d')) in E by (field; split; lra). lra. }
  assert (E2 : (1 - g * g) / d = (1 - g * g) / d') by (apply Rsqr_inj; unfold Rsqr; lra).
  assert (E3 : d = d'). { apply (f_equal (fun x => x * d * d' / (1 - g * g))) in E2. replace ((1 - g * g) / d * d * d' / (1 - g * g)) with d' in E2 by (field; split; lra). replace ((1 - g * g) / d' * d * d' / (1 - g * g)) with d in E2 by (field; split; lra). lra. }
  unfold d, d' in E3. apply (Rmult_eq_reg_l (2 * g)); lra.
Qed.
Theorem C67_covers : forall neg0 g wi, unit wi -> -1 < g < 1 ->
  one_to_one_onto interior (directions neg0 g wi) (fun wo => unit wo /\ -1 < dot wi wo < 1).
Proof.
  intros neg0 g wi Uw G. assert (N : unit (vneg wi)) by (unfold unit in *; rewrite <- Uw; vring). pose proof (basis_frame neg0 (vneg wi) N) as F.
  set (a := fst (orthonormal_basis neg0 (vneg wi))) in *. set (b := snd (orthonormal_basis neg0 (vneg wi))) in *.
  assert (E : forall u, interior u -> directions neg0 g wi u = mmul (M3 a b (vneg wi)) (sample_uniform_sphere (V2 ((1 - hg_c g (v2x u)) / 2) (v2y u)))).
  { intros u I. rewrite (proj2 (directions_form neg0 g wi u G ltac:(destruct I; lra))). unfold polar, sample_uniform_sphere. cbn [v2x v2y]. replace (1 - 2 * ((1 - hg_c g (v2x u)) / 2)) with (hg_c g (v2x u)) by field. reflexivity. }
  assert (IN : forall u, interior u -> interior (V2 ((1 - hg_c g (v2x u)) / 2) (v2y u))).
  { intros u [I1 I2]. destruct (hg_c_range g (v2x u) G ltac:(lra)) as [_ R]. specialize (R I1). split; cbn; lra. }
  destruct sphere_bij as (B1 & B2 & B3). split; [|split].
  - intros u I. rewrite E by assumption. destruct (B1 _ (IN u I)) as [U Z]. destruct (rotate_unit _ _ _ _ F U) as [A D]. split; [assumption|].
    replace (dot wi _) with (- dot (vneg wi) (mmul (M3 a b (vneg wi)) (sample_uniform_sphere (V2 ((1 - hg_c g (v2x u)) / 2) (v2y u))))) by vring. lra.
  - intros u v Iu Iv H. rewrite !E in H by assumption.
    assert (R : forall w, w = V3 (dot a (mmul (M3 a b (vneg wi)) w)) (dot b (mmul (M3 a b (vneg wi)) w)) (dot (vneg wi) (mmul (M3 a b (vneg wi)) w))) by (intros w; apply rotate_coords; exact F).
    assert (S : sample_uniform_sphere (V2 ((1 - hg_c g (v2x u)) / 2) (v2y u)) = sample_uniform_sphere (V2 ((1 - hg_c g (v2x v)) / 2) (v2y v))) by (rewrite (R (sample_uniform_sphere (V2 ((1 - hg_c g (v2x u)) / 2) (v2y u)))), H; symmetry; apply R).
    apply B2 in S; auto. assert (S1 := f_equal v2x S). assert (S2 := f_equal v2y S). cbn in S1, S2.
    assert (v2x u = v2x v) by (destruct Iu, Iv; apply (hg_c_inj g); auto; lra). destruct u, v. cbn in *. now subst.
  - intros w [U D]. destruct (B3 (V3 (dot a w) (dot b w) (dot (vneg wi) w))) as (x & Ix & Ex).
    { split; [|cbn; replace (dot (vneg wi) w) with (- dot wi w) by vring; lra]. unfold unit in *. rewrite <- U, (LightProofs.frame_len a b (vneg wi) w F). unfold dot at 1. cbn [vx vy vz]. ring. }
    destruct (hg_c_onto g (1 - 2 * v2x x) G ltac:(destruct Ix; lra)) as (c & C & Ec). exists (V2 c (v2y x)).
    assert (I : interior (V2 c (v2y x))) by (split; [exact C|apply Ix]). split; [assumption|]. rewrite E by assumption. cbn [v2x v2y]. rewrite Ec. replace ((1 - (1 - 2 * v2x x)) / 2) with (v2x x) by field.
    destruct x as [x1 x2]. cbn [v2x v2y]. rewrite Ex. unfold mmul. cbn [col0 col1 col2 vx vy vz]. now apply frame_expand.
Qed.
Print Assumptions C67_covers.

(** The isotropic function *)
Theorem C67_isotropic : forall wi u, interior u -> exists wo q, ph_sample isotropic u wi = Val (Some (wo, V3 1 1 1)) /\ ph_pdf isotropic wi wo = Val q
  /\ unit wo /\ 0 < q /\ area_element (fun u => match ph_sample isotropic u wi with Val (Some (wo, _)) => wo | _ => v0 end) u (/ q).
Proof.
  intros wi u I. exists (sample_uniform_sphere u), pdf_uniform_sphere. split; [reflexivity|]. split; [reflexivity|]. split; [now apply sphere_unit, interior_square|].
  pose proof PI_RGT_0. unfold pdf_uniform_sphere. split; [apply Rdiv_lt_0_compat; lra|]. cbn [ph_sample isotropic].
  replace (/ (1 / (4 * PI))) with (4 * PI) by (field; lra). exact (sphere_area u I).
Qed.
Print Assumptions C67_isotropic.

(** Finding: for a small non-zero asymmetry the samples are uniform, but the reported density is not. *)
Theorem C67_small_refuted : forall neg0 g wi, unit wi -> 0 < Rabs g < / 1000 ->
  (forall u, interior u -> area_element (fun u => mmul (M3 (fst (orthonormal_basis neg0 (vneg wi))) (snd (orthonormal_basis neg0 (vneg wi))) (vneg wi)) (polar (fun x => 1 - 2 * x) u)) u (4 * PI)
     /\ directions neg0 g wi u = mmul (M3 (fst (orthonormal_basis neg0 (vneg wi))) (snd (orthonormal_basis neg0 (vneg wi))) (vneg wi)) (polar (fun x => 1 - 2 * x) u))
  /\ exists u q, interior u /\ ph_pdf (henyey_greenstein neg0 g) wi (directions neg0 g wi u) = Val q /\ q <> / (4 * PI).
Proof.
  intros neg0 g wi Uw Hg. pose proof PI_RGT_0 as P. assert (G : -1 < g < 1) by (destruct Hg as [_ Hg]; apply Rabs_def2 in Hg; lra).
  assert (L : Rabs g < Eps) by (unfold Eps; lra).
  assert (N : unit (vneg wi)) by (unfold unit in *; rewrite <- Uw; vring). pose proof (basis_frame neg0 (vneg wi) N) as F.
  assert (EC : forall x, hg_c g x = 1 - 2 * x) by (intros x; unfold hg_c; destruct (Rlt_dec (Rabs g) Eps); [reflexivity|contradiction]).
  split.
  - intros u I. assert (U : 0 <= v2x u <= 1) by (destruct I; lra). split.
    + replace (4 * PI) with (2 * PI * Rabs (-2)) by (rewrite Rabs_left by lra; ring). apply rotate_area; [assumption|]. apply polar_area; [|destruct I; lra].
      refine (d_eq (fun u => 1 + -2 * u) _ _ _ _ (d_add (fun _ => 1) (fun u => -2 * u) _ 0 _ (d_const 1 _) (d_scal _ (-2) _ _ (d_id _))) _ _); [intros y; cbn; ring|ring].
    + rewrite (proj2 (directions_form neg0 g wi u G U)). unfold polar. now rewrite EC.
  - exists (V2 (1 / 2) 0). assert (I : interior (V2 (1 / 2) 0)) by (split; cbn; lra).
    destruct (hg_pdf_val neg0 g wi (V2 (1 / 2) 0) Uw G ltac:(cbn; lra)) as (_ & D & _). cbn zeta in D. rewrite EC in D. cbn [v2x] in D. replace (- (1 - 2 * (1 / 2))) with 0 in D by field.
    cbn [ph_pdf henyey_greenstein]. unfold hg_pdf. rewrite D. cbv zeta. replace (1 + g * g + 2 * g * 0) with (1 + g * g) by ring. unfold pow32. assert (GG : 0 < g * g < 1) by (assert (g <> 0) by (intros Z; rewrite Z, Rabs_R0 in Hg; lra); nra).
    destruct (Rlt_dec (1 + g * g) 0); [lra|]. cbn [fbind]. assert (S : 1 < sqrt (1 + g * g)) by (rewrite <- sqrt_1 at 1; apply sqrt_lt_1; lra).
    rewrite rdiv_ok by nra. cbn [fbind]. rewrite rdiv_ok by lra. eexists. split; [assumption|]. split; [reflexivity|]. intros Z.
    assert (Z' : (1 - g * g) / ((1 + g * g) * sqrt (1 + g * g)) = 1) by (apply (Rmult_eq_reg_r (/ (PI * 4))); [|apply Rinv_neq_0_compat; lra]; unfold Rdiv in *; rewrite Z; field; lra).
    assert (1 - g * g = (1 + g * g) * sqrt (1 + g * g)) by (apply (Rmult_eq_reg_r (/ ((1 + g * g) * sqrt (1 + g * g)))); [|apply Rinv_neq_0_compat; nra]; unfold Rdiv in Z'; rewrite Z'; field; split; lra). nra.
Qed.
Print Assumptions C67_small_refuted.

(** Finding: an asymmetry of one is in the documented range, but the density of what is sampled is 0/0. *)
Theorem C67_one_refuted : forall neg0 wi u, unit wi -> interior u -> exists wo, ph_sample (henyey_greenstein neg0 1) u wi = Val (Some (wo, V3 1 1 1))
  /\ ph_pdf (henyey_greenstein neg0 1) wi wo = NonFinite.
Proof.
  intros neg0 wi u Uw I. cbn [ph_sample ph_pdf henyey_greenstein]. unfold hg_cos. destruct (Rlt_dec (Rabs 1) Eps) as [L|_]; [rewrite Rabs_R1 in L; unfold Eps in L; lra|].
  rewrite rdiv_ok by (destruct I; lra). cbn [fbind]. rewrite rdiv_ok by lra. cbn [fbind].
  replace ((1 - 1 * 1) / (1 - 1 + 2 * 1 * v2x u)) with 0 by (field; destruct I; lra). replace ((1 + 1 * 1 - 0 * 0) / (2 * 1)) with 1 by field.
  eexists. split; [reflexivity|]. unfold hg_pdf.
  assert (N : unit (vneg wi)) by (unfold unit in *; rewrite <- Uw; vring). pose proof (basis_frame neg0 (vneg wi) N) as F.
  assert (D : dot wi (hg_direction neg0 wi 1 (v2y u)) = -1).
  { unfold hg_direction. cbv zeta. destruct (orthonormal_basis neg0 (vneg wi)) as [a b]. cbn [fst snd] in F.
    assert (PU : unit (polar (fun _ => 1) u)) by (apply polar_unit; cbn; lra). destruct (rotate_unit _ _ _ _ F PU) as [_ Q]. cbn [vz polar] in Q. unfold polar in Q. match goal with |- dot wi ?w = _ => transitivity (- dot (vneg wi) w); [vring|]; change (- dot (vneg wi) w = -1); etransitivity; [apply f_equal; exact Q|]; lra end. }
  rewrite D. cbv zeta. replace (1 + 1 * 1 + 2 * 1 * -1) with 0 by ring. unfold pow32. destruct (Rlt_dec 0 0); [lra|]. cbn [fbind]. rewrite Rmult_0_l. unfold rdiv at 1, fdiv. destruct (Req_EM_T 0 0); [reflexivity|lra].
Qed.
Print Assumptions C67_one_refuted.

Example C67_example : unit (V3 0 0 1) /\ interior (V2 (1 / 2) 0) /\ / 1000 <= Rabs (1 / 2) /\ 0 < Rabs (/ 2000) < / 1000.
Proof. repeat split; cbn; unfold unit, dot; cbn; rewrite ?(Rabs_pos_eq (1 / 2)), ?(Rabs_pos_eq (/ 2000)) by lra; lra. Qed.
