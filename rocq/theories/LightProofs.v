From Coq Require Import List Reals ZArith Bool Lia Lra ZifyBool.
From Verif Require Import Base RBase VecBase GeoModel DistModel DistSpec DistProofs MeshModel SurfModel SurfSpec SurfProofs SurfWarpProofs MatModel MatSpec MatProofs CamModel CamProofs TexModel LightModel LightSpec.
Import ListNotations.
Open Scope R_scope.

Ltac inv H := injection H; clear H; intros; subst.
Lemma sphere_pdf_pos : 0 < pdf_uniform_sphere.
Proof. unfold pdf_uniform_sphere. pose proof PI_RGT_0. apply Rdiv_lt_0_compat; lra. Qed.
Lemma cosine_pdf_pos : 0 < pdf_cosine_weighted_projSA.
Proof. unfold pdf_cosine_weighted_projSA. pose proof PI_RGT_0. apply Rdiv_lt_0_compat; lra. Qed.
Lemma vscale0 v : vscale 0 v = v0. Proof. vring. Qed.
Lemma vscale_0v k : vscale k v0 = v0. Proof. vring. Qed.
Lemma vdiv_zero p w : vdiv v0 p = Val w -> w = v0.
Proof. unfold vdiv. destruct (Req_EM_T p 0); [discriminate|]. intros [= <-]. vring. Qed.

(** ** Weights *)
Lemma ray_w l : light_made l -> ray_weights l.
Proof.
  intros [Le p|neg0 Ke ts|neg0 Le d b l0 H0|neg0 Le b|neg0 img rot scale b l0 H0] up upc ud T r q H.
  - cbn in H. fb H. inv H. apply vdiv_val in E. cbn. do 2 eexists. repeat split. apply E.
  - cbn [l_sample_ray area_light] in H. cbv zeta in H. fb H. fb H. fb H. fb H. inv H. cbn [l_eval l_pdf_ray r_geom r_wo r_weight area_light]. unfold area_eval, area_pdf_direction in *. cbn [normal fbind] in *. rewrite E0. cbn [fbind]. do 2 eexists. split; [reflexivity|]. split; [reflexivity|].
    destruct (Rle_dec _ 0).
    + inv E1. apply vdiv_zero in E2. subst. vring.
    + inv E1. apply vdiv_val in E2. apply E2.
  - unfold directional_light in H0. fb H0. injection H0 as <-. cbn in H. fb H. fb H. fb H. inv H. cbn. rewrite E1. do 2 eexists. repeat split. apply vdiv_val in E2. apply E2.
  - cbn in H. fb H. fb H. fb H. inv H. cbn. rewrite E0. do 2 eexists. repeat split. apply vdiv_val in E1. apply E1.
  - unfold env_light in H0. fb H0. injection H0 as <-. cbn [l_sample_ray env_light_of] in H. cbv zeta in H. fb H. fb H. fb H. fb H. inv H. cbn [l_eval l_pdf_ray env_light_of r_geom r_wo r_weight]. rewrite E1, E2. do 2 eexists. repeat split. apply vdiv_val in E3. apply E3.
Qed.
Lemma direction_w l : light_made l -> direction_weights l.
Proof.
  intros [Le p|neg0 Ke ts|neg0 Le d b l0 H0|neg0 Le b|neg0 img rot scale b l0 H0] s Hs.
  - injection Hs as <-. eexists. split; [reflexivity|]. intros ud g wo w H. cbn in H. fb H. inv H. apply vdiv_val in E. cbn. do 2 eexists. repeat split. apply E.
  - injection Hs as <-. eexists. split; [reflexivity|]. intros ud g wo w H. cbv zeta in H. fb H. fb H. fb H. inv H. cbn [l_eval area_light]. unfold area_eval, area_pdf_direction in *. rewrite E in *. cbn [fbind] in *. do 2 eexists. split; [reflexivity|]. split; [reflexivity|].
    destruct (Rle_dec _ 0).
    + inv E0. vring.
    + inv E0. apply vdiv_val in E1. apply E1.
  - unfold directional_light in H0. fb H0. injection H0 as <-. discriminate.
  - discriminate.
  - unfold env_light in H0. fb H0. injection H0 as <-. discriminate.
Qed.
Lemma position_w l : light_made l -> position_weights l.
Proof.
  intros [Le p|neg0 Ke ts|neg0 Le d b l0 H0|neg0 Le b|neg0 img rot scale b l0 H0] s Hs.
  - injection Hs as <-. eexists. split; [reflexivity|]. intros up upc T g w H. inv H. eexists. split; [reflexivity|]. unfold grey. vring.
  - injection Hs as <-. eexists. split; [reflexivity|]. intros up upc T g w H. cbn in H. fb H. fb H. fb H. inv H. eexists. split; [eassumption|].
    apply rdiv_val in E1. destruct E1 as [N ->]. unfold grey. vcomp; field; assumption.
  - unfold directional_light in H0. fb H0. injection H0 as <-. discriminate.
  - discriminate.
  - unfold env_light in H0. fb H0. injection H0 as <-. discriminate.
Qed.
Lemma direct_w l : light_made l -> direct_weights l.
Proof.
  intros [Le p|neg0 Ke ts|neg0 Le d b l0 H0|neg0 Le b|neg0 img rot scale b l0 H0] up upc ud g T r H.
  - cbn in H. fb H. fb H. fb H. destruct (Req_EM_T a1 0) as [|N]; [discriminate|]. fb H. inv H. cbn. rewrite E1. do 2 eexists. repeat split; auto. apply vdiv_val in E2. apply E2.
  - cbn [l_sample_direct area_light] in H. cbv zeta in H. fb H. fb H. fb H. fb H. destruct (Req_EM_T a2 0) as [|N]; [discriminate|]. fb H. fb H. inv H. cbn [l_eval l_pdf_direct r_geom r_wo r_weight area_light]. rewrite E2, E3. do 2 eexists. repeat split; auto. apply vdiv_val in E4. apply E4.
  - unfold directional_light in H0. fb H0. injection H0 as <-. cbn [l_sample_direct] in H. cbv zeta in H. fb H. destruct (Req_EM_T a0 0) as [|N]; [discriminate|]. fb H. inv H. cbn [l_eval l_pdf_direct r_geom r_wo r_weight]. rewrite E0. do 2 eexists. repeat split; auto. apply vdiv_val in E1. apply E1.
  - cbn [l_sample_direct envconst_light] in H. cbv zeta in H. fb H. destruct (Req_EM_T a 0) as [|N]; [discriminate|]. fb H. inv H. cbn [l_eval l_pdf_direct r_geom r_wo r_weight envconst_light]. rewrite E. do 2 eexists. repeat split; auto. apply vdiv_val in E0. apply E0.
  - unfold env_light in H0. fb H0. injection H0 as <-. cbn [l_sample_direct env_light_of] in H. cbv zeta in H. fb H. fb H. destruct (Req_EM_T a1 0) as [|N]; [discriminate|]. fb H. fb H. inv H. cbn [l_eval l_pdf_direct r_geom r_wo r_weight env_light_of]. rewrite E1, E2. do 2 eexists. repeat split; auto. apply vdiv_val in E3. apply E3.
Qed.

(** ** Rays from infinity *)
Lemma frame_len u v n w : frame u v n -> dot w w = dot u w * dot u w + dot v w * dot v w + dot n w * dot n w.
Proof.
  intros F. pose proof (frame_expand u v n w F) as E. rewrite <- E at 1.
  transitivity (dot u w * dot u w + dot v w * dot v w + dot n w * dot n w); [|reflexivity]. clear E.
  rewrite dot_add_l, dot_add_l, !dot_scale_l. reflexivity.
Qed.
Lemma sq_range a b m x : m = / 2 * (b + a) -> a <= x <= b -> (x - m) * (x - m) <= (b - m) * (b - m).
Proof. intros -> H. set (h := b - a). assert (0 <= x - a) by lra. assert (0 <= b - x) by lra. nra. Qed.
Lemma box_in_sphere mn mx q : in_box mn mx q -> let c := fst (scene_sphere mn mx) in dot (vsub q c) (vsub q c) <= dot (vsub mx c) (vsub mx c).
Proof.
  intros (A & B & C). cbn zeta. unfold scene_sphere. cbn [fst]. unfold dot, vsub, vscale, vadd. cbn [vx vy vz].
  pose proof (sq_range (vx mn) (vx mx) _ (vx q) eq_refl A). pose proof (sq_range (vy mn) (vy mx) _ (vy q) eq_refl B). pose proof (sq_range (vz mn) (vz mx) _ (vz q) eq_refl C). lra.
Qed.
Lemma disk_surj a b : a * a + b * b < 1 -> exists u, in_square u /\ v2x u < 1 /\ v2y u < 1 /\ sample_uniform_disk u = V2 a b.
Proof.
  intros H. destruct (Rlt_dec 0 (a * a + b * b)) as [L|L].
  - destruct disk_bij as (_ & _ & S). destruct (S (V2 a b)) as (u & I & E); [split; cbn; lra|]. exists u. destruct I as [I1 I2]. repeat split; try lra. assumption.
  - exists (V2 0 0). assert (a = 0) by nra. assert (b = 0) by nra. subst. repeat split; cbn; try lra. unfold sample_uniform_disk. cbn. rewrite safe_sqrt_sqrt, sqrt_0, !Rmult_0_l. reflexivity.
Qed.
Lemma disk_cover neg0 mn mx d q : unit d -> in_box mn mx q -> mn <> mx ->
  exists up p t, in_square up /\ v2x up < 1 /\ v2y up < 1 /\ disk_origin neg0 (Some (scene_sphere mn mx)) d up = Val p /\ 0 <= t /\ ray_at p d t = q.
Proof.
  intros U B N. pose proof (box_in_sphere mn mx q B) as S. cbn zeta in S. unfold disk_origin. unfold scene_sphere in *. cbn [fst] in S. set (c := vscale (/ 2) (vadd mx mn)) in *.
  set (rho := vlen (vsub mx c)). set (r := rho * (101 / 100)). pose proof (basis_frame neg0 d U) as F. destruct (orthonormal_basis neg0 d) as [u v]. cbn [fst snd] in F.
  set (w := vsub q c). fold w in S. pose proof (frame_len u v d w F) as L.
  assert (R2 : rho * rho = dot (vsub mx c) (vsub mx c)) by (apply sqrt_sqrt, dot_self_nonneg).
  assert (R0 : 0 <= rho) by apply sqrt_pos.
  assert (R1 : rho <> 0).
  { intros Z. rewrite Z in R2. apply N. assert (M : vsub mx c = v0) by (apply dot_zero; lra).
    unfold c, vsub, vscale, vadd, v0 in M. injection M as M1 M2 M3. destruct mn as [a1 a2 a3], mx as [b1 b2 b3]. cbn in *. f_equal; lra. }
  assert (RP : 0 < r) by (unfold r; lra).
  destruct (disk_surj (dot u w / r) (dot v w / r)) as (up & I & I1 & I2 & E).
  { replace (dot u w / r * (dot u w / r) + dot v w / r * (dot v w / r)) with ((dot u w * dot u w + dot v w * dot v w) / (r * r)) by (field; lra).
    apply (Rmult_lt_reg_r (r * r)); [nra|]. unfold Rdiv. rewrite Rmult_assoc, Rinv_l by nra. assert (rho * rho < r * r) by (unfold r; nra). pose proof (Rle_0_sqr (dot d w)) as Q. unfold Rsqr in Q. lra. }
  exists up. eexists. exists (r + dot d w). split; [assumption|]. split; [assumption|]. split; [assumption|]. split; [rewrite E; reflexivity|]. split.
  - pose proof (Rle_0_sqr (dot u w)) as Q1. pose proof (Rle_0_sqr (dot v w)) as Q2. unfold Rsqr in *. assert (dot d w * dot d w <= rho * rho) by lra. unfold r. nra.
  - cbn [v2x v2y]. replace (dot u w / r * r) with (dot u w) by (field; lra). replace (dot v w / r * r) with (dot v w) by (field; lra).
    unfold ray_at. pose proof (frame_expand u v d w F) as X.
    transitivity (vadd c (vadd (vadd (vscale (dot u w) u) (vscale (dot v w) v)) (vscale (dot d w) d))); [vring|]. rewrite X. unfold w. vring.
Qed.
Lemma disk_outside neg0 c r d up p : unit d -> disk_origin neg0 (Some (c, r)) d up = Val p -> dot (vsub p c) d = - r.
Proof.
  intros U. unfold disk_origin. pose proof (basis_frame neg0 d U) as F. destruct (orthonormal_basis neg0 d) as [u v]. cbn [fst snd] in F. intros H.
  destruct F as (_ & _ & _ & _ & D1 & D2 & _). cbv zeta in H. set (q := sample_uniform_disk up) in H. apply (f_equal (fun x => match x with Val y => y | _ => p end)) in H. rewrite <- H. unfold unit in U. clearbody q.
  transitivity (- r * dot d d + v2x q * r * dot u d + v2y q * r * dot v d); [vring|]. rewrite U, D1, D2. ring.
Qed.
Lemma disk_element neg0 c r d up : unit d -> interior up ->
  area_element (fun up => match disk_origin neg0 (Some (c, r)) d up with Val p => p | _ => v0 end) up (PI * r * r).
Proof.
  intros U I. unfold disk_origin. pose proof (basis_frame neg0 d U) as F. destruct (orthonormal_basis neg0 d) as [u v]. cbn [fst snd] in F.
  destruct (disk_area up I) as (a & b & k & e & A1 & A2 & A3 & A4 & J). unfold partial1, partial2 in A1, A2, A3, A4.
  exists (vadd (vscale (a * r) u) (vscale (k * r) v)), (vadd (vscale (b * r) u) (vscale (e * r) v)).
  assert (Q : forall f g (x m n c0 y1 y2 : R), derivable_pt_lim f x m -> derivable_pt_lim g x n ->
    derivable_pt_lim (fun y => c0 + (f y * r * y1 + g y * r * y2)) x (m * r * y1 + n * r * y2)).
  { intros f g x m n c0 y1 y2 Hf Hg. refine (d_eq (fun y => c0 + ((r * y1) * f y + (r * y2) * g y)) _ _ _ _ _ _ _).
    - apply (d_add (fun _ => c0) (fun y => (r * y1) * f y + (r * y2) * g y) x 0); [apply d_const|]. apply d_add; apply d_scal; eassumption.
    - intros y. cbn. ring.
    - ring. }
  split; [|split].
  - repeat split; unfold partial1, vadd, vscale, vneg; cbn [vx vy vz]; apply (Q _ _ _ _ _ _ _ _ A1 A3).
  - repeat split; unfold partial2, vadd, vscale, vneg; cbn [vx vy vz]; apply (Q _ _ _ _ _ _ _ _ A2 A4).
  - replace (cross _ _) with (vscale ((a * e - b * k) * (r * r)) (cross u v)) by vring.
    destruct F as (_ & _ & _ & _ & _ & _ & ->). rewrite vlen_scale. unfold vlen. rewrite U, sqrt_1, Rabs_mult, <- J, (Rabs_pos_eq (r * r)) by nra. ring.
Qed.

(** ** Environment map *)
Lemma cos_Z x k : cos (x + 2 * IZR k * PI) = cos x.
Proof.
  destruct (Z_le_gt_dec 0 k) as [H|H].
  - rewrite <- (Z2Nat.id k H), <- INR_IZR_INZ. apply cos_period.
  - rewrite <- (cos_period (x + 2 * IZR k * PI) (Z.to_nat (- k))), INR_IZR_INZ, Z2Nat.id by lia. rewrite opp_IZR. f_equal. ring.
Qed.
Lemma sin_Z x k : sin (x + 2 * IZR k * PI) = sin x.
Proof.
  destruct (Z_le_gt_dec 0 k) as [H|H].
  - rewrite <- (Z2Nat.id k H), <- INR_IZR_INZ. apply sin_period.
  - rewrite <- (sin_period (x + 2 * IZR k * PI) (Z.to_nat (- k))), INR_IZR_INZ, Z2Nat.id by lia. rewrite opp_IZR. f_equal. ring.
Qed.
Lemma atan_ratio s c r : 0 < r -> r * r = s * s + c * c -> c <> 0 -> cos (atan (s / c)) = Rabs c / r /\ sin (atan (s / c)) = s / c * (Rabs c / r).
Proof.
  intros R0 R2 C. assert (E : sqrt (1 + Rsqr (s / c)) = r / Rabs c).
  { assert (0 < Rabs c) by now apply Rabs_pos_lt. apply sqrt_lem_1.
    - pose proof (Rle_0_sqr (s / c)). lra.
    - apply Rlt_le, Rdiv_lt_0_compat; auto.
    - replace (r / Rabs c * (r / Rabs c)) with (r * r / (Rabs c * Rabs c)) by (field; lra). replace (Rabs c * Rabs c) with (c * c) by (rewrite <- Rabs_mult; symmetry; apply Rabs_pos_eq; nra).
      unfold Rsqr. rewrite R2. field. assumption. }
  assert (0 < Rabs c) by now apply Rabs_pos_lt.
  rewrite cos_atan, sin_atan, E. split; field; repeat split; lra.
Qed.
Lemma atan2_angle s c r : 0 < r -> r * r = s * s + c * c -> - PI < atan2 s c <= PI /\ cos (atan2 s c) = c / r /\ sin (atan2 s c) = s / r.
Proof.
  intros R0 R2. pose proof PI_RGT_0 as P. unfold atan2. destruct (Rlt_dec 0 c) as [C|C].
  - destruct (atan_ratio s c r R0 R2) as [E1 E2]; [lra|]. pose proof (atan_bound (s / c)). rewrite E1, E2, (Rabs_pos_eq c) by lra. split; [lra|]. split; [reflexivity|field; lra].
  - destruct (Rlt_dec c 0) as [C'|C'].
    + destruct (atan_ratio s c r R0 R2) as [E1 E2]; [lra|]. pose proof (atan_bound (s / c)) as AB. rewrite (Rabs_left c) in E1, E2 by lra.
      destruct (Rle_dec 0 s) as [S|S].
      * assert (atan (s / c) <= 0). { destruct (Rle_dec (s / c) 0) as [Z|Z]. - destruct (Req_dec (s / c) 0) as [->|Z']; [rewrite atan_0; lra|]. rewrite <- atan_0. apply Rlt_le, atan_increasing. lra. - exfalso. apply Z. assert (/ c < 0) by (now apply Rinv_lt_0_compat). unfold Rdiv. nra. }
        rewrite neg_cos, neg_sin, E1, E2. split; [lra|]. split; field; lra.
      * assert (0 < atan (s / c)). { rewrite <- atan_0. apply atan_increasing. assert (/ c < 0) by (now apply Rinv_lt_0_compat). unfold Rdiv. nra. }
        replace (atan (s / c) - PI) with (atan (s / c) + PI + 2 * IZR (-1) * PI) by (cbn; ring). rewrite cos_Z, sin_Z, neg_cos, neg_sin, E1, E2. split; [cbn; lra|]. split; field; lra.
    + assert (c = 0) by lra. subst c. assert (RS : r * r = s * s) by lra. destruct (Rlt_dec 0 s) as [S|S].
      * assert (r = s) by nra. subst. rewrite cos_PI2, sin_PI2. split; [lra|]. split; field; lra.
      * destruct (Rlt_dec s 0) as [S'|S'].
        -- assert (r = - s) by nra. subst. rewrite cos_neg, sin_neg, cos_PI2, sin_PI2. split; [lra|]. split; field; lra.
        -- exfalso. assert (s = 0) by lra. subst. nra.
Qed.
Lemma fract_shift x k : 0 <= x < 1 -> fract (x - IZR k) = x.
Proof.
  intros H. unfold fract. assert (E : Int_part (x - IZR k) = (- k)%Z).
  { apply Int_part_spec; rewrite opp_IZR; lra. }
  rewrite E, opp_IZR. ring.
Qed.
Lemma sin_sky y : 0 < y < 1 -> 0 < sin (PI * y).
Proof. intros H. pose proof PI_RGT_0. apply sin_gt_0; nra. Qed.
Lemma env_u_sky rot u : sky_domain u -> env_u rot (sky rot u) = v2x u.
Proof.
  intros [X Y]. pose proof PI_RGT_0 as P. pose proof (sin_sky _ Y) as S. set (x := v2x u) in *. set (st := sin (PI * v2y u)) in *.
  unfold env_u, sky. cbn [vx vz]. fold x st. set (p := 2 * PI * x + rot).
  destruct (atan2_angle (st * sin p) (st * cos p) st S) as (RB & C & SN).
  { transitivity (st * st * (cos p * cos p + sin p * sin p)); [rewrite cs1|]; ring. }
  replace (st * cos p / st) with (cos p) in C by (field; lra). replace (st * sin p / st) with (sin p) in SN by (field; lra).
  set (a := atan2 (st * sin p) (st * cos p)) in *. set (a1 := if Rlt_dec a 0 then a + 2 * PI else a).
  assert (A1 : 0 <= a1 < 2 * PI /\ cos a1 = cos p /\ sin a1 = sin p).
  { unfold a1. destruct (Rlt_dec a 0); [|repeat split; auto; lra]. replace (a + 2 * PI) with (a + 2 * IZR 1 * PI) by (cbn; ring). rewrite cos_Z, sin_Z. replace (a + 2 * IZR 1 * PI) with (a + 2 * PI) by (cbn; ring). repeat split; auto; lra. }
  destruct A1 as (B1 & C1 & S1). set (k := Int_part (p / (2 * PI))). destruct (base_Int_part (p / (2 * PI))) as [K1 K2]. fold k in K1, K2.
  assert (Q1 : p = p / (2 * PI) * (2 * PI)) by (field; lra).
  assert (Q2 : 0 <= p - 2 * IZR k * PI < 2 * PI) by nra.
  assert (E : a1 = p - 2 * IZR k * PI).
  { apply angle_unique; auto; replace (p - 2 * IZR k * PI) with (p + 2 * IZR (- k) * PI) by (rewrite opp_IZR; ring); [now rewrite cos_Z|now rewrite sin_Z]. }
  rewrite E. unfold p. replace ((2 * PI * x + rot - 2 * IZR k * PI - rot) * / 2 / PI) with (x - IZR k) by (field; lra). now apply fract_shift.
Qed.
Lemma sky_unit rot u : unit (sky rot u).
Proof.
  unfold unit, dot, sky. cbn [vx vy vz]. set (p := 2 * PI * v2x u + rot). set (t := PI * v2y u).
  transitivity (sin t * sin t * (cos p * cos p + sin p * sin p) + cos t * cos t); [ring|]. rewrite cs1. pose proof (cs1 t). lra.
Qed.
Lemma facos_sky y : 0 < y < 1 -> facos (cos (PI * y)) = Val (PI * y).
Proof.
  intros H. pose proof PI_RGT_0. unfold facos. pose proof (COS_bound (PI * y)). destruct (Rlt_dec _ (-1)); [lra|]. destruct (Rlt_dec 1 _); [lra|]. f_equal. apply acos_cos. nra.
Qed.
Lemma st_sky y : 0 < y < 1 -> safe_sqrt (1 - cos (PI * y) * cos (PI * y)) = sin (PI * y).
Proof. intros H. rewrite safe_sqrt_sqrt. apply sqrt_lem_1; pose proof (cs1 (PI * y)); pose proof (sin_sky y H); nra. Qed.

Lemma pos4 a b : 0 < a -> 0 < b -> 0 < 2 * a * a * b.
Proof. intros. apply Rmult_lt_0_compat; [apply Rmult_lt_0_compat; lra|assumption]. Qed.
Lemma env_pdf_sky rot o g u q : sky_domain u -> pdf2 o (v2x u) (v2y u) = Ok (Some q) ->
  env_pdf_direct rot o g (Infinite (vneg (sky rot u))) = to_projSA (q / (2 * PI * PI * sin (PI * v2y u))) g (sky rot u).
Proof.
  intros D H. unfold env_pdf_direct. cbn [direction fbind]. rewrite vneg_neg, env_u_sky by assumption. destruct D as [X Y]. cbv zeta. change (vy (sky rot u)) with (cos (PI * v2y u)). rewrite facos_sky, st_sky by assumption. cbn [fbind].
  pose proof PI_RGT_0 as P. pose proof (sin_sky _ Y) as S. destruct (Req_EM_T _ 0) as [|_]; [lra|]. replace (PI * v2y u / PI) with (v2y u) by (field; lra). rewrite H. cbn [of_outcome fbind of_num].
  assert (0 < 2 * PI * PI * sin (PI * v2y u)) by (now apply pos4). rewrite rdiv_ok by lra. reflexivity.
Qed.
Lemma env_eval_sky rot scale img u : sky_domain u -> env_eval img rot scale (Infinite (vneg (sky rot u))) = do c <- bitmap_eval img u; Val (vscale scale c).
Proof.
  intros D. unfold env_eval. cbn [direction fbind]. rewrite vneg_neg, env_u_sky by assumption. destruct D as [X Y]. cbv zeta. change (vy (sky rot u)) with (cos (PI * v2y u)). rewrite facos_sky by assumption. cbn [fbind]. pose proof PI_RGT_0.
  replace (PI * v2y u / PI) with (v2y u) by (field; lra). now destruct u.
Qed.
Lemma env_wo_sky rot x y : env_wo rot x y = vneg (sky rot (V2 x y)).
Proof. reflexivity. Qed.

Lemma sky_bij rot : one_to_one_onto sky_domain (sky rot) off_poles.
Proof.
  pose proof PI_RGT_0 as P. split; [|split].
  - intros u [X Y]. split; [apply sky_unit|]. cbn. pose proof (sin_sky _ Y). pose proof (cs1 (PI * v2y u)). nra.
  - intros u v Hu Hv E. pose proof (env_u_sky rot u Hu) as Eu. pose proof (env_u_sky rot v Hv) as Ev. rewrite E in Eu.
    assert (C : cos (PI * v2y u) = cos (PI * v2y v)) by (change (vy (sky rot u) = vy (sky rot v)); now rewrite E).
    destruct Hu as [_ Yu], Hv as [_ Yv]. assert (A : acos (cos (PI * v2y u)) = acos (cos (PI * v2y v))) by now rewrite C. rewrite !acos_cos in A by nra.
    destruct u, v. cbn in *. f_equal; [congruence|]. nra.
  - intros w [U Y]. set (y := acos (vy w)). pose proof (acos_bound (vy w)) as AB. fold y in AB.
    assert (CY : cos y = vy w) by (apply cos_acos; lra).
    assert (Y0 : y <> 0) by (intros Z; rewrite Z, cos_0 in CY; lra). assert (Y1 : y <> PI) by (intros Z; rewrite Z, cos_PI in CY; lra).
    assert (S : 0 < sin y) by (apply sin_gt_0; lra). unfold unit, dot in U. pose proof (cs1 y) as Q. rewrite CY in Q.
    destruct (angle_exists (vz w / sin y) (vx w / sin y)) as (t & T & C1 & S1).
    { replace (vz w / sin y * (vz w / sin y) + vx w / sin y * (vx w / sin y)) with ((vz w * vz w + vx w * vx w) / (sin y * sin y)) by (field; lra).
      replace (vz w * vz w + vx w * vx w) with (sin y * sin y) by lra. field. lra. }
    set (k := Int_part ((t - rot) / (2 * PI))). destruct (base_Int_part ((t - rot) / (2 * PI))) as [K1 K2]. fold k in K1, K2.
    exists (V2 ((t - rot) / (2 * PI) - IZR k) (y / PI)). split.
    + split; cbn; [lra|]. split; [apply Rdiv_lt_0_compat; lra|]. apply (Rmult_lt_reg_r PI); [lra|]. unfold Rdiv. rewrite Rmult_assoc, Rinv_l by lra. lra.
    + unfold sky. cbn [v2x v2y]. replace (PI * (y / PI)) with y by (field; lra).
      replace (2 * PI * ((t - rot) / (2 * PI) - IZR k) + rot) with (t + 2 * IZR (- k) * PI) by (rewrite opp_IZR; field; lra).
      rewrite cos_Z, sin_Z, C1, S1, CY. destruct w as [a b c]. cbn [vx vy vz] in *. f_equal; field; lra.
Qed.

Lemma sky_element rot u : sky_domain u -> area_element (sky rot) u (2 * PI * PI * sin (PI * v2y u)).
Proof.
  intros [X Y]. pose proof PI_RGT_0 as P. pose proof (sin_sky _ Y) as S. set (t := PI * v2y u) in *. set (p := 2 * PI * v2x u + rot). set (k := 2 * PI).
  assert (DS : derivable_pt_lim (fun x => sin (k * x + rot)) (v2x u) (cos p * k)).
  { refine (d_eq _ _ _ _ _ (d_comp (fun x => k * x + rot) sin (v2x u) (k * 1 + 0) (cos (k * v2x u + rot)) _ _) _ _); [apply (d_add (fun x => k * x) (fun _ => rot)); [apply d_scal, d_id|apply d_const]|apply derivable_pt_lim_sin|reflexivity|unfold p, k; ring]. }
  assert (DC : derivable_pt_lim (fun x => cos (k * x + rot)) (v2x u) (- sin p * k)).
  { refine (d_eq _ _ _ _ _ (d_comp (fun x => k * x + rot) cos (v2x u) (k * 1 + 0) (- sin (k * v2x u + rot)) _ _) _ _); [apply (d_add (fun x => k * x) (fun _ => rot)); [apply d_scal, d_id|apply d_const]|apply derivable_pt_lim_cos|reflexivity|unfold p, k; ring]. }
  exists (V3 (sin t * (cos p * k)) 0 (sin t * (- sin p * k))), (V3 (sin p * (cos t * PI)) (- sin t * PI) (cos p * (cos t * PI))).
  split; [|split].
  - repeat split; unfold partial1, sky; cbn [vx vy vz v2x v2y]; fold t k.
    + apply (d_scal _ (sin t) _ _ DS).
    + apply d_const.
    + apply (d_scal _ (sin t) _ _ DC).
  - repeat split; unfold partial2, sky; cbn [vx vy vz v2x v2y]; fold k p.
    + refine (d_eq _ _ _ _ _ (d_scal _ (sin p) _ _ (d_sin PI (v2y u))) _ eq_refl). intros y. cbn. unfold p, k. ring.
    + apply d_cos.
    + refine (d_eq _ _ _ _ _ (d_scal _ (cos p) _ _ (d_sin PI (v2y u))) _ eq_refl). intros y. cbn. unfold p, k. ring.
  - symmetry. unfold vlen. apply sqrt_lem_1; [apply dot_self_nonneg|apply Rlt_le, pos4; assumption|].
    unfold dot, cross. cbn [vx vy vz]. fold k. 
    transitivity (k * k * PI * PI * (sin t * sin t) * 1); [unfold k; ring|].
    transitivity (k * k * PI * PI * (sin t * sin t) * (sin t * sin t * (cos p * cos p + sin p * sin p) + cos t * cos t * ((cos p * cos p + sin p * sin p) * (cos p * cos p + sin p * sin p)))); [|ring].
    rewrite (cs1 p). rewrite <- (cs1 t) at 1. ring.
Qed.
