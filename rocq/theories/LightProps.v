(** C42 (lights), C65 and C66. *)
From Coq Require Import List Reals Lra Lia ZArith Bool.
From Verif Require Import Base RBase VecBase GeoModel DistModel DistSpec DistProofs DistProps MeshModel SurfModel SurfSpec SurfProofs SurfWarpProofs MatModel MatSpec MatProofs CamModel CamProofs TexModel TexProps LightModel LightSpec LightProofs.
Import ListNotations.
Open Scope R_scope.

(** C42: for every light the weight of a sampled ray, direction, position or connection times the density
    the light reports for it is the value the light reports for it. *)
Theorem C42_light_rays : forall l, light_made l -> ray_weights l.
Proof. exact ray_w. Qed.
Print Assumptions C42_light_rays.
Theorem C42_light_directions : forall l, light_made l -> direction_weights l.
Proof. exact direction_w. Qed.
Print Assumptions C42_light_directions.
Theorem C42_light_positions : forall l, light_made l -> position_weights l.
Proof. exact position_w. Qed.
Print Assumptions C42_light_positions.
Theorem C42_light_direct : forall l, light_made l -> direct_weights l.
Proof. exact direct_w. Qed.
Print Assumptions C42_light_direct.

Example C42_light_example : let l := point_light (V3 1 2 3) v0 in light_made l
  /\ exists r, l_sample_direct l (V2 0 0) 0 (V2 0 0) (Degenerated (V3 1 0 0)) (mk_tr (M3 v0 v0 v0) v0 (M3 v0 v0 v0) 0) = Val (Some r) /\ r_weight r = V3 1 2 3.
Proof.
  cbn zeta. split; [constructor|]. cbn [l_sample_direct point_light position fbind pos_of].
  assert (L : vsub (V3 1 0 0) v0 = V3 1 0 0) by (unfold v0; vring). rewrite L.
  assert (N : vlen (V3 1 0 0) = 1) by (unfold vlen, dot; cbn; replace (1 * 1 + 0 * 0 + 0 * 0) with 1 by ring; apply sqrt_1).
  unfold fnormalize, vdiv. rewrite N. destruct (Req_EM_T 1 0); [lra|]. cbn [fbind].
  unfold point_pdf_direct, geometry_term. cbv zeta. cbn [pos_of cos_at].
  replace (dot (vsub v0 (V3 1 0 0)) (vsub v0 (V3 1 0 0))) with 1 by (unfold dot, vsub, v0; cbn; ring). rewrite sqrt_1. unfold fdiv. destruct (Req_EM_T 1 0); [lra|]. cbn [of_num fbind].
  replace (1 * 1 / 1) with 1 by field. destruct (Req_EM_T 1 0); [lra|]. unfold rdiv, fdiv. destruct (Req_EM_T 1 0); [lra|]. cbn [fbind]. replace (1 / 1) with 1 by field.
  destruct (Req_EM_T 1 0); [lra|]. eexists. split; [reflexivity|]. cbn [r_weight]. vcomp; field.
Qed.

(** C65. A direction of the map: the reported density (per solid angle) is the density of the table at the
    map coordinates over the area element of the map, and the value is that of the map there. *)
Theorem C65_density : forall neg0 img rot scale o b u q p T w delta, sky_domain u -> pdf2 o (v2x u) (v2y u) = Ok (Some q) ->
  let l := env_light_of neg0 img rot scale o b in
  exists J, 0 < J /\ area_element (sky rot) u J /\ l_pdf_direct l (Degenerated p) (Infinite (vneg (sky rot u))) T w delta = Val (q / J).
Proof.
  intros neg0 img rot scale o b u q p T w delta D H. cbn zeta. exists (2 * PI * PI * sin (PI * v2y u)). split; [apply pos4; [apply PI_RGT_0|apply sin_sky, D]|]. split; [now apply sky_element|].
  cbn [l_pdf_direct env_light_of]. now rewrite (env_pdf_sky rot o (Degenerated p) u q D H).
Qed.
Print Assumptions C65_density.
Theorem C65_value : forall neg0 img rot scale o b u wo delta, sky_domain u ->
  let l := env_light_of neg0 img rot scale o b in
  l_eval l (Infinite (vneg (sky rot u))) wo delta = do c <- bitmap_eval img u; Val (vscale scale c).
Proof. intros. now apply env_eval_sky. Qed.
Print Assumptions C65_value.
(** The map covers every direction but the poles exactly once. *)
Theorem C65_map : forall rot, one_to_one_onto sky_domain (sky rot) off_poles.
Proof. exact sky_bij. Qed.
Print Assumptions C65_map.

(** If no entry of the table is negative: directions are sampled by the table. *)
Theorem C65_sample_partial : forall neg0 img rot scale o b tbl w h up upc ud p T, table o tbl w h -> nonneg tbl -> 0 < rsum tbl ->
  0 <= v2x up < 1 -> 0 < v2y up < 1 -> 0 <= v2x ud < 1 -> 0 <= v2y ud < 1 ->
  let l := env_light_of neg0 img rot scale o b in
  exists x y, (x < w)%nat /\ (y < h)%nat /\ 0 < entry w tbl y x
    /\ let u := V2 ((INR x + v2x up) / INR w) ((INR y + v2y up) / INR h) in
       sky_domain u
       /\ (forall r, l_sample_direct l up upc ud (Degenerated p) T = Val r -> exists wt, r = Some (mk_ray (Infinite (vneg (sky rot u))) (vneg (sky rot u)) wt))
       /\ exists J, 0 < J /\ area_element (sky rot) u J
          /\ l_pdf_direct l (Degenerated p) (Infinite (vneg (sky rot u))) T (vneg (sky rot u)) false = Val (entry w tbl y x / (rsum tbl / (INR w * INR h)) / J).
Proof.
  intros neg0 img rot scale o b tbl w h up upc ud p T H0 H1 H2 U1 U2 U3 U4. cbn zeta.
  destruct (C32_sample o tbl w h (v2x ud) (v2y ud) (v2x up) (v2y up) H0 H1 H2 U3 U4 U1 ltac:(lra)) as (x & y & Hx & Hy & E & S & X & Y & P). cbn zeta in *.
  exists x, y. split; [assumption|]. split; [assumption|]. split; [assumption|]. set (u := V2 _ _).
  assert (D : sky_domain u).
  { split; [exact X|]. cbn [u v2y]. split; [|apply Y]. apply Rdiv_lt_0_compat; [pose proof (pos_INR y); lra|apply lt_0_INR; lia]. }
  split; [assumption|]. split.
  - intros r. cbn [l_sample_direct env_light_of]. rewrite S. cbn [of_outcome fbind fst snd]. rewrite env_wo_sky. fold u. rewrite (env_pdf_sky rot o (Degenerated p) u _ D P). cbn [to_projSA convert_projSA fbind].
    pose proof (pos4 PI (sin (PI * v2y u)) PI_RGT_0 (sin_sky _ (proj2 D))) as J.
    assert (Q : 0 < rsum tbl / (INR w * INR h)) by (apply Rdiv_lt_0_compat; [assumption|apply Rmult_lt_0_compat; apply lt_0_INR; lia]).
    destruct (Req_EM_T _ 0) as [Z|_].
    + exfalso. assert (0 < entry w tbl y x / (rsum tbl / (INR w * INR h)) / (2 * PI * PI * sin (PI * v2y u))) by (apply Rdiv_lt_0_compat; [apply Rdiv_lt_0_compat|]; assumption). lra.
    + intros F. fb F. fb F. injection F as <-. eauto.
  - exact (C65_density neg0 img rot scale o b u _ p T (vneg (sky rot u)) false D P).
Qed.
Print Assumptions C65_sample_partial.

(** The weight of a pixel of a map without negative values is non-negative but in the right half of the
    last row. *)
Theorem C65_weights_partial : forall img scale x y, image img -> (3 <= bc img)%Z -> (0 <= x < bw img)%Z -> (0 <= y < bh img)%Z ->
  (forall c, In c (bdata img) -> 0 <= c) -> 0 <= scale -> (y < bh img - 1 \/ 2 * x <= bw img)%Z ->
  exists k, env_weight img scale (y * bw img + x) = Val k /\ 0 <= k.
Proof.
  intros img scale x y I Hc Hx Hy Hn Hs H. unfold env_weight. cbv zeta. assert (W := proj1 I). assert (HH := proj1 (proj2 I)).
  replace (Z.rem (y * bw img + x) (bw img)) with x by (rewrite Z.rem_mod_nonneg by nia; rewrite Z.add_comm, Z.mod_add by lia; symmetry; apply Z.mod_small; lia).
  replace (Z.quot (y * bw img + x) (bw img)) with y by (rewrite Z.quot_div_nonneg by nia; rewrite Z.add_comm, Z.div_add by lia; rewrite Z.div_small by lia; lia).
  unfold bitmap_pixel. rewrite at_texel_ok by assumption. cbn [fbind]. eexists. split; [reflexivity|].
  assert (C : forall j, (0 <= j < bc img)%Z -> 0 <= component img x y j).
  { intros j Hj. pose proof (data_at img x y j I Hx Hy Hj) as E. apply at_index_in in E. now apply Hn. }
  apply Rmult_le_pos.
  - unfold comp_max, vscale. cbn [vx vy vz]. apply Rle_trans with (scale * component img x y 0); [apply Rmult_le_pos; [assumption|apply C; lia]|]. eapply Rle_trans; [apply Rmax_l|]. apply Rmax_l.
  - pose proof PI_RGT_0 as P. assert (W0 : 0 < IZR (bw img)) by (apply (IZR_lt 0); lia). assert (H1 : 0 < IZR (bh img)) by (apply (IZR_lt 0); lia).
    assert (N : 0 <= IZR (y * bw img + x)) by (apply (IZR_le 0); nia).
    assert (L : 2 * IZR (y * bw img + x) + IZR (bw img) <= 2 * IZR (bw img) * IZR (bh img)).
    { rewrite <- !mult_IZR, <- plus_IZR. apply IZR_le. nia. }
    set (i := IZR (y * bw img + x)) in *. set (w := IZR (bw img)) in *. set (h := IZR (bh img)) in *.
    replace (PI * (i / w + / 2) / h) with (PI * ((2 * i + w) / (2 * w * h))) by (field; lra).
    assert (Q : 0 <= (2 * i + w) / (2 * w * h) <= 1).
    { assert (0 < 2 * w * h) by nra. split; [apply Rmult_le_pos; [lra|apply Rlt_le, Rinv_0_lt_compat; assumption]|]. apply (Rmult_le_reg_r (2 * w * h)); [assumption|]. unfold Rdiv. rewrite Rmult_assoc, Rinv_l by lra. lra. }
    apply sin_ge_0; nra.
Qed.
Print Assumptions C65_weights_partial.

(** Finding: a uniformly white map of 3 x 1 pixels. Every direction has the same radiance, but only those
    of the first pixel are ever sampled, and the density reported for the last is negative. *)
Definition white : bitmap := mk_bitmap 3 1 3 [1; 1; 1; 1; 1; 1; 1; 1; 1].
Definition white_dist : dist2 := mk_dist2 [[Some 0; Some 1; Some (3 / 2); Some 1]] [Some 0; Some 1] 3 1.
Lemma white_made : env_dist white 1 = Val white_dist.
Proof.
  assert (S2 : sin (PI * (1 / 3 + / 2) / 1) = 1 / 2).
  { replace (PI * (1 / 3 + / 2) / 1) with (PI - PI / 6) by field. rewrite sin_PI_x. apply sin_PI6. }
  assert (S3 : sin (PI * (2 / 3 + / 2) / 1) = - (1 / 2)).
  { replace (PI * (2 / 3 + / 2) / 1) with (PI / 6 + PI) by field. rewrite neg_sin, sin_PI6. reflexivity. }
  assert (S1 : sin (PI * (0 / 3 + / 2) / 1) = 1).
  { replace (PI * (0 / 3 + / 2) / 1) with (PI / 2) by field. apply sin_PI2. }
  assert (M : comp_max (vscale 1 (V3 1 1 1)) = 1) by (unfold comp_max, vscale; cbn [vx vy vz]; rewrite !Rmult_1_l; unfold Rmax; repeat destruct (Rle_dec _ _); lra).
  unfold env_dist. change (Z.to_nat (bw white * bh white)) with 3%nat. cbn [env_weights].
  unfold env_weight. change (bw white) with 3%Z. change (bh white) with 1%Z. cbv zeta.
  change (bitmap_pixel white (Z.rem 0 3) (Z.quot 0 3)) with (Val (V3 1 1 1)). change (bitmap_pixel white (Z.rem (0 + 1) 3) (Z.quot (0 + 1) 3)) with (Val (V3 1 1 1)). change (bitmap_pixel white (Z.rem (0 + 1 + 1) 3) (Z.quot (0 + 1 + 1) 3)) with (Val (V3 1 1 1)).
  change (IZR (0 + 1 + 1)) with 2. change (IZR (0 + 1)) with 1. cbn [fbind]. rewrite M, S1, S2, S3.
  pose proof (init_ok [1 * 1; 1 * (1 / 2); 1 * - (1 / 2)] 3 1 eq_refl) as I. cbn [map Z.of_nat Pos.of_succ_nat Pos.succ] in I. rewrite I. cbn [of_outcome seq map]. unfold row, entry. cbn [seq map Nat.mul Nat.add nth].
  assert (R1 : rsum [1 * 1; 1 * (1 / 2); 1 * - (1 / 2)] = 1) by (cbn; field). rewrite !made_of_eq by (rewrite ?R1; cbn; lra). rewrite R1. unfold sums. cbn -[Rplus Rmult Rdiv Rinv white_dist].
  assert (E : forall a b c d e f, a = 0 -> b = 1 -> c = 3 / 2 -> d = 1 -> e = 0 -> f = 1 -> Val (mk_dist2 [[Some a; Some b; Some c; Some d]] [Some e; Some f] 3 1) = Val white_dist) by (intros; subst; reflexivity).
  apply E; field.
Qed.
Theorem C65_refuted : exists l, env_light false white 0 1 (Some (v0, 1)) = Val l
  /\ (forall u wo delta, sky_domain u -> l_eval l (Infinite (vneg (sky 0 u))) wo delta = Val (V3 1 1 1))
  /\ (forall up upc ud g T r, 0 <= v2x up < 1 -> 0 <= v2y up < 1 -> 0 <= v2x ud < 1 -> 0 <= v2y ud < 1 -> l_sample_direct l up upc ud g T = Val (Some r) ->
        exists u, 0 <= v2x u < 1 / 3 /\ r_wo r = vneg (sky 0 u))
  /\ (forall u p T wo delta, sky_domain u -> 2 / 3 <= v2x u -> exists q, q < 0 /\ l_pdf_direct l (Degenerated p) (Infinite (vneg (sky 0 u))) T wo delta = Val q).
Proof.
  unfold env_light. rewrite white_made. cbn [fbind]. replace (0 * PI / 180) with 0 by field. eexists. split; [reflexivity|]. split; [|split].
  - intros u wo delta D. cbn [l_eval env_light_of]. rewrite env_eval_sky by assumption.
    destruct (C45_lookup white u) as (x & y & _ & _ & Hx & Hy & _ & _ & _ & _ & ->); [repeat split|cbn; lia|]. cbn [bw bh white] in Hx, Hy. cbn [fbind]. f_equal.
    assert (y = 0)%Z by lia. assert (x = 0 \/ x = 1 \/ x = 2)%Z as [-> |[-> | ->]] by lia; subst; (transitivity (vscale 1 (V3 1 1 1)); [reflexivity|vring]).
  - intros up upc ud g T r U1 U2 U3 U4 H. cbn [l_sample_direct env_light_of] in H. fb H. fb H. destruct (Req_EM_T a0 0); [discriminate|]. fb H. fb H. injection H as <-. cbn [r_wo].
    assert (S : a = ((0 + v2x up) / 3, (0 + v2y up) / 1)).
    { unfold sample2, white_dist in E. cbn [m ds dw dh] in E. unfold sample at 1 in E. cbn -[Rplus Rmult Rdiv] in E. destruct (Rlt_dec (v2x ud) 1); [|lra]. cbn -[Rplus Rmult Rdiv] in E. destruct (Rlt_dec (v2x ud) 0); [lra|]. cbn -[Rplus Rmult Rdiv] in E.
      unfold sample in E. cbn -[Rplus Rmult Rdiv] in E. destruct (Rlt_dec (v2y ud) (3 / 2)); [|lra]. cbn -[Rplus Rmult Rdiv] in E. destruct (Rlt_dec (v2y ud) 1); [|lra]. cbn -[Rplus Rmult Rdiv] in E. destruct (Rlt_dec (v2y ud) 0); [lra|]. cbn -[Rplus Rmult Rdiv] in E. now injection E as <-. }
    subst a. exists (V2 ((0 + v2x up) / 3) ((0 + v2y up) / 1)). split; [cbn; lra|reflexivity].
  - intros u p T wo delta D Hx. cbn [l_pdf_direct env_light_of]. exists ((- (3 / 2)) / (2 * PI * PI * sin (PI * v2y u))).
    pose proof (pos4 PI (sin (PI * v2y u)) PI_RGT_0 (sin_sky _ (proj2 D))) as J. split.
    { assert (0 < 3 / 2 / (2 * PI * PI * sin (PI * v2y u))) by (apply Rdiv_lt_0_compat; lra). unfold Rdiv in *. lra. }
    rewrite (env_pdf_sky 0 white_dist (Degenerated p) u (- (3 / 2)) D); [reflexivity|].
    destruct D as [X Y]. unfold pdf2, white_dist. cbn [m ds dw dh].
    assert (T1 : trunc (v2y u * 1) = 0%Z) by (apply trunc_nonneg; lra). assert (T2 : trunc (v2x u * 3) = 2%Z) by (apply trunc_nonneg; lra).
    rewrite T1, T2. transitivity (Ok (Some ((1 - 0) * (1 - 3 / 2) * 3 * 1))); [reflexivity|]. do 2 f_equal. field.
Qed.
Print Assumptions C65_refuted.

Example C65_example : sky_domain (V2 (1 / 2) (1 / 2)) /\ table (mk_dist2 [made_of [1]] (made_of [1]) 1 1) [1] 1 1 /\ image white.
Proof.
  split; [split; cbn; lra|]. split; [|repeat split]. split; [reflexivity|]. rewrite (init_ok [1] 1 1 eq_refl). cbn [seq map]. unfold row, entry. cbn [seq map Nat.mul Nat.add nth].
  replace (rsum [1]) with 1 by (cbn; ring). reflexivity.
Qed.

(** C66. Whatever the direction, every point of the scene's box lies on a ray that the lights at infinity
    can sample, ahead of its origin. *)
Theorem C66_cover : forall neg0 mn mx d q, unit d -> in_box mn mx q -> mn <> mx ->
  exists up p t, in_square up /\ v2x up < 1 /\ v2y up < 1 /\ disk_origin neg0 (Some (scene_sphere mn mx)) d up = Val p /\ 0 <= t /\ ray_at p d t = q.
Proof. exact disk_cover. Qed.
Print Assumptions C66_cover.
(** For the lights themselves. *)
Theorem C66_rays : forall neg0 mn mx q T l, in_box mn mx q -> mn <> mx ->
  let b := Some (scene_sphere mn mx) in
  ((exists Le d n, directional_light neg0 Le d b = Val l /\ fnormalize d = Val n) ->
     exists up upc ud r p t, in_square up /\ l_sample_ray l up upc ud T = Val (Some (r, p)) /\ 0 <= t /\ ray_at p (r_wo r) t = q)
  /\ ((exists Le, l = envconst_light neg0 Le b) -> forall d, open_sphere d ->
     exists up upc ud r p t, in_square up /\ in_square ud /\ l_sample_ray l up upc ud T = Val (Some (r, p)) /\ r_wo r = d /\ 0 <= t /\ ray_at p d t = q).
Proof.
  intros neg0 mn mx q T l B N b.
  assert (R0 : 0 < snd (scene_sphere mn mx)).
  { unfold scene_sphere. cbn [snd]. set (c := vscale (/ 2) (vadd mx mn)). assert (0 <= vlen (vsub mx c)) by apply sqrt_pos. assert (vlen (vsub mx c) <> 0); [|lra]. intros Z.
    assert (R2 : vlen (vsub mx c) * vlen (vsub mx c) = dot (vsub mx c) (vsub mx c)) by (apply sqrt_sqrt, dot_self_nonneg). rewrite Z in R2. apply N. assert (M : vsub mx c = v0) by (apply dot_zero; lra).
    unfold c, vsub, vscale, vadd, v0 in M. injection M as M1 M2 M3. destruct mn as [a1 a2 a3], mx as [b1 b2 b3]. cbn in *. f_equal; lra. }
  assert (PD : exists k, 0 < k /\ disk_pdf b = Val k).
  { unfold disk_pdf, b. destruct (scene_sphere mn mx) as [c r]. cbn [snd] in R0. pose proof PI_RGT_0. assert (0 < PI * r * r) by (apply Rmult_lt_0_compat; [apply Rmult_lt_0_compat|]; assumption). exists (1 / (PI * r * r)). split; [apply Rdiv_lt_0_compat; lra|]. apply rdiv_ok. lra. }
  destruct PD as (k & K0 & PD).
  split.
  - intros (Le & d & n & E & En). unfold directional_light in E. rewrite En in E. cbn [fbind] in E. apply (f_equal (fun x => match x with Val y => y | _ => l end)) in E. cbv beta iota in E. rewrite <- E. clear E.
    destruct (disk_cover neg0 mn mx n q) as (up & p & t & S & _ & _ & O & T0 & Q); auto; [eapply fnormalize_unit; eassumption|].
    exists up, 0, (V2 0 0). cbn [l_sample_ray]. fold b in O. rewrite O. unfold dir_eval, dir_pdf_ray. rewrite PD. cbn [fbind]. unfold vdiv. destruct (Req_EM_T k 0); [lra|]. cbn [fbind]. do 3 eexists. split; [assumption|]. split; [reflexivity|]. cbn [r_wo]. eauto.
  - intros (Le & ->) d D. destruct sphere_bij as (_ & _ & SB). destruct (SB d D) as (ud & Iu & Eu).
    destruct (disk_cover neg0 mn mx d q) as (up & p & t & S & _ & _ & O & T0 & Q); auto; [apply D|].
    exists up, 0, ud. cbn [l_sample_ray envconst_light]. rewrite Eu. fold b in O. rewrite O. unfold env_pdf_ray. rewrite PD. cbn [fbind]. pose proof sphere_pdf_pos. unfold vdiv. assert (0 < pdf_uniform_sphere * k) by now apply Rmult_lt_0_compat.
    destruct (Req_EM_T (pdf_uniform_sphere * k) 0); [lra|]. cbn [fbind]. do 3 eexists. split; [assumption|]. split; [now apply interior_square|]. split; [reflexivity|]. cbn [r_wo]. eauto.
Qed.
Print Assumptions C66_rays.
(** The origins lie on the plane that touches the sphere around the scene, and their density on that plane is
    what the lights report. *)
Theorem C66_density : forall neg0 c r d up, unit d -> interior up -> 0 < r ->
  (forall p, disk_origin neg0 (Some (c, r)) d up = Val p -> dot (vsub p c) d = - r)
  /\ exists A, 0 < A /\ area_element (fun up => match disk_origin neg0 (Some (c, r)) d up with Val p => p | _ => v0 end) up A /\ disk_pdf (Some (c, r)) = Val (1 / A).
Proof.
  intros neg0 c r d up U I R0. split; [intros p; now apply disk_outside|]. exists (PI * r * r). assert (0 < PI * r * r) by (pose proof PI_RGT_0; apply Rmult_lt_0_compat; [apply Rmult_lt_0_compat|]; assumption).
  split; [assumption|]. split; [now apply disk_element|]. unfold disk_pdf. apply rdiv_ok. lra.
Qed.
Print Assumptions C66_density.
Example C66_example : unit (V3 0 0 1) /\ in_box v0 (V3 1 1 1) (V3 1 0 1) /\ v0 <> V3 1 1 1 /\ interior (V2 (1 / 2) 0) /\ open_sphere (V3 1 0 0).
Proof. repeat split; cbn; unfold unit, dot; cbn; try lra. intros E. injection E as E _ _. lra. Qed.
