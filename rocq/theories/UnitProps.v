(** C72: sampled directions have length one. *)
From Coq Require Import List Reals Lra ZArith Bool.
From Verif Require Import Base RBase VecBase GeoModel MeshModel SurfModel SurfSpec SurfProofs SurfWarpProofs MatModel MatSpec MatProofs CamModel CamSpec CamProofs LightModel LightProofs PhaseModel PhaseProps.
From Verif Require LightSpec CamProps.
Import ListNotations.
Open Scope R_scope.

(** A component that some random number selects *)
Definition selectable (m : material) (g : spoint) (wi : vec3) (c : Z) : Prop := exists u k, 0 <= u < 1 /\ sample_component m u g wi = Val (c, k).

Lemma group_in es grp e : In grp (groups es) -> In e grp -> In e es.
Proof.
  rewrite groups_eq. intros [<-|H] I; [unfold smooth in I; now apply filter_In in I|]. apply in_map_iff in H. destruct H as (x & <- & H). destruct I as [<-|[]]. unfold spiky in H. now apply filter_In in H.
Qed.
(** Materials: component 0, which mixtures ask for, and every component that can be selected *)
Theorem C72_materials : forall b m c ud udc g wi dir wo w, built b m -> in_square ud -> surface_point g -> unit wi -> c = 0%Z \/ selectable m g wi c ->
  sample_direction m ud udc g wi c dir = Val (Some (wo, w)) -> unit wo.
Proof.
  fix IH 11. intros b m c ud udc g wi dir wo w [Kd map|Ks ax ay| | |Ni|b' m' H|es H|es H|Kd map Ks ax ay mk] Hu Hg Hi Hc E.
  - now destruct (diffuse_direction _ _ _ _ _ _ _ _ _ _ Hu Hg E).
  - now destruct (glossy_direction _ _ _ _ _ _ _ _ _ _ _ Hi E).
  - injection E as <- _. unfold unit. rewrite reflection_len; [exact Hi|now apply sp_normal].
  - injection E as <- _. now apply unit_neg.
  - cbn [glass sample_direction] in E. destruct (c =? 0)%Z eqn:Ec.
    + cbv zeta in E. fb E. fb E. injection E as <- _. unfold unit. rewrite reflection_len; [exact Hi|now apply sp_normal].
    + destruct Hc as [->|(u & k & Hk & S)]; [discriminate|]. cbn [glass sample_component] in S. apply fbind_val in S. destruct S as ([[wt Fr] eta] & S1 & S). cbv beta iota in S. apply fbind_val in S. destruct S as (q & S2 & S). injection S as Sc _.
      rewrite S1 in E. cbn [fbind] in E. fb E. fb E. injection E as <- _.
      assert (Fr <> 1). { rewrite Sc, Ec in S2. unfold rdiv, fdiv in S2. intros ->. replace (1 - 1) with 0 in S2 by ring. destruct (Req_EM_T 0 0); [discriminate|contradiction]. }
      unfold glass_fr in S1. apply fbind_val in S1. destruct S1 as ([[sd n] et] & S3 & S1).
      assert (N : unit n). { apply sp_normal in Hg. unfold glass_side in S3. destruct (Rlt_dec 0 (dot wi (sn (geo g)))); [apply fbind_val in S3; destruct S3 as (y & _ & S3)|]; injection S3 as _ <- _; [assumption|now apply unit_neg]. }
      destruct (refraction wi n et) as [wt'|] eqn:R; [|injection S1; congruence]. apply fbind_val in S1. destruct S1 as (y & _ & S1). injection S1 as <- _ _. apply (refraction_snell _ _ _ _ Hi N R).
  - exact (IH b' m' c ud udc g wi dir wo w H Hu Hg Hi Hc E).
  - cbn [mixture_rr sample_direction] in E. fb E. destruct a as [m1 w1]. fb E. destruct a as [[wo' sw]|]; [|discriminate]. injection E as -> _. apply at_index_in in E0. destruct (H m1 w1 E0) as [b1 H1].
    exact (IH b1 m1 0%Z ud udc g wi dir wo sw H1 Hu Hg Hi (or_introl eq_refl) E1).
  - cbn [mixture_marginalized sample_direction] in E. fb E. apply at_index_in in E0. fb E. fb E. destruct a1 as [m1 w1]. fb E. destruct a1 as [[wo' sw]|]; [|discriminate]. fb E. fb E. fb E. injection E as -> _.
    apply at_index_in in E2. apply (group_in _ _ _ E0) in E2. destruct (H m1 w1 E2) as [b1 H1]. exact (IH b1 m1 0%Z ud udc g wi dir wo sw H1 Hu Hg Hi (or_introl eq_refl) E3).
  - unfold mixture_obj in E. cbn [sample_direction] in E. destruct (c =? 0)%Z eqn:Ec; [|injection E as <- _; now apply unit_neg].
    apply fbind_val in E. destruct E as (q & Eq & E). apply fbind_val in E. destruct E as (s & Es & E). destruct s as [[wo' sw]|]; [|discriminate].
    apply fbind_val in E. destruct E as (f & Ef & E). apply fbind_val in E. destruct E as (p & Ep & E). apply fbind_val in E. destruct E as (k & Ek & E). injection E as -> _.
    destruct (Rlt_dec udc q); [now destruct (diffuse_direction _ _ _ _ _ _ _ _ _ _ Hu Hg Es)|now destruct (glossy_direction _ _ _ _ _ _ _ _ _ _ _ Hi Es)].
Qed.
Print Assumptions C72_materials.
Definition s_point : spoint := mk_spoint (make_on_surface false v0 (V3 0 0 1) (V3 0 0 1)) (V2 0 0).
Lemma s_point_ok : surface_point s_point.
Proof. exists false, v0, (V3 0 0 1), (V3 0 0 1), (V2 0 0). split; [unfold unit; vring|reflexivity]. Qed.
Example C72_example : built false mirror /\ in_square (V2 0 0) /\ surface_point s_point /\ unit (V3 0 0 1) /\ sample_direction mirror (V2 0 0) 0 s_point (V3 0 0 1) 0 LE = Val (Some (V3 0 0 1, grey 1)).
Proof.
  split; [constructor|]. split; [unfold in_square; cbn; lra|]. split; [exact s_point_ok|]. split; [unfold unit; vring|]. cbn. do 3 f_equal. unfold reflection. vring.
Qed.
(** Finding: asked for the refracted component under total reflection, which is never selected, glass returns
    the zero vector as a direction. *)
Theorem C72_total_reflection_refuted : exists Ni g wi w, surface_point g /\ unit wi /\ sample_direction (glass Ni) (V2 0 0) 0 g wi 1 LE = Val (Some (v0, w)) /\ ~ unit v0 /\ ~ selectable (glass Ni) g wi 1.
Proof.
  assert (F : glass_fr 2 s_point (V3 1 0 0) = Val (v0, 1, 2)).
  { unfold glass_fr, glass_side. cbn [geo s_point]. destruct (surface_frame false v0 (V3 0 0 1) (V3 0 0 1) ltac:(unfold unit; vring)) as [_ ->].
    replace (dot (V3 1 0 0) (V3 0 0 1)) with 0 by vring. destruct (Rlt_dec 0 0); [lra|]. cbn [fbind]. unfold refraction.
    match goal with |- context [Rle_dec ?a 0] => assert (a <= 0) by (unfold dot, vneg; cbn; lra); destruct (Rle_dec a 0); [reflexivity|contradiction] end. }
  exists 2, s_point, (V3 1 0 0), (grey ((1 - 1) * 1)). split; [exact s_point_ok|]. split; [unfold unit; vring|]. split; [|split].
  - cbn [glass sample_direction]. change (1 =? 0)%Z with false. cbv iota. rewrite F. cbn [fbind]. unfold glass_eval. rewrite F. cbn [fbind]. change (1 =? 0)%Z with false. cbv iota. unfold vdiv, glass_pdf. destruct (Req_EM_T 1 0); [lra|]. cbn [fbind refr_correction]. do 2 f_equal. f_equal. unfold grey. vring.
  - unfold unit, dot. cbn. lra.
  - intros (u & k & U & S). cbn [glass sample_component] in S. rewrite F in S. cbn [fbind] in S. destruct (Rlt_dec u 1); [|lra]. apply fbind_val in S. destruct S as (q & _ & S). discriminate.
Qed.
Print Assumptions C72_total_reflection_refuted.

(** Lights: rays, directions at a point of the light, and connections *)
Lemma area_unit neg0 n ud : unit n -> in_square ud -> unit (area_wo neg0 n ud).
Proof.
  intros N U. unfold area_wo. assert (F := basis_frame neg0 n N). destruct (orthonormal_basis neg0 n) as [u v]. apply rotate_unit; [exact F|]. now destruct (cosine_unit ud U).
Qed.
Lemma area_normal neg0 ts up upc T s : area_position neg0 ts up upc T = Val s -> surface_point (mk_spoint s (V2 0 0)) /\ unit (sn s).
Proof.
  intros H. unfold area_position in H. fb H. fb H. destruct a0 as [[a0 b] c]. destruct (geometry_normal a0 b c); [|discriminate]. fb H. apply fnormalize_unit in E1. injection H as <-.
  split; [eexists neg0, _, _, _, _; split; [exact E1|reflexivity]|]. edestruct (surface_frame neg0) as [_ ->]; exact E1.
Qed.
Theorem C72_lights : forall l, LightSpec.light_made l -> forall ud, in_square ud ->
  (forall up upc T r o, l_sample_ray l up upc ud T = Val (Some (r, o)) -> unit (r_wo r)) /\
  (forall f g wo w, l_sample_direction l = Some f -> (forall n, normal g = Val n -> unit n) -> f ud g = Val (Some (wo, w)) -> unit wo) /\
  (forall up upc g T r, l_sample_direct l up upc ud g T = Val (Some r) -> unit (r_wo r)).
Proof.
  intros l [Le p|neg0 Ke ts|neg0 Le d b l0 H0|neg0 Le b|neg0 img rot scale b l0 H0] ud U.
  - split; [|split].
    + intros up upc T r o H. cbn in H. fb H. injection H as <- _. now apply sphere_unit.
    + intros f g wo w [= <-] _ H. cbn in H. fb H. injection H as <- _. now apply sphere_unit.
    + intros up upc g T r H. cbn [l_sample_direct point_light] in H. fb H. fb H. cbv zeta in H. fb H. destruct (Req_EM_T _ 0); [discriminate|]. fb H. injection H as <-. eapply fnormalize_unit; eassumption.
  - split; [|split].
    + intros up upc T r o H. cbn [l_sample_ray area_light] in H. cbv zeta in H. fb H. fb H. fb H. fb H. injection H as <- _. apply area_unit; [|exact U]. eapply area_normal; eassumption.
    + intros f g wo w [= <-] Hn H. cbv zeta in H. fb H. fb H. fb H. injection H as <- _. apply area_unit; auto.
    + intros up upc g T r H. cbn [l_sample_direct area_light] in H. fb H. fb H. fb H. fb H. destruct (Req_EM_T _ 0); [discriminate|]. fb H. fb H. injection H as <-. eapply fnormalize_unit; eassumption.
  - unfold directional_light in H0. fb H0. injection H0 as <-. apply fnormalize_unit in E. split; [|split].
    + intros up upc T r o H. cbn in H. fb H. fb H. fb H. injection H as <- _. exact E.
    + discriminate.
    + intros up upc g T r H. cbn [l_sample_direct] in H. cbv zeta in H. fb H. destruct (Req_EM_T _ 0); [discriminate|]. fb H. injection H as <-. exact E.
  - split; [|split].
    + intros up upc T r o H. cbn in H. fb H. fb H. fb H. injection H as <- _. now apply sphere_unit.
    + discriminate.
    + intros up upc g T r H. cbn [l_sample_direct envconst_light] in H. cbv zeta in H. fb H. destruct (Req_EM_T _ 0); [discriminate|]. fb H. injection H as <-. now apply sphere_unit.
  - unfold env_light in H0. fb H0. injection H0 as <-. split; [|split].
    + intros up upc T r o H. cbn [l_sample_ray env_light_of] in H. cbv zeta in H. fb H. fb H. fb H. fb H. injection H as <- _. now apply sphere_unit.
    + discriminate.
    + intros up upc g T r H. cbn [l_sample_direct env_light_of] in H. cbv zeta in H. fb H. fb H. destruct (Req_EM_T _ 0); [discriminate|]. fb H. fb H. injection H as <-. cbn [r_wo]. unfold env_wo. apply unit_neg. apply (sky_unit (rot * PI / 180) (V2 (fst a0) (snd a0))).
Qed.
Print Assumptions C72_lights.
(** The camera *)
Theorem C72_camera : forall k ud, proper_camera k -> in_square ud ->
  (forall r, cam_sample_ray k ud = Val (Some r) -> unit (r_wo r)) /\ (forall wo w, cam_sample_direction k ud = Val (Some (wo, w)) -> unit wo) /\
  (forall g r, cam_sample_direct k g = Val (Some r) -> unit (r_wo r)).
Proof.
  intros k ud K U. destruct (round_trip k K ud U) as (d & E & Hd & _). unfold cam_sample_ray, cam_sample_direction. rewrite E. cbn [fbind]. split; [now intros r [= <-]|]. split; [now intros wo w [= <- _]|].
  intros g r H. unfold cam_sample_direct in H. destruct g; [| |discriminate]; fb H; fb H; fb H; destruct (Req_EM_T _ 0); try discriminate; fb H; injection H as <-; eapply fnormalize_unit; eassumption.
Qed.
Print Assumptions C72_camera.
(** Phase functions; for an asymmetry outside of (-1, 1) see C67. *)
Theorem C72_phases : forall f ud wi wo w, f = isotropic \/ (exists neg0 g, -1 < g < 1 /\ f = henyey_greenstein neg0 g) -> in_square ud -> unit wi -> ph_sample f ud wi = Val (Some (wo, w)) -> unit wo.
Proof.
  intros f ud wi wo w [->|(neg0 & g & G & ->)] U W H; [injection H as <- _; now apply sphere_unit|]. destruct U as [U1 U2].
  destruct (directions_form neg0 g wi ud G U1) as [E1 E2]. rewrite E1 in H. injection H as <- _. rewrite E2. apply rotate_unit; [apply basis_frame; now apply unit_neg|]. apply polar_unit. now apply hg_c_range.
Qed.
Print Assumptions C72_phases.
Example C72_lights_example : LightSpec.light_made (point_light (grey 1) v0) /\ in_square (V2 0 0) /\ exists r o, l_sample_ray (point_light (grey 1) v0) (V2 0 0) 0 (V2 0 0) (mk_tr (M3 v0 v0 v0) v0 (M3 v0 v0 v0) 1) = Val (Some (r, o)).
Proof.
  split; [constructor|]. split; [unfold in_square; cbn; lra|]. cbn. unfold vdiv. pose proof sphere_pdf_pos. destruct (Req_EM_T pdf_uniform_sphere 0); [lra|]. cbn. eauto.
Qed.
Example C72_camera_example : proper_camera CamProps.cam0 /\ in_square (V2 (/ 4) (/ 2)).
Proof. split; apply CamProps.C44_example. Qed.
Example C72_phases_example : (exists neg0 g, -1 < g < 1 /\ henyey_greenstein true (/ 2) = henyey_greenstein neg0 g) /\ unit (V3 0 0 1) /\ exists wo w, ph_sample (henyey_greenstein true (/ 2)) (V2 0 0) (V3 0 0 1) = Val (Some (wo, w)).
Proof. split; [exists true, (/ 2); split; [lra|reflexivity]|]. split; [unfold unit; vring|]. destruct (directions_form true (/ 2) (V3 0 0 1) (V2 0 0)) as [E _]; [lra|cbn; lra|]. eauto. Qed.
