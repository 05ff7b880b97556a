(** The functions of a scene are sane and honest in the sense of BdptSpec. *)
From Coq Require Import List Reals ZArith Bool Lra Lia ZifyBool.
From Verif Require Import Base RBase SceneModel MatSpec SurfSpec VecBase SurfModel MatModel MatProofs CamModel CamSpec CamProofs LightModel PathModel PathSpec PathProps MeshModel GeoModel VisModel VisSpec VisProps BidirModel BidirSpec BidirProofs BdptSpec UnitProps.
From Verif Require LightSpec PhaseModel PhaseProps VisHitProofs.
Import ListNotations.
Open Scope R_scope.

(** Random numbers in their range *)
Definition in_range (u : draw) : Prop := in_square (u_d (dw_ray u)) /\ in_square (dw_d u) /\ 0 <= dw_c u < 1.
(** Points as the functions of the scene make them, outside of media *)
Definition scene_point (x : interaction) : Prop := it x <> MediumInteraction /\ forall g, igeom x = OnSurface g -> MatSpec.surface_point (mk_spoint g (itc x)).

Section Scene.
  Variables (tr : affine -> transform) (mat : nat -> material) (lgt : nat -> light) (cam : nat -> camera) (pha : nat -> PhaseModel.phase).
  Variables (mesh_of : nat -> bool * mesh) (neg0 : bool) (zs : vec3 -> nat -> bool) (emitter : nat -> bool) (s : scene affine) (a : accel).
  Let A := scene_api tr mat lgt cam pha mesh_of neg0 zs emitter s a.
  Hypothesis Hl : forall k, LightSpec.light_made (lgt k).
  Hypothesis Hm : forall k, built false (mat k).
  Hypothesis Hk : forall k, proper_camera (cam k).

  Lemma light_ray_point l ud up upc T r o : LightSpec.light_made l -> in_square ud -> l_sample_ray l up upc ud T = Val (Some (r, o)) ->
    scene_point (endpoint LightEndpoint 0 (r_geom r)) /\ (forall w, r_geom r = Infinite w -> r_wo r = w) /\ (forall p, position (r_geom r) = Val p -> o = p).
  Proof.
    intros [Le p|n0 Ke ts|n0 Le d b l0 H0|n0 Le b|n0 img rot scale b l0 H0] U H.
    - cbn in H. fb H. injection H as <- <-. cbn. repeat split; try discriminate. now intros ? [= <-].
    - cbn [l_sample_ray area_light] in H. cbv zeta in H. fb H. fb H. fb H. fb H. injection H as <- <-. cbn. repeat split; try discriminate; [|now intros ? [= <-]]. cbn. intros g [= <-]. eapply area_normal; eassumption.
    - unfold directional_light in H0. fb H0. injection H0 as <-. cbn in H. fb H. fb H. fb H. injection H as <- _. cbn. repeat split; try discriminate. congruence.
    - cbn in H. fb H. fb H. fb H. injection H as <- _. cbn. repeat split; try discriminate. congruence.
    - unfold env_light in H0. fb H0. injection H0 as <-. cbn [l_sample_ray env_light_of] in H. cbv zeta in H. fb H. fb H. fb H. fb H. injection H as <- _. cbn. repeat split; try discriminate. congruence.
  Qed.

  Hypothesis Hs : sound_scene mesh_of s.
  Hypothesis Hb : built_for mesh_of s a.
  Hypothesis Hd : shallow a.
  Lemma scene_sane : sane A in_range scene_point.
  Proof.
    split.
    - intros u d r (U & _) H. unfold A in H. cbn [a_sample_ray scene_api] in H. unfold sample_primary_ray in H. destruct d.
      + mstep H. destruct a0 as [[T n] q]. mstep H. mstep H. mstep H. destruct a2 as [[r' o]|]; [|discriminate]. mstep H. mstep H. apply ret_inj in H. injection H as <-. cbn [pr_sp pr_wo pr_origin].
        apply okval in E2. assert (L : LightSpec.light_made a1) by (unfold deref in E1; destruct (SceneModel.p_light _); [injection E1 as <-; apply Hl|discriminate]).
        destruct (light_ray_point _ _ _ _ _ _ _ L U E2) as ((_ & P) & I & O). split; [split; [discriminate|exact P]|]. split; [now apply (proj1 (C72_lights a1 L _ U) _ _ _ _ _ E2)|]. auto.
      + mstep H. mstep H. mstep H. destruct a2 as [r'|]; [|discriminate]. apply ret_inj in H. injection H as <-. cbn [pr_sp pr_wo pr_origin]. apply okval in E1.
        assert (K : proper_camera a1) by (unfold deref in E0; destruct (p_camera _); [injection E0 as <-; apply Hk|discriminate]).
        assert (W := proj1 (C72_camera a1 _ K U) _ E1). unfold cam_sample_ray in E1. fb E1. injection E1 as <-. cbn in *. repeat split; try discriminate; auto. now intros o [= <-].
    - intros u x wi c d wo w (_ & U & _) V W Pk H. unfold A in H. cbn [a_sample_direction scene_api] in H. unfold sample_direction in H. mstep H. destruct V as [Vm V]. destruct (it x) eqn:T; [| | |contradiction].
      + mstep H. apply okval in H. assert (K : proper_camera a1) by (unfold deref in E0; destruct (p_camera _); [injection E0 as <-; apply Hk|discriminate]). now apply (proj2 (C72_camera a1 _ K U)) in H.
      + mstep H. mstep H. apply okval in H. assert (L : LightSpec.light_made a1) by (unfold deref in E0; destruct (SceneModel.p_light _); [injection E0 as <-; apply Hl|discriminate]).
        unfold unsupported in E1. destruct (l_sample_direction a1) as [f|] eqn:F; [|discriminate]. injection E1 as <-. apply (proj1 (proj2 (C72_lights a1 L _ U)) f (igeom x) wo w F); [|exact H].
        intros n N. unfold normal in N. destruct (igeom x) eqn:G; try discriminate. injection N as <-. apply (sp_normal (mk_spoint s0 (itc x))). now apply V.
      + mstep H. mstep H. mstep H. destruct a3 as [[wo' w']|]; [|discriminate]. apply ret_inj in H. injection H as -> _. apply okval in E1, E2.
        unfold spoint_of in E1. destruct (igeom x) eqn:G; try discriminate. injection E1 as <-. assert (M : built false a1 /\ exists k, a1 = mat k /\ p_material a0 = Some k) by (unfold deref in E0; destruct (p_material a0); [injection E0 as <-; eauto|discriminate]).
        destruct M as [M (k & Mk & Pm)]. apply (C72_materials false a1 c _ _ _ _ _ _ _ M U (V _ eq_refl) W) in E2; [exact E2|]. right. destruct Pk as (u' & k' & (_ & _ & Uc) & S).
        unfold A in S. cbn [a_sample_component scene_api] in S. unfold sample_component in S. rewrite T, E, obind_ok, E0, obind_ok in S. unfold spoint_of in S. rewrite G, pbind_okval in S. apply okval in S. exists (dw_c u'), k'. auto.
    - intros o w h W H. unfold A in H. cbn [a_intersect scene_api] in H. set (r := mk_ray o w (zs w)) in *.
      destruct (VisHitProofs.intersect_spec mesh_of neg0 s a Hs Hb Hd r Eps Inf) as [(x & E & Hx)|(_ & E)].
      + rewrite E in H. apply ret_inj in H. injection H as ->. destruct Hx as (t & f & B1 & B2 & B3 & g & Ht & _ & _ & _ & T & G & P & _).
        split; [split; [rewrite T; discriminate|]|].
        * intros g' G'. unfold intersect in E. mstep E. destruct a0 as [[[[[t' uv] TT] i] face]|]; [|destruct (Rlt_dec Inf Inf); [discriminate|]; destruct (s_env s); [apply ret_inj in E; injection E as <-; discriminate|discriminate]].
          mstep E. mstep E. mstep E. destruct (ip_n a2) as [n|]; [|discriminate]. destruct (ip_gn a2) as [gn|]; [|discriminate]. mstep E. mstep E. apply ret_inj in E. injection E as <-. cbn in G'. injection G' as <-.
          apply okval in E4. apply fnormalize_unit in E4. exists neg0. do 4 eexists. split; [exact E4|reflexivity].
        * right. exists g, t. split; [exact G|]. split; [unfold Eps in Ht; lra|]. cbn. rewrite P. reflexivity.
      + rewrite E in H. destruct (s_env s) as [e|]; [|discriminate]. destruct (Rlt_dec Inf Inf); [discriminate|]. apply ret_inj in H. injection H as <-. split; [split; [discriminate|discriminate]|]. now left.
  Qed.

  (** Weights *)
  Hypothesis Hr : ready s.
  Hypothesis Hp : forall k, PhaseProps.phase_made (pha k).
  Hypothesis Hc : forall k g wi, MatSpec.surface_point g -> unit wi -> exists ps, selects ps (fun u => MatModel.sample_component (mat k) u g wi) (fun c => MatModel.pdf_component (mat k) c g wi).
  Lemma split_light l g T w x y f h : LightSpec.light_made l -> l_connectable l = true -> l_pdf_position l = Some f -> f g T = Val x -> l_pdf_direction l = Some h -> h g w = Val y -> l_pdf_ray l g w T false = Val (x * y).
  Proof.
    intros [Le p|n0 Ke ts|n0 Le d b l0 H0|n0 Le b|n0 img rot scale b l0 H0] C F X H Y.
    - injection F as <-. injection H as <-. injection X as <-. injection Y as <-. cbn. f_equal. ring.
    - injection F as <-. injection H as <-. cbn [l_pdf_ray area_light]. rewrite X, Y. reflexivity.
    - unfold directional_light in H0. fb H0. injection H0 as <-. discriminate.
    - discriminate.
    - unfold env_light in H0. fb H0. injection H0 as <-. discriminate.
  Qed.
  Lemma scene_honest : honest A in_range scene_point.
  Proof.
    split.
    - intros u d [x o wo w] f q (U & _) H Hf Hq. unfold A in H, Hf, Hq. cbn [a_sample_ray a_contrb a_pdf_ray scene_api pr_sp pr_wo pr_weight] in H, Hf, Hq. destruct d.
      + destruct (C42_path_light_rays _ tr mat lgt cam pha s _ x o wo w 0 v0 Hl Hr H) as (f' & q' & F & Q & E). rewrite F in Hf. rewrite Q in Hq. apply okval in Hf, Hq. injection Hf as <-. injection Hq as <-. now symmetry.
      + unfold sample_primary_ray in H. destruct (prim_at s (camera_node s)) as [p| | |] eqn:P; try discriminate. rewrite obind_ok in H. destruct (p_camera p) as [k|] eqn:K; [|discriminate].
        assert (C : carries s (camera_node s) p_camera k).
        { unfold prim_at, node_at in P. destruct (Z.ltb_spec (camera_node s) 0); [discriminate|]. destruct (nth_error _ _) as [[y p'|y ch i l]|] eqn:N; try discriminate; injection P as <-; [|discriminate]. exists y, p'. split; [split; [assumption|exact N]|exact K]. }
        destruct (C42_path_camera_rays _ tr mat lgt cam pha s (dw_ray u) 0 v0 k C (Hk k) U) as (x' & o' & wo' & w' & f' & q' & S & F & Q & _ & E).
        unfold sample_primary_ray in S. rewrite P, obind_ok, K in S. rewrite H in S. apply ret_inj in S. injection S as <- <- <- <-. rewrite F in Hf. rewrite Q in Hq. apply okval in Hf, Hq. injection Hf as <-. injection Hq as <-. now symmetry.
    - intros u x wi c d wo w f q (_ & U & _) V W _ H Hf Hq. unfold A in H, Hf, Hq. cbn [a_sample_direction a_contrb a_pdf_direction scene_api] in H, Hf, Hq. destruct V as [V _].
      destruct (C42_path_directions_partial _ mat lgt cam pha s x wi c d _ _ wo w Hl Hp Hk ltac:(intros k; exists false; auto) U ltac:(intros k T; contradiction) H) as (f' & q' & F & Q & E).
      rewrite F in Hf. rewrite Q in Hq. apply okval in Hf, Hq. injection Hf as <-. injection Hq as <-. now symmetry.
    - intros u x wi c w q (_ & _ & U) V W H Hq. unfold A in H, Hq. cbn [a_sample_component a_pdf_component scene_api] in H, Hq. unfold sample_component, pdf_component in H, Hq.
      destruct (it x); try (apply ret_inj in H, Hq; injection H as <- <-; subst q; lra). mstep H. rewrite E, obind_ok in Hq. mstep H. rewrite E0, obind_ok in Hq. mstep H. rewrite E1, pbind_val in Hq. apply okval in H, Hq, E1.
      unfold spoint_of in E1. destruct (igeom x) eqn:G; try discriminate. injection E1 as <-. unfold deref in E0. destruct (p_material a0) as [k|]; [|discriminate]. injection E0 as <-.
      destruct (Hc k _ wi (proj2 V _ G) W) as (ps & _ & _ & Sq & Sp). destruct (Sp _ U) as (i & Li & Si & Pi & _). rewrite H in Si. injection Si as -> ->. rewrite (Sq i Li) in Hq. injection Hq as <-. field. lra.
    - intros x wi c q T H. unfold A in H. cbn [a_pdf_component scene_api] in H. unfold pdf_component in H. destruct T as [T|T]; rewrite T in H; apply ret_inj in H; congruence.
    - intros x wi wi' wo c c' d b T. unfold A. cbn [a_contrb scene_api]. unfold eval_contrb_direction. destruct T as [T|T]; now rewrite T.
    - intros x w p q T C P Q. unfold A in *. cbn [a_connectable a_pdf_position a_pdf_direction a_pdf_ray scene_api] in *. unfold is_connectable_endpoint, pdf_position, pdf_direction, pdf_primary_ray in *. destruct T as [T|T]; rewrite T in *.
      + mstep C. rewrite E, obind_ok in *. mstep C. apply ret_inj in C. mstep P. destruct a2 as [Tr ps]. rewrite E0, obind_ok in *. mstep P. mstep P. mstep P. apply ret_inj in P. mstep Q. rewrite E1. cbn [obind]. rewrite E3, pbind_val. apply okval in Q, E4.
        unfold unsupported in E2, E5. destruct (l_pdf_position a1) as [f|] eqn:Ef; [|discriminate]. destruct (l_pdf_direction a1) as [h|] eqn:Eh; [|discriminate]. injection E2 as <-. injection E5 as <-.
        assert (L : LightSpec.light_made a1) by (unfold deref in E0; destruct (SceneModel.p_light _); [injection E0 as <-; apply Hl|discriminate]).
        rewrite (split_light a1 _ _ _ _ _ _ _ L C Ef E4 Eh Q). rewrite pbind_okval. subst p. unfold ret. do 2 f_equal. ring.
      + mstep C. rewrite E, obind_ok in *. mstep C. rewrite E0, obind_ok in *. apply okval in P, Q. injection P as <-. unfold cam_pdf_ray. rewrite Q. cbn [fbind]. unfold cam_pdf_position. cbn [fbind]. unfold ret. do 2 f_equal. ring.
  Qed.
End Scene.
