From Coq Require Import List Reals Lra Lia ZArith Bool.
From Verif Require Import Base RBase SceneModel SceneSpec SceneProofs SceneOpsProofs SceneProps SelectModel SelectProofs VecBase GeoModel SurfModel SurfSpec MatModel MatSpec MatProofs MatProps CamModel CamSpec CamProofs CamProps LightModel LightSpec LightProofs LightProps PhaseModel PhaseProps PathModel PathSpec.
Import ListNotations.
Open Scope R_scope.

Lemma pbind_val {A B} (x : pm A) (f : A -> pm B) b : pbind x f = Ok (Val b) -> exists a, x = Ok (Val a) /\ f a = Ok (Val b).
Proof. destruct x as [[a| |]| | |]; cbn; intros H; try discriminate. eauto. Qed.
Lemma obind_ok {A B} (x : outcome A) (f : A -> outcome B) b : obind x f = Ok b -> exists a, x = Ok a /\ f a = Ok b.
Proof. destruct x; cbn; intros H; try discriminate. eauto. Qed.

Section PP.
  Context {M : Type}.
  Variable tr : M -> transform.
  Variable mat : nat -> material.
  Variable lgt : nat -> light.
  Variable cam : nat -> camera.
  Variable pha : nat -> phase.

  Lemma prim_carries (s : scene M) i f k : carries s i f k -> exists p, prim_at s i = Ok p /\ f p = Some k.
  Proof.
    intros (x & p & [H0 H1] & E). exists p. split; [|assumption]. unfold prim_at, node_at. destruct (Z.ltb_spec i 0); [lia|]. rewrite H1. reflexivity.
  Qed.
  Lemma ready_light (s : scene M) i T n : ready s -> light_primitive_index_at s i = Ok (T, n) ->
    (exists k, carries s n p_light k) /\ light_index_at s n = Ok i.
  Proof.
    intros (one & mul & fuel & s0 & N & Tr & -> & D) H. split.
    - destruct (C19_lights _ one mul fuel s0 N Tr) as (paths & _ & Hp & F).
      unfold light_primitive_index_at in H. destruct (i <? 0)%Z; [discriminate|]. destruct (nth_error _ _) as [q|] eqn:E; [|discriminate]. injection H as ->.
      apply nth_error_In in E. clear D.
      assert (G : forall ps ls, Forall2 (fun p l => exists Ls, path (s_nodes s0) 0 p (snd l) Ls /\ fst l = fold_left mul Ls one) ps ls -> incl ps paths -> In (T, n) ls -> exists p Ls, In p paths /\ path (s_nodes s0) 0 p n Ls).
      { intros ps ls H. induction H as [|p l ps ls (Ls & P & Q) H IH]; intros I J; [contradiction|]. destruct J as [-> |J]; [exists p, Ls; split; [apply I; now left|assumption]|]. apply IH; [|assumption]. intros z Z; apply I; now right. }
      destruct (G _ _ F (fun _ z => z) E) as (p & Ls & I & P). apply Hp in I. destruct I as (j & Ls' & nd & P' & Hn & L).
      destruct (path_fun _ _ _ _ _ _ _ P P') as [-> _]. destruct nd as [x pr|]; cbn in L; [|contradiction]. destruct (p_light pr) as [k|] eqn:Ek; [|contradiction].
      exists k, x, pr. split; [|assumption]. unfold build. destruct (traverse one mul fuel s0). exact Hn.
    - now apply (C19_lookup_inverse _ one mul fuel s0 i T n).
  Qed.
  Lemma select_spec (s : scene M) u T n q : ready s -> select_light tr s u = Ok (T, n, q) ->
    (exists k, carries s n p_light k) /\ find_light tr s n = Ok (T, q) /\ q = of_num (fdiv 1 (INR (length (s_lights s)))).
  Proof.
    intros R H. unfold select_light, sample_light_selection in H. apply obind_ok in H. destruct H as ([T' n'] & H1 & H2). injection H2 as <- <- <-.
    destruct (ready_light s _ _ _ R H1) as [C I]. split; [assumption|]. split; [|reflexivity]. unfold find_light. rewrite I. cbn [obind]. rewrite H1. reflexivity.
  Qed.
  Lemma light_at (s : scene M) n (l : light) p : (exists k, carries s n p_light k) -> prim_at s n = Ok p -> deref lgt (p_light p) = Ok l ->
    exists k, p_light p = Some k /\ lgt k = l.
  Proof. intros (k & C) Hp Hl. destruct (prim_carries s n _ k C) as (p' & E & K). rewrite E in Hp. injection Hp as <-. rewrite K in Hl. injection Hl as <-. eauto. Qed.

  Ltac ob H := let a := fresh "a" in let E := fresh "E" in apply obind_ok in H; destruct H as (a & E & H).
  Ltac pb H := let a := fresh "a" in let E := fresh "E" in apply pbind_val in H; destruct H as (a & E & H).

  Lemma primary_LE (s : scene M) u x o wo w c wi : (forall k, light_made (lgt k)) -> ready s ->
    sample_primary_ray tr lgt cam u s LE = Ok (Val (Some (mk_path_ray x o wo w))) ->
    exists f q, eval_contrb_direction mat lgt cam pha s x wi wo c LE false = Ok (Val f) /\ pdf_primary_ray tr lgt cam s x wo false = Ok (Val q) /\ vscale q w = f.
  Proof.
    intros L R H. unfold sample_primary_ray in H. ob H. destruct a as [[T n] q]. ob H. ob H. pb H. destruct a1 as [[r o']|]; [|discriminate].
    pb H. pb H. assert (X : x = endpoint LightEndpoint n (r_geom r) /\ wo = r_wo r /\ w = a2) by (injection H; auto). destruct X as (-> & -> & ->).
    destruct (select_spec s _ _ _ _ R E) as (C & F & Q). destruct (light_at s n a0 a C E0 E1) as (k & Ek & El).
    assert (E2' : l_sample_ray a0 (u_p u) (v2y (u_pc u)) (u_d u) T = Val (Some (r, o'))) by congruence.
    destruct (ray_w a0 ltac:(rewrite <- El; apply L) _ _ _ _ _ _ E2') as (f & p & V & P & W).
    unfold eval_contrb_direction, pdf_primary_ray, endpoint. cbn [iprim it igeom]. rewrite E0. cbn [obind]. rewrite Ek, El, V, F. cbn [obind deref]. rewrite E3. cbn [pbind]. rewrite El, P. cbn [pbind].
    exists f, (a1 * p). split; [reflexivity|]. split; [reflexivity|].
    assert (E4' : vdiv (r_weight r) a1 = Val a2) by congruence. apply vdiv_val in E4'. destruct E4' as [Z Zw]. rewrite <- W, <- Zw. vcomp; ring.
  Qed.

  Lemma primary_EL (s : scene M) u c wi k : carries s (camera_node s) p_camera k -> proper_camera (cam k) -> in_square (u_d u) ->
    exists x o wo w f q, sample_primary_ray tr lgt cam u s EL = Ok (Val (Some (mk_path_ray x o wo w)))
      /\ eval_contrb_direction mat lgt cam pha s x wi wo c EL false = Ok (Val f) /\ pdf_primary_ray tr lgt cam s x wo false = Ok (Val q) /\ 0 < q /\ vscale q w = f.
  Proof.
    intros C K U. destruct (prim_carries s _ _ _ C) as (p & E & Ek). destruct (C42_camera_rays (cam k) (u_d u) K U) as ((r & f & q & S & V & P & Pos & W) & _).
    unfold sample_primary_ray. rewrite E. cbn [obind]. rewrite Ek. cbn [deref obind]. rewrite S. cbn [pbind ret].
    eexists _, _, _, _, f, q. split; [reflexivity|]. unfold eval_contrb_direction, pdf_primary_ray, endpoint. cbn [iprim it]. rewrite E. cbn [obind]. rewrite Ek. cbn [deref obind]. rewrite V, P. auto.
  Qed.

  Lemma position_LE (s : scene M) up upc x w : (forall k, light_made (lgt k)) -> ready s ->
    sample_position tr lgt cam up upc s LE = Ok (Val (Some (x, w))) ->
    exists q, pdf_position tr lgt cam s x = Ok (Val q) /\ vscale q w = grey (1 / INR (length (s_lights s))).
  Proof.
    intros L R H. unfold sample_position in H. ob H. destruct a as [[T n] q]. ob H. ob H. ob H. pb H. destruct a2 as [[g w']|]; [|discriminate].
    assert (X : x = endpoint LightEndpoint n g /\ w = w') by (injection H; auto). destruct X as (-> & ->).
    destruct (select_spec s _ _ _ _ R E) as (C & F & Q). destruct (light_at s n a0 a C E0 E1) as (k & Ek & El).
    assert (E2' : l_sample_position a0 = Some a1) by (unfold unsupported in E2; destruct (l_sample_position a0); congruence).
    assert (E3' : a1 up (v2y upc) T = Val (Some (g, w'))) by congruence.
    destruct (position_w a0 ltac:(rewrite <- El; apply L) _ E2') as (pdf & P & W). destruct (W _ _ _ _ _ E3') as (p & Pv & We).
    unfold pdf_position, endpoint. cbn [iprim it igeom]. rewrite E0. cbn [obind]. rewrite F. cbn [obind]. rewrite Ek. cbn [deref obind]. rewrite El. unfold unsupported. rewrite P. cbn [obind].
    assert (N : s_lights s <> []).
    { intros Z. unfold select_light in E. rewrite Z in E. unfold sample_light_selection in E. ob E. unfold light_primitive_index_at in E4. rewrite Z in E4. destruct (_ <? 0)%Z; [discriminate|]. destruct (Z.to_nat _); discriminate. }
    assert (0 < INR (length (s_lights s))) by (apply lt_0_INR; destruct (s_lights s); [contradiction|cbn; lia]).
    subst q. unfold fdiv. destruct (Req_EM_T _ 0); [lra|]. cbn [of_num pbind]. rewrite Pv. cbn [pbind]. eexists. split; [reflexivity|].
    transitivity (vscale (1 / INR (length (s_lights s))) (vscale p w')); [vcomp; ring|]. rewrite We. unfold grey. vcomp; ring.
  Qed.
  Lemma position_EL (s : scene M) up upc k : carries s (camera_node s) p_camera k ->
    exists x w q, sample_position tr lgt cam up upc s EL = Ok (Val (Some (x, w))) /\ pdf_position tr lgt cam s x = Ok (Val q) /\ vscale q w = V3 1 1 1.
  Proof.
    intros C. destruct (prim_carries s _ _ _ C) as (p & E & Ek). unfold sample_position. rewrite E. cbn [obind]. rewrite Ek. cbn [deref obind]. unfold cam_sample_position. cbn [pbind ret].
    eexists _, _, 1. split; [reflexivity|]. unfold pdf_position, endpoint. cbn [iprim it]. rewrite E. cbn [obind]. rewrite Ek. cbn [deref obind]. unfold cam_pdf_position. split; [reflexivity|]. unfold grey. vcomp; ring.
  Qed.

  Lemma direct_LE (s : scene M) u y x wo w c wi : (forall k, light_made (lgt k)) -> ready s ->
    sample_direct tr lgt cam u s y LE = Ok (Val (Some (x, wo, w))) ->
    exists f q, eval_contrb_direction mat lgt cam pha s x wi wo c LE false = Ok (Val f) /\ pdf_direct tr lgt cam s y x wo false = Ok (Val q) /\ vscale q w = f.
  Proof.
    intros L R H. unfold sample_direct in H. ob H. destruct a as [[T n] q]. ob H. ob H. pb H. destruct a1 as [r|]; [|discriminate].
    pb H. pb H. assert (X : x = endpoint LightEndpoint n (r_geom r) /\ wo = r_wo r /\ w = a2) by (injection H; auto). destruct X as (-> & -> & ->).
    destruct (select_spec s _ _ _ _ R E) as (C & F & Q). destruct (light_at s n a0 a C E0 E1) as (k & Ek & El).
    assert (E2' : l_sample_direct a0 (u_p u) (v2y (u_pc u)) (u_d u) (igeom y) T = Val (Some r)) by congruence.
    destruct (direct_w a0 ltac:(rewrite <- El; apply L) _ _ _ _ _ _ E2') as (f & p & V & P & _ & W).
    unfold eval_contrb_direction, pdf_direct, endpoint. cbn [iprim it igeom]. rewrite E0. cbn [obind]. rewrite Ek, El, V, F. cbn [obind deref]. rewrite E3. cbn [pbind]. rewrite El, P. cbn [pbind].
    exists f, (a1 * p). split; [reflexivity|]. split; [reflexivity|].
    assert (E4' : vdiv (r_weight r) a1 = Val a2) by congruence. apply vdiv_val in E4'. destruct E4' as [Z Zw]. rewrite <- W, <- Zw. vcomp; ring.
  Qed.
  Lemma direct_EL (s : scene M) u y x wo w c wi k : carries s (camera_node s) p_camera k -> proper_camera (cam k) -> in_view (cam k) wo ->
    sample_direct tr lgt cam u s y EL = Ok (Val (Some (x, wo, w))) ->
    exists f q, eval_contrb_direction mat lgt cam pha s x wi wo c EL false = Ok (Val f) /\ pdf_direct tr lgt cam s y x wo false = Ok (Val q) /\ vscale q w = f.
  Proof.
    intros C K V H. destruct (prim_carries s _ _ _ C) as (p & E & Ek). unfold sample_direct in H. rewrite E in H. cbn [obind] in H. rewrite Ek in H. cbn [deref obind] in H. pb H. destruct a as [r|]; [|discriminate].
    assert (X : x = endpoint CameraEndpoint (camera_node s) (r_geom r) /\ wo = r_wo r /\ w = r_weight r) by (injection H; auto). destruct X as (-> & -> & ->).
    destruct (C42_camera_direct_partial (cam k) (igeom y) r K ltac:(congruence) V) as (f & q & A & B & W).
    exists f, q. unfold eval_contrb_direction, pdf_direct, endpoint. cbn [iprim it igeom]. rewrite E. cbn [obind]. rewrite Ek. cbn [deref obind]. rewrite A, B. auto.
  Qed.

  Lemma direction_ok (s : scene M) x wi c d ud udc wo w :
    (forall k, light_made (lgt k)) -> (forall k, phase_made (pha k)) -> (forall k, proper_camera (cam k)) -> (forall k, exists b, built b (mat k) /\ (b = false \/ c = 0%Z)) ->
    in_square ud -> (forall f, it x = MediumInteraction -> carries s (iprim x) p_medium f -> exists q, ph_pdf (pha f) wi wo = Val q) ->
    sample_direction mat lgt cam pha ud udc s x wi c d = Ok (Val (Some (wo, w))) ->
    exists f q, eval_contrb_direction mat lgt cam pha s x wi wo c d false = Ok (Val f) /\ pdf_direction mat lgt cam pha s x wi wo c false = Ok (Val q) /\ vscale q w = f.
  Proof.
    intros L P K B U Q H. unfold sample_direction in H. ob H. unfold eval_contrb_direction, pdf_direction. rewrite E. cbn [obind]. destruct (it x) eqn:Et.
    - ob H. destruct (p_camera a) as [k|]; [|discriminate]. cbn [deref obind] in *. assert (a0 = cam k) as -> by congruence.
      destruct (C42_camera_rays (cam k) ud (K k) U) as (_ & (d' & w' & f & q & S & V & Pd & _ & W) & _). assert (X : d' = wo /\ w' = w) by (split; congruence). destruct X as [-> ->].
      exists f, q. rewrite V, Pd. auto.
    - ob H. ob H. destruct (p_light a) as [k|]; [|discriminate]. cbn [deref obind] in *. assert (a0 = lgt k) as -> by congruence.
      assert (E1' : l_sample_direction (lgt k) = Some a1) by (unfold unsupported in E1; destruct (l_sample_direction (lgt k)); congruence).
      destruct (direction_w (lgt k) (L k) a1 E1') as (pdf & Ep & W). destruct (W ud (igeom x) wo w ltac:(congruence)) as (f & q & V & Pv & We).
      exists f, q. unfold unsupported. rewrite Ep. cbn [obind]. rewrite V, Pv. auto.
    - ob H. destruct (p_material a) as [k|]; [|discriminate]. cbn [deref obind] in *. assert (a0 = mat k) as -> by congruence. pb H. pb H. destruct a1 as [[wo' w']|]; [|discriminate].
      assert (X : wo = wo' /\ w = vscale (shading_normal_correction (geo a0) wi wo' d) w') by (injection H; auto). destruct X as [-> ->].
      destruct (B k) as (b & Bb & Hc). destruct (weights_ok b (mat k) c Bb Hc ud udc a0 wi d wo' w' ltac:(congruence)) as (f & q & V & Pv & W).
      rewrite E1. cbn [pbind]. rewrite V, Pv. cbn [pbind]. eexists _, q. split; [reflexivity|]. split; [reflexivity|]. rewrite <- W. vcomp; ring.
    - ob H. destruct (p_medium a) as [k|] eqn:Em; [|discriminate]. cbn [deref obind] in *. assert (a0 = pha k) as -> by congruence.
      destruct (Q k eq_refl) as (q & Pq).
      { unfold prim_at in E. ob E. unfold node_at in E1. destruct (Z.ltb_spec (iprim x) 0); [discriminate|]. destruct (nth_error _ _) as [nd|] eqn:En; [|discriminate]. injection E1 as ->. injection E as <-.
        destruct a0 as [i pr|]; [|discriminate]. exists i, pr. split; [split; assumption|assumption]. }
      exists (vscale q w), q. rewrite (C42_phase (pha k) (P k) ud wi wo w q ltac:(congruence) Pq), Pq. auto.
  Qed.
End PP.
