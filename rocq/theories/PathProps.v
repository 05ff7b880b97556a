(** C42 for the path functions, and C68. *)
From Coq Require Import List Reals Lra Lia ZArith Bool.
From Verif Require Import Base RBase DistSpec SceneModel SceneSpec SceneProofs SceneProps SelectModel SelectProofs VecBase GeoModel SurfModel SurfSpec MatModel MatSpec MatProofs MatProps CamModel CamSpec CamProofs CamProps LightModel LightSpec LightProofs LightProps PhaseModel PhaseProps PathModel PathSpec PathProofs.
Import ListNotations.
Open Scope R_scope.

(** ** C42 *)
(** Weight times reported density is the reported contribution. Primary rays from lights: *)
Theorem C42_path_light_rays : forall M tr mat lgt cam pha (s : scene M) u x o wo w c wi, (forall k, light_made (lgt k)) -> ready s ->
  sample_primary_ray tr lgt cam u s LE = Ok (Val (Some (mk_path_ray x o wo w))) ->
  exists f q, eval_contrb_direction mat lgt cam pha s x wi wo c LE false = Ok (Val f) /\ pdf_primary_ray tr lgt cam s x wo false = Ok (Val q) /\ vscale q w = f.
Proof. intros. eapply primary_LE; eassumption. Qed.
Print Assumptions C42_path_light_rays.
(** Primary rays from the camera: *)
Theorem C42_path_camera_rays : forall M tr mat lgt cam pha (s : scene M) u c wi k, carries s (camera_node s) p_camera k -> proper_camera (cam k) -> in_square (u_d u) ->
  exists x o wo w f q, sample_primary_ray tr lgt cam u s EL = Ok (Val (Some (mk_path_ray x o wo w)))
    /\ eval_contrb_direction mat lgt cam pha s x wi wo c EL false = Ok (Val f) /\ pdf_primary_ray tr lgt cam s x wo false = Ok (Val q) /\ 0 < q /\ vscale q w = f.
Proof. intros. eapply primary_EL; eassumption. Qed.
Print Assumptions C42_path_camera_rays.
(** Connections of any point to a light: *)
Theorem C42_path_direct_light : forall M tr mat lgt cam pha (s : scene M) u y x wo w c wi, (forall k, light_made (lgt k)) -> ready s ->
  sample_direct tr lgt cam u s y LE = Ok (Val (Some (x, wo, w))) ->
  exists f q, eval_contrb_direction mat lgt cam pha s x wi wo c LE false = Ok (Val f) /\ pdf_direct tr lgt cam s y x wo false = Ok (Val q) /\ vscale q w = f.
Proof. intros. eapply direct_LE; eassumption. Qed.
Print Assumptions C42_path_direct_light.
(** Connections to the camera, for points in view (see C42_camera_direct_refuted for the others): *)
Theorem C42_path_direct_camera_partial : forall M tr mat lgt cam pha (s : scene M) u y x wo w c wi k, carries s (camera_node s) p_camera k -> proper_camera (cam k) -> in_view (cam k) wo ->
  sample_direct tr lgt cam u s y EL = Ok (Val (Some (x, wo, w))) ->
  exists f q, eval_contrb_direction mat lgt cam pha s x wi wo c EL false = Ok (Val f) /\ pdf_direct tr lgt cam s y x wo false = Ok (Val q) /\ vscale q w = f.
Proof. intros. eapply direct_EL; eassumption. Qed.
Print Assumptions C42_path_direct_camera_partial.
(** Directions at interactions of all types. For the OBJ material only component 0 (see
    C42_alpha_mask_refuted), for a medium only samples with a finite density (see C67). *)
Theorem C42_path_directions_partial : forall M mat lgt cam pha (s : scene M) x wi c d ud udc wo w,
  (forall k, light_made (lgt k)) -> (forall k, phase_made (pha k)) -> (forall k, proper_camera (cam k)) -> (forall k, exists b, built b (mat k) /\ (b = false \/ c = 0%Z)) ->
  in_square ud -> (forall f, it x = MediumInteraction -> carries s (iprim x) p_medium f -> exists q, ph_pdf (pha f) wi wo = Val q) ->
  sample_direction mat lgt cam pha ud udc s x wi c d = Ok (Val (Some (wo, w))) ->
  exists f q, eval_contrb_direction mat lgt cam pha s x wi wo c d false = Ok (Val f) /\ pdf_direction mat lgt cam pha s x wi wo c false = Ok (Val q) /\ vscale q w = f.
Proof. intros. eapply direction_ok; eassumption. Qed.
Print Assumptions C42_path_directions_partial.
(** Components: at a surface as the material selects them (C43), elsewhere the only one. *)
Theorem C42_path_components : forall M mat (s : scene M) x wi u, 0 <= u < 1 ->
  (forall k, it x = SurfaceInteraction -> carries s (iprim x) p_material k ->
     exists g ps, spoint_of x = Val g /\ selects ps (fun u => MatModel.sample_component (mat k) u g wi) (fun c => MatModel.pdf_component (mat k) c g wi)) ->
  valid s x ->
  exists c w q, sample_component mat u s x wi = Ok (Val (c, w)) /\ pdf_component mat s x wi c = Ok (Val q) /\ 0 < q /\ q * w = 1.
Proof.
  intros M mat s x wi u U H V. unfold sample_component, pdf_component. destruct (it x) eqn:E; try (exists 0%Z, 1, 1; repeat split; lra).
  unfold valid in V. rewrite E in V. destruct V as ((k & C) & _). destruct (H k eq_refl C) as (g & ps & G & Hn & Hs & Hq & Hp). destruct (prim_carries s _ _ _ C) as (p & Ep & Ek).
  rewrite Ep. cbn [obind]. rewrite Ek. cbn [deref obind]. rewrite G. cbn [pbind]. destruct (Hp u U) as (i & Hi & Pk & Pos & _). rewrite Pk.
  exists (Z.of_nat i), (/ nth i ps 0), (nth i ps 0). rewrite (Hq i Hi). repeat split; auto. field. lra.
Qed.
Print Assumptions C42_path_components.
(** Positions: the camera's, and those on a light if it is the only one. *)
Theorem C42_path_positions_partial : forall M tr lgt cam (s : scene M) up upc,
  (forall k, carries s (camera_node s) p_camera k ->
     exists x w q, sample_position tr lgt cam up upc s EL = Ok (Val (Some (x, w))) /\ pdf_position tr lgt cam s x = Ok (Val q) /\ vscale q w = V3 1 1 1)
  /\ ((forall k, light_made (lgt k)) -> ready s -> forall x w, sample_position tr lgt cam up upc s LE = Ok (Val (Some (x, w))) ->
     length (s_lights s) = 1%nat -> exists q, pdf_position tr lgt cam s x = Ok (Val q) /\ vscale q w = V3 1 1 1).
Proof.
  intros M tr lgt cam s up upc. split; [intros k C; now apply (position_EL tr lgt cam s up upc k)|].
  intros L R x w H N. destruct (position_LE tr lgt cam s up upc x w L R H) as (q & P & W). exists q. split; [assumption|]. rewrite W, N. cbn. unfold grey. f_equal; field.
Qed.
Print Assumptions C42_path_positions_partial.
(** Finding: with several lights the weight of a position misses the probability of selecting the light,
    while the density contains it: their product is 1/n. *)
Theorem C42_path_positions_refuted : forall M tr lgt cam (s : scene M) up upc x w, (forall k, light_made (lgt k)) -> ready s -> (2 <= length (s_lights s))%nat ->
  sample_position tr lgt cam up upc s LE = Ok (Val (Some (x, w))) ->
  exists q, pdf_position tr lgt cam s x = Ok (Val q) /\ vscale q w = grey (1 / INR (length (s_lights s))) /\ vscale q w <> V3 1 1 1.
Proof.
  intros M tr lgt cam s up upc x w L R N H. destruct (position_LE tr lgt cam s up upc x w L R H) as (q & P & W). exists q. split; [assumption|]. split; [assumption|].
  rewrite W. unfold grey. intros Z. apply (f_equal vx) in Z. cbn in Z. apply le_INR in N. cbn in N.
  assert (INR (length (s_lights s)) = 1); [|lra]. apply (f_equal (fun r => r * INR (length (s_lights s)))) in Z. unfold Rdiv in Z. rewrite Rmult_assoc, Rinv_l in Z by lra. lra.
Qed.
Print Assumptions C42_path_positions_refuted.

(** A scene with two point lights, a diffuse sphere and a camera. *)
Definition p_nodes : list (node Datatypes.unit) :=
  [NGroup 0 [1; 2; 3; 4]%Z false None; NPrim 1 (mk_prim None None (Some 0%nat) None None); NPrim 2 (mk_prim None None (Some 1%nat) None None);
   NPrim 3 (mk_prim None None None (Some 0%nat) None); NPrim 4 (mk_prim (Some 0%nat) (Some 0%nat) None None None)].
Definition p_scene0 : scene Datatypes.unit := mk_scene (Some 9%nat) p_nodes (Some 3%Z) [] [] None None 0.
Definition p_scene : scene Datatypes.unit := snd (build tt (fun _ _ => tt) 9 p_scene0).
Definition p_tr : Datatypes.unit -> transform := fun _ => mk_tr (M3 v0 v0 v0) v0 (M3 v0 v0 v0) 1.
Definition p_light (k : nat) : light := point_light (V3 (INR k) 1 1) v0.
Lemma p_lights : s_lights p_scene = [(tt, 1%Z); (tt, 2%Z)].
Proof. vm_compute. reflexivity. Qed.
Lemma p_ready : ready p_scene.
Proof.
  exists tt, (fun _ _ => tt), 9%nat, p_scene0. split; [|split; [reflexivity|split; [reflexivity|]]].
  - intros [|[|[|[|[|k]]]]] n; cbn; intros [= <-] || intros H; try reflexivity. now destruct k.
  - rewrite p_lights. repeat constructor; cbn; intuition discriminate.
Qed.
Example C42_path_example : ready p_scene /\ length (s_lights p_scene) = 2%nat /\ (forall k, light_made (p_light k)) /\ carries p_scene (camera_node p_scene) p_camera 0%nat
  /\ exists x w, sample_position p_tr p_light (fun _ => cam0) (V2 0 0) (V2 0 0) p_scene LE = Ok (Val (Some (x, w))) /\ iprim x = 1%Z.
Proof.
  split; [exact p_ready|]. split; [now rewrite p_lights|]. split; [intros k; constructor|]. split; [exists 3%Z, (mk_prim None None None (Some 0%nat) None); split; [split; [cbn; lia|reflexivity]|reflexivity]|].
  unfold sample_position, select_light, sample_light_selection. cbn [v2x]. rewrite p_lights. cbn [length].
  assert (Zc : zclamp (trunc (0 * INR 2)) 0 (Z.of_nat 2 - 1) = 0%Z).
  { rewrite Rmult_0_l. replace (trunc 0) with 0%Z; [reflexivity|]. unfold trunc. destruct (Rlt_dec 0 0); [lra|]. symmetry. apply Int_part_spec; lra. }
  rewrite Zc. replace (light_primitive_index_at p_scene 0) with (@Ok (Datatypes.unit * Z) (tt, 1%Z)) by (vm_compute; reflexivity). cbn [obind fst snd].
  replace (prim_at p_scene 1) with (Ok (mk_prim None None (Some 0%nat) None None)) by (vm_compute; reflexivity). cbn. eexists _, _. split; reflexivity.
Qed.
Example C42_path_rays_example : exists r, sample_primary_ray p_tr p_light (fun _ => cam0) (mk_u (V2 0 0) (V2 0 0) (V2 0 0)) p_scene LE = Ok (Val (Some r)) /\ iprim (pr_sp r) = 1%Z.
Proof.
  unfold sample_primary_ray, select_light, sample_light_selection. cbn [v2x u_pc].
  rewrite p_lights. cbn [length].
  assert (Zc : zclamp (trunc (0 * INR 2)) 0 (Z.of_nat 2 - 1) = 0%Z).
  { rewrite Rmult_0_l. replace (trunc 0) with 0%Z; [reflexivity|]. unfold trunc. destruct (Rlt_dec 0 0); [lra|]. symmetry. apply Int_part_spec; lra. }
  rewrite Zc. replace (light_primitive_index_at p_scene 0) with (@Ok (Datatypes.unit * Z) (tt, 1%Z)) by (vm_compute; reflexivity). cbn [obind fst snd].
  replace (prim_at p_scene 1) with (Ok (mk_prim None None (Some 0%nat) None None)) by (vm_compute; reflexivity). cbn [obind SceneModel.p_light deref].
  unfold p_light, point_light. cbn [l_sample_ray]. unfold vdiv at 1. destruct (Req_EM_T pdf_uniform_sphere 0) as [e|_]; [exfalso; pose proof sphere_pdf_pos; lra|]. cbn [fbind pbind].
  unfold fdiv. destruct (Req_EM_T (INR 2) 0) as [e|_]; [cbn in e; lra|]. cbn [of_num pbind]. unfold vdiv. destruct (Req_EM_T (1 / INR 2) 0) as [e|_]; [cbn in e; lra|]. cbn [pbind ret]. eexists. split; reflexivity.
Qed.

(** Finding: an area light instanced twice. The density of a sample on the first instance is computed with
    the transform of the last one: weight times density is off by the ratio of the areas. *)
Theorem C42_path_instanced_refuted : forall M tr mat lgt cam pha (s : scene M) T1 T2 n k neg0 Ke ts u y x wo w wi c,
  s_lights s = [(T1, n); (T2, n)] -> light_index_at s n = Ok 1%Z -> carries s n SceneModel.p_light k -> lgt k = area_light neg0 Ke ts ->
  0 < t_J (tr T1) -> 0 < t_J (tr T2) -> 0 <= v2x (u_pc u) < 1 / 2 ->
  sample_direct tr lgt cam u s y LE = Ok (Val (Some (x, wo, w))) ->
  exists f q, eval_contrb_direction mat lgt cam pha s x wi wo c LE false = Ok (Val f) /\ pdf_direct tr lgt cam s y x wo false = Ok (Val q)
    /\ vscale (t_J (tr T2) * q) w = vscale (t_J (tr T1)) f.
Proof.
  intros M tr mat lgt cam pha s T1 T2 n k neg0 Ke ts u y x wo w wi c Ls Li C Lk J1 J2 U H.
  destruct (prim_carries s _ _ _ C) as (p & Ep & Ek).
  assert (S : select_light tr s (v2x (u_pc u)) = Ok (tr T1, n, of_num (fdiv 1 (INR 2)))).
  { unfold select_light, sample_light_selection. rewrite Ls. cbn [length].
    replace (zclamp (trunc (v2x (u_pc u) * INR 2)) 0 (Z.of_nat 2 - 1)) with 0%Z; [unfold light_primitive_index_at; rewrite Ls; reflexivity|].
    replace (trunc (v2x (u_pc u) * INR 2)) with 0%Z; [reflexivity|]. unfold trunc. destruct (Rlt_dec (v2x (u_pc u) * INR 2) 0) as [e|_]; [cbn in e; lra|]. symmetry. apply Int_part_spec; cbn; lra. }
  unfold sample_direct in H. rewrite S in H. cbn [obind] in H. rewrite Ep in H. cbn [obind] in H. rewrite Ek in H. cbn [deref obind] in H. rewrite Lk in H.
  apply pbind_val in H. destruct H as (r & Hr & H). destruct r as [r|]; [|discriminate]. apply pbind_val in H. destruct H as (q2 & Hq & H). apply pbind_val in H. destruct H as (w' & Hw & H).
  assert (X : x = endpoint LightEndpoint n (r_geom r) /\ wo = r_wo r /\ w = w') by (injection H; auto). destruct X as (-> & -> & ->).
  assert (Hr' : l_sample_direct (area_light neg0 Ke ts) (u_p u) (v2y (u_pc u)) (u_d u) (igeom y) (tr T1) = Val (Some r)) by congruence.
  destruct (direct_w _ (lm_area neg0 Ke ts) _ _ _ _ _ _ Hr') as (f & q & V & P & Qn & W).
  assert (P2 : exists q', l_pdf_direct (area_light neg0 Ke ts) (igeom y) (r_geom r) (tr T2) (r_wo r) false = Val q' /\ t_J (tr T2) * q' = t_J (tr T1) * q).
  { cbn [area_light l_pdf_direct] in *. unfold area_pdf_direct in *. fb P. rewrite E. cbn [fbind]. destruct (Rle_dec _ 0) as [|_]; [injection P as <-; contradiction|].
    fb P. rewrite E0. cbn [fbind]. destruct (Req_EM_T _ 0) as [|G]; [injection P as <-; contradiction|]. fb P. unfold area_invA in *. fb E1. rewrite E2. cbn [fbind]. rewrite rdiv_ok in * by lra. injection E1 as <-. cbn [fbind]. rewrite rdiv_ok in * by assumption. injection P as <-.
    eexists. split; [reflexivity|]. field. repeat split; try assumption; lra. }
  destruct P2 as (q' & P2 & R2).
  unfold eval_contrb_direction, pdf_direct, endpoint, find_light. cbn [iprim it igeom]. rewrite Ep. cbn [obind]. rewrite Ek, Lk, V, Li. cbn [obind].
  replace (light_primitive_index_at s 1) with (Ok (T2, n)) by (unfold light_primitive_index_at; rewrite Ls; reflexivity). cbn [obind fst deref]. unfold pdf_light_selection. rewrite Ls. cbn [length]. rewrite Hq. cbn [pbind]. rewrite Lk, P2. cbn [pbind].
  eexists f, _. split; [reflexivity|]. split; [reflexivity|]. assert (Hw' : vdiv (r_weight r) q2 = Val w') by congruence. apply vdiv_val in Hw'. destruct Hw' as [_ Hw'].
  transitivity (vscale (t_J (tr T2) * q') (vscale q2 w')); [vcomp; ring|]. rewrite Hw', R2. rewrite <- W. vcomp; ring.
Qed.
Print Assumptions C42_path_instanced_refuted.

(** ** C68 *)
(** On a scene that is ready, has a light and a camera: sampling ends normally (positions: unless the light
    does not support them) and gives valid interactions; so does evaluating at valid interactions. *)
Theorem C68_sampling : forall M tr lgt cam (s : scene M) u x d k, ready s -> s_lights s <> [] -> carries s (camera_node s) p_camera k -> 0 <= v2x (u_pc u) < 1 ->
  fine (sample_primary_ray tr lgt cam u s d) /\ fine (sample_direct tr lgt cam u s x d) /\ fine_or_unsupported (sample_position tr lgt cam (u_p u) (u_pc u) s d)
  /\ (forall r, sample_primary_ray tr lgt cam u s d = Ok (Val (Some r)) -> valid s (pr_sp r))
  /\ (forall y wo w, sample_direct tr lgt cam u s x d = Ok (Val (Some (y, wo, w))) -> valid s y)
  /\ (forall y w, sample_position tr lgt cam (u_p u) (u_pc u) s d = Ok (Val (Some (y, w))) -> valid s y).
Proof.
  intros M tr lgt cam s u x d k R N C U.
  assert (S : exists T n q, select_light tr s (v2x (u_pc u)) = Ok (T, n, q) /\ exists i T', light_primitive_index_at s i = Ok (T', n)).
  { assert (L : (0 < length (s_lights s))%nat) by (destruct (s_lights s); [contradiction|cbn; lia]). destruct (C19_selection_valid _ _ L U) as [B _].
    unfold select_light. destruct (sample_light_selection _ _) as [i p]. cbn [fst] in B. unfold light_primitive_index_at at 1. destruct (Z.ltb_spec i 0); [lia|].
    destruct (nth_error (s_lights s) (Z.to_nat i)) as [[T n]|] eqn:E; [|apply nth_error_None in E; lia]. cbn [obind fst snd]. eexists _, n, _. split; [reflexivity|]. exists i, T. unfold light_primitive_index_at. destruct (Z.ltb_spec i 0); [lia|]. now rewrite E. }
  destruct S as (T & n & q & S & i & T' & I). destruct (ready_light s i T' n R I) as [(kl & CL) _]. destruct (prim_carries s _ _ _ CL) as (pl & EL' & KL). destruct (prim_carries s _ _ _ C) as (pc & EC & KC).
  unfold sample_primary_ray, sample_direct, sample_position. rewrite S. cbn [obind]. rewrite EL', EC. cbn [obind]. rewrite KL, KC. cbn [deref obind].
  assert (VL : forall g, valid s (endpoint LightEndpoint n g)) by (intros g; unfold valid; cbn; eauto). assert (VC : forall g, valid s (endpoint CameraEndpoint (camera_node s) g)) by (intros g; unfold valid; cbn; eauto).
  unfold fine_or_unsupported, fine, ret. destruct d.
  - split; [|split; [|split; [|split; [|split]]]].
    + destruct (l_sample_ray _ _ _ _ _) as [[[r o]|]| |]; cbn; eauto. destruct q as [q| |]; cbn; eauto. destruct (vdiv (r_weight r) q); cbn; eauto.
    + destruct (l_sample_direct _ _ _ _ _ _) as [[r|]| |]; cbn; eauto. destruct q as [q| |]; cbn; eauto. destruct (vdiv (r_weight r) q); cbn; eauto.
    + destruct (l_sample_position _) as [f|]; cbn; [left|now right]. destruct (f _ _ _); cbn; eauto.
    + intros r H. destruct (l_sample_ray _ _ _ _ _) as [[[r' o]|]| |]; cbn in H; try discriminate. destruct q as [q| |]; cbn in H; try discriminate. destruct (vdiv (r_weight r') q); cbn in H; try discriminate. injection H as <-. apply VL.
    + intros y wo w H. destruct (l_sample_direct _ _ _ _ _ _) as [[r'|]| |]; cbn in H; try discriminate. destruct q as [q| |]; cbn in H; try discriminate. destruct (vdiv (r_weight r') q); cbn in H; try discriminate. injection H as <- _ _. apply VL.
    + intros y w H. destruct (l_sample_position _) as [f|]; cbn in H; try discriminate. destruct (f _ _ _) as [[[g w']|]| |]; cbn in H; try discriminate. injection H as <- _. apply VL.
  - split; [|split; [|split; [|split; [|split]]]].
    + destruct (cam_sample_ray _ _) as [[r|]| |]; cbn; eauto.
    + destruct (cam_sample_direct _ _) as [[r|]| |]; cbn; eauto.
    + left. destruct (cam_sample_position _) as [[r|]| |]; cbn; eauto.
    + intros r H. destruct (cam_sample_ray _ _) as [[r'|]| |]; cbn in H; try discriminate. injection H as <-. apply VC.
    + intros y wo w H. destruct (cam_sample_direct _ _) as [[r'|]| |]; cbn in H; try discriminate. injection H as <- _ _. apply VC.
    + intros y w H. destruct (cam_sample_position _) as [[[g w']|]| |]; cbn in H; try discriminate. injection H as <- _. apply VC.
Qed.
Print Assumptions C68_sampling.

Theorem C68_evaluation : forall M mat lgt cam pha (s : scene M) x wi wo c d ud udc delta, ready s -> valid s x ->
  fine (eval_contrb_direction mat lgt cam pha s x wi wo c d delta)
  /\ fine_or_unsupported (sample_direction mat lgt cam pha ud udc s x wi c d)
  /\ fine_or_unsupported (pdf_direction mat lgt cam pha s x wi wo c delta)
  /\ fine (is_specular_component mat lgt s x c)
  /\ fine (sample_component mat udc s x wi) /\ fine (pdf_component mat s x wi c).
Proof.
  intros M mat lgt cam pha s x wi wo c d ud udc delta R V. unfold valid in V.
  assert (P : exists p, prim_at s (iprim x) = Ok p /\ match it x with CameraEndpoint => exists k, p_camera p = Some k | LightEndpoint => exists k, SceneModel.p_light p = Some k
    | SurfaceInteraction => (exists k, p_material p = Some k) /\ exists g, igeom x = OnSurface g | MediumInteraction => exists k, p_medium p = Some k end).
  { destruct (it x).
    - destruct V as (k & C). destruct (prim_carries s _ _ _ C) as (p & E & K). eauto.
    - destruct V as (i & T & I). destruct (ready_light s i T _ R I) as [(k & C) _]. destruct (prim_carries s _ _ _ C) as (p & E & K). eauto.
    - destruct V as ((k & C) & G). destruct (prim_carries s _ _ _ C) as (p & E & K). eauto.
    - destruct V as (k & C). destruct (prim_carries s _ _ _ C) as (p & E & K). eauto. }
  clear V. destruct P as (p & E & P). unfold eval_contrb_direction, sample_direction, pdf_direction, is_specular_component, sample_component, pdf_component. rewrite E. cbn [obind].
  unfold fine_or_unsupported, fine, ret. destruct (it x).
  - destruct P as (k & K). rewrite K. cbn. repeat split; eauto.
  - destruct P as (k & K). rewrite K. cbn. repeat split; eauto.
    + destruct (l_sample_direction (lgt k)); cbn; eauto.
    + destruct (l_pdf_direction (lgt k)); cbn; eauto.
  - destruct P as ((k & K) & g & G). rewrite K. unfold spoint_of. rewrite G. cbn [deref obind pbind].
    repeat split; eauto.
    + destruct (eval _ _ _ _ _ _ _); cbn; eauto.
    + left. destruct (MatModel.sample_direction _ _ _ _ _ _ _); cbn; eauto.
  - destruct P as (k & K). rewrite K. cbn. repeat split; eauto.
Qed.
Print Assumptions C68_evaluation.

(** Densities of end points: never undefined for end points of the right kind, and the exception
    Unsupported for interactions that are no end points. *)
Theorem C68_endpoints : forall M tr lgt cam (s : scene M) x y wo delta,
  (it x = SurfaceInteraction \/ it x = MediumInteraction -> pdf_position tr lgt cam s x = Throw ErrUnsupported /\ pdf_direct tr lgt cam s y x wo delta = Throw ErrUnsupported)
  /\ (it x = CameraEndpoint \/ it x = LightEndpoint -> ready s -> valid s x ->
        fine (pdf_primary_ray tr lgt cam s x wo delta) /\ fine (pdf_direct tr lgt cam s y x wo delta) /\ fine_or_unsupported (pdf_position tr lgt cam s x)
        /\ fine (is_connectable_endpoint lgt cam s x)).
Proof.
  intros M tr lgt cam s x y wo delta. unfold pdf_position, pdf_direct, pdf_primary_ray, is_connectable_endpoint, valid, fine_or_unsupported, fine, ret. split.
  - intros [E|E]; rewrite E; auto.
  - intros [E|E] R V; rewrite E in *.
    + destruct V as (k & C). destruct (prim_carries s _ _ _ C) as (p & Ep & K). rewrite Ep. cbn [obind]. rewrite K. cbn. repeat split; eauto.
    + destruct V as (i & T & I). destruct (ready_light s i T _ R I) as [(k & C) Hi]. destruct (prim_carries s _ _ _ C) as (p & Ep & K). rewrite Ep. cbn [obind]. unfold find_light. rewrite Hi. cbn [obind]. rewrite I. cbn [obind fst]. rewrite K. cbn [deref obind].
      repeat split; eauto.
      * destruct (of_num _); cbn; eauto. destruct (l_pdf_ray _ _ _ _ _); cbn; eauto.
      * destruct (of_num _); cbn; eauto. destruct (l_pdf_direct _ _ _ _ _ _); cbn; eauto.
      * destruct (l_pdf_position (lgt k)) as [f|]; cbn; [left|now right]. destruct (of_num _); cbn; eauto. destruct (f _ _); cbn; eauto.
Qed.
Print Assumptions C68_endpoints.
(** An interaction evaluated as an end point whose primitive has no light or camera contributes nothing. *)
Theorem C68_absent : forall M mat lgt cam pha (s : scene M) x p wi wo c d delta, prim_at s (iprim x) = Ok p ->
  (SceneModel.p_light p = None -> eval_contrb_direction mat lgt cam pha s (as_type x LightEndpoint) wi wo c d delta = Ok (Val v0))
  /\ (p_camera p = None -> eval_contrb_direction mat lgt cam pha s (as_type x CameraEndpoint) wi wo c d delta = Ok (Val v0)).
Proof. intros M mat lgt cam pha s x p wi wo c d delta E. unfold eval_contrb_direction, as_type. cbn [iprim it]. rewrite E. cbn [obind]. split; intros ->; reflexivity. Qed.
Print Assumptions C68_absent.
Example C68_example : ready p_scene /\ s_lights p_scene <> [] /\ valid p_scene (endpoint LightEndpoint 2 (Degenerated v0)) /\ exists k, carries p_scene (camera_node p_scene) p_camera k.
Proof.
  split; [exact p_ready|]. split; [now rewrite p_lights|]. split; [exists 1%Z, tt; vm_compute; reflexivity|]. exists 0%nat. apply C42_path_example.
Qed.
(** What the flags mean for lights. A specular light has no value and no density where deltas are evaluated as
    zero, any other light has the same ones there. Exactly at connectable lights positions and directions have
    a density; at others asking for them raises that it is not supported. *)
Theorem C68_light_flags : forall M tr mat lgt cam pha (s : scene M) x y wi wo c d, (forall k, light_made (lgt k)) -> ready s -> it x = LightEndpoint -> valid s x -> exists b k,
  is_specular_component mat lgt s x c = ret b /\ is_connectable_endpoint lgt cam s x = ret k
  /\ (b = true -> eval_contrb_direction mat lgt cam pha s x wi wo c d true = ret v0 /\ forall q, pdf_direct tr lgt cam s y x wo true = ret q -> q = 0)
  /\ (b = false -> eval_contrb_direction mat lgt cam pha s x wi wo c d true = eval_contrb_direction mat lgt cam pha s x wi wo c d false /\ pdf_direct tr lgt cam s y x wo true = pdf_direct tr lgt cam s y x wo false)
  /\ (k = true -> forall delta, fine (pdf_position tr lgt cam s x) /\ fine (pdf_direction mat lgt cam pha s x wi wo c delta))
  /\ (k = false -> forall delta, pdf_position tr lgt cam s x = Throw ErrUnsupported /\ pdf_direction mat lgt cam pha s x wi wo c delta = Throw ErrUnsupported).
Proof.
  intros M tr mat lgt cam pha s x y wi wo c d HL R Tx V. unfold valid in V. rewrite Tx in V. destruct V as (i & T & I). destruct (ready_light s i T (iprim x) R I) as [(kl & CL) Li].
  destruct (prim_carries s _ _ _ CL) as (p & Ep & Ek). unfold is_specular_component, is_connectable_endpoint, eval_contrb_direction, pdf_direct, pdf_position, pdf_direction, find_light. rewrite Tx, Ep. cbn [obind]. rewrite Ek. cbn [deref obind]. rewrite Li. cbn [obind]. rewrite I. cbn [obind fst].
  eexists _, _. split; [reflexivity|]. split; [reflexivity|].
  destruct (HL kl) as [Le q|n0 Ke ts|n0 Le dd b l0 H0|n0 Le b|n0 img rot scale b l0 H0]; try (unfold directional_light in H0; fb H0; injection H0 as <-); try (unfold env_light in H0; fb H0; injection H0 as <-); cbn; (split; [intros K; try discriminate K|split; [intros K; try discriminate K; split; reflexivity|split; intros K delta; try discriminate K; try (split; reflexivity)]]).
  all: unfold fine, ret.
  all: try (split; [destruct (of_num _); cbn; eauto; fail|eauto]).
  all: try (split; [destruct (of_num _); cbn; eauto; destruct (area_invA _ _); cbn; eauto; fail|eauto]).
  split; [reflexivity|]. intros q H. unfold dir_pdf_direct in H. destruct (of_num _); try discriminate. destruct (direction _); try discriminate. cbn in H. unfold ret in H. injection H as <-. ring.
Qed.
Print Assumptions C68_light_flags.
(** What counts as a light: a surface or end point whose primitive has a light, a point in a medium that emits *)
Theorem C68_is_light : forall M (s : scene M) emitter x b, is_light emitter s x = Ok b ->
  (b = true <-> if match it x with MediumInteraction => true | _ => false end then exists k, carries s (iprim x) p_medium k /\ emitter k = true else exists k, carries s (iprim x) SceneModel.p_light k).
Proof.
  intros M s emitter x b H. unfold is_light, prim_at, node_at in H. destruct (iprim x <? 0)%Z eqn:Ix; [discriminate|]. destruct (nth_error _ _) as [[j p|? ? ? ?]|] eqn:En; [cbn [obind] in H| |discriminate].
  2: { assert (Cr : forall f k, ~ carries s (iprim x) f k) by (intros f k (j' & p' & [_ Q] & E); rewrite En in Q; discriminate). cbn [obind] in H. destruct (it x); try discriminate; injection H as <-; (split; [discriminate|]); intros (k & K); destruct (Cr _ _ K). }
  assert (Cr : forall f k, carries s (iprim x) f k <-> f p = Some k).
  { intros f k. split.
    - intros (j' & p' & [_ Q] & E). rewrite En in Q. injection Q as <- <-. exact E.
    - intros E. exists j, p. split; [split; [lia|exact En]|exact E]. }
  destruct (it x).
  all: try (injection H as <-; destruct (SceneModel.p_light p) as [k|] eqn:Ek; cbn; [split; [intros _; exists k; now apply Cr|reflexivity]|split; [discriminate|intros (k & K); apply Cr in K; congruence]]).
  destruct (p_medium p) as [k|] eqn:Ek; [|discriminate]. cbn in H. injection H as <-. split; [intros E; exists k; split; [now apply Cr|exact E]|]. intros (k' & K & E). apply Cr in K. congruence.
Qed.
Print Assumptions C68_is_light.
