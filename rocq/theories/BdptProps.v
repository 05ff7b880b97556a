(** C39, C41 and C71: the bidirectional path tracer of renderer_bdptopt.cpp. The statements are for every
    implementation [A] of the functions it calls; that the functions of a scene are such is C39_scene. *)
From Coq Require Import List Reals ZArith Bool Lra Lia ZifyBool.
From Verif Require Import Base RBase SceneModel MatSpec SurfSpec VecBase SurfModel MatModel CamModel CamSpec CamProofs LightModel PathModel PathSpec MeshModel GeoModel VisModel VisSpec VisProps BidirModel BidirSpec BidirProofs BidirProps BdptModel BdptSpec BdptProofs BdptWeights UnitProps BdptScene.
From Verif Require LightSpec PhaseModel PhaseProps.
Import ListNotations.
Open Scope R_scope.

(** A subpath that the tracer may sample, with random numbers in their range *)
Definition sampled (A : api) (U : draw -> Prop) (d : trans_dir) (q : cpath) : Prop := exists fuel rng max, (forall k, U (rng k)) /\ opt_subpath A fuel rng max d = ret q.
(** [F i] and [B i] are the densities of vertex [i] of the path when walking from the light and from the camera;
    [b s] says whether the strategy with [s] light vertices can sample the path. *)
Definition densities (A : api) (p : fullpath) (F B : nat -> R) (b : nat -> bool) : Prop :=
  (forall i, (i < length p)%nat -> density A p i = ret (F i) /\ 0 <= F i) /\
  (forall i, (i < length p)%nat -> density A (rev p) (length p - 1 - i) = ret (B i) /\ 0 <= B i) /\
  (forall s, (s <= length p)%nat -> is_samplable_bidir A p (Z.of_nat s) = ret (b s)).
Definition density_of (F B : nat -> R) (b : nat -> bool) (n s : nat) : R := if b s then strategy F B n s else 0.

(** * C39: the weights *)
(** The weight computed from the numbers cached in the two subpaths is the balance heuristic of the densities
    of the strategies: the one used over the sum of all. *)
Theorem C39_optimised : forall A U V qL qE s t p F B b, sane A U V -> sampled A U LE qL -> sampled A U EL qE -> (2 <= s + t)%nat -> joined (strip qL) (strip qE) s t p ->
  densities A p F B b -> density_of F B b (s + t) s <> 0 ->
  exists w, opt_mis_weight A qE qL s t = ret w /\ w * total (S (s + t)) (density_of F B b (s + t)) = density_of F B b (s + t) s.
Proof.
  intros A U V qL qE s t p F B b SA (fL & rL & mL & UL & HL) (fE & rE & mE & UE & HE) N J (DF & DB & Db) Nz. assert (LP : length p = (s + t)%nat) by apply J. rewrite LP in *.
  unfold density_of in *. destruct (b s) eqn:Bs; [|contradiction]. now apply (opt_weight A U V fL rL mL qL fE rE mE qE s t p F B b).
Qed.
Print Assumptions C39_optimised.
(** The weights of all strategies that can sample a path sum to one, whatever subpaths they come from. *)
Theorem C39_optimised_sum : forall A U V p F B b (w : nat -> R), let n := length p in sane A U V -> (2 <= n)%nat -> densities A p F B b -> (exists s, (s <= n)%nat /\ density_of F B b n s <> 0) ->
  (forall s, (s <= n)%nat -> density_of F B b n s = 0 -> w s = 0) ->
  (forall s, (s <= n)%nat -> density_of F B b n s <> 0 ->
    exists qL qE, sampled A U LE qL /\ sampled A U EL qE /\ joined (strip qL) (strip qE) s (n - s) p /\ opt_mis_weight A qE qL s (n - s) = ret (w s)) ->
  total (S n) w = 1 /\ forall s, (s <= n)%nat -> 0 <= w s <= 1.
Proof.
  intros A U V p F B b w n SA N D (s0 & L0 & P0) W0 W1. set (T := total (S n) (density_of F B b n)).
  assert (Pos : forall s, (s <= n)%nat -> 0 <= density_of F B b n s).
  { intros s L. unfold density_of. destruct (b s); [|lra]. unfold strategy. apply Rmult_le_pos; apply product_pos; intros j K; [apply (proj1 D)|apply (proj1 (proj2 D))]; fold n; lia. }
  assert (TP : forall s, (s <= n)%nat -> density_of F B b n s <= T) by (intros s L; apply (total_pos (S n) (density_of F B b n)); [intros i K; apply Pos; lia|lia]).
  assert (T0 : 0 < T) by (specialize (TP s0 L0); specialize (Pos s0 L0); lra).
  assert (E : forall s, (s <= n)%nat -> w s = / T * density_of F B b n s).
  { intros s L. destruct (Req_EM_T (density_of F B b n s) 0) as [Z|Nz]; [rewrite Z, (W0 s L Z); ring|]. destruct (W1 s L Nz) as (qL & qE & SL & SE & J & Hw).
    destruct (C39_optimised A U V qL qE s (n - s) p F B b SA SL SE ltac:(lia) J D) as (w' & Hw' & E); replace (s + (n - s))%nat with n in * by lia; [exact Nz|]. fold T in E. rewrite Hw in Hw'. apply ret_inj in Hw'. rewrite <- Hw' in E. rewrite <- E. field. lra. }
  split.
  - rewrite (total_ext (S n) w (fun s => / T * density_of F B b n s)) by (intros s L; apply E; lia). rewrite total_scale. fold T. field. lra.
  - intros s L. rewrite (E s L). specialize (Pos s L). specialize (TP s L). assert (0 < / T) by now apply Rinv_0_lt_compat. split; [apply Rmult_le_pos; lra|]. apply (Rmult_le_reg_l T); [lra|]. rewrite <- Rmult_assoc, Rinv_r by lra. lra.
Qed.
Print Assumptions C39_optimised_sum.
(** If every vertex has a single component, these densities are those the path API reports for the strategies. *)
Theorem C39_optimised_densities : forall A p F B b s, (2 <= length p)%nat -> (s <= length p)%nat -> densities A p F B b -> (forall v w, In v p -> a_pdf_component A (vs_sp v) w (vs_comp v) = ret 1) ->
  pdf_bidir A p (Z.of_nat s) = ret (density_of F B b (length p) s).
Proof.
  intros A p F B b s N L (DF & DB & Db) C. apply pdf_is_strategy; auto; [intros i K; now apply DF|intros i K; now apply DB].
Qed.
Print Assumptions C39_optimised_densities.

(** * C41: the length of the subpaths *)
Lemma opt_walk_length A d max fuel : forall rng q thr q', opt_walk A fuel rng q thr max d = ret q' -> (2 <= max \/ 1 <= Z.of_nat (length q))%Z -> (Z.of_nat (length q') <= Z.max (Z.of_nat (length q)) max)%Z.
Proof.
  induction fuel as [|fuel IH]; intros rng q thr q' H M; cbn [opt_walk] in H; destruct (Z.of_nat (length q) <? max)%Z eqn:Lt; try discriminate; try (apply ret_inj in H; subst; lia).
  mstep H. destruct a as [[[[[q1 o] wo] thr1] nx]|]; [|apply ret_inj in H; subst; lia].
  assert (Q : length q1 = Nat.max 1 (length q)).
  { destruct q as [|v r].
    - mstep E. destruct a as [r|]; [|discriminate]. cbv zeta in E. mstep E. mstep E. mstep E. mstep E. apply ret_inj in E. injection E as <- _ _ _ _. reflexivity.
    - mstep E. mstep E. destruct a0 as [[wo' w']|]; [|discriminate]. destruct r as [|vp r]; [discriminate|]. mstep E. mstep E. mstep E. apply ret_inj in E. injection E as <- _ _ _ _. cbn. lia. }
  mstep H. mstep H. destruct a0 as [h|]; [|apply ret_inj in H; subst; lia]. mstep H. destruct a0 as [c w]. mstep H. cbv zeta in H. destruct (infinite (igeom h)); [apply ret_inj in H; subst; cbn [length]; lia|].
  apply IH in H; [|right]; cbn [length] in *; lia.
Qed.
Theorem C41_optimised_partial : forall A fuel rng max d q, opt_subpath A fuel rng max d = ret q -> (max <> 1 -> Z.of_nat (length q) <= Z.max 0 max)%Z /\ (max = 1 -> Z.of_nat (length q) <= 2)%Z.
Proof.
  intros A fuel rng max d q H. unfold opt_subpath in H. mstep H. apply ret_inj in H. subst q. rewrite rev_length. split; intros M.
  - destruct (Z_lt_dec max 2) as [L|L]; [|apply opt_walk_length in E; [cbn in E; lia|lia]]. destruct fuel; cbn [opt_walk length] in E; replace (Z.of_nat 0 <? max)%Z with false in E by lia; apply ret_inj in E; subst a; cbn; lia.
  - subst max. destruct fuel as [|fuel]; cbn [opt_walk length] in E; [discriminate|]. change (Z.of_nat 0 <? 1)%Z with true in E. cbv iota in E. mstep E. destruct a0 as [[[[[q1 o] wo] thr1] nx]|]; [|apply ret_inj in E; subst; cbn; lia].
    mstep E0. destruct a0 as [r|]; [|discriminate]. cbv zeta in E0. mstep E0. mstep E0. mstep E0. mstep E0. apply ret_inj in E0. injection E0 as <- _ _ _ _. cbn [obind] in E. mstep E. destruct a4 as [h|]; [|apply ret_inj in E; subst; cbn; lia].
    mstep E. destruct a4 as [c w]. mstep E. cbv zeta in E. destruct (infinite (igeom h)); [apply ret_inj in E; subst; cbn; lia|]. apply opt_walk_length in E; cbn [length] in *; lia.
Qed.
Print Assumptions C41_optimised_partial.

(** The walk ends: as many rounds as vertices wanted suffice. *)
Definition densities_answer (A : api) : Prop :=
  (forall x, a_connectable A x <> Fuel) /\ (forall x, a_pdf_position A x <> Fuel) /\ (forall x wi wo c b, a_pdf_direction A x wi wo c b <> Fuel) /\ (forall x wo b, a_pdf_ray A x wo b <> Fuel).
Lemma opt_walk_ends A fuel : answers A -> densities_answer A -> forall rng q thr max d, (max - Z.of_nat (length q) <= Z.of_nat fuel)%Z -> opt_walk A fuel rng q thr max d <> Fuel.
Proof.
  intros (A1 & A2 & A3 & A4) (D1 & D2 & D3 & D4). induction fuel as [|fuel IH]; intros rng q thr max d K; cbn [opt_walk]; destruct (Z.of_nat (length q) <? max)%Z eqn:Lt; try discriminate; [lia|].
  match goal with |- pbind ?e _ <> _ => set (st := e) end.
  assert (F : forall x y wi wo, dir_area A x y wi wo <> Fuel) by (intros; unfold dir_area; apply pbind_fuel; [apply D3|discriminate]).
  assert (St : st <> Fuel /\ forall q' o wo thr' nx, st = ret (Some (q', o, wo, thr', nx)) -> (length q <= length q')%nat /\ (1 <= length q')%nat).
  { unfold st. destruct q as [|v r].
    - split.
      + apply pbind_fuel; [apply A1|]. intros [s|]; [|discriminate]. cbv zeta. apply pbind_fuel; [unfold pdf_start; apply pbind_fuel; [apply D1|]; intros []; [apply D2|discriminate]|]. intros pf. apply pbind_fuel; [discriminate|]. intros al.
        apply pbind_fuel; [apply D1|]. intros c. apply pbind_fuel; [destruct c; [apply D3|apply D4]|]. discriminate.
      + intros q' o wo thr' nx E. mstep E. destruct a as [s|]; [|discriminate]. cbv zeta in E. mstep E. mstep E. mstep E. mstep E. apply ret_inj in E. injection E as <- _ _ _ _. cbn. lia.
    - split.
      + apply obind_fuel; [unfold rd; destruct (cv_wr v); discriminate|]. intros wr. apply pbind_fuel; [apply A2|]. intros [[wo w]|]; [|discriminate]. destruct r as [|vp r]; [discriminate|]. apply pbind_fuel; [destruct (degenerated _); [discriminate|apply F]|]. intros pr. apply pbind_fuel; [apply D3|]. intros nx. apply pbind_fuel; discriminate.
      + intros q' o wo thr' nx E. mstep E. mstep E. destruct a0 as [[wo' w']|]; [|discriminate]. destruct r as [|vp r]; [discriminate|]. mstep E. mstep E. mstep E. apply ret_inj in E. injection E as <- _ _ _ _. cbn. lia. }
  destruct St as (S1 & S2). destruct st as [[[[[[[q' o] wo] thr'] nx]|]| |]| | |] eqn:Est; cbn [pbind]; try discriminate; [|contradiction].
  destruct (S2 q' o wo thr' nx eq_refl) as (L1 & L2). destruct q' as [|v' q']; [discriminate|]. cbn [obind]. apply pbind_fuel; [apply A4|]. intros [h|]; [|discriminate]. apply pbind_fuel; [apply A3|]. intros [c w]. cbv zeta.
  destruct (of_option _); try discriminate. destruct (infinite (igeom h)); [discriminate|]. apply IH. cbn [length] in *. lia.
Qed.
Theorem C41_optimised_ends : forall A fuel rng max d, answers A -> densities_answer A -> (max <= Z.of_nat fuel)%Z -> opt_subpath A fuel rng max d <> Fuel.
Proof. intros A fuel rng max d H D K. unfold opt_subpath. apply pbind_fuel; [apply opt_walk_ends; cbn; auto; lia|discriminate]. Qed.
Print Assumptions C41_optimised_ends.
Theorem C41_optimised_scene : forall tr mat lgt cam pha mesh_of neg0 zs emitter s a, densities_answer (scene_api tr mat lgt cam pha mesh_of neg0 zs emitter s a).
Proof.
  intros tr mat lgt cam pha mesh_of neg0 zs emitter s a. assert (P : forall i, prim_at s i <> Fuel) by (intros i; unfold prim_at, node_at; nofuel).
  assert (DR : forall X (f : nat -> X) o, deref f o <> Fuel) by (intros X f []; discriminate). assert (UN : forall X (o : option X), unsupported o <> Fuel) by (intros X []; discriminate).
  assert (FL : forall n, find_light tr s n <> Fuel) by (intros n; unfold find_light, light_index_at, light_primitive_index_at; nofuel).
  repeat split; intros; cbn [a_connectable a_pdf_position a_pdf_direction a_pdf_ray scene_api]; unfold is_connectable_endpoint, pdf_position, pdf_direction, pdf_primary_ray;
    repeat first [discriminate | apply P | apply DR | apply UN | apply FL | apply obind_fuel | apply pbind_fuel | progress intros | match goal with |- context [match ?x with _ => _ end] => destruct x end].
Qed.
Print Assumptions C41_optimised_scene.

(** * C71: the contributions *)
(** The contribution of a connection times the density of the strategy is the measurement contribution. Where
    one subpath makes the whole path, the weight for selecting the component of its last vertex remains. *)
Definition last_component (A : api) (qL qE : cpath) (s t : nat) (r : R) : Prop :=
  ((1 <= s)%nat -> (1 <= t)%nat -> r = 1) /\
  (forall x w, s = 0%nat -> nth_error qE (t - 1) = Some x -> cv_wr x = Some w -> a_pdf_component A (vs_sp (cv_v x)) w (vs_comp (cv_v x)) = ret r) /\
  (forall x w, t = 0%nat -> nth_error qL (s - 1) = Some x -> cv_wr x = Some w -> a_pdf_component A (vs_sp (cv_v x)) w (vs_comp (cv_v x)) = ret r).
Theorem C71_contribution_partial : forall A U V qL qE s t p q f C rp r, sane A U V -> honest A U V -> sampled A U LE qL -> sampled A U EL qE -> (2 <= s + t)%nat -> joined (strip qL) (strip qE) s t p ->
  last_component A qL qE s t r -> pdf_bidir A p (Z.of_nat s) = ret q -> q <> 0 -> eval_measurement_contrb_bidir A p (Z.of_nat s) = ret f ->
  connect_and_eval_contrb A qE qL (Z.of_nat s) (Z.of_nat t) = ret (Some (C, rp)) -> f = vscale (q * r) C.
Proof.
  intros A U V qL qE s t p q f C rp r SA HA (fL & rL & mL & UL & HL) (fE & rE & mE & UE & HE) N J (R1 & R2 & R3) Hq Nz Hf HC.
  now apply (contribution A U V fL rL mL qL fE rE mE qE s t p q f C rp r).
Qed.
Print Assumptions C71_contribution_partial.

(** * The functions of a scene *)
Theorem C39_scene : forall tr mat lgt cam pha mesh_of neg0 zs emitter s a,
  (forall k, LightSpec.light_made (lgt k)) -> (forall k, built false (mat k)) -> (forall k, proper_camera (cam k)) -> sound_scene mesh_of s -> built_for mesh_of s a -> shallow a ->
  sane (scene_api tr mat lgt cam pha mesh_of neg0 zs emitter s a) in_range scene_point.
Proof. exact scene_sane. Qed.
Print Assumptions C39_scene.
Theorem C71_scene_partial : forall tr mat lgt cam pha mesh_of neg0 zs emitter s a,
  (forall k, LightSpec.light_made (lgt k)) -> (forall k, built false (mat k)) -> (forall k, proper_camera (cam k)) -> ready s -> (forall k, PhaseProps.phase_made (pha k)) ->
  (forall k g wi, MatSpec.surface_point g -> unit wi -> exists ps, selects ps (fun u => MatModel.sample_component (mat k) u g wi) (fun c => MatModel.pdf_component (mat k) c g wi)) ->
  honest (scene_api tr mat lgt cam pha mesh_of neg0 zs emitter s a) in_range scene_point.
Proof. exact scene_honest. Qed.
Print Assumptions C71_scene_partial.

(** * An example: the lamp, the triangle and the eye of BidirProps *)
Definition same_vec (a b : vec3) : bool := if Req_EM_T (vx a) (vx b) then if Req_EM_T (vy a) (vy b) then if Req_EM_T (vz a) (vz b) then true else false else false else false.
Lemma same_vec_true a b : same_vec a b = true -> a = b.
Proof. unfold same_vec. destruct (Req_EM_T _ _); [|discriminate]. destruct (Req_EM_T _ _); [|discriminate]. destruct (Req_EM_T _ _); [|discriminate]. intros _. now apply vec3_eq. Qed.
Lemma same_vec_refl a : same_vec a a = true.
Proof. unfold same_vec. now repeat (destruct (Req_EM_T _ _); [|contradiction]). Qed.
(** The scene with a simpler intersection query: only the ray from the eye straight down hits the triangle. *)
Definition y_api (neg0 : bool) zs a : api := let A := x_api neg0 zs a in
  mk_api (a_specular A) (a_connectable A) (a_pdf_position A) (a_pdf_component A) (a_contrb A) (a_pdf_ray A) (a_pdf_direction A) (a_sample_ray A) (a_sample_direction A) (a_sample_component A)
    (fun o w => ret (if same_vec o (V3 0 0 1) && same_vec w (V3 0 0 (-1)) then Some (vs_sp x_spot) else None)) (fun _ _ => ret true) (a_is_light A) (a_is_camera A) (a_raster A).
Lemma x_proper : proper_camera x_cam.
Proof. repeat split; unfold unit, dot; cbn; try lra. apply vec3_eq; cbn; ring. Qed.
Lemma x_ready : ready (x_scene None None).
Proof.
  exists id_affine, (fun a _ => a), 9%nat, (x_scene None None). split; [|split; [reflexivity|split; [reflexivity|]]].
  - intros [|[|[|[|k]]]] n; cbn; intros [= <-] || intros H; try reflexivity. now destruct k.
  - cbn. repeat constructor. intros [].
Qed.
Lemma spot_point : scene_point (vs_sp x_spot).
Proof. split; [discriminate|]. intros g [= <-]. exists false, v0, (V3 0 0 1), (V3 0 0 1), (V2 0 0). split; [unfold unit, dot; cbn; ring|reflexivity]. Qed.
Lemma y_sane neg0 zs a : built_for x_meshes (x_scene None None) a -> shallow a -> sane (y_api neg0 zs a) in_range scene_point.
Proof.
  intros B D. destruct (C39_scene (fun _ => mk_tr (M3 v0 v0 v0) v0 (M3 v0 v0 v0) 1) _ (fun _ => point_light (grey 1) (V3 0 0 (/ 2))) _ (fun _ => PhaseModel.isotropic) x_meshes neg0 zs (fun _ => false) _ a
    (fun _ => LightSpec.lm_point _ _) (fun _ => b_diffuse (grey 1) None) (fun _ => x_proper) (x_sound None None) B D) as [H1 H2 H3].
  split; [exact H1|exact H2|]. intros o w h Uw H. cbn [a_intersect y_api] in H. apply ret_inj in H. destruct (_ && _) eqn:E; [|discriminate]. injection H as <-. split; [apply spot_point|].
  apply andb_prop in E as (->%same_vec_true & ->%same_vec_true). right. eexists _, 1. split; [reflexivity|]. split; [lra|].
  unfold make_on_surface. destruct (orthonormal_basis _ _). apply vec3_eq; cbn; ring.
Qed.
Lemma y_honest neg0 zs a : honest (y_api neg0 zs a) in_range scene_point.
Proof.
  destruct (C71_scene_partial (fun _ => mk_tr (M3 v0 v0 v0) v0 (M3 v0 v0 v0) 1) (fun _ => diffuse (grey 1) None) (fun _ => point_light (grey 1) (V3 0 0 (/ 2))) _ (fun _ => PhaseModel.isotropic) x_meshes neg0 zs (fun _ => false) _ a
    (fun _ => LightSpec.lm_point _ _) (fun _ => b_diffuse (grey 1) None) (fun _ => x_proper) x_ready (fun _ => PhaseProps.pm_iso)
    (fun _ g wi _ _ => ex_intro _ [1] (MatProofs.selects_one (diffuse (grey 1) None) eq_refl eq_refl g wi))) as [H1 H2 H3 H4 H5 H6].
  split; [exact H1|exact H2|exact H3|exact H4|exact H5|exact H6].
Qed.
(** Random numbers for which the camera ray goes straight down *)
Definition y_draw : draw := mk_draw (mk_u (V2 0 0) (V2 0 0) (V2 (/ 2) (/ 2))) (V2 0 0) 0 0.
Lemma y_range : in_range y_draw.
Proof. repeat split; cbn; lra. Qed.
Section Y.
  Variables (neg0 : bool) (zs : vec3 -> nat -> bool) (a : accel).
  Notation A := (y_api neg0 zs a).
  Lemma y_ray : exists w p, a_sample_ray A y_draw LE = ret (Some (mk_path_ray (vs_sp x_lamp) (V3 0 0 (/ 2)) w p)).
  Proof.
    change (a_sample_ray A y_draw LE) with (sample_primary_ray (fun _ : affine => mk_tr (M3 v0 v0 v0) v0 (M3 v0 v0 v0) 1) (fun _ => point_light (grey 1) (V3 0 0 (/ 2))) (fun _ => x_cam) (dw_ray y_draw) (x_scene None None) LE).
    unfold sample_primary_ray, select_light, SelectModel.sample_light_selection. cbn [s_lights x_scene length].
    assert (Z0 : forall z, zclamp z 0 (Z.of_nat 1 - 1) = 0%Z) by (intros z; unfold zclamp; lia). rewrite Z0.
    change (light_primitive_index_at (x_scene None None) 0) with (Ok (id_affine, 3%Z)). cbn [obind fst snd].
    change (prim_at (x_scene None None) 3) with (Ok (mk_prim None None (Some 0%nat) None None)). cbn [obind deref SceneModel.p_light l_sample_ray point_light]. unfold vdiv at 1. destruct (Req_EM_T _ 0) as [E|_]; [exfalso; pose proof LightProofs.sphere_pdf_pos; lra|].
    cbn [fbind]. rewrite pbind_okval. unfold fdiv. change (INR 1) with 1. destruct (Req_EM_T 1 0); [lra|]. cbn [of_num]. rewrite pbind_okval. unfold vdiv. destruct (Req_EM_T _ 0); [lra|]. rewrite pbind_okval. eexists _, _. reflexivity.
  Qed.
  Lemma y_light : exists w f, opt_subpath A 1 (fun _ => y_draw) 1 LE = ret [mk_cvert x_lamp (grey 1) w (Some v0) f None].
  Proof.
    destruct y_ray as (w & p & Er), (x_lamp_values neg0 zs a) as (A1 & A2 & A3 & A4 & A5 & A6). unfold opt_subpath. cbn [opt_walk length]. change (Z.of_nat 0 <? 1)%Z with true. cbv iota.
    rewrite Er, pbind_val. cbv zeta. unfold pdf_start. cbn [pr_sp pr_wo pr_origin pr_weight vs_sp vs_comp]. change (a_connectable A) with (a_connectable (x_api neg0 zs a)). rewrite A1, !pbind_val. change (a_pdf_position A) with (a_pdf_position (x_api neg0 zs a)). rewrite A3, pbind_val.
    assert (Ev : vdiv (grey 1) 1 = Val (grey 1)) by (unfold vdiv; destruct (Req_EM_T 1 0); [lra|]; f_equal; unfold grey; apply vec3_eq; cbn; field).
    rewrite Ev, !pbind_okval. cbv iota. change (a_pdf_direction A) with (a_pdf_direction (x_api neg0 zs a)). rewrite A6, !pbind_val. cbn [obind a_intersect y_api].
    assert (Nv : same_vec (V3 0 0 (/ 2)) (V3 0 0 1) = false). { destruct (same_vec _ _) eqn:E; [|reflexivity]. apply same_vec_true in E. apply (f_equal vz) in E. cbn in E. lra. }
    rewrite Nv. cbn [andb]. rewrite !pbind_val. eexists _, _. reflexivity.
  Qed.
  Lemma y_camera : exists f r g, opt_subpath A 1 (fun _ => y_draw) 2 EL = ret [mk_cvert x_eye (grey 1) (Some (V3 0 0 (-1))) (Some v0) f r; mk_cvert x_spot (grey 1) None (Some (V3 0 0 1)) g None].
  Proof.
    pose proof (x_ray neg0 zs a y_draw eq_refl) as Er. destruct (x_eye_values neg0 zs a) as (A1 & A2 & A3 & A4 & A5 & A6). unfold opt_subpath. cbn [opt_walk length]. change (Z.of_nat 0 <? 2)%Z with true. cbv iota.
    change (a_sample_ray A) with (a_sample_ray (x_api neg0 zs a)). rewrite Er, pbind_val. cbv zeta. unfold pdf_start. cbn [pr_sp pr_wo pr_origin pr_weight vs_sp vs_comp]. change (a_connectable A) with (a_connectable (x_api neg0 zs a)). change (endpoint _ _ _) with (vs_sp x_eye).
    rewrite A1, !pbind_val. change (a_pdf_position A) with (a_pdf_position (x_api neg0 zs a)). rewrite A3, pbind_val.
    assert (Ev : vdiv (grey 1) 1 = Val (grey 1)) by (unfold vdiv; destruct (Req_EM_T 1 0); [lra|]; f_equal; unfold grey; apply vec3_eq; cbn; field).
    rewrite Ev, !pbind_okval. cbv iota. change (a_pdf_direction A) with (a_pdf_direction (x_api neg0 zs a)). rewrite A6, !pbind_val. cbn [obind a_intersect y_api].
    rewrite !same_vec_refl. cbn [andb]. rewrite !pbind_val.
    change (a_sample_component A y_draw (vs_sp x_spot) (vneg (V3 0 0 (-1)))) with (@ret (Z * R) (0%Z, 1)). rewrite pbind_val. cbn [cgeom cv_v vs_sp]. unfold convert_to_area. 
    destruct (x_term 1 ltac:(lra)) as (G3 & G4). unfold cgeom. cbn [cv_v vs_sp igeom endpoint x_eye]. change (igeom (vs_sp x_spot)) with (igeom (vs_sp x_spot)) in G3. rewrite G3. cbn [of_option]. rewrite pbind_okval. cbn [infinite igeom vs_sp x_spot]. match goal with |- context [(?x <? 2)%Z] => change (x <? 2)%Z with false end. cbv iota. rewrite !pbind_val.
    eexists _, _, _. unfold ret. cbn [rev app]. do 3 f_equal.
    replace (vscale 1 (grey 1)) with (grey 1) by (apply vec3_eq; cbn; ring). replace (vneg (V3 0 0 (-1))) with (V3 0 0 1) by (apply vec3_eq; cbn; ring). reflexivity.
  Qed.
  Lemma y_joined ql qe : strip ql = [x_lamp] -> strip qe = [x_eye; x_spot] -> joined (strip ql) (strip qe) 1 2 x_path.
  Proof.
    intros -> ->. split; [cbn; lia|]. split; [cbn; lia|]. split; [reflexivity|]. split; [|split; [|split]].
    - intros [|k] v K; [|lia]. intros [= <-]. exists x_lamp. repeat split; auto.
    - intros [|[|k]] v K; [| |lia]; intros [= <-]; eexists; repeat split; reflexivity || auto.
    - intros v _ [= <-]. reflexivity.
    - intros v [= <-]. reflexivity.
  Qed.
  Lemma spot_front : opposite (make_on_surface false v0 (V3 0 0 1) (V3 0 0 1)) (V3 0 0 1) (V3 0 0 1) = false.
  Proof. unfold opposite, make_on_surface. destruct (orthonormal_basis _ _). cbn [sn]. destruct (Rle_dec _ _) as [H|H]; [exfalso|reflexivity]. unfold dot in H. cbn in H. lra. Qed.
  Lemma spot_pdf : exists q, 0 <= q /\ forall c b, a_pdf_direction A (vs_sp x_spot) (V3 0 0 1) (V3 0 0 1) c b = ret q.
  Proof.
    exists (1 / PI). split; [pose proof (Rinv_0_lt_compat _ PI_RGT_0); lra|]. intros c b. change (a_pdf_direction A) with (a_pdf_direction (x_api neg0 zs a)). unfold x_api, scene_api. cbn [a_pdf_direction]. unfold pdf_direction.
    change (prim_at (x_scene None None) (iprim (vs_sp x_spot))) with (Ok (mk_prim (Some 0%nat) (Some 0%nat) None None (Some 0%nat))).
    cbn [obind it vs_sp x_spot deref p_material spoint_of igeom itc]. cbn [pbind MatModel.pdf_direction diffuse geo]. rewrite spot_front. reflexivity.
  Qed.
  Lemma spot_contrb c b : a_contrb A (vs_sp x_spot) (V3 0 0 1) (V3 0 0 1) c EL b = ret (vscale 1 (vscale (/ PI) (grey 1))).
  Proof.
    change (a_contrb A) with (a_contrb (x_api neg0 zs a)). unfold x_api, scene_api. cbn [a_contrb]. unfold eval_contrb_direction.
    change (prim_at (x_scene None None) (iprim (vs_sp x_spot))) with (Ok (mk_prim (Some 0%nat) (Some 0%nat) None None (Some 0%nat))).
    cbn [obind it vs_sp x_spot deref p_material spoint_of igeom itc]. cbn [pbind eval diffuse geo]. rewrite spot_front. unfold ret. do 3 f_equal. unfold shading_normal_correction, make_on_surface. destruct (orthonormal_basis _ _) as [tu tv]. cbn [sgn sn su sv to_local].
    destruct (Rle_dec _ _) as [H|_]; [exfalso; unfold dot in H; cbn in H; lra|reflexivity].
  Qed.
  Lemma y_densities : exists F B, densities A x_path F B (fun s => match s with 1%nat | 2%nat => true | _ => false end) /\ strategy F B 3 1 <> 0.
  Proof.
    destruct spot_pdf as (q & Pq & Hq), (x_lamp_values neg0 zs a) as (A1 & A2 & A3 & A4 & A5 & A6), (x_eye_values neg0 zs a) as (B1 & B2 & B3 & B4 & B5 & B6), (x_spot_values neg0 zs a) as (C1 & C2 & C3).
    destruct x_dirs as (D1 & D2 & D3 & D4). destruct (x_term (/ 2) ltac:(lra)) as (G1 & G2), (x_term 1 ltac:(lra)) as (G3 & G4). pose proof LightProofs.sphere_pdf_pos as P.
    exists (fun i => match i with 0%nat => 1 | 1%nat => pdf_uniform_sphere * / (/ 2 * / 2) | _ => q * / (1 * 1) end), (fun i => match i with 0%nat => q * / (/ 2 * / 2) | 1%nat => / 4 * / (1 * 1) | _ => 1 end).
    split; [split; [|split]|].
    - change (length x_path) with 3%nat. intros [|[|[|i]]] L; [| | |lia].
      + split; [|lra]. cbn [density nth_error x_path]. unfold first_vertex. change (a_connectable A) with (a_connectable (x_api neg0 zs a)). rewrite A1, pbind_val. exact A3.
      + split; [|nra]. cbn [density nth_error x_path Nat.sub]. unfold second_vertex. change (a_connectable A) with (a_connectable (x_api neg0 zs a)). rewrite A1, pbind_val, D1, pbind_okval. change (a_pdf_direction A) with (a_pdf_direction (x_api neg0 zs a)). rewrite A6, pbind_val.
        unfold convert_to_area. change (igeom (vs_sp x_lamp)) with (Degenerated (V3 0 0 (/ 2))). rewrite G1. reflexivity.
      + split; [|nra]. cbn [density nth_error x_path Nat.sub]. unfold hop. rewrite D2, D4, !pbind_okval, Hq, pbind_val. unfold convert_to_area. change (igeom (vs_sp x_eye)) with (Degenerated (V3 0 0 1)). rewrite G4. reflexivity.
    - change (length x_path) with 3%nat. change (rev x_path) with [x_eye; x_spot; x_lamp]. intros [|[|[|i]]] L; [| | |lia].
      + split; [|nra]. cbn [density nth_error Nat.sub]. unfold hop. rewrite D2, D4, !pbind_okval, Hq, pbind_val. unfold convert_to_area. change (igeom (vs_sp x_lamp)) with (Degenerated (V3 0 0 (/ 2))). rewrite G2. reflexivity.
      + split; [|lra]. cbn [density nth_error Nat.sub]. unfold second_vertex. change (a_connectable A) with (a_connectable (x_api neg0 zs a)). rewrite B1, pbind_val, D3, pbind_okval. change (a_pdf_direction A) with (a_pdf_direction (x_api neg0 zs a)). rewrite B6, pbind_val.
        unfold convert_to_area. change (igeom (vs_sp x_eye)) with (Degenerated (V3 0 0 1)). rewrite G3. reflexivity.
      + split; [|lra]. cbn [density nth_error Nat.sub]. unfold first_vertex. change (a_connectable A) with (a_connectable (x_api neg0 zs a)). rewrite B1, pbind_val. exact B3.
    - change (length x_path) with 3%nat. intros [|[|[|[|s]]]] L; [| | | |lia]; reflexivity.
    - unfold strategy. cbn. lra.
  Qed.
End Y.
(** The light subpath is the lamp, the camera subpath the eye and the spot on the triangle below. *)
Example C39_optimised_example : forall neg0 zs, exists a qL qE F B b, let A := y_api neg0 zs a in
  sane A in_range scene_point /\ honest A in_range scene_point /\ sampled A in_range LE qL /\ sampled A in_range EL qE /\ joined (strip qL) (strip qE) 1 2 x_path /\ densities A x_path F B b /\ density_of F B b 3 1 <> 0.
Proof.
  intros neg0 zs. destruct (x_built None None) as (a & Bu & D). destruct (y_light neg0 zs a) as (w & f & HL), (y_camera neg0 zs a) as (f' & r & g & HE), (y_densities neg0 zs a) as (F & B & HD & Nz).
  eexists a, _, _, F, B, _. cbv zeta. split; [now apply y_sane|]. split; [apply y_honest|].
  split; [exists 1%nat, (fun _ => y_draw), 1%Z; split; [intros _; apply y_range|exact HL]|]. split; [exists 1%nat, (fun _ => y_draw), 2%Z; split; [intros _; apply y_range|exact HE]|].
  split; [now apply y_joined|]. split; [exact HD|exact Nz].
Qed.
Example C71_example : forall neg0 zs, exists a qL qE q f C rp r, let A := y_api neg0 zs a in
  sane A in_range scene_point /\ honest A in_range scene_point /\ sampled A in_range LE qL /\ sampled A in_range EL qE /\ joined (strip qL) (strip qE) 1 2 x_path /\ last_component A qL qE 1 2 r /\
  pdf_bidir A x_path (Z.of_nat 1) = ret q /\ q <> 0 /\ eval_measurement_contrb_bidir A x_path (Z.of_nat 1) = ret f /\ connect_and_eval_contrb A qE qL (Z.of_nat 1) (Z.of_nat 2) = ret (Some (C, rp)).
Proof.
  intros neg0 zs. destruct (x_built None None) as (a & Bu & D). destruct (y_light neg0 zs a) as (w & f & HL), (y_camera neg0 zs a) as (f' & r & g & HE). destruct (x_contribution neg0 zs a) as (fc & Hc).
  assert (Q : exists C rp, connect_and_eval_contrb (y_api neg0 zs a) [mk_cvert x_eye (grey 1) (Some (V3 0 0 (-1))) (Some v0) f' r; mk_cvert x_spot (grey 1) None (Some (V3 0 0 1)) g None] [mk_cvert x_lamp (grey 1) w (Some v0) f None] (Z.of_nat 1) (Z.of_nat 2) = ret (Some (C, rp))).
  { unfold connect_and_eval_contrb. change (_ || _ || _)%bool with false. cbv iota. change (opt_samplable _ _ _ _ _) with (ret true). rewrite pbind_val. cbn [negb].
    assert (OV : opt_value (y_api neg0 zs a) [mk_cvert x_eye (grey 1) (Some (V3 0 0 (-1))) (Some v0) f' r; mk_cvert x_spot (grey 1) None (Some (V3 0 0 1)) g None] [mk_cvert x_lamp (grey 1) w (Some v0) f None] (Z.of_nat 1) (Z.of_nat 2) =
      ret (Some (vmul (vmul (vscale (/ (/ 2 * / 2)) (vmul (grey 1) (grey 1))) (vscale 1 (vscale (/ PI) (grey 1)))) (grey 1)))).
    { unfold opt_value. change (Z.of_nat 1 =? 0)%Z with false. change (Z.of_nat 2 =? 0)%Z with false. cbv iota. change (Z.to_nat (Z.of_nat 1 - 1)) with 0%nat. change (Z.to_nat (Z.of_nat 2 - 1)) with 1%nat. cbn [nth_error rd obind]. change (a_visible (y_api neg0 zs a) ?[p] ?[q]) with (ret true). rewrite pbind_val. cbn [negb cv_wr rd obind].
      destruct x_dirs as (D1 & D2 & D3 & D4). destruct (x_term (/ 2) ltac:(lra)) as (G1 & G2). unfold cdirection, cgeom. cbn [option_map cv_v cv_alpha]. rewrite D1, D2, !pbind_okval. destruct (x_lamp_values neg0 zs a) as (A1 & A2 & A3 & A4 & A5 & A6).
      change (a_contrb (y_api neg0 zs a)) with (a_contrb (x_api neg0 zs a)). rewrite A5, !pbind_val. rewrite !pbind_okval. pose proof (spot_contrb neg0 zs a (vs_comp x_spot) true) as SC. change (a_contrb (y_api neg0 zs a)) with (a_contrb (x_api neg0 zs a)) in SC. rewrite SC, pbind_val.
      change (igeom (vs_sp x_lamp)) with (Degenerated (V3 0 0 (/ 2))). rewrite G1. cbn [of_option]. rewrite pbind_okval. reflexivity. }
    rewrite OV, pbind_val. assert (Z0 : is_zero (vmul (vmul (vscale (/ (/ 2 * / 2)) (vmul (grey 1) (grey 1))) (vscale 1 (vscale (/ PI) (grey 1)))) (grey 1)) = false).
    { destruct (is_zero _) eqn:E; [|reflexivity]. apply is_zero_true in E. apply (f_equal vx) in E. cbn in E. pose proof (Rinv_0_lt_compat _ PI_RGT_0). lra. }
    rewrite Z0. unfold opt_raster. change (Z.of_nat 2 =? 0)%Z with false. change (Z.of_nat 2 =? 1)%Z with false. cbv iota. cbn [nth_error rd obind cv_wf]. rewrite pbind_val. 
    change (a_raster (y_api neg0 zs a) (V3 0 0 (-1))) with (Ok (raster_position x_cam (V3 0 0 (-1)))). destruct (raster_position x_cam (V3 0 0 (-1))) as [[rp|]| |] eqn:ER; [|exfalso..].
    - rewrite pbind_okval, pbind_val. eauto.
    - destruct x_cam_values as (V1 & _). unfold cam_pdf_direction in V1. rewrite ER in V1. cbn in V1. injection V1. lra.
    - destruct x_cam_values as (V1 & _). unfold cam_pdf_direction in V1. rewrite ER in V1. discriminate.
    - destruct x_cam_values as (V1 & _). unfold cam_pdf_direction in V1. rewrite ER in V1. discriminate. }
  destruct Q as (C & rp & Q). eexists a, _, _, (/ 4), fc, C, rp, 1. cbv zeta. split; [now apply y_sane|]. split; [apply y_honest|].
  split; [exists 1%nat, (fun _ => y_draw), 1%Z; split; [intros _; apply y_range|exact HL]|]. split; [exists 1%nat, (fun _ => y_draw), 2%Z; split; [intros _; apply y_range|exact HE]|].
  split; [now apply y_joined|]. split; [split; [auto|split; intros ? ? [=]]|]. split; [apply (x_densities neg0 zs a)|]. split; [lra|]. split; [exact Hc|exact Q].
Qed.
