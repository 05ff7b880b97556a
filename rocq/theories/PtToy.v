(** A concrete scene for the examples of PtProps. *)
From Coq Require Import List Reals ZArith Bool Lra Lia ZifyBool.
From Coquelicot Require Import Coquelicot.
From Verif Require Import Base RBase VecBase SurfModel MatModel LightModel PathModel BidirModel BidirProofs CamProofs RenderModel ExpSpec ExpProofs PtProofs.
Import ListNotations.
Open Scope R_scope.

(** A scene: the camera looks down at a floor; half of the directions sampled there lead to a lamp. If [hid], the
  lamp is a point that no ray hits. *)
Definition down := V3 0 0 (-1).
Definition right := V3 1 0 0.
Definition left := V3 (-1) 0 0.
Definition eye := mk_sp CameraEndpoint 0 (Degenerated v0) (V2 0 0).
Definition spot := mk_sp SurfaceInteraction 1 (Degenerated down) (V2 0 0).
Definition lamp (hid : bool) := mk_sp SurfaceInteraction 2 (if hid then Degenerated (V3 1 0 (-1)) else OnSurface (make_on_surface false (V3 1 0 (-1)) left left)) (V2 0 0).
Definition half_left (u : draw) : bool := if Rlt_dec (v2x (dw_d u)) (1 / 2) then true else false.
Definition toy_api (hid : bool) : api := {|
  a_specular := fun _ _ => ret false; a_connectable := fun _ => ret true; a_pdf_position := fun _ => ret 1; a_pdf_component := fun _ _ _ => ret 1;
  a_contrb := fun sp _ _ _ _ _ => ret (match iprim sp with 1%Z => grey 1 | 2%Z => grey 3 | _ => v0 end);
  a_pdf_ray := fun _ _ _ => ret 1; a_pdf_direction := fun _ _ _ _ _ => ret 1; a_sample_ray := fun _ _ => ret None;
  a_sample_direction := fun u sp _ _ _ => ret (match iprim sp with 0%Z => Some (down, grey 1) | 1%Z => Some (if half_left u then left else right, grey (1 / 2)) | _ => None end);
  a_sample_component := fun _ _ _ => ret (0%Z, 1);
  a_intersect := fun _ wo => ret (if Rlt_dec (vz wo) 0 then Some spot else if Rlt_dec 0 (vx wo) then if hid then None else Some (lamp hid) else None);
  a_visible := fun _ _ => ret true; a_is_light := fun sp => Ok (iprim sp =? 2)%Z; a_is_camera := fun sp => Ok (iprim sp =? 0)%Z;
  a_raster := fun _ => ret (Some (V2 (1 / 2) (1 / 2))) |}.
Definition toy (hid : bool) : rapi := {|
  r_api := toy_api hid; r_sample_position := fun _ _ => ret (Some (eye, grey 1));
  r_sample_direct := fun _ sp _ => ret (match iprim sp with 1%Z => Some (as_type (lamp hid) LightEndpoint, left, grey (3 / 4)) | _ => None end);
  r_pdf_direct := fun _ _ _ _ => ret 2; r_sample_distance := fun _ _ _ => ret None; r_transmittance := fun _ _ _ => ret v0 |}.
Definition numbers (x : R) : round := mk_round (mk_draw (mk_u (V2 0 0) (V2 0 0) (V2 0 0)) (V2 x 0) 0 0) (1 / 2) [] [].
Definition good (r : round) : Prop := r = numbers (1 / 4) \/ r = numbers (3 / 4).
Definition E (f : round -> R) : R := (f (numbers (1 / 4)) + f (numbers (3 / 4))) / 2.
Definition P (hid : bool) (sp : interaction) (wi : vec3) (c : Z) : Prop := sp = eye \/ sp = spot \/ sp = lamp hid.
Lemma avg : average good E.
Proof.
  split; unfold E; intros; try (cbn; field). rewrite (H (numbers (1 / 4))), (H (numbers (3 / 4))); [reflexivity|right; reflexivity|left; reflexivity].
Qed.
Lemma dr : drawn good (numbers (1 / 4)).
Proof. exists (numbers (1 / 4)), (1 / 2). split; [now left|split; [lra|reflexivity]]. Qed.
Lemma nonneg a j : 0 <= a -> 0 <= comp (grey a) j. Proof. destruct j as [|[|j]]; cbn; auto. Qed.
Lemma walk_any hid sp wi c u uc : P hid sp wi c -> walkable (toy hid) sp wi c u uc (P hid).
Proof.
  intros Hp. split.
  - eexists. reflexivity.
  - destruct Hp as [->|[->| ->]]; [eexists; reflexivity..|destruct hid; eexists; reflexivity].
  - intros wo w o Ed Eo. cbn in Ed. apply ret_inj in Ed.
    assert (Hw : forall j, 0 <= comp w j).
    { destruct Hp as [->|[->| ->]]; cbn in Ed; [| |discriminate]; injection Ed as _ <-; intros j; apply nonneg; lra. }
    split; [exact Hw|]. split; [eexists; reflexivity|]. intros y Ey. cbn in Ey. apply ret_inj in Ey.
    assert (Hy : P hid y (vneg wo) 0).
    { destruct (Rlt_dec (vz wo) 0); [injection Ey as <-; right; now left|]. destruct (Rlt_dec 0 (vx wo)); [|discriminate]. destruct hid; [discriminate|]. injection Ey as <-. now right; right. }
    split; [eexists; reflexivity|]. split; [eexists; reflexivity|]. split; [exists 1; split; [reflexivity|split; [lra|intros _; lra]]|]. split; [exists 2; split; [reflexivity|lra]|]. intros _. exists 0%Z, 1. split; [reflexivity|split; [lra|exact Hy]].
Qed.
Lemma sf hid : safe (toy hid) good (P hid).
Proof.
  intros sp wi c r Hp Hr. split; [eexists; reflexivity|]. split; [|now apply walk_any]. split; [eexists; reflexivity|]. intros spL woL wL _.
  repeat split; try (eexists; reflexivity). exists 2; split; [reflexivity|lra]. exists 1; split; [reflexivity|lra].
Qed.
Lemma win_ok : window 2 1 1 = Val (/ 2 * 1, 1 * 0, / 2, 1).
Proof. unfold window, FilmModel.pixel_of_index. rewrite (rdiv_ok 1 (IZR 2)) by lra. rewrite (rdiv_ok 1 (IZR 1)) by lra. cbn [MatModel.fbind]. change (Z.rem 1 2) with 1%Z. change (Z.quot 1 2) with 0%Z. replace (1 / 2) with (/ 2) by lra. replace (1 / 1) with 1 by lra. reflexivity. Qed.
Lemma cam_ok hid win u0 : camera_at (toy hid) good (P hid) win u0 eye 0 (grey 1) 1.
Proof.
  split; try reflexivity.
  - intros j. rewrite comp_vscale, Rmult_1_l. apply nonneg. lra.
  - now left.
  - intros r Hr. split; [apply walk_any; now left|]. intros wo w _. eexists. reflexivity.
Qed.
Lemma left_no u : half_left (rn_draw (numbers u)) = if Rlt_dec u (1 / 2) then true else false. Proof. reflexivity. Qed.
Lemma unb hid sp wi c : P hid sp wi c -> unbiased_direct (toy hid) E 0 good sp wi c.
Proof.
  intros Hp. exists (fun _ => 2). split; [reflexivity|]. split; [reflexivity|]. intros g. unfold E, connected, continued, emitted_along, hit_from. destruct Hp as [->|[->| ->]].
  - cbn [toy toy_api r_api r_sample_direct a_sample_direction eye iprim got value ret igeom position pos_of a_intersect]. cbn [vz down]. destruct (Rlt_dec (-1) 0); [|lra]. unfold emitted. cbn. field.
  - cbn [toy toy_api r_api r_sample_direct a_sample_direction spot iprim got value ret igeom position pos_of a_intersect a_visible a_contrb]. rewrite !left_no.
    destruct (Rlt_dec (1 / 4) (1 / 2)); [|lra]. destruct (Rlt_dec (3 / 4) (1 / 2)); [lra|]. cbn [vz vx left right].
    destruct (Rlt_dec 0 0); [lra|]. destruct (Rlt_dec 0 (-1)); [lra|]. destruct (Rlt_dec 0 1); [|lra].
    assert (Hg : vneg left = right) by (unfold vneg, left, right; cbn; f_equal; ring). unfold only_hittable, emitted. rewrite Hg. destruct hid; cbn; field.
  - cbn. field.
Qed.
