(** C84: what the light tracer estimates. *)
From Coq Require Import List Reals ZArith Bool Lra Lia ZifyBool.
From Coquelicot Require Import Coquelicot.
From Verif Require Import Base RBase VecBase SurfModel MatModel LightModel PathModel BidirModel BidirProofs CamProofs RenderModel ExpSpec ExpProofs PtProofs PtToy PtProps VolPtSpec VolPtProofs LtProofs.
Import ListNotations.
Open Scope R_scope.

(** The expected value of a sample, given the ray along which it leaves a light: what the camera receives of this
    light after up to max_verts - 2 scattering events. *)
Theorem C84_expected_image : forall A good E P max_verts u0 s r0 i phi, average good E -> drawn good r0 -> lsafe A good P -> emits_at A P u0 s ->
  expect E r0 (Z.to_nat (max_verts - 2)) (fun rng => total phi i (lt_sample A max_verts u0 rng)) = received_from A E i phi u0 (Z.to_nat (max_verts - 2)) s.
Proof.
  intros A good E P max_verts u0 s r0 i phi HE H0 HS [E1 Hw [hit Eh] Hn]. set (k := Z.to_nat (max_verts - 2)).
  assert (Z0 : expect E r0 k (fun _ => 0) = 0) by apply (expect_const good E r0 HE k 0).
  unfold received_from. rewrite Eh, got_ret. destruct hit as [y|].
  2:{ rewrite <- Z0. apply (expect_ext good E r0 HE H0). intros rng _. unfold lt_sample. now rewrite E1, pbind_val, Eh, pbind_val. }
  destruct (infinite (igeom y)) eqn:Ei.
  { rewrite <- Z0. apply (expect_ext good E r0 HE H0). intros rng _. unfold lt_sample. now rewrite E1, pbind_val, Eh, pbind_val, Ei. }
  destruct (Hn y Eh Ei) as (c & wc & Ec & Hc & Hp). rewrite Ec. cbn [value ret].
  transitivity (expect E r0 k (fun rng => total phi i (lt_walk A k 2 rng y (vneg (pr_wo s)) c (vscale wc (pr_weight s))))).
  { apply (expect_ext good E r0 HE H0). intros rng _. unfold lt_sample. now rewrite E1, pbind_val, Eh, pbind_val, Ei, Ec, pbind_val. }
  rewrite (l_expect A good P HS i phi E r0 HE H0 k 2 y _ c _ Hp); [|intros j; rewrite comp_vscale; now apply Rmult_le_pos]. rewrite (l_reach A good P HS i phi E HE k 2 _ _ _ Hp), comp_vscale. ring.
Qed.
Print Assumptions C84_expected_image.

(** A scene: a light shines down on a floor; of the directions sampled there, half lead to a wall on the right. A
    camera sees both; the wall reflects light to the camera and to the floor. *)
Definition wall := mk_sp SurfaceInteraction 2 (OnSurface (make_on_surface false (V3 1 0 (-1)) left left)) (V2 0 0).
Definition ray0 := mk_path_ray (mk_sp LightEndpoint 3 (Degenerated v0) (V2 0 0)) v0 down (grey 2).
Definition lit_api : api := {|
  a_specular := fun _ _ => ret false; a_connectable := fun _ => ret true; a_pdf_position := fun _ => ret 1; a_pdf_component := fun _ _ _ => ret 1;
  a_contrb := fun sp _ _ _ _ _ => ret (match iprim sp with 1%Z => grey 1 | 2%Z => grey 3 | _ => v0 end);
  a_pdf_ray := fun _ _ _ => ret 1; a_pdf_direction := fun _ _ _ _ _ => ret 1; a_sample_ray := fun _ _ => ret (Some ray0);
  a_sample_direction := fun u sp _ _ _ => ret (match iprim sp with 1%Z => Some (if half_left u then left else right, grey (1 / 2)) | 2%Z => Some (down, grey (1 / 4)) | _ => None end);
  a_sample_component := fun _ _ _ => ret (0%Z, 1);
  a_intersect := fun _ wo => ret (if Rlt_dec (vz wo) 0 then Some spot else if Rlt_dec 0 (vx wo) then Some wall else None);
  a_visible := fun _ _ => ret true; a_is_light := fun sp => Ok (iprim sp =? 3)%Z; a_is_camera := fun sp => Ok (iprim sp =? 0)%Z;
  a_raster := fun _ => ret (Some (V2 (1 / 2) (1 / 2))) |}.
Definition lit : rapi := {|
  r_api := lit_api; r_sample_position := fun _ _ => ret None; r_sample_direct := fun _ sp _ => ret (Some (eye, left, grey 1));
  r_pdf_direct := fun _ _ _ _ => ret 2; r_sample_distance := fun _ _ _ => ret None; r_transmittance := fun _ _ _ => ret v0 |}.
Definition lP (sp : interaction) (wi : vec3) (c : Z) : Prop := sp = spot \/ sp = wall.
Example C84_example : average good E /\ drawn good (numbers (1 / 4)) /\ lsafe lit good lP /\ (forall u0, emits_at lit lP u0 ray0)
  /\ forall u0, received_from lit E 0 (fun _ => 1) u0 2 ray0 = 7 / 2.
Proof.
  split; [exact avg|]. split; [exact dr|]. split; [|split].
  - intros sp wi c r Hp Hr. split.
    + eexists; reflexivity.
    + intros spE woE wE _. repeat split; eexists; reflexivity.
    + eexists; reflexivity.
    + destruct Hp as [->| ->]; eexists; reflexivity.
    + intros wo w o Ed Eo. cbn in Ed. apply ret_inj in Ed. split; [|split; [eexists; reflexivity|]].
      * destruct Hp as [->| ->]; cbn in Ed; injection Ed as _ <-; intros j; apply nonneg; lra.
      * intros y Ey _. cbn in Ey. apply ret_inj in Ey. exists 0%Z, 1. split; [reflexivity|]. split; [lra|]. destruct (Rlt_dec (vz wo) 0); [injection Ey as <-; now left|]. destruct (Rlt_dec 0 (vx wo)); [injection Ey as <-; now right|discriminate].
  - intros u0. split; [reflexivity|intros j; apply nonneg; lra|eexists; reflexivity|]. intros y Ey _. cbn in Ey. apply ret_inj in Ey. exists 0%Z, 1. split; [reflexivity|]. split; [lra|]. destruct (Rlt_dec (-1) 0); [injection Ey as <-; now left|lra].
  - intros u0. unfold received_from, importance, E, received, reflected_along, hit_from, of_raster. cbn [lit lit_api r_api r_sample_direct a_sample_direction a_contrb a_raster a_sample_component a_intersect a_visible spot wall ray0 pr_origin pr_wo pr_weight iprim got value ret].
    repeat (cbn [vz vx down left right numbers rn_draw dw_d v2x spot wall igeom infinite iprim half_left got value ret position pos_of]; unfold half_left; match goal with |- context [Rlt_dec ?a ?b] => match a with context [Rlt_dec] => fail 1 | _ => destruct (Rlt_dec a b); try lra end end).
    cbn. field.
Qed.
