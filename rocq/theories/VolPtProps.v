(** C83: the volumetric path tracers estimate the same image. *)
From Coq Require Import List Reals ZArith Bool Lra Lia ZifyBool.
From Coquelicot Require Import Coquelicot.
From Verif Require Import Base RBase VecBase SurfModel MatModel LightModel PathModel BidirModel BidirProofs CamProofs RenderModel ExpSpec ExpProofs PtProofs PtToy PtProps VolPtSpec VolPtProofs.
Import ListNotations.
Open Scope R_scope.

(** The expected value of a sample of renderer::volpt ([direct]) and renderer::volpt_naive is the light that arrives
    at the camera through the pixel along paths with at most max_verts vertices, for every probability of Russian
    roulette below one. *)
Theorem C83_expected_image : forall A good E P direct rr max_verts w h index win u0 r0 sp c wE wc i phi, 0 <= rr < 1 ->
  average good E -> drawn good r0 -> vsafe A good P -> window w h index = Val win -> vcamera_at A good P win u0 sp c wE wc ->
  (direct = true -> forall sp wi c, P sp wi c -> smooth A sp c = true -> balanced A E i sp wi c) ->
  expect E r0 (Z.to_nat (max_verts - 1)) (fun rng => total phi i (vol_sample A rr direct max_verts w h index u0 rng))
  = comp (vscale wc wE) i * seen A E i direct win (Z.to_nat (max_verts - 1)) sp c phi.
Proof.
  intros A good E P direct rr max_verts w h index win u0 r0 sp c wE wc i phi Hrr HE H0 HS Hw [E1 E2 Hwt Hg Hst] HU.
  transitivity (expect E r0 (Z.to_nat (max_verts - 1)) (fun rng => total phi i (vol_walk A rr direct win (Z.to_nat (max_verts - 1)) 1 rng sp v0 c (vscale wc wE) (V2 0 0)))).
  { apply (expect_ext good E r0 HE H0). intros rng _. unfold vol_sample. now rewrite Hw, pbind_okval, E1, pbind_val, E2, pbind_val. }
  rewrite (v_expect A rr direct win Hrr good P HS i phi E r0 HE H0); [|right; auto|exact Hwt]. f_equal. now apply (v_reach_first A direct win good P HS i phi E HE HU).
Qed.
Print Assumptions C83_expected_image.

(** Every light that a connection can reach can also be hit by a ray. *)
Definition vall_hittable (A : rapi) (good : round -> Prop) (P : interaction -> vec3 -> Z -> Prop) : Prop := forall sp wi c r spL woL wL,
  P sp wi c -> good r -> r_sample_direct A (rn_draw r) sp LE = ret (Some (spL, woL, wL)) -> hittable A spL = true.
Lemma scattered_all A good E P i : average good E -> vsafe A good P -> vall_hittable A good P -> forall k sp wi c, P sp wi c -> scattered A E i true k sp wi c = scattered A E i false k sp wi c.
Proof.
  intros HE HS HA. induction k as [|k IH]; intros sp wi c Hp; [reflexivity|]. cbn [scattered andb]. f_equal.
  - destruct (smooth A sp c); [|reflexivity]. transitivity (E (fun _ => 0)); [|apply (av_const good E HE)]. apply (av_ext _ _ HE). intros r Hr. destruct (HS sp wi c r Hp Hr) as (_ & [[sL E1] _] & _). unfold connected_through, hidden_light. rewrite E1. cbn [got value ret].
    destruct sL as [[[spL woL] wL]|]; [|reflexivity]. now rewrite (HA sp wi c r spL woL wL Hp Hr E1).
  - apply (av_ext _ _ HE). intros r Hr. destruct (HS sp wi c r Hp Hr) as (_ & _ & [[s Edir] Hh]). unfold continued, scattered_next, next_along. rewrite Edir. cbn [got value ret].
    destruct s as [[wo w]|]; [|reflexivity]. destruct (Hh wo w Edir) as (_ & (hit & Ehit) & Hy). rewrite Ehit. cbn [got value ret]. destruct hit as [[y wd]|]; [|reflexivity]. destruct (infinite (igeom y)) eqn:Ei; [reflexivity|].
    destruct (Hy y wd Ehit) as (_ & _ & _ & Hc). destruct (Hc Ei) as (c' & wc & Ec & _ & Hn). rewrite Ec. cbn [value ret]. now rewrite (IH _ _ _ Hn).
Qed.
(** The two renderers have the same expected image, whatever their probabilities of Russian roulette, if every
    light can be hit by a ray. *)
Theorem C83_same_image : forall A good E P rr rr' max_verts w h index win u0 r0 sp c wE wc i phi, 0 <= rr < 1 -> 0 <= rr' < 1 ->
  average good E -> drawn good r0 -> vsafe A good P -> window w h index = Val win -> vcamera_at A good P win u0 sp c wE wc ->
  (forall sp wi c, P sp wi c -> smooth A sp c = true -> balanced A E i sp wi c) -> vall_hittable A good P ->
  expect E r0 (Z.to_nat (max_verts - 1)) (fun rng => total phi i (vol_sample A rr true max_verts w h index u0 rng))
  = expect E r0 (Z.to_nat (max_verts - 1)) (fun rng => total phi i (vol_sample A rr' false max_verts w h index u0 rng)).
Proof.
  intros A good E P rr rr' max_verts w h index win u0 r0 sp c wE wc i phi Hrr Hrr' HE H0 HS Hw HC HU HA.
  rewrite (C83_expected_image A good E P true rr max_verts w h index win u0 r0 sp c wE wc i phi Hrr HE H0 HS Hw HC (fun _ => HU)).
  rewrite (C83_expected_image A good E P false rr' max_verts w h index win u0 r0 sp c wE wc i phi Hrr' HE H0 HS Hw HC (fun X => ltac:(discriminate X))). f_equal.
  unfold seen. destruct (Z.to_nat (max_verts - 1)) as [|k]; [reflexivity|]. apply (av_ext _ _ HE). intros r Hr. destruct HC as [_ _ _ _ Hst]. destruct (Hst r Hr) as ([[s Edir] Hh] & _). unfold scattered_next, next_along. rewrite Edir. cbn [got value ret].
  destruct s as [[wo w']|]; [|reflexivity]. destruct (Hh wo w' Edir) as (_ & (hit & Ehit) & Hy). rewrite Ehit. cbn [got value ret]. destruct hit as [[y wd]|]; [|reflexivity]. destruct (infinite (igeom y)) eqn:Ei; [reflexivity|].
  destruct (Hy y wd Ehit) as (_ & _ & _ & Hc). destruct (Hc Ei) as (c' & wc' & Ec & _ & Hn). rewrite Ec. cbn [value ret]. now rewrite (scattered_all A good E P i HE HS HA k _ _ _ Hn).
Qed.
Print Assumptions C83_same_image.

(** A medium that never scatters: distances end at the next surface and transmittance is visibility. *)
Definition clear (A : rapi) (good : round -> Prop) (P : interaction -> vec3 -> Z -> Prop) : Prop := forall sp wi c, P sp wi c -> forall r, good r ->
  (forall o wo, position (igeom sp) = Val o -> r_sample_distance A (rn_dist r) sp wo = let! h := a_intersect (r_api A) o wo in ret (match h with Some y => Some (y, grey 1) | None => None end))
  /\ forall spL, r_transmittance A (rn_tr r) sp spL = let! v := a_visible (r_api A) sp spL in ret (if v then grey 1 else v0).
Lemma comp_grey a j : comp (grey a) j = a. Proof. destruct j as [|[|j]]; reflexivity. Qed.
Lemma next_clear A good P sp wi c r wo o : clear A good P -> P sp wi c -> good r -> position (igeom sp) = Val o -> gives (a_intersect (r_api A) o wo) -> next_along A r sp wo = match hit_from A sp wo with Some y => Some (y, grey 1) | None => None end.
Proof. intros HC Hp Hr Ho [h Eh]. unfold next_along, hit_from. rewrite (proj1 (HC sp wi c Hp r Hr) o wo Ho), Ho, Eh, pbind_val, !got_ret. reflexivity. Qed.
Lemma clear_emitted A good E P i : average good E -> safe A good P -> clear A good P -> forall sp wi c r wo w o u, P sp wi c -> good r -> position (igeom sp) = Val o -> walkable A sp wi c u (rn_draw r) P -> a_sample_direction (r_api A) u sp wi c EL = ret (Some (wo, w)) ->
  emitted_next A i r sp wo c = emitted_along A i sp wo c /\ forall L L', (forall y wi c, P y wi c -> L y wi c = L' y wi c) -> scattered_next A i L r sp wo = reflected_along A L' r sp wo.
Proof.
  intros HE HS HC sp wi c r wo w o u Hp Hr Ho [_ _ Hh] Ed. destruct (Hh wo w o Ed Ho) as (_ & Hint & Hy). unfold emitted_next, emitted_along, scattered_next, reflected_along.
  rewrite (next_clear A good P sp wi c r wo o HC Hp Hr Ho Hint). destruct (hit_from A sp wo) as [y|] eqn:Ey; [|split; [reflexivity|reflexivity]]. split; [rewrite comp_grey; ring|]. intros L L' HL. destruct (infinite (igeom y)) eqn:Ei; [reflexivity|].
  destruct Hint as [h Eh]. unfold hit_from in Ey. rewrite Ho, Eh, got_ret in Ey. subst h. destruct (Hy y Eh) as (_ & _ & _ & _ & Hc). destruct (Hc Ei) as (c' & wc & Ec & _ & Hn). rewrite Ec. cbn [value ret]. rewrite comp_grey, (HL _ _ _ Hn). ring.
Qed.
Lemma scattered_clear A good E P i hidden : average good E -> safe A good P -> clear A good P -> forall k sp wi c, P sp wi c -> scattered A E i hidden k sp wi c = radiance A E i hidden k sp wi c.
Proof.
  intros HE HS HC. induction k as [|k IH]; intros sp wi c Hp; [reflexivity|]. cbn [scattered radiance]. f_equal.
  - destruct (hidden && smooth A sp c); [|reflexivity]. apply (av_ext _ _ HE). intros r Hr. destruct (HS sp wi c r Hp Hr) as (_ & [[sL E1] Hc] & _). unfold connected_through, connected, hidden_light, only_hidden. rewrite E1, got_ret. destruct sL as [[[spL woL] wL]|]; [|reflexivity].
    destruct (Hc spL woL wL E1) as ((vis & E2) & _). rewrite (proj2 (HC sp wi c Hp r Hr) spL), E2, pbind_val. cbn [value ret]. destruct (hittable A spL), vis; cbn [negb]; rewrite ?comp_grey; try ring. replace (comp v0 i) with 0 by (destruct i as [|[|j]]; reflexivity). ring.
  - apply (av_ext _ _ HE). intros r Hr. destruct (HS sp wi c r Hp Hr) as (_ & _ & Hw). pose proof Hw as [[s Edir] [o Eo] _]. unfold continued. rewrite Edir, got_ret. destruct s as [[wo w]|]; [|reflexivity].
    destruct (clear_emitted A good E P i HE HS HC sp wi c r wo w o _ Hp Hr Eo Hw Edir) as [-> X]. now rewrite (X _ (radiance A E i hidden k) IH).
Qed.
(** With such a medium the expected image is that of the path tracer. *)
Theorem C83_clear_medium : forall A good E P direct rr max_verts w h index win u0 r0 sp c wE wc i phi, 0 <= rr < 1 ->
  average good E -> drawn good r0 -> safe A good P -> vsafe A good P -> clear A good P -> window w h index = Val win -> camera_at A good P win u0 sp c wE wc -> vcamera_at A good P win u0 sp c wE wc ->
  (forall sp wi c, P sp wi c -> smooth A sp c = true -> unbiased_direct A E i good sp wi c) ->
  (direct = true -> forall sp wi c, P sp wi c -> smooth A sp c = true -> balanced A E i sp wi c) ->
  expect E r0 (Z.to_nat (max_verts - 1)) (fun rng => total phi i (vol_sample A rr direct max_verts w h index u0 rng))
  = expect E r0 (Z.to_nat (max_verts - 1)) (fun rng => total phi i (pt_sample A (if direct then NEE else Naive) PixelMode max_verts w h index u0 rng)).
Proof.
  intros A good E P direct rr max_verts w h index win u0 r0 sp c wE wc i phi Hrr HE H0 HS HV HC Hw HA HA' HU HB.
  rewrite (C83_expected_image A good E P direct rr max_verts w h index win u0 r0 sp c wE wc i phi Hrr HE H0 HV Hw HA' HB).
  assert (X : expect E r0 (Z.to_nat (max_verts - 1)) (fun rng => total phi i (pt_sample A (if direct then NEE else Naive) PixelMode max_verts w h index u0 rng)) = comp (vscale wc wE) i * measured A E i direct false win (Z.to_nat (max_verts - 1)) sp c phi).
  { rewrite (C74_expected_image A good E P (if direct then NEE else Naive) PixelMode max_verts w h index win u0 r0 sp c wE wc i phi HE H0 HS Hw HA (fun _ => HU)). destruct direct; reflexivity. }
  rewrite X. f_equal. unfold seen, measured. destruct (Z.to_nat (max_verts - 1)) as [|k]; [reflexivity|]. rewrite andb_false_r. cbn [andb]. rewrite Rplus_0_l. apply (av_ext _ _ HE). intros r Hr. destruct HA as [_ _ _ Hp Hst]. destruct (Hst r Hr) as (Hwk & _). pose proof Hwk as [[s Edir] [o Eo] _].
  rewrite Edir, got_ret. destruct s as [[wo w']|]; [|reflexivity]. destruct (clear_emitted A good E P i HE HS HC sp v0 c r wo w' o _ Hp Hr Eo Hwk Edir) as [-> Y]. rewrite (Y _ (radiance A E i direct k)); [reflexivity|]. now apply (scattered_clear A good E P i direct HE HS HC).
Qed.
Print Assumptions C83_clear_medium.

(** A foggy version of the scene of C74: half of the rays from the camera are scattered in the fog, half of the
    others are absorbed before they reach the floor; half of the light of the lamp is absorbed on its way to the
    fog and the floor. *)
Definition mist := mk_sp MediumInteraction 3 (Degenerated (V3 0 0 (- 1 / 2))) (V2 0 0).
Definition fog_api : api := {|
  a_specular := fun _ _ => ret false; a_connectable := fun _ => ret true; a_pdf_position := fun _ => ret 1; a_pdf_component := fun _ _ _ => ret 1;
  a_contrb := fun sp _ _ _ _ _ => ret (match iprim sp with 1%Z | 3%Z => grey 1 | 2%Z => grey 3 | _ => v0 end);
  a_pdf_ray := fun _ _ _ => ret 1; a_pdf_direction := fun _ _ _ _ _ => ret 1; a_sample_ray := fun _ _ => ret None;
  a_sample_direction := fun u sp _ _ _ => ret (match iprim sp with 0%Z => Some (down, grey 1) | 1%Z | 3%Z => Some (if half_left u then left else right, grey (1 / 2)) | _ => None end);
  a_sample_component := fun _ _ _ => ret (0%Z, 1);
  a_intersect := fun _ wo => ret (if Rlt_dec (vz wo) 0 then Some spot else if Rlt_dec 0 (vx wo) then Some (lamp false) else None);
  a_visible := fun _ _ => ret true; a_is_light := fun sp => Ok (iprim sp =? 2)%Z; a_is_camera := fun sp => Ok (iprim sp =? 0)%Z;
  a_raster := fun _ => ret (Some (V2 (1 / 2) (1 / 2))) |}.
Definition fog : rapi := {|
  r_api := fog_api; r_sample_position := fun _ _ => ret (Some (eye, grey 1));
  r_sample_direct := fun _ sp _ => ret (match iprim sp with 1%Z | 3%Z => Some (as_type (lamp false) LightEndpoint, left, grey (3 / 4)) | _ => None end);
  r_pdf_direct := fun _ _ _ _ => ret 2;
  r_sample_distance := fun us _ wo => ret (if Rlt_dec (vz wo) 0 then match us with [x] => if Rlt_dec x (1 / 2) then Some (mist, grey 1) else Some (spot, grey (1 / 2)) | _ => None end
                                           else if Rlt_dec 0 (vx wo) then Some (lamp false, grey (1 / 2)) else None);
  r_transmittance := fun _ _ _ => ret (grey (1 / 2)) |}.
Definition fnumbers (x : R) : round := mk_round (mk_draw (mk_u (V2 0 0) (V2 0 0) (V2 0 0)) (V2 x 0) 0 0) (1 / 2) [x] [].
Definition fgood (r : round) : Prop := r = fnumbers (1 / 4) \/ r = fnumbers (3 / 4).
Definition fE (f : round -> R) : R := (f (fnumbers (1 / 4)) + f (fnumbers (3 / 4))) / 2.
Definition fP (sp : interaction) (wi : vec3) (c : Z) : Prop := sp = spot \/ sp = mist \/ sp = lamp false.
Lemma fwalk sp wi c u r : sp = eye \/ fP sp wi c -> vwalkable fog sp wi c u r fP.
Proof.
  intros Hp. split; [eexists; reflexivity|]. intros wo w Ed. cbn in Ed. apply ret_inj in Ed.
  assert (Hw : forall j, 0 <= comp w j) by (destruct Hp as [->|[->|[->| ->]]]; cbn in Ed; [| | |discriminate]; injection Ed as _ <-; intros j; apply nonneg; lra).
  split; [exact Hw|]. split; [eexists; reflexivity|]. intros y wd Ey. cbn in Ey. apply ret_inj in Ey.
  assert (Hy : fP y (vneg wo) 0 /\ forall j, 0 <= comp wd j).
  { destruct (Rlt_dec (vz wo) 0); [destruct (rn_dist r) as [|x [|? ?]]; [discriminate| |discriminate]; destruct (Rlt_dec x (1 / 2)); injection Ey as <- <-|destruct (Rlt_dec 0 (vx wo)); [injection Ey as <- <-|discriminate]]; (split; [unfold fP; auto|intros j; apply nonneg; lra]). }
  destruct Hy as [Hy Hd]. split; [exact Hd|]. split; [eexists; reflexivity|]. split; [eexists; reflexivity|]. intros _. exists 0%Z, 1. split; [reflexivity|split; [lra|exact Hy]].
Qed.
Lemma fleft u : half_left (rn_draw (fnumbers u)) = if Rlt_dec u (1 / 2) then true else false. Proof. reflexivity. Qed.
Lemma fbalanced sp wi c : fP sp wi c -> balanced fog fE 0 sp wi c.
Proof.
  intros Hp. unfold balanced, fE, connected_through, continued, emitted_next, next_along.
  destruct Hp as [->|[->| ->]]; [| |cbn; field];
    (cbn [fog fog_api r_api r_sample_direct r_sample_distance r_transmittance a_sample_direction a_contrb spot mist iprim got value ret]; rewrite !fleft;
     destruct (Rlt_dec (1 / 4) (1 / 2)); [|lra]; destruct (Rlt_dec (3 / 4) (1 / 2)); [lra|]; cbn [vz vx left right]; destruct (Rlt_dec 0 0); [lra|]; destruct (Rlt_dec 0 (-1)); [lra|]; destruct (Rlt_dec 0 1); [|lra]; unfold emitted; cbn; field).
Qed.
Example C83_example : average fgood fE /\ drawn fgood (fnumbers (1 / 4)) /\ vsafe fog fgood fP /\ (forall win u0, vcamera_at fog fgood fP win u0 eye 0 (grey 1) 1)
  /\ (forall sp wi c, fP sp wi c -> smooth fog sp c = true -> balanced fog fE 0 sp wi c) /\ vall_hittable fog fgood fP
  /\ seen fog fE 0 true (/ 2 * 1, 1 * 0, / 2, 1) 2 eye 0 (fun _ => 1) = 9 / 32.
Proof.
  split; [|split; [|split; [|split; [|split; [|split]]]]].
  - split; unfold fE; intros; try (cbn; field). rewrite (H (fnumbers (1 / 4))), (H (fnumbers (3 / 4))); [reflexivity|right; reflexivity|left; reflexivity].
  - exists (fnumbers (1 / 4)), (1 / 2). split; [now left|split; [lra|reflexivity]].
  - intros sp wi c r Hp Hr. split; [eexists; reflexivity|]. split; [|apply fwalk; now right]. split; [eexists; reflexivity|]. intros spL woL wL _. split; eexists; reflexivity.
  - intros win u0. split; try reflexivity; [intros j; rewrite comp_vscale, Rmult_1_l; apply nonneg; lra|eexists; reflexivity|]. intros r Hr. split; [apply fwalk; now left|]. intros wo w _. eexists. reflexivity.
  - intros. now apply fbalanced.
  - intros sp wi c r spL woL wL _ _ X. cbn in X. apply ret_inj in X. destruct (iprim sp) as [|[[?|?|]|?|]|?]; try discriminate X; injection X as <- _ _; reflexivity.
  - unfold seen, scattered, fE, continued, connected_through, emitted_next, scattered_next, next_along, of_raster. cbn [fog fog_api r_api r_sample_direct r_sample_distance r_transmittance a_sample_direction a_contrb a_raster a_sample_component eye iprim got value ret andb smooth a_specular negb].
    repeat (cbn [vz vx down left right fnumbers rn_dist rn_draw dw_d v2x mist spot lamp igeom infinite iprim half_left]; unfold half_left; match goal with |- context [Rlt_dec ?a ?b] => match a with context [Rlt_dec] => fail 1 | _ => destruct (Rlt_dec a b); try lra end end).
    unfold emitted. cbn. field.
Qed.
(** The scene of C74 itself, with a medium that never scatters *)
Definition clear_toy : rapi := {| r_api := r_api (toy false); r_sample_position := r_sample_position (toy false); r_sample_direct := r_sample_direct (toy false); r_pdf_direct := r_pdf_direct (toy false);
  r_sample_distance := fun _ sp wo => let! o := Ok (position (igeom sp)) in let! h := a_intersect (r_api (toy false)) o wo in ret (match h with Some y => Some (y, grey 1) | None => None end);
  r_transmittance := fun _ sp spL => let! v := a_visible (r_api (toy false)) sp spL in ret (if v then grey 1 else v0) |}.
Example C83_clear_example : clear clear_toy good (P false) /\ safe clear_toy good (P false) /\ vsafe clear_toy good (P false) /\ (forall win u0, camera_at clear_toy good (P false) win u0 eye 0 (grey 1) 1) /\ (forall win u0, vcamera_at clear_toy good (P false) win u0 eye 0 (grey 1) 1)
  /\ (forall sp wi c, P false sp wi c -> unbiased_direct clear_toy E 0 good sp wi c) /\ forall sp wi c, P false sp wi c -> balanced clear_toy E 0 sp wi c.
Proof.
  assert (HC : clear clear_toy good (P false)). { intros sp wi c _ r _. split; [|reflexivity]. intros o wo Ho. cbn [clear_toy r_sample_distance]. now rewrite Ho, pbind_okval. }
  assert (HW : forall sp wi c u r, P false sp wi c -> vwalkable clear_toy sp wi c u r (P false)).
  { intros sp wi c u r Hp. destruct (walk_any false sp wi c u (rn_draw r) Hp) as [H1 [o Ho] H2]. split; [exact H1|]. intros wo w Ed. destruct (H2 wo w o Ed Ho) as (Hw & (hit & Eh) & Hy). split; [exact Hw|]. cbn [clear_toy r_sample_distance]. rewrite Ho, pbind_okval, Eh, pbind_val.
    split; [eexists; reflexivity|]. intros y wd Ey. apply ret_inj in Ey. destruct hit as [y'|]; [|discriminate]. injection Ey as <- <-. destruct (Hy y' Eh) as (Hb & Hc & _ & _ & Hn). split; [intros j; apply nonneg; lra|]. split; [exact Hb|]. split; [exact Hc|exact Hn]. }
  assert (HK : forall sp wi c u uc, walkable (toy false) sp wi c u uc (P false) -> walkable clear_toy sp wi c u uc (P false)) by (intros sp wi c u uc [H1 H2 H3]; split; [exact H1|exact H2|exact H3]).
  assert (HS : safe clear_toy good (P false)). { intros sp wi c r Hp Hr. destruct (sf false sp wi c r Hp Hr) as (H1 & [H2 H3] & H4). split; [exact H1|]. split; [split; [exact H2|exact H3]|now apply HK]. }
  split; [exact HC|]. split; [exact HS|]. split; [|split; [|split; [|split]]].
  - intros sp wi c r Hp Hr. split; [eexists; reflexivity|]. split; [|now apply HW]. split; [eexists; reflexivity|]. intros spL woL wL _. split; [|eexists; reflexivity]. eexists. cbn [clear_toy r_transmittance]. reflexivity.
  - intros win u0. destruct (cam_ok false win u0) as [H1 H2 H3 H4 H5]. split; [exact H1|exact H2|exact H3|exact H4|]. intros r Hr. destruct (H5 r Hr) as [H6 H7]. split; [now apply HK|exact H7].
  - intros win u0. destruct (cam_ok false win u0) as [H1 H2 H3 H4 H5]. split; [exact H1|exact H2|exact H3|eexists; reflexivity|]. intros r Hr. destruct (H5 r Hr) as [_ H6]. split; [now apply HW|exact H6].
  - exact (unb false).
  - intros sp wi c Hp. destruct (unb false sp wi c Hp) as (_ & _ & _ & H). specialize (H (fun _ => 1)). unfold balanced.
    transitivity (E (fun r => connected (toy false) 0 (only_hittable (toy false) (fun _ => 1)) r sp wi c)); [|rewrite H; clear H].
    + apply (av_ext _ _ avg). intros r Hr. unfold connected_through, connected, only_hittable. change (r_sample_direct clear_toy) with (r_sample_direct (toy false)). destruct (got _) as [[[spL woL] wL]|]; [|reflexivity].
      change (hittable clear_toy spL) with (hittable (toy false) spL). change (r_api clear_toy) with (r_api (toy false)). cbn [clear_toy r_transmittance toy r_api toy_api a_visible]. rewrite pbind_val. cbn [value ret]. destruct (hittable _ spL); rewrite ?comp_grey; ring.
    + apply (av_ext _ _ avg). intros r Hr. unfold continued. change (r_api clear_toy) with (r_api (toy false)). destruct (got _) as [[wo w]|] eqn:Eg; [|reflexivity]. f_equal. f_equal.
      unfold emitted_next, emitted_along. destruct (walk_any false sp wi c (rn_draw r) (rn_draw r) Hp) as [_ [o Ho] _]. rewrite (next_clear clear_toy good (P false) sp wi c r wo o HC Hp Hr Ho); [|eexists; reflexivity]. change (hit_from clear_toy sp wo) with (hit_from (toy false) sp wo).
      destruct (hit_from (toy false) sp wo); [|reflexivity]. rewrite comp_grey. change (emitted clear_toy 0 i wo c) with (emitted (toy false) 0 i wo c). ring.
Qed.
