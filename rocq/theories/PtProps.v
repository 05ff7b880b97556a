(** C74: the sampling modes of the path tracer estimate the same image. C56: its walks are bounded, and Russian
    roulette keeps expected values. *)
From Coq Require Import List Reals ZArith Bool Lra Lia ZifyBool.
From Coquelicot Require Import Coquelicot.
From Verif Require Import Base RBase VecBase SurfModel MatModel LightModel PathModel BidirModel BidirProofs CamProofs RenderModel ExpSpec ExpProofs PtProofs PtToy.
Import ListNotations.
Open Scope R_scope.

(** * C74 *)
(** The expected splats of a sample, weighted by any function of the raster position, are the light that arrives
    through its window along paths with fewer than max_verts vertices... *)
Theorem C74_expected_image : forall A good E P sm pmd max_verts w h index win u0 r0 sp c wE wc i phi,
  average good E -> drawn good r0 -> safe A good P -> window_of pmd w h index win -> camera_at A good P win u0 sp c wE wc ->
  (sm <> Naive -> forall sp wi c, P sp wi c -> smooth A sp c = true -> unbiased_direct A E i good sp wi c) ->
  expect E r0 (Z.to_nat (max_verts - 1)) (fun rng => total phi i (pt_sample A sm pmd max_verts w h index u0 rng))
  = comp (vscale wc wE) i * measured A E i (match sm with Naive => false | _ => true end) (match pmd with PixelMode => false | ImageMode => true end) win (Z.to_nat (max_verts - 1)) sp c phi.
Proof.
  intros A good E P sm pmd max_verts w h index win u0 r0 sp c wE wc i phi HE H0 HS Hw [E1 E2 Hwt Hp Hst] HU.
  assert (Hs : forall rng, pt_sample A sm pmd max_verts w h index u0 rng = pt_walk A sm pmd win (Z.to_nat (max_verts - 1)) 1 rng sp v0 c (vscale wc wE) (V2 0 0)).
  { intros rng. unfold pt_sample. unfold window_of in Hw. destruct pmd; rewrite ?Hw; cbn [pbind]; rewrite ?pbind_okval, ?pbind_val, E1; rewrite ?pbind_val, E2, ?pbind_val; reflexivity. }
  transitivity (expect E r0 (Z.to_nat (max_verts - 1)) (fun rng => total phi i (pt_walk A sm pmd win (Z.to_nat (max_verts - 1)) 1 rng sp v0 c (vscale wc wE) (V2 0 0)))).
  { apply (expect_ext good E r0 HE H0). intros rng _. now rewrite Hs. }
  rewrite (pt_expect A sm pmd win good P HS i phi E r0 HE H0); [|split; [lia|split; [exact Hp|intros _; exact Hst]]|exact Hwt]. f_equal.
  apply (reach_first A sm pmd win good P HS i phi E HE HU); [exact Hp|exact Hst|]. intros ->. exact Hw.
Qed.
Print Assumptions C74_expected_image.
(** ... so that nee and mis have the same expected image, whatever the weights. *)
Theorem C74_nee_mis : forall A good E P pmd max_verts w h index win u0 r0 sp c wE wc i phi,
  average good E -> drawn good r0 -> safe A good P -> window_of pmd w h index win -> camera_at A good P win u0 sp c wE wc ->
  (forall sp wi c, P sp wi c -> smooth A sp c = true -> unbiased_direct A E i good sp wi c) ->
  expect E r0 (Z.to_nat (max_verts - 1)) (fun rng => total phi i (pt_sample A NEE pmd max_verts w h index u0 rng))
  = expect E r0 (Z.to_nat (max_verts - 1)) (fun rng => total phi i (pt_sample A MIS pmd max_verts w h index u0 rng)).
Proof. intros. erewrite !C74_expected_image by eauto. reflexivity. Qed.
Print Assumptions C74_nee_mis.

(** Every light that a connection can reach can also be hit by a ray. *)
Definition all_hittable (A : rapi) (good : round -> Prop) (P : interaction -> vec3 -> Z -> Prop) : Prop := forall sp wi c r spL woL wL,
  P sp wi c -> good r -> r_sample_direct A (rn_draw r) sp LE = ret (Some (spL, woL, wL)) -> hittable A spL = true.
Lemma hidden_zero A good E P i sp wi c g : average good E -> safe A good P -> all_hittable A good P -> P sp wi c -> E (fun r => connected A i (only_hidden A g) r sp wi c) = 0.
Proof.
  intros HE HS HA Hp. transitivity (E (fun _ => 0)); [|apply (av_const good E HE)]. apply (av_ext _ _ HE). intros r Hr. destruct (HS sp wi c r Hp Hr) as (_ & [[sL E1] Hc] & _). unfold connected. rewrite E1. cbn [got value ret].
  destruct sL as [[[spL woL] wL]|]; [|reflexivity]. destruct (value false _); [|reflexivity]. unfold only_hidden. rewrite (HA sp wi c r spL woL wL Hp Hr E1). ring.
Qed.
Lemma radiance_all A good E P i : average good E -> safe A good P -> all_hittable A good P -> forall k sp wi c, P sp wi c -> radiance A E i true k sp wi c = radiance A E i false k sp wi c.
Proof.
  intros HE HS HA. induction k as [|k IH]; intros sp wi c Hp; [reflexivity|]. cbn [radiance andb]. f_equal.
  - destruct (smooth A sp c); [|reflexivity]. eapply hidden_zero; eauto.
  - apply (av_ext _ _ HE). intros r Hr. destruct (HS sp wi c r Hp Hr) as (_ & _ & [[s Edir] [o Eo] Hh]). unfold continued, reflected_along, hit_from. rewrite Edir, Eo. cbn [got value ret].
    destruct s as [[wo w]|]; [|reflexivity]. destruct (Hh wo w o Edir Eo) as (_ & (hit & Ehit) & Hy). rewrite Ehit. cbn [got value ret]. destruct hit as [y|]; [|reflexivity]. destruct (infinite (igeom y)) eqn:Ei; [reflexivity|].
    destruct (Hy y Ehit) as (_ & _ & _ & _ & Hc). destruct (Hc Ei) as (c' & wc & Ec & _ & Hn). rewrite Ec. cbn [value ret]. now rewrite (IH _ _ _ Hn).
Qed.
(** All three modes agree if every light can be hit by a ray. *)
Theorem C74_all_modes : forall A good E P sm sm' pmd max_verts w h index win u0 r0 sp c wE wc i phi,
  average good E -> drawn good r0 -> safe A good P -> window_of pmd w h index win -> camera_at A good P win u0 sp c wE wc ->
  (forall sp wi c, P sp wi c -> smooth A sp c = true -> unbiased_direct A E i good sp wi c) -> all_hittable A good P ->
  expect E r0 (Z.to_nat (max_verts - 1)) (fun rng => total phi i (pt_sample A sm pmd max_verts w h index u0 rng))
  = expect E r0 (Z.to_nat (max_verts - 1)) (fun rng => total phi i (pt_sample A sm' pmd max_verts w h index u0 rng)).
Proof.
  intros A good E P sm sm' pmd max_verts w h index win u0 r0 sp c wE wc i phi HE H0 HS Hw HC HU HA.
  assert (Hm : forall b, measured A E i b (match pmd with PixelMode => false | ImageMode => true end) win (Z.to_nat (max_verts - 1)) sp c phi = measured A E i true (match pmd with PixelMode => false | ImageMode => true end) win (Z.to_nat (max_verts - 1)) sp c phi).
  { intros [|]; [reflexivity|]. unfold measured. destruct (Z.to_nat (max_verts - 1)) as [|k]; [reflexivity|]. cbn [andb]. destruct HC as [_ _ _ Hp Hst]. f_equal.
    - match goal with |- _ = (if ?b then _ else _) => destruct b end; [|reflexivity]. symmetry. eapply hidden_zero; eauto.
    - apply (av_ext _ _ HE). intros r Hr. destruct (Hst r Hr) as ([[s Edir] [o Eo] Hh] & _). unfold reflected_along, hit_from. rewrite Edir, Eo. cbn [got value ret].
      destruct s as [[wo w']|]; [|reflexivity]. destruct (Hh wo w' o Edir Eo) as (_ & (hit & Ehit) & Hy). rewrite Ehit. cbn [got value ret]. destruct hit as [y|]; [|reflexivity]. destruct (infinite (igeom y)) eqn:Ei; [reflexivity|].
      destruct (Hy y Ehit) as (_ & _ & _ & _ & Hc). destruct (Hc Ei) as (c' & wc' & Ec & _ & Hn). rewrite Ec. cbn [value ret]. now rewrite (radiance_all A good E P i HE HS HA k _ _ _ Hn). }
  rewrite (C74_expected_image A good E P sm pmd max_verts w h index win u0 r0 sp c wE wc i phi HE H0 HS Hw HC (fun _ => HU)), (C74_expected_image A good E P sm' pmd max_verts w h index win u0 r0 sp c wE wc i phi HE H0 HS Hw HC (fun _ => HU)).
  f_equal. rewrite Hm. symmetry. apply Hm.
Qed.
Print Assumptions C74_all_modes.

Example C74_example : average good E /\ drawn good (numbers (1 / 4)) /\ safe (toy false) good (P false) /\ window_of PixelMode 2 1 1 (/ 2 * 1, 1 * 0, / 2, 1) /\ (forall win u0, camera_at (toy false) good (P false) win u0 eye 0 (grey 1) 1)
  /\ (forall sp wi c, P false sp wi c -> smooth (toy false) sp c = true -> unbiased_direct (toy false) E 0 good sp wi c) /\ all_hittable (toy false) good (P false)
  /\ measured (toy false) E 0 true false (/ 2 * 1, 1 * 0, / 2, 1) 2 eye 0 (fun _ => 1) = 3 / 4.
Proof.
  split; [exact avg|]. split; [exact dr|]. split; [exact (sf false)|]. split; [exact win_ok|]. split; [exact (cam_ok false)|]. split; [intros; now apply unb|]. split.
  - intros sp wi c r spL woL wL _ _ H. cbn in H. apply ret_inj in H. destruct (iprim sp); [discriminate| |discriminate]. destruct p; try discriminate. injection H as <- _ _. reflexivity.
  - unfold measured, radiance, E, continued, connected, reflected_along, emitted_along, hit_from, of_raster.
    cbn [toy toy_api r_api r_sample_direct a_sample_direction eye spot iprim got value ret igeom position pos_of a_intersect a_visible a_contrb a_raster a_sample_component andb smooth a_specular negb]. cbn [vz down]. destruct (Rlt_dec (-1) 0); [|lra].
    cbn [spot igeom infinite iprim got value ret position pos_of a_intersect]. rewrite !left_no. destruct (Rlt_dec (1 / 4) (1 / 2)); [|lra]. destruct (Rlt_dec (3 / 4) (1 / 2)); [lra|]. cbn [vz vx left right].
    destruct (Rlt_dec 0 0); [lra|]. destruct (Rlt_dec 0 (-1)); [lra|]. destruct (Rlt_dec 0 1); [|lra]. unfold only_hidden, emitted. cbn. field.
Qed.
(** With lights that no ray can hit, naive has another expected image: it does not see them. *)
Theorem C74_hidden_refuted : ~ (forall A good E P max_verts w h index win u0 r0 sp c wE wc i phi,
  average good E -> drawn good r0 -> safe A good P -> window_of PixelMode w h index win -> camera_at A good P win u0 sp c wE wc ->
  (forall sp wi c, P sp wi c -> smooth A sp c = true -> unbiased_direct A E i good sp wi c) ->
  expect E r0 (Z.to_nat (max_verts - 1)) (fun rng => total phi i (pt_sample A Naive PixelMode max_verts w h index u0 rng))
  = expect E r0 (Z.to_nat (max_verts - 1)) (fun rng => total phi i (pt_sample A NEE PixelMode max_verts w h index u0 rng))).
Proof.
  intros H. set (win := (/ 2 * 1, 1 * 0, / 2, 1)).
  specialize (H (toy true) good E (P true) 3%Z 2%Z 1%Z 1%Z win (rn_draw (numbers 0)) (numbers (1 / 4)) eye 0%Z (grey 1) 1 0%nat (fun _ => 1) avg dr (sf true) win_ok (cam_ok true _ _)).
  assert (HU : forall sp wi c, P true sp wi c -> smooth (toy true) sp c = true -> unbiased_direct (toy true) E 0 good sp wi c) by (intros; now apply unb). specialize (H HU).
  rewrite !(C74_expected_image (toy true) good E (P true) _ PixelMode 3 2 1 1 win _ (numbers (1 / 4)) eye 0 (grey 1) 1 0 (fun _ => 1) avg dr (sf true) win_ok (cam_ok true _ _) (fun _ => HU)) in H.
  revert H. change (Z.to_nat (3 - 1)) with 2%nat. unfold measured, radiance, E, continued, connected, reflected_along, emitted_along, hit_from, of_raster.
  cbn [toy toy_api r_api r_sample_direct a_sample_direction eye spot iprim got value ret igeom position pos_of a_intersect a_visible a_contrb a_raster a_sample_component andb smooth a_specular negb]. cbn [vz down]. destruct (Rlt_dec (-1) 0); [|lra].
  cbn [spot igeom infinite iprim got value ret position pos_of a_intersect]. rewrite !left_no. destruct (Rlt_dec (1 / 4) (1 / 2)); [|lra]. destruct (Rlt_dec (3 / 4) (1 / 2)); [lra|]. cbn [vz vx left right].
  destruct (Rlt_dec 0 0); [lra|]. destruct (Rlt_dec 0 (-1)); [lra|]. destruct (Rlt_dec 0 1); [|lra]. unfold only_hidden, emitted. cbn. lra.
Qed.
Print Assumptions C74_hidden_refuted.

(** * C56 *)
(** A sample draws the numbers of at most max_verts - 1 rounds (one edge each) after those of the first vertex... *)
Definition same_until (k : nat) (a b : nat -> round) : Prop := forall j, (j < k)%nat -> a j = b j.
Lemma same_next k a b : same_until (S k) a b -> same_until k (fun j => a (S j)) (fun j => b (S j)).
Proof. intros H j Hj. apply H. lia. Qed.
Lemma pbind_ext {X Y} (x : pm X) (f g : X -> pm Y) : (forall a, f a = g a) -> pbind x f = pbind x g.
Proof. intros H. destruct x as [[a| |]| | |]; cbn; auto. Qed.
Theorem C56_path_rounds : forall A sm pmd max_verts w h index u0 a b, same_until (Z.to_nat (max_verts - 1)) a b ->
  pt_sample A sm pmd max_verts w h index u0 a = pt_sample A sm pmd max_verts w h index u0 b.
Proof.
  assert (Hw : forall A sm pmd win k nv a b sp wi c thr rp, same_until k a b -> pt_walk A sm pmd win k nv a sp wi c thr rp = pt_walk A sm pmd win k nv b sp wi c thr rp).
  { induction k as [|k IH]; intros nv a b sp wi c thr rp H; [reflexivity|]. cbn [pt_walk]. rewrite (H O) by lia. do 3 (apply pbind_ext; intros ?). destruct a2 as [[wo w]|]; [|reflexivity]. do 3 (apply pbind_ext; intros ?). destruct a4 as [y|]; [|reflexivity].
    apply pbind_ext; intros ?. destruct (infinite (igeom y)); [reflexivity|]. apply pbind_ext; intros [t|]; [|reflexivity]. apply pbind_ext; intros [c' wc]. f_equal. apply IH. now apply same_next. }
  intros. unfold pt_sample. apply pbind_ext; intros win. apply pbind_ext; intros [[sp wE]|]; [|reflexivity]. apply pbind_ext; intros [c wc]. now apply Hw.
Qed.
Print Assumptions C56_path_rounds.
(** ... also in the volumetric path tracers, and in the light tracer at most max_verts - 2 after the first ray. *)
Theorem C56_volume_rounds : forall A rr_prob direct max_verts w h index u0 a b, same_until (Z.to_nat (max_verts - 1)) a b ->
  vol_sample A rr_prob direct max_verts w h index u0 a = vol_sample A rr_prob direct max_verts w h index u0 b.
Proof.
  assert (Hw : forall A rr d win k nv a b sp wi c thr rp, same_until k a b -> vol_walk A rr d win k nv a sp wi c thr rp = vol_walk A rr d win k nv b sp wi c thr rp).
  { induction k as [|k IH]; intros nv a b sp wi c thr rp H; [reflexivity|]. cbn [vol_walk]. rewrite (H O) by lia. do 3 (apply pbind_ext; intros ?). destruct a2 as [[wo w]|]; [|reflexivity]. do 2 (apply pbind_ext; intros ?). destruct a3 as [[y wd]|]; [|reflexivity].
    apply pbind_ext; intros ?. destruct (infinite (igeom y)); [reflexivity|]. apply pbind_ext; intros [t|]; [|reflexivity]. apply pbind_ext; intros [c' wc]. f_equal. apply IH. now apply same_next. }
  intros. unfold vol_sample. apply pbind_ext; intros win. apply pbind_ext; intros [[sp wE]|]; [|reflexivity]. apply pbind_ext; intros [c wc]. now apply Hw.
Qed.
Print Assumptions C56_volume_rounds.
Theorem C56_light_rounds : forall A max_verts u0 a b, same_until (Z.to_nat (max_verts - 2)) a b -> lt_sample A max_verts u0 a = lt_sample A max_verts u0 b.
Proof.
  assert (Hw : forall A k nv a b sp wi c thr, same_until k a b -> lt_walk A k nv a sp wi c thr = lt_walk A k nv b sp wi c thr).
  { induction k as [|k IH]; intros nv a b sp wi c thr H; [reflexivity|]. cbn [lt_walk]. rewrite (H O) by lia. do 2 (apply pbind_ext; intros ?). destruct a1 as [[wo w]|]; [|reflexivity]. do 2 (apply pbind_ext; intros ?). destruct a2 as [y|]; [|reflexivity].
    destruct (infinite (igeom y)); [reflexivity|]. apply pbind_ext; intros [t|]; [|reflexivity]. apply pbind_ext; intros [c' wc]. f_equal. apply IH. now apply same_next. }
  intros. unfold lt_sample. apply pbind_ext; intros [s|]; [|reflexivity]. apply pbind_ext; intros [y|]; [|reflexivity]. destruct (infinite (igeom y)); [reflexivity|]. apply pbind_ext; intros [c wc]. now apply Hw.
Qed.
Print Assumptions C56_light_rounds.
(** A sample makes at most two splats per edge. *)
Lemma le_app {X} (a b : list X) n m : (List.length a <= n)%nat -> (List.length b <= m)%nat -> (List.length (a ++ b) <= n + m)%nat.
Proof. rewrite app_length. lia. Qed.
Tactic Notation "open_bind" hyp(H) ident(x) ident(E) := match type of H with
  | pbind ?y _ = ret _ => destruct y as [[x| |]| | |] eqn:E; cbn [pbind] in H; try discriminate H
  | match ?y with _ => _ end = ret _ => destruct y as [x| |] eqn:E; cbn beta iota in H; try discriminate H
  | obind ?y _ = ret _ => destruct y as [x| | |] eqn:E; cbn [obind] in H; try discriminate H
  end.
Ltac close_ret H := apply ret_inj in H; subst.
Lemma pt_nee_len A sm nv sp wi c thr rp u l : pt_nee A sm nv sp wi c thr rp u = ret l -> (List.length l <= 1)%nat.
Proof.
  intros H. unfold pt_nee in H. open_bind H o Eb. destruct o as [[[spL woL] wL]|]; [|close_ret H; cbn; lia]. open_bind H b Eb0. destruct b; cbn [negb] in H; [|close_ret H; cbn; lia]. open_bind H o Eb1. destruct o as [rp'|]; [|close_ret H; cbn; lia]. open_bind H v Eb2.
  destruct (is_zero v); [close_ret H; cbn; lia|]. open_bind H w Eb3. close_ret H. cbn. lia.
Qed.
Lemma pt_hit_len A sm nee sp wi wo c thr rp y l : pt_hit A sm nee sp wi wo c thr rp y = ret l -> (List.length l <= 1)%nat.
Proof.
  intros H. unfold pt_hit in H. match type of H with (if ?b then _ else _) = _ => destruct b end; [|close_ret H; cbn; lia]. open_bind H a Eb. destruct a; [|close_ret H; cbn; lia]. open_bind H v Eb0. open_bind H w Eb1. close_ret H. cbn. lia.
Qed.
Theorem C56_path_splats : forall A sm pmd max_verts w h index u0 rng l, pt_sample A sm pmd max_verts w h index u0 rng = ret l -> (Z.of_nat (List.length l) <= Z.max 0 (2 * (max_verts - 1)))%Z.
Proof.
  assert (Hw : forall A sm pmd win k nv rng sp wi c thr rp l, pt_walk A sm pmd win k nv rng sp wi c thr rp = ret l -> (List.length l <= 2 * k)%nat).
  { induction k as [|k IH]; intros nv rng sp wi c thr rp l H; [close_ret H; cbn; lia|]. cbn [pt_walk] in H. open_bind H b Eb. open_bind H v Eb0.
    assert (L1 : (List.length v <= 1)%nat) by (destruct b; [eapply pt_nee_len; eassumption|close_ret Eb0; cbn; lia]). open_bind H o Eb1. destruct o as [[wo w]|]; [|close_ret H; lia].
    open_bind H rp' Eb2. open_bind H p Eb3. open_bind H o Eb4. destruct o as [y|]; [|close_ret H; lia]. cbv zeta in H. destruct (pt_hit A sm b sp wi wo c (vmul thr w) rp' y) as [[le| |]| | |] eqn:Eb5; cbn [pbind] in H; try discriminate H. apply pt_hit_len in Eb5.
    destruct (infinite (igeom y)); [close_ret H; rewrite app_length; lia|]. open_bind H o Eb6. destruct o as [t|]; [|close_ret H; rewrite app_length; lia]. open_bind H p' Eb7. destruct p' as [c' wc]. open_bind H rest Eb8. close_ret H. apply IH in Eb8. rewrite !app_length. lia. }
  intros A sm pmd max_verts w h index u0 rng l H. unfold pt_sample in H. open_bind H win Eb. open_bind H o Eb0. destruct o as [[sp wE]|]; [|discriminate]. open_bind H p0 Eb1. destruct p0 as [c wc]. apply Hw in H. lia.
Qed.
Print Assumptions C56_path_splats.
(** In the scene of the example above a sample with three vertices makes one splat. *)
Example C56_splats_example : exists l, pt_sample (toy false) NEE PixelMode 3 2 1 1 (rn_draw (numbers 0)) (fun _ => numbers (3 / 4)) = ret l /\ List.length l = 1%nat.
Proof.
  unfold pt_sample. rewrite win_ok. change (Z.to_nat (3 - 1)) with 2%nat. cbn -[Rlt_dec is_zero]. destruct (Rlt_dec (-1) 0); [|lra]. cbn -[Rlt_dec is_zero].
  match goal with |- context [is_zero ?v] => replace (is_zero v) with false end. 2:{ symmetry. unfold is_zero. cbn. destruct (Req_EM_T 1 0); [lra|reflexivity]. }
  cbn -[Rlt_dec]. unfold half_left. cbn -[Rlt_dec]. destruct (Rlt_dec (3 / 4) (1 / 2)); [lra|]. cbn -[Rlt_dec]. destruct (Rlt_dec 0 0); [lra|]. destruct (Rlt_dec 0 1); [|lra]. cbn. eexists. split; reflexivity.
Qed.

(** Russian roulette: up to five vertices no path ends. Later a path with throughput [thr] goes on with a
    probability of at most 1 - floor (0.8 in the path and light tracers), which is not zero unless the throughput
    is black; what goes on is not amplified more than by the reciprocal of that probability, and the expected
    throughput is that before. *)
Theorem C56_roulette : forall nv floor thr, 0 <= floor < 1 -> (forall j, 0 <= comp thr j) ->
  ((nv <= 5)%Z -> forall v, roulette nv floor v thr = Val (Some thr))
  /\ ((5 < nv)%Z -> exists p, 0 <= p <= 1 - floor /\ (thr <> v0 -> 0 < p) /\ forall v, 0 <= v < 1 ->
        (v < 1 - p -> roulette nv floor v thr = Val None) /\ (1 - p <= v -> roulette nv floor v thr = Val (Some (vscale (/ p) thr))))
  /\ forall j, is_RInt (V := R_NormedModule) (fun v => match roulette nv floor v thr with Val (Some t) => comp t j | _ => 0 end) 0 1 (comp thr j).
Proof.
  intros nv floor thr Hf T. assert (M : 0 <= comp_max thr) by (eapply Rle_trans; [apply (T O)|apply comp_max_bound]). split; [|split].
  - intros Hn v. unfold roulette. replace (5 <? nv)%Z with false by lia. reflexivity.
  - intros Hn. set (q := Rmax floor (1 - comp_max thr)). assert (Q1 : floor <= q) by apply Rmax_l. assert (Q2 : q <= 1) by (apply Rmax_lub; lra).
    exists (1 - q). split; [lra|]. split.
    + intros Hne. assert (0 < comp_max thr). { destruct (Rle_lt_or_eq_dec _ _ M) as [L|L]; [exact L|]. elim Hne. assert (Z0 : forall j, comp thr j = 0) by (intros j; apply Rle_antisym; [rewrite L; apply comp_max_bound|apply T]).
        generalize (Z0 0%nat) (Z0 1%nat) (Z0 2%nat). destruct thr as [x y z]. cbn. intros -> -> ->. reflexivity. }
      assert (q < 1) by (apply Rmax_lub_lt; lra). lra.
    + intros v Hv. unfold roulette. replace (5 <? nv)%Z with true by lia. fold q. split; intros L.
      * destruct (Rlt_dec v q); [reflexivity|lra].
      * destruct (Rlt_dec v q); [lra|]. unfold vdiv. destruct (Req_EM_T (1 - q) 0); [lra|]. reflexivity.
  - intros j. pose proof (roulette_integral j floor Hf nv thr 1 (fun t => comp t j) T) as X. rewrite Rmult_1_r in X. apply X. intros; ring.
Qed.
Print Assumptions C56_roulette.
Example C56_roulette_example : (forall j, 0 <= comp (V3 (1 / 2) (1 / 4) 0) j) /\ V3 (1 / 2) (1 / 4) 0 <> v0 /\ roulette 6 (2 / 10) (3 / 4) (V3 (1 / 2) (1 / 4) 0) = Val (Some (vscale (/ (1 - 1 / 2)) (V3 (1 / 2) (1 / 4) 0))).
Proof.
  split; [intros [|[|j]]; cbn; lra|]. split; [intros [= H _]; lra|]. unfold roulette, comp_max. change (5 <? 6)%Z with true. cbv iota. cbn [vx vy vz].
  rewrite (Rmax_left (1 / 2)) by lra. rewrite (Rmax_left (1 / 2)) by lra. replace (1 - 1 / 2) with (1 / 2) by lra. rewrite (Rmax_right (2 / 10)) by lra. destruct (Rlt_dec (3 / 4) (1 / 2)); [lra|].
  unfold vdiv. destruct (Req_EM_T (1 - 1 / 2) 0); [lra|]. cbn [MatModel.fbind]. replace (1 - 1 / 2) with (1 / 2) by lra. reflexivity.
Qed.
(** The floor of the volumetric path tracers is a parameter (rr_prob). With rr_prob = 1 every path ends after six
    vertices and nothing compensates for it. *)
Theorem C56_rr_prob_refuted : ~ (forall nv floor thr, 0 <= floor <= 1 -> (forall j, 0 <= comp thr j) ->
  is_RInt (V := R_NormedModule) (fun v => match roulette nv floor v thr with Val (Some t) => comp t 0 | _ => 0 end) 0 1 (comp thr 0)).
Proof.
  intros H. specialize (H 6%Z 1 (grey 1) ltac:(lra) (fun j => nonneg 1 j ltac:(lra))). cbn in H.
  assert (Z : is_RInt (V := R_NormedModule) (fun v => match roulette 6 1 v (grey 1) with Val (Some t) => vx t | _ => 0 end) 0 1 0).
  { apply (is_RInt_ext (V := R_NormedModule) (fun _ => 0)).
    - apply open01. intros v Hv. unfold roulette. change (5 <? 6)%Z with true. cbv iota. assert (1 <= Rmax 1 (1 - comp_max (grey 1))) by apply Rmax_l. destruct (Rlt_dec v _); [reflexivity|lra].
    - apply const_integral. }
  apply (is_RInt_unique (V := R_CompleteNormedModule)) in H. apply (is_RInt_unique (V := R_CompleteNormedModule)) in Z. cbn in H, Z. rewrite Z in H. lra.
Qed.
Print Assumptions C56_rr_prob_refuted.
