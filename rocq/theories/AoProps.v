(** C96: the ambient occlusion renderer. *)
From Coq Require Import List Reals ZArith Bool Lra Lia ZifyBool Permutation.
From Verif Require Import Base RBase VecBase ParModel ParSpec ParProofs ParProps SchedModel SchedSpec SchedProofs SchedProps FilmSpec FilmProofs FilmProps CamModel CamSpec CamProofs CamProps SurfModel SurfSpec SurfProofs SurfProps MatModel SceneModel LightModel PathModel BidirModel BidirProofs RenderModel RenderSpec RenderProps AoModel AoSpec.
From Verif Require FilmModel.
Import ListNotations.
Open Scope R_scope.

(** The side of the surface that a ray in direction d sees *)
Definition seen_normal (s : surf) (d : vec3) (n : vec3) : Prop := (n = sn s \/ n = vneg (sn s)) /\ dot n d <= 0.

Lemma seen_exists s d : exists n u v, basis_twosided s (vneg d) = (n, u, v) /\ seen_normal s d n /\ (frame (su s) (sv s) (sn s) -> frame u v n).
Proof.
  unfold basis_twosided. destruct (Rlt_dec 0 (dot (vneg d) (sn s))) as [H|H].
  - exists (sn s), (su s), (sv s). split; [reflexivity|]. split; [split; [auto|]|auto]. vec. lra.
  - exists (vneg (sn s)), (su s), (vneg (sv s)). split; [reflexivity|]. split; [split; [auto|]|]; [vec; lra|].
    intros (A & B & C & D & F & G & H'). unfold frame, unit in *. destruct (su s) as [a1 a2 a3], (sv s) as [b1 b2 b3], (sn s) as [c1 c2 c3].
    injection H' as H1 H2 H3. vec. repeat split; try lra. f_equal; lra.
Qed.

Lemma direction_ok s d r : frame (su s) (sv s) (sn s) -> in_square r ->
  exists n w, seen_normal s d n /\ ao_direction (OnSurface s) d r = Val w /\ unit w /\ 0 <= dot w n /\ dot w n = vz (sample_cosine_weighted r).
Proof.
  intros Hf Hr. destruct (seen_exists s d) as (n & u & v & E & Hn & F). destruct (F Hf) as (A & B & C & D & G & H & _).
  destruct (C53_domains r Hr) as (_ & U & Z & _). unfold ao_direction. rewrite E. set (k := sample_cosine_weighted r) in *.
  exists n. eexists. split; [exact Hn|]. split; [reflexivity|]. unfold unit in *.
  assert (E1 : forall x y z : R, dot (vadd (vadd (vscale x u) (vscale y v)) (vscale z n)) (vadd (vadd (vscale x u) (vscale y v)) (vscale z n))
     = x * x * dot u u + y * y * dot v v + z * z * dot n n + 2 * x * y * dot u v + 2 * x * z * dot u n + 2 * y * z * dot v n) by (intros; destruct u, v, n; vec; ring).
  assert (E2 : forall x y z : R, dot (vadd (vadd (vscale x u) (vscale y v)) (vscale z n)) n = x * dot u n + y * dot v n + z * dot n n) by (intros; destruct u, v, n; vec; ring).
  rewrite E1, E2, A, B, C, D, G, H. assert (U' : vx k * vx k + vy k * vy k + vz k * vz k = 1) by (rewrite <- U; destruct k; vec; ring).
  repeat split; lra.
Qed.

Section Pixel.
  Variables (primary : vec2 -> pm (vec3 * vec3)) (hit : vec3 -> vec3 -> pm (option interaction)) (near : vec3 -> vec3 -> pm bool) (spp : Z).

  Lemma loop_count s d (blocked : vec2 -> bool) :
    (forall r w, in_square r -> ao_direction (OnSurface s) d r = Val w -> near (sp s) w = ret (blocked r)) ->
    forall rs V, Forall in_square rs -> ao_loop near (OnSurface s) d rs V = ret (V + INR (count_open blocked rs)).
  Proof.
    intros Hb. induction rs as [|r rs IH]; intros V Hr; cbn [ao_loop count_open]; [cbn [INR]; now rewrite Rplus_0_r|].
    inversion Hr as [|? ? H1 H2]; subst. destruct (ao_direction (OnSurface s) d r) as [w| |] eqn:E.
    2,3: unfold ao_direction in E; destruct (basis_twosided s (vneg d)) as [[n u] v]; discriminate E.
    rewrite pbind_okval. cbn [position pos_of]. rewrite pbind_okval, (Hb r w H1 E), pbind_val, (IH _ H2). destruct (blocked r); [|rewrite S_INR]; f_equal; lra.
  Qed.
  Lemma count_le {A} (b : A -> bool) l : (count_open b l <= List.length l)%nat.
  Proof. induction l as [|a l IH]; cbn; [lia|]. destruct (b a); lia. Qed.

  (** ** C96 *)
  (** A pixel whose ray hits a surface gets the fraction of its sampled directions that are open; these are unit vectors on the
      side of the surface that the ray sees. *)
  Theorem C96_pixel : forall rp o d x s (blocked : vec2 -> bool) rs,
    primary rp = ret (o, d) -> hit o d = ret (Some x) -> igeom x = OnSurface s -> frame (su s) (sv s) (sn s) -> (0 < spp)%Z ->
    List.length rs = Z.to_nat spp -> Forall in_square rs ->
    (forall r w, in_square r -> ao_direction (OnSurface s) d r = Val w -> near (sp s) w = ret (blocked r)) ->
    (exists V, ao_value primary hit near spp rp rs = ret (Some V) /\ V = INR (count_open blocked rs) / IZR spp /\ 0 <= V <= 1) /\
    forall r, In r rs -> exists n w, seen_normal s d n /\ ao_direction (OnSurface s) d r = Val w /\ unit w /\ 0 <= dot w n /\ dot w n = vz (sample_cosine_weighted r).
  Proof.
    intros rp o d x s blocked rs Hp Hh Hx Hf Hs Hl Hr Hb. split.
    - exists (INR (count_open blocked rs) / IZR spp). unfold ao_value. rewrite Hp, pbind_val, Hh, pbind_val, Hx, (loop_count s d blocked Hb rs 0 Hr), pbind_val.
      pose proof (IZR_lt _ _ Hs) as Hs'. rewrite rdiv_ok by lra. rewrite pbind_okval, Rplus_0_l. split; [reflexivity|]. split; [reflexivity|].
      assert (Hc : INR (count_open blocked rs) <= IZR spp).
      { pose proof (count_le blocked rs) as L. rewrite Hl in L. apply le_INR in L. rewrite INR_IZR_INZ in L at 1. rewrite (INR_IZR_INZ (Z.to_nat spp)), Z2Nat.id in L by lia. rewrite INR_IZR_INZ. exact L. }
      pose proof (pos_INR (count_open blocked rs)). split; [apply Rmult_le_pos; [lra|left; now apply Rinv_0_lt_compat]|].
      apply (Rmult_le_reg_r (IZR spp)); [exact Hs'|]. unfold Rdiv. rewrite Rmult_assoc, Rinv_l by lra. lra.
    - intros r Hin. apply direction_ok; [exact Hf|]. rewrite Forall_forall in Hr. auto.
  Qed.

  (** The image: every pixel whose ray hits gets its value, every other pixel keeps the value it had before, whatever the schedule. *)
  Theorem C96_image : forall f w h c interval T k k' tr (numbers : Z * nat -> list vec2) (value : Z -> Z -> option R),
    (0 < w)%Z -> (0 < h)%Z -> (0 < T)%nat -> shows f w h c -> loop interval T (w * h) k tr k' (Ok tt) ->
    (forall it, In it (started tr) -> ao_value primary hit near spp (center w h (Z.rem (fst it) w) (Z.quot (fst it) w)) (numbers it) = ret (value (Z.rem (fst it) w) (Z.quot (fst it) w))) ->
    exists f' c', ao_render primary hit near spp f (map (fun it => (fst it, numbers it)) (started tr)) = ret f' /\ shows f' w h c' /\
      forall x y, inside w h x y -> c' x y = match value x y with Some V => V3 V V V | None => c x y end.
  Proof.
    intros f w h c interval T k k' tr numbers value Hw Hh HT Hs Hl Hv.
    destruct (loop_ok interval T _ k tr k' HT Hl) as [P _].
    assert (HI : forall i, In i (map fst (started tr)) <-> (0 <= i < w * h)%Z) by (intros i; rewrite <- upto_in; split; intros H; [exact (Permutation_in _ P H)|exact (Permutation_in _ (Permutation_sym P) H)]).
    assert (ND : NoDup (map fst (started tr))).
    { apply (Permutation_NoDup (Permutation_sym P)). unfold upto. apply FinFun.Injective_map_NoDup; [|apply seq_NoDup]. intros a b E. lia. }
    assert (HF : forall l f0 c0, shows f0 w h c0 -> NoDup (map fst l) -> (forall it, In it l -> (0 <= fst it < w * h)%Z) ->
      (forall it, In it l -> ao_value primary hit near spp (center w h (Z.rem (fst it) w) (Z.quot (fst it) w)) (numbers it) = ret (value (Z.rem (fst it) w) (Z.quot (fst it) w))) ->
      exists f' c', fold_left (fun acc c => let! f := acc in ao_call primary hit near spp f c) (map (fun it => (fst it, numbers it)) l) (ret f0) = ret f' /\ shows f' w h c' /\
        forall x y, inside w h x y -> c' x y = if in_dec Z.eq_dec (y * w + x)%Z (map fst l) then match value x y with Some V => V3 V V V | None => c0 x y end else c0 x y).
    { induction l as [|it l IH]; intros f0 c0 Hs0 Hnd Hr Hval; cbn [map fold_left]; [exists f0, c0; split; [reflexivity|split; [exact Hs0|reflexivity]]|].
      rewrite pbind_val. destruct (pixel_inside w h (fst it) Hw (Hr it (or_introl eq_refl))) as (Hi & Ei). pose proof Hs0 as (Ew & Eh & _).
      cbn [map] in Hnd. apply NoDup_cons_iff in Hnd as [Hn1 Hn2].
      set (X := Z.rem (fst it) w) in *. set (Y := Z.quot (fst it) w) in *.
      assert (Ec : exists f1, ao_call primary hit near spp f0 (fst it, numbers it) = ret f1 /\ shows f1 w h (match value X Y with Some V => with_pixel c0 X Y (V3 V V V) | None => c0 end)).
      { unfold ao_call, FilmModel.pixel_of_index. cbn [fst snd]. rewrite Ew, Eh, (center_ok w h _ _ Hw Hh). fold X Y. rewrite pbind_okval. unfold X, Y. rewrite (Hval it (or_introl eq_refl)), pbind_val. fold X Y.
        destruct (value X Y) as [V|]; [|exists f0; auto]. destruct (C27_set_pixel f0 w h c0 X Y (V3 V V V) Hs0 Hi) as (f1 & E1 & Hs1). rewrite E1. exists f1. auto. }
      destruct Ec as (f1 & E1 & Hs1). rewrite E1.
      destruct (IH f1 _ Hs1 Hn2 (fun j Hj => Hr j (or_intror Hj)) (fun j Hj => Hval j (or_intror Hj))) as (f' & c' & F & Hs' & Hc). exists f', c'. split; [exact F|]. split; [exact Hs'|].
      intros x y Hxy. rewrite (Hc x y Hxy). destruct (Z.eq_dec (fst it) (y * w + x)) as [Eit|Nit].
      - assert (X = x /\ Y = y) as [EX EY] by (apply (inside_inj w h); auto; lia). 
        destruct (in_dec Z.eq_dec (y * w + x)%Z (map fst l)) as [Hin|_]; [exfalso; apply Hn1; rewrite Eit; exact Hin|].
        destruct (in_dec Z.eq_dec (y * w + x)%Z (fst it :: map fst l)) as [_|Hnot]; [|exfalso; apply Hnot; left; exact Eit].
        rewrite EX, EY. destruct (value x y) as [V|]; [|reflexivity]. unfold with_pixel. rewrite !Z.eqb_refl. reflexivity.
      - assert (Esame : (match value X Y with Some V => with_pixel c0 X Y (V3 V V V) | None => c0 end) x y = c0 x y).
        { destruct (value X Y); [|reflexivity]. unfold with_pixel. destruct (Z.eqb_spec x X) as [->|]; [|reflexivity]. destruct (Z.eqb_spec y Y) as [->|]; [|reflexivity]. exfalso. apply Nit. lia. }
        rewrite Esame. destruct (in_dec Z.eq_dec (y * w + x)%Z (map fst l)) as [Hin|Hnin]; destruct (in_dec Z.eq_dec (y * w + x)%Z (fst it :: map fst l)) as [Hin'|Hnin']; try reflexivity.
        + exfalso. apply Hnin'. right. exact Hin.
        + destruct Hin' as [H|H]; [contradiction|contradiction]. }
    destruct (HF (started tr) f c Hs ND) as (f' & c' & F & Hs' & Hc).
    - intros it Hit. apply HI. apply in_map. exact Hit.
    - exact Hv.
    - exists f', c'. split; [exact F|]. split; [exact Hs'|]. intros x y Hxy. rewrite (Hc x y Hxy).
      destruct (in_dec Z.eq_dec (y * w + x)%Z (map fst (started tr))) as [_|Hn]; [reflexivity|]. exfalso. apply Hn. apply HI. exact (inside_index w h x y Hxy).
  Qed.
End Pixel.
Print Assumptions C96_pixel. Print Assumptions C96_image.

Lemma mean_ext good E (HE : average2 good E) k : forall F G, (forall rs, List.length rs = k -> Forall good rs -> F rs = G rs) -> mean_of E k F = mean_of E k G.
Proof.
  induction k as [|k IH]; intros F G H; cbn [mean_of]; [apply H; [reflexivity|constructor]|]. apply (a2_ext _ _ HE). intros r Hr. apply IH.
  intros rs Hl Hg. apply H; [cbn; lia|constructor; assumption].
Qed.
Lemma a2_const good E (HE : average2 good E) c : E (fun _ => c) = c.
Proof. transitivity (E (fun _ => c * 1)); [apply (a2_ext _ _ HE); intros; ring|]. rewrite (a2_scale _ _ HE), (a2_one _ _ HE). ring. Qed.
Lemma mean_count good E (HE : average2 good E) (blocked : vec2 -> bool) k : forall c, mean_of E k (fun rs => c + INR (count_open blocked rs)) = c + INR k * E (fun r => if blocked r then 0 else 1).
Proof.
  induction k as [|k IH]; intros c; cbn [mean_of count_open]; [cbn [INR]; ring|].
  transitivity (E (fun r => (c + INR k * E (fun r => if blocked r then 0 else 1)) + (if blocked r then 0 else 1))).
  - apply (a2_ext _ _ HE). intros r _. destruct (blocked r).
    + rewrite IH. ring.
    + transitivity (mean_of E k (fun l => (c + 1) + INR (count_open blocked l))); [apply (mean_ext good E HE); intros; rewrite S_INR; ring|]. rewrite IH. ring.
  - rewrite (a2_add _ _ HE), (a2_const _ _ HE), S_INR. ring.
Qed.
Lemma mean_scale good E (HE : average2 good E) a k : forall F, mean_of E k (fun rs => a * F rs) = a * mean_of E k F.
Proof. induction k as [|k IH]; intros F; cbn [mean_of]; [reflexivity|]. rewrite <- (a2_scale _ _ HE). apply (a2_ext _ _ HE). intros r _. apply IH. Qed.

(** The expected value of the pixel is the average openness of one sampled direction, for every number of samples. *)
Theorem C96_mean : forall primary hit near spp rp o d x s (blocked : vec2 -> bool) E,
  average2 in_square E -> primary rp = ret (o, d) -> hit o d = ret (Some x) -> igeom x = OnSurface s -> frame (su s) (sv s) (sn s) -> (0 < spp)%Z ->
  (forall r w, in_square r -> ao_direction (OnSurface s) d r = Val w -> near (sp s) w = ret (blocked r)) ->
  mean_of E (Z.to_nat spp) (fun rs => match ao_value primary hit near spp rp rs with Ok (Val (Some V)) => V | _ => 0 end) = E (fun r => if blocked r then 0 else 1).
Proof.
  intros primary hit near spp rp o d x s blocked E HE Hp Hh Hx Hf Hs Hb. pose proof (IZR_lt _ _ Hs) as Hs'.
  transitivity (mean_of E (Z.to_nat spp) (fun rs => / IZR spp * (0 + INR (count_open blocked rs)))).
  - apply (mean_ext _ E HE). intros rs Hl Hr. destruct (C96_pixel primary hit near spp rp o d x s blocked rs Hp Hh Hx Hf Hs Hl Hr Hb) as [(V & -> & -> & _) _]. unfold ret, Rdiv. ring.
  - rewrite (mean_scale _ E HE), (mean_count _ E HE). rewrite INR_IZR_INZ, Z2Nat.id by lia. field. lra.
Qed.
Print Assumptions C96_mean.

(** ** What does not hold *)
Definition ao_surface : surf := mk_surf v0 (V3 0 0 1) (V3 0 0 1) (V3 1 0 0) (V3 0 1 0) (M3 (V3 1 0 0) (V3 0 1 0) (V3 0 0 1)) (M3 (V3 1 0 0) (V3 0 1 0) (V3 0 0 1)).
Lemma ao_surface_frame : frame (su ao_surface) (sv ao_surface) (sn ao_surface).
Proof. unfold frame, unit, ao_surface. cbn [su sv sn]. vec. repeat split; try ring. f_equal; ring. Qed.
Definition ao_point (g : geom) : interaction := mk_sp SurfaceInteraction 0 g (V2 0 0).
(** Straight down at the surface; everything to the left of the x axis is blocked. *)
Definition ao_primary (rp : vec2) : pm (vec3 * vec3) := ret (V3 0 0 1, V3 0 0 (-1)).
Definition ao_near (p w : vec3) : pm bool := ret (if Rlt_dec (vx w) 0 then true else false).

(** A value for every pixel, in particular with no samples: 0/0. *)
Theorem C96_no_samples_refuted : forall rp, ao_value ao_primary (fun _ _ => ret (Some (ao_point (OnSurface ao_surface)))) ao_near 0 rp [] = Ok NonFinite.
Proof. intros rp. unfold ao_value, ao_primary. rewrite !pbind_val. cbn [igeom ao_point ao_loop]. rewrite pbind_val. unfold rdiv, fdiv. destruct (Req_EM_T (IZR 0) 0); [reflexivity|exfalso; auto]. Qed.
(** In scenes with an environment light rays that leave the scene hit it, and the renderer reads the normal there, which is not initialised. *)
Theorem C96_environment_refuted : forall rp wo r rs, ao_value ao_primary (fun _ _ => ret (Some (ao_point (Infinite wo)))) ao_near (Z.of_nat (List.length (r :: rs))) rp (r :: rs) = Ok Undefined.
Proof. intros rp wo r rs. unfold ao_value, ao_primary. rewrite !pbind_val. cbn [igeom ao_point ao_loop ao_direction]. reflexivity. Qed.
Print Assumptions C96_no_samples_refuted. Print Assumptions C96_environment_refuted.

Lemma ao_dir r : ao_direction (OnSurface ao_surface) (V3 0 0 (-1)) r = Val (sample_cosine_weighted r).
Proof.
  unfold ao_direction, basis_twosided, ao_surface. cbn [sn su sv]. destruct (Rlt_dec 0 (dot (vneg (V3 0 0 (-1))) (V3 0 0 1))) as [_|H]; [|exfalso; apply H; vec; lra].
  f_equal. destruct (sample_cosine_weighted r) as [a b c]. vec. apply vec3_eq; cbn [vx vy vz]; ring.
Qed.
Definition ao_blocked (r : vec2) : bool := if Rlt_dec (vx (sample_cosine_weighted r)) 0 then true else false.
Definition ao_numbers : list vec2 := [V2 (1 / 4) 0; V2 (1 / 4) (1 / 2)].
(** One of two directions is open: the pixel is 1/2. *)
Example C96_example_pixel :
  (forall r w, in_square r -> ao_direction (OnSurface ao_surface) (V3 0 0 (-1)) r = Val w -> ao_near (sp ao_surface) w = ret (ao_blocked r)) /\
  Forall in_square ao_numbers /\
  ao_value ao_primary (fun _ _ => ret (Some (ao_point (OnSurface ao_surface)))) ao_near 2 (V2 0 0) ao_numbers = ret (Some (1 / 2)).
Proof.
  assert (A : forall r w, in_square r -> ao_direction (OnSurface ao_surface) (V3 0 0 (-1)) r = Val w -> ao_near (sp ao_surface) w = ret (ao_blocked r)).
  { intros r w _ H. rewrite ao_dir in H. injection H as <-. reflexivity. }
  assert (B : Forall in_square ao_numbers) by (repeat constructor; cbn; lra).
  split; [exact A|]. split; [exact B|].
  destruct (C96_pixel ao_primary (fun _ _ => ret (Some (ao_point (OnSurface ao_surface)))) ao_near 2 (V2 0 0) _ _ _ ao_surface ao_blocked ao_numbers eq_refl eq_refl eq_refl ao_surface_frame ltac:(lia) eq_refl B A) as [(V & -> & -> & _) _].
  f_equal. f_equal. unfold ao_numbers. cbn [count_open]. unfold ao_blocked, sample_cosine_weighted. cbn [v2x v2y vx].
  assert (Q : safe_sqrt (1 / 4) = 1 / 2). { unfold safe_sqrt. rewrite Rmax_right by lra. replace (1 / 4) with (1 / 2 * (1 / 2)) by field. apply sqrt_square. lra. }
  rewrite Q. replace (2 * PI * 0) with 0 by ring. replace (2 * PI * (1 / 2)) with PI by field. rewrite cos_0, cos_PI.
  destruct (Rlt_dec (1 / 2 * 1) 0); [lra|]. destruct (Rlt_dec (1 / 2 * -1) 0); [|lra]. cbn [INR]. lra.
Qed.
(** The average over the four corners of the square is an average. *)
Example C96_example_mean : exists E, average2 in_square E.
Proof.
  exists (fun f => (f (V2 0 0) + f (V2 1 0) + f (V2 0 1) + f (V2 1 1)) / 4). constructor; intros; try lra.
  rewrite !H; [reflexivity|..]; unfold in_square; cbn; lra.
Qed.
(** The film keeps pixels without a hit: one thread, one pixel. *)
Example C96_example_image : forall near spp tr k k', loop 1 1 (1 * 1) k tr k' (Ok tt) ->
  exists f' c', ao_render ao_primary (fun _ _ => ret None) near spp (FilmModel.mk_film 1 1 [V3 7 7 7]) (map (fun it => (fst it, [])) (started tr)) = ret f' /\
    shows f' 1 1 c' /\ c' 0%Z 0%Z = V3 7 7 7.
Proof.
  intros near spp tr k k' H.
  destruct (C96_image ao_primary (fun _ _ => ret None) near spp (FilmModel.mk_film 1 1 [V3 7 7 7]) 1 1 (fun _ _ => V3 7 7 7) 1 1 k k' tr (fun _ => []) (fun _ _ => None)) as (f' & c' & A & B & C); try lia; auto.
  - split; [reflexivity|]. split; [reflexivity|]. split; [reflexivity|]. intros x y [Hx Hy]. replace x with 0%Z by lia. replace y with 0%Z by lia. reflexivity.
  - exists f', c'. split; [exact A|]. split; [exact B|]. apply C. unfold inside. lia.
Qed.
