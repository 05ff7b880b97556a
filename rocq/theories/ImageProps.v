(** C85: image-space renderings show the splats of each pixel, scaled. *)
From Coq Require Import List Reals ZArith Bool Lra Lia ZifyBool Permutation.
From Verif Require Import Base RBase VecBase ParModel ParSpec FilmSpec FilmProofs FilmProps CamProofs SurfModel MatModel LightModel PathModel BidirModel BidirProofs RenderModel RenderSpec RenderProps ImageModel ImageSpec.
From Verif Require FilmModel.
Import ListNotations.
Open Scope R_scope.

Lemma strip_pixel w h rp : (0 < w <= 2147483647)%Z -> (0 < h <= 2147483647)%Z -> on_raster rp -> FilmModel.raster_to_pixel w h rp = Ok (strip w (v2x rp), strip h (v2y rp)).
Proof.
  intros Hw Hh [Hx Hy]. unfold FilmModel.raster_to_pixel.
  assert (A : forall r n, (0 < n <= 2147483647)%Z -> 0 <= r <= 1 -> exists z, FilmModel.to_int (r * IZR n) = Ok z /\ zclamp z 0 (n - 1) = strip n r).
  { intros r n [Hn Hm] Hr. apply IZR_lt in Hn. apply IZR_le in Hm. assert (0 <= r * IZR n <= IZR n) by nra. rewrite to_int_ok by lra. eexists. split; [reflexivity|]. unfold strip, zclamp.
    assert (B := trunc_bounds (r * IZR n) ltac:(lra)). assert (T : trunc (r * IZR n) = Int_part (r * IZR n)) by (unfold trunc; destruct (Rlt_dec (r * IZR n) 0); [lra|reflexivity]). rewrite <- T in *.
    assert (0 <= trunc (r * IZR n))%Z. { assert (-1 < trunc (r * IZR n))%Z; [|lia]. apply lt_IZR. cbn. lra. } lia. }
  destruct (A (v2x rp) w Hw Hx) as (x & -> & Ex). destruct (A (v2y rp) h Hh Hy) as (y & E & Ey). cbn [obind]. rewrite E. cbn [obind]. now rewrite Ex, Ey.
Qed.
Lemma strip_in n r : (0 < n)%Z -> 0 <= r <= 1 -> (0 <= strip n r < n)%Z.
Proof.
  intros Hn Hr. unfold strip. apply IZR_lt in Hn as Hn'. assert (0 <= r * IZR n) by nra. destruct (base_Int_part (r * IZR n)) as [B1 B2]. assert (-1 < Int_part (r * IZR n))%Z by (apply lt_IZR; cbn; lra). lia.
Qed.
Lemma splat_any w h : (0 < w <= 2147483647)%Z -> (0 < h <= 2147483647)%Z -> forall l f c, shows f w h c -> (forall rp v, In (rp, v) l -> on_raster rp) ->
  exists f' c', splat_all f l = Ok f' /\ shows f' w h c' /\ forall x y, c' x y = vadd (c x y) (landed w h x y l).
Proof.
  intros Hw Hh. unfold splat_all. induction l as [|[rp v] l IH]; intros f c Hs Hl; cbn [fold_left].
  - exists f, c. split; [reflexivity|]. split; [exact Hs|]. intros x y. cbn. now rewrite vadd_0_r.
  - destruct (C28_splat f w h c rp v _ ltac:(lia) ltac:(lia) Hs (strip_pixel w h rp Hw Hh (Hl rp v (or_introl eq_refl)))) as (f1 & E & Hs1). cbn [obind fst snd] in *. rewrite E.
    destruct (IH f1 _ Hs1) as (f' & c' & F & Hs' & Hc); [intros; eapply Hl; right; eassumption|]. exists f', c'. split; [exact F|]. split; [exact Hs'|]. intros x y. rewrite Hc. unfold with_pixel. cbn [landed].
    destruct (Z.eqb_spec x (strip w (v2x rp))) as [->|N]; [rewrite Z.eqb_refl|rewrite (proj2 (Z.eqb_neq (strip w (v2x rp)) x)) by congruence; reflexivity].
    destruct (Z.eqb_spec y (strip h (v2y rp))) as [->|N]; [rewrite Z.eqb_refl|rewrite (proj2 (Z.eqb_neq (strip h (v2y rp)) y)) by congruence; reflexivity]. cbn [andb]. apply vadd_assoc.
Qed.
Lemma landed_app w h x y a b : landed w h x y (a ++ b) = vadd (landed w h x y a) (landed w h x y b).
Proof. induction a as [|[rp v] a IH]; cbn [app landed]; [unfold vadd, v0; destruct (landed w h x y b); cbn; f_equal; ring|]. rewrite IH. destruct (_ && _)%bool; [now rewrite vadd_assoc|reflexivity]. Qed.
Lemma samples_any w h : (0 < w <= 2147483647)%Z -> (0 < h <= 2147483647)%Z -> forall samples outs f c, shows f w h c -> Forall2 (fun s l => s = ret l /\ forall rp v, In (rp, v) l -> on_raster rp) samples outs ->
  exists f' c', splat_samples f samples = ret f' /\ shows f' w h c' /\ forall x y, c' x y = vadd (c x y) (landed w h x y (concat outs)).
Proof.
  intros Hw Hh. induction samples as [|s samples IH]; intros outs f c Hs HF; inversion HF as [|? l ? outs' HX HF']; subst.
  - exists f, c. split; [reflexivity|]. split; [exact Hs|]. intros. cbn. now rewrite vadd_0_r.
  - destruct HX as [-> HX]. cbn [splat_samples]. rewrite pbind_val. destruct (splat_any w h Hw Hh l f c Hs HX) as (f1 & c1 & E1 & Hs1 & Hc1). rewrite E1. cbn [obind].
    destruct (IH outs' f1 c1 Hs1 HF') as (f' & c' & E' & Hs' & Hc'). exists f', c'. split; [exact E'|]. split; [exact Hs'|]. intros x y. rewrite Hc', Hc1. cbn [concat]. now rewrite landed_app, vadd_assoc.
Qed.
Lemma zero_left c : vadd v0 c = c. Proof. destruct c. unfold vadd, v0. cbn. f_equal; ring. Qed.

(** A pixel of an image-space rendering is the sum of the splats that land on it, times the number of pixels over
    the number of samples, in whatever order the samples are taken. *)
Theorem C85_image : forall f w h c samples outs processed order, (0 < w <= 2147483647)%Z -> (0 < h <= 2147483647)%Z -> shows f w h c ->
  Forall2 (fun s l => s = ret l /\ forall rp v, In (rp, v) l -> on_raster rp) samples outs -> (0 < processed)%Z -> Permutation order (upto (w * h)) ->
  exists f' c', image_render f samples processed order = ret f' /\ shows f' w h c'
    /\ forall x y, inside w h x y -> c' x y = vscale (IZR w * IZR h / IZR processed) (landed w h x y (concat outs)).
Proof.
  intros f w h c samples outs processed order Hw Hh Hs HF Hp Ho. unfold image_render. pose proof Hs as (-> & -> & _).
  destruct (C27_clear f w h c ltac:(lia) ltac:(lia) Hs) as (f1 & E & Hs1). rewrite E. cbn [obind].
  destruct (samples_any w h Hw Hh samples outs f1 _ Hs1 HF) as (f2 & c2 & E2 & Hs2 & Hc2). rewrite E2, pbind_val. apply IZR_lt in Hp. rewrite (rdiv_ok _ (IZR processed)) by lra. rewrite pbind_okval.
  destruct (rescale_shows f2 w h c2 (IZR (w * h) / IZR processed) order Hs2 Ho) as (f3 & E3 & Hs3). rewrite E3. cbn [obind]. eexists _, _. split; [reflexivity|]. split; [exact Hs3|]. intros x y Hi. cbv beta. now rewrite Hc2, zero_left, mult_IZR.
Qed.
Print Assumptions C85_image.
(** The same of the path tracer in image mode *)
Theorem C85_path : forall A sm max_verts f w h c calls outs processed order, (0 < w <= 2147483647)%Z -> (0 < h <= 2147483647)%Z -> shows f w h c ->
  Forall2 (fun cl l => let '(i, u0, rng) := cl in pt_sample A sm ImageMode max_verts w h i u0 rng = ret l /\ forall rp v, In (rp, v) l -> on_raster rp) calls outs -> (0 < processed)%Z -> Permutation order (upto (w * h)) ->
  exists f' c', pt_render A sm ImageMode max_verts f calls processed order = ret f' /\ shows f' w h c'
    /\ forall x y, inside w h x y -> c' x y = vscale (IZR w * IZR h / IZR processed) (landed w h x y (concat outs)).
Proof.
  intros A sm max_verts f w h c calls outs processed order Hw Hh Hs HF Hp Ho.
  assert (X : forall cs f, run_calls (pt_sample A sm ImageMode max_verts w h) f cs = splat_samples f (map (fun cl => let '(i, u0, rng) := cl in pt_sample A sm ImageMode max_verts w h i u0 rng) cs)).
  { induction cs as [|[[i u0] rng] cs IH]; intros g; [reflexivity|]. cbn [run_calls map splat_samples]. destruct (pt_sample A sm ImageMode max_verts w h i u0 rng) as [[l| |]| | |]; cbn [pbind]; try reflexivity. destruct (splat_all g l); cbn [obind]; try reflexivity. apply IH. }
  destruct (C85_image f w h c (map (fun cl => let '(i, u0, rng) := cl in pt_sample A sm ImageMode max_verts w h i u0 rng) calls) outs processed order Hw Hh Hs) as (f' & c' & E & R); auto.
  { clear - HF. induction HF as [|[[i u0] rng] l cs ls H _ IH]; constructor; auto. }
  exists f', c'. split; [|exact R]. rewrite <- E. unfold pt_render, image_render. pose proof Hs as (-> & -> & _). destruct (FilmModel.clear f); cbn [obind]; try reflexivity. now rewrite X.
Qed.
Print Assumptions C85_path.

(** The volumetric path tracers work pixel by pixel: a pixel is the sum of the splats that land on it over the number of samples per pixel. *)
Theorem C85_volume : forall A rr direct max_verts f w h c calls outs processed order, (0 < w <= 2147483647)%Z -> (0 < h <= 2147483647)%Z -> shows f w h c ->
  Forall2 (fun cl l => let '(i, u0, rng) := cl in vol_sample A rr direct max_verts w h i u0 rng = ret l /\ forall rp v, In (rp, v) l -> on_raster rp) calls outs -> (0 < processed)%Z -> Permutation order (upto (w * h)) ->
  exists f' c', vol_render A rr direct max_verts f calls processed order = ret f' /\ shows f' w h c'
    /\ forall x y, inside w h x y -> c' x y = vscale (1 / IZR processed) (landed w h x y (concat outs)).
Proof.
  intros A rr direct max_verts f w h c calls outs processed order Hw Hh Hs HF Hp Ho.
  assert (X : forall cs f, run_calls (vol_sample A rr direct max_verts w h) f cs = splat_samples f (map (fun cl => let '(i, u0, rng) := cl in vol_sample A rr direct max_verts w h i u0 rng) cs)).
  { induction cs as [|[[i u0] rng] cs IH]; intros g; [reflexivity|]. cbn [run_calls map splat_samples]. destruct (vol_sample A rr direct max_verts w h i u0 rng) as [[l| |]| | |]; cbn [pbind]; try reflexivity. destruct (splat_all g l); cbn [obind]; try reflexivity. apply IH. }
  unfold vol_render. pose proof Hs as (-> & -> & _). destruct (C27_clear f w h c ltac:(lia) ltac:(lia) Hs) as (f1 & E & Hs1). rewrite E. cbn [obind]. rewrite X.
  destruct (samples_any w h Hw Hh (map (fun cl => let '(i, u0, rng) := cl in vol_sample A rr direct max_verts w h i u0 rng) calls) outs f1 _ Hs1) as (f2 & c2 & E2 & Hs2 & Hc2).
  { clear - HF. induction HF as [|[[i u0] rng] l cs ls H _ IH]; constructor; auto. }
  rewrite E2, pbind_val. apply IZR_lt in Hp. rewrite (rdiv_ok _ (IZR processed)) by lra. rewrite pbind_okval.
  destruct (rescale_shows f2 w h c2 (1 / IZR processed) order Hs2 Ho) as (f3 & E3 & Hs3). rewrite E3. cbn [obind]. eexists _, _. split; [reflexivity|]. split; [exact Hs3|]. intros x y Hi. cbv beta. now rewrite Hc2, zero_left.
Qed.
Print Assumptions C85_volume.

(** No light is lost: the mean of the pixels is the mean of the samples' values. *)
Lemma vsum_add {X} (g k : X -> vec3) l : vsum (fun x => vadd (g x) (k x)) l = vadd (vsum g l) (vsum k l).
Proof. induction l as [|a l IH]; cbn; [unfold vadd, v0; cbn; f_equal; ring|]. fold (vsum (fun x => vadd (g x) (k x)) l) (vsum g l) (vsum k l). rewrite IH. apply vec3_eq; cbn; ring. Qed.
Lemma vsum_scale {X} s (g : X -> vec3) l : vsum (fun x => vscale s (g x)) l = vscale s (vsum g l).
Proof. induction l as [|a l IH]; cbn; [apply vec3_eq; cbn; ring|]. fold (vsum (fun x => vscale s (g x)) l) (vsum g l). rewrite IH. apply vec3_eq; cbn; ring. Qed.
Lemma vsum_ext {X} (g k : X -> vec3) l : (forall x, In x l -> g x = k x) -> vsum g l = vsum k l.
Proof. induction l as [|a l IH]; intros H; [reflexivity|]. cbn. fold (vsum g l) (vsum k l). rewrite (H a (or_introl eq_refl)), IH; [reflexivity|]. intros; apply H; now right. Qed.
Lemma vsum_zero {X} (l : list X) : vsum (fun _ => v0) l = v0.
Proof. induction l as [|a l IH]; [reflexivity|]. cbn. fold (vsum (fun _ : X => v0) l). rewrite IH. apply zero_left. Qed.
Lemma columns_in n i : In i (columns n) <-> (0 <= i < n)%Z.
Proof. unfold columns. rewrite in_map_iff. split; [intros (k & <- & H); apply in_seq in H; lia|]. intros H. exists (Z.to_nat i). split; [lia|]. apply in_seq. lia. Qed.
Lemma vsum_one n p v : (0 <= p < n)%Z -> vsum (fun x => if (p =? x)%Z then v else v0) (columns n) = v.
Proof.
  intros Hp. assert (Nd : NoDup (columns n)) by (unfold columns; apply FinFun.Injective_map_NoDup; [intros a b; lia|apply seq_NoDup]). apply columns_in in Hp. revert Nd Hp. induction (columns n) as [|a l IH]; intros Nd Hp; [destruct Hp|].
  inversion Nd as [|? ? Na Nl]; subst. cbn. fold (vsum (fun x => if (p =? x)%Z then v else v0) l). destruct Hp as [->|Hp].
  - rewrite Z.eqb_refl. rewrite (vsum_ext _ (fun _ => v0)), vsum_zero; [apply vadd_0_r|]. intros x Hx. destruct (Z.eqb_spec p x) as [->|]; [contradiction|reflexivity].
  - destruct (Z.eqb_spec p a) as [->|]; [contradiction|]. rewrite (IH Nl Hp). apply zero_left.
Qed.
Lemma landed_total w h l : (0 < w)%Z -> (0 < h)%Z -> (forall rp v, In (rp, v) l -> on_raster rp) -> vsum (fun y => vsum (fun x => landed w h x y l) (columns w)) (columns h) = vsum snd l.
Proof.
  intros Hw Hh. induction l as [|[rp v] l IH]; intros H.
  - cbn [landed]. rewrite (vsum_ext _ (fun _ => v0)), vsum_zero; [reflexivity|]. intros; apply vsum_zero.
  - cbn [landed vsum fold_right snd]. fold (vsum snd l). rewrite <- IH by (intros; eapply H; right; eassumption). destruct (H rp v (or_introl eq_refl)) as [Hx Hy].
    transitivity (vsum (fun y => vadd (if (strip h (v2y rp) =? y)%Z then v else v0) (vsum (fun x => landed w h x y l) (columns w))) (columns h)).
    + apply vsum_ext. intros y _. transitivity (vsum (fun x => vadd (if (strip w (v2x rp) =? x)%Z then if (strip h (v2y rp) =? y)%Z then v else v0 else v0) (landed w h x y l)) (columns w)).
      * apply vsum_ext. intros x _. destruct (strip w (v2x rp) =? x)%Z, (strip h (v2y rp) =? y)%Z; cbn [andb]; now rewrite ?zero_left.
      * rewrite vsum_add. f_equal. apply vsum_one. now apply strip_in.
    + rewrite vsum_add. f_equal. apply vsum_one. now apply strip_in.
Qed.
Theorem C85_mean : forall f w h c samples outs processed order, (0 < w <= 2147483647)%Z -> (0 < h <= 2147483647)%Z -> shows f w h c ->
  Forall2 (fun s l => s = ret l /\ forall rp v, In (rp, v) l -> on_raster rp) samples outs -> processed = Z.of_nat (length samples) -> samples <> [] -> Permutation order (upto (w * h)) ->
  exists f' c', image_render f samples processed order = ret f' /\ shows f' w h c'
    /\ vscale (/ (IZR w * IZR h)) (vsum (fun y => vsum (fun x => c' x y) (columns w)) (columns h)) = vscale (/ INR (length samples)) (vsum (fun l => vsum snd l) outs).
Proof.
  intros f w h c samples outs processed order Hw Hh Hs HF -> Hn Ho. assert (Hp : (0 < Z.of_nat (length samples))%Z) by (destruct samples; [congruence|cbn; lia]).
  destruct (C85_image f w h c samples outs _ order Hw Hh Hs HF Hp Ho) as (f' & c' & E & Hs' & Hc). exists f', c'. split; [exact E|]. split; [exact Hs'|].
  assert (Hw' : 0 < IZR w) by (apply IZR_lt; lia). assert (Hh' : 0 < IZR h) by (apply IZR_lt; lia). rewrite INR_IZR_INZ. assert (Hp' := IZR_lt _ _ Hp).
  assert (HL : forall rp v, In (rp, v) (concat outs) -> on_raster rp). { clear - HF. induction HF as [|s l ss ls [_ H] _ IH]; intros rp v; cbn; [intros []|]. rewrite in_app_iff. intros [I|I]; eauto. }
  rewrite (vsum_ext _ (fun y => vscale (IZR w * IZR h / IZR (Z.of_nat (length samples))) (vsum (fun x => landed w h x y (concat outs)) (columns w)))).
  2:{ intros y Hy. rewrite <- vsum_scale. apply vsum_ext. intros x Hx. apply Hc. split; [now apply columns_in|now apply columns_in]. }
  rewrite vsum_scale, (landed_total w h _ ltac:(lia) ltac:(lia) HL).
  assert (X : vsum snd (concat outs) = vsum (fun l => vsum snd l) outs).
  { clear. assert (A : forall a b : splats, vsum snd (a ++ b) = vadd (vsum snd a) (vsum snd b)).
    { induction a as [|[rp v] a IH]; intros b; [symmetry; apply zero_left|]. change (vadd v (vsum snd (a ++ b)) = vadd (vadd v (vsum snd a)) (vsum snd b)). rewrite IH. now rewrite vadd_assoc. }
    induction outs as [|l ls IH]; [reflexivity|]. change (vsum snd (l ++ concat ls) = vadd (vsum snd l) (vsum (fun l => vsum snd l) ls)). now rewrite A, IH. }
  rewrite X. set (V := vsum _ outs). clearbody V. apply vec3_eq; cbn; field; lra.
Qed.
Print Assumptions C85_mean.
(** Two samples on an image of two pixels; the second one is at the right edge. *)
Example C85_example : Forall2 (fun s l => s = ret l /\ forall rp v, In (rp, v) l -> on_raster rp) [ret [(V2 0 0, grey 1)]; ret [(V2 1 1, grey 2); (V2 (1 / 4) (1 / 2), grey 5)]] [[(V2 0 0, grey 1)]; [(V2 1 1, grey 2); (V2 (1 / 4) (1 / 2), grey 5)]]
  /\ shows (FilmModel.mk_film 2 1 [v0; v0]) 2 1 (fun _ _ => v0) /\ Permutation [1%Z; 0%Z] (upto (2 * 1)) /\ strip 2 1 = 1%Z /\ strip 2 0 = 0%Z.
Proof.
  split; [|split; [|split; [|split]]].
  - constructor; [|constructor; [|constructor]]; (split; [reflexivity|]); intros rp v H; cbn in H; repeat (destruct H as [H|H]; [injection H as <- <-; split; cbn; lra|]); contradiction.
  - apply C55_path_example.
  - apply perm_swap.
  - unfold strip. rewrite Rmult_1_l. replace (Int_part 2) with 2%Z; [reflexivity|]. destruct (base_Int_part 2) as [H1 H2]. assert (Int_part 2 <= 2)%Z by (apply le_IZR; lra). assert (1 < Int_part 2)%Z by (apply lt_IZR; lra). lia.
  - unfold strip. rewrite Rmult_0_l. replace (Int_part 0) with 0%Z; [reflexivity|]. destruct (base_Int_part 0) as [H1 H2]. assert (Int_part 0 <= 0)%Z by (apply le_IZR; lra). assert (-1 < Int_part 0)%Z by (apply lt_IZR; lra). lia.
Qed.
