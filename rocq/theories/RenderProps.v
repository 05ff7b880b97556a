(** C55: renderings write each pixel's own samples. *)
From Coq Require Import List Reals ZArith Bool Lra Lia ZifyBool Permutation.
From Verif Require Import Base RBase VecBase ParModel ParSpec ParProofs ParProps SchedModel SchedSpec SchedProofs SchedProps FilmSpec FilmProofs FilmProps CamModel CamSpec CamProofs CamProps SurfModel SurfSpec MatModel SceneModel LightModel PathModel PathSpec PathProofs BidirModel BidirProofs RenderModel RenderSpec.
From Verif Require FilmModel VisModel VisProps.
Import ListNotations.
Open Scope R_scope.

Lemma upto_in n i : In i (upto n) <-> (0 <= i < n)%Z.
Proof. unfold upto. rewrite in_map_iff. split; [intros (k & <- & H); apply in_seq in H; lia|]. intros H. exists (Z.to_nat i). split; [lia|]. apply in_seq. lia. Qed.

(** ** Blank *)
Lemma pair_dec (a b : Z * Z) : {a = b} + {a <> b}.
Proof. decide equality; apply Z.eq_dec. Qed.
Lemma fold_set w h (g : Z -> Z -> vec3) : forall l f c, shows f w h c -> (forall x y, In (x, y) l -> inside w h x y) ->
  exists f' c', fold_left (fun acc p => get! f := acc in FilmModel.set_pixel f (fst p) (snd p) (g (fst p) (snd p))) l (Ok f) = Ok f' /\ shows f' w h c'
    /\ forall x y, (In (x, y) l -> c' x y = g x y) /\ (~ In (x, y) l -> c' x y = c x y).
Proof.
  induction l as [|[x y] l IH]; intros f c Hs Hin; cbn [fold_left].
  - exists f, c. split; [reflexivity|]. split; [exact Hs|]. intros x y. split; [intros []|reflexivity].
  - destruct (C27_set_pixel f w h c x y (g x y) Hs) as (f1 & E & Hs1); [apply Hin; now left|]. cbn [obind fst snd]. rewrite E.
    destruct (IH f1 _ Hs1) as (f' & c' & F & Hs' & Hc); [intros; apply Hin; now right|]. exists f', c'. split; [exact F|]. split; [exact Hs'|]. intros x' y'. destruct (Hc x' y') as [C1 C2].
    assert (D : In (x', y') l \/ ~ In (x', y') l) by (destruct (in_dec pair_dec (x', y') l); auto).
    split.
    + intros [[= <- <-]|H]; [|auto]. destruct D as [D|D]; [auto|]. rewrite (C2 D). unfold with_pixel. now rewrite !Z.eqb_refl.
    + intros H. rewrite C2 by (intros H'; apply H; now right). unfold with_pixel. destruct (Z.eqb_spec x' x) as [->|]; [|reflexivity]. destruct (Z.eqb_spec y' y) as [->|]; [|reflexivity]. elim H. now left.
Qed.
Theorem C55_blank : forall f w h c color, (0 <= w)%Z -> (0 <= h)%Z -> shows f w h c -> exists f' c', blank_render f color = Ok f' /\ shows f' w h c' /\ forall x y, inside w h x y -> c' x y = color.
Proof.
  intros f w h c color Hw Hh Hs. destruct (C27_clear f w h c Hw Hh Hs) as (f1 & E & Hs1). unfold blank_render. rewrite E. cbn [obind]. pose proof Hs1 as (-> & -> & _).
  destruct (fold_set w h (fun _ _ => color) (blank_pixels w h) f1 _ Hs1) as (f' & c' & F & Hs' & Hc).
  - intros x y H. unfold blank_pixels in H. apply in_flat_map in H. destruct H as (y' & Hy & H). apply in_map_iff in H. destruct H as (x' & [= <- <-] & Hx). apply upto_in in Hx, Hy. split; lia.
  - exists f', c'. split; [exact F|]. split; [exact Hs'|]. intros x y Hi. apply Hc. unfold blank_pixels. apply in_flat_map. exists y. split; [apply upto_in; apply Hi|]. apply in_map_iff. exists x. split; [reflexivity|]. apply upto_in. apply Hi.
Qed.
Print Assumptions C55_blank.

(** ** Ray casting *)
Lemma center_ok w h x y : (0 < w)%Z -> (0 < h)%Z -> pixel_center w h x y = Val (center w h x y).
Proof. intros Hw Hh. unfold pixel_center. apply IZR_lt in Hw, Hh. rewrite (rdiv_ok _ (IZR w)) by lra. cbn [fbind]. rewrite (rdiv_ok _ (IZR h)) by lra. reflexivity. Qed.
Lemma pixel_inside w h i : (0 < w)%Z -> (0 <= i < w * h)%Z -> inside w h (Z.rem i w) (Z.quot i w) /\ (Z.quot i w * w + Z.rem i w = i)%Z.
Proof.
  intros Hw Hi. assert (E : i = (w * Z.quot i w + Z.rem i w)%Z) by (apply Z.quot_rem; lia). assert (B : (0 <= Z.rem i w < w)%Z) by (apply Z.rem_bound_pos; lia). assert (Q : (0 <= Z.quot i w)%Z) by (apply Z.quot_pos; lia).
  split; [|lia]. split; [exact B|]. split; [exact Q|]. nia.
Qed.
(** Each pixel gets the color of the ray through its center, for every number of threads and every schedule. *)
Theorem C55_raycast : forall primary hit light_eval refl cfg f w h c interval T k cs k' r (color : Z -> Z -> vec3), (0 < w)%Z -> (0 < h)%Z -> (0 < T)%nat -> shows f w h c ->
  spp_sample interval T (w * h) 1 k cs k' (Ok r) ->
  (forall x y, inside w h x y -> shade primary hit light_eval refl cfg (center w h x y) = ret (color x y)) ->
  exists f' c', raycast_render primary hit light_eval refl cfg f (map (fun x => fst (fst x)) cs) = ret f' /\ shows f' w h c' /\ forall x y, inside w h x y -> c' x y = color x y.
Proof.
  intros primary hit le refl cfg f w h c interval T k cs k' r color Hw Hh HT Hs Hc Hcol.
  destruct (C21_each_pixel_sample_once interval T (w * h) 1 k cs k' r HT ltac:(lia) Hc) as (_ & [Nd Hin] & _).
  destruct (C27_clear f w h c ltac:(lia) ltac:(lia) Hs) as (f1 & E & Hs1). unfold raycast_render. rewrite E. cbn [obind].
  set (calls := map (fun x => fst (fst x)) cs).
  assert (HI : forall i, In i calls <-> (0 <= i < w * h)%Z).
  { intros i. unfold calls. rewrite in_map_iff. split.
    - intros ((p & t) & <- & H). cbn. assert (In p (map fst cs)) by (apply in_map_iff; exists (p, t); auto). destruct p as [p s]. apply Hin in H0. apply H0.
    - intros H. assert (H' : In (i, 0%Z) (map fst cs)) by (apply Hin; lia). apply in_map_iff in H'. destruct H' as ((p & t) & Ep & H'). cbn in Ep. exists (p, t). subst p. auto. }
  assert (HF : forall l f0 c0, shows f0 w h c0 -> (forall i, In i l -> (0 <= i < w * h)%Z) -> fold_left (fun acc i => let! f := acc in raycast_call primary hit le refl cfg f i) l (ret f0)
     = match fold_left (fun acc p => get! f := acc in FilmModel.set_pixel f (fst p) (snd p) (color (fst p) (snd p))) (map (FilmModel.pixel_of_index w) l) (Ok f0) with Ok g => ret g | Throw e => Throw e | UB => UB | Fuel => Fuel end).
  { induction l as [|i l IH]; intros f0 c0 Hs0 Hl; [reflexivity|]. cbn [fold_left map]. rewrite pbind_val. cbn [obind].
    destruct (pixel_inside w h i Hw (Hl i (or_introl eq_refl))) as (Hi & _). pose proof Hs0 as (Ew & Eh & _).
    assert (Ec : raycast_call primary hit le refl cfg f0 i = match FilmModel.set_pixel f0 (Z.rem i w) (Z.quot i w) (color (Z.rem i w) (Z.quot i w)) with Ok g => ret g | Throw e => Throw e | UB => UB | Fuel => Fuel end).
    { unfold raycast_call, FilmModel.pixel_of_index. rewrite Ew, Eh, (center_ok w h _ _ Hw Hh). rewrite pbind_okval, (Hcol _ _ Hi), pbind_val. destruct (FilmModel.set_pixel f0 _ _ _); reflexivity. }
    rewrite Ec. destruct (C27_set_pixel f0 w h c0 _ _ (color (Z.rem i w) (Z.quot i w)) Hs0 Hi) as (f2 & E2 & Hs2). cbn [FilmModel.pixel_of_index fst snd]. rewrite E2. apply (IH f2 _ Hs2). intros j Hj. apply Hl. now right. }
  rewrite (HF calls f1 _ Hs1) by (intros i Hi; now apply HI).
  destruct (fold_set w h color (map (FilmModel.pixel_of_index w) calls) f1 _ Hs1) as (f' & c' & F & Hs' & Hc').
  - intros x y H. apply in_map_iff in H. destruct H as (i & [= <- <-] & Hi). apply HI in Hi. now apply pixel_inside.
  - exists f', c'. rewrite F. split; [reflexivity|]. split; [exact Hs'|]. intros x y Hi. apply Hc'. apply in_map_iff. exists (y * w + x)%Z. assert (B := inside_index w h x y Hi). split; [|now apply HI].
    destruct (pixel_inside w h (y * w + x) Hw B) as (Hi' & E'). destruct (inside_inj w h _ _ _ _ Hi' Hi E') as [E1 E2]. unfold FilmModel.pixel_of_index. now rewrite E1, E2.
Qed.
Print Assumptions C55_raycast.
(** The color of a ray: the background where nothing is hit; the normal if normals are shown; the radiance of the
    environment; otherwise the configured color or that of the surface, shaded by the angle between ray and normal. *)
Theorem C55_shading : forall primary hit light_eval refl cfg rp o d sp, primary rp = ret (o, d) -> hit o d = ret sp ->
  let color := shade primary hit light_eval refl cfg rp in
  (sp = None -> color = ret (rc_bg cfg))
  /\ (forall x n, sp = Some x -> rc_normal cfg = true -> normal (igeom x) = Val n -> color = ret (V3 (Rabs (vx n)) (Rabs (vy n)) (Rabs (vz n))))
  /\ (forall x w, sp = Some x -> rc_normal cfg = false -> igeom x = Infinite w -> color = light_eval (iprim x) (igeom x) w)
  /\ (forall x c, sp = Some x -> rc_normal cfg = false -> infinite (igeom x) = false -> rc_color cfg = Some c \/ (rc_color cfg = None /\ refl x = ret c) ->
      (rc_constant cfg = true -> color = ret c)
      /\ forall n, rc_constant cfg = false -> normal (igeom x) = Val n -> dot n n = 1 -> dot d d = 1 ->
         exists k, color = ret (vscale k c) /\ k = 1 / 5 + 4 / 5 * Rabs (dot n d) /\ 1 / 5 <= k <= 1).
Proof.
  intros primary hit le refl cfg rp o d sp Ep Eh color. subst color. unfold shade. rewrite Ep, pbind_val, Eh, pbind_val. split; [|split; [|split]].
  - now intros ->.
  - intros x n -> -> En. rewrite En. now rewrite pbind_okval.
  - intros x w -> -> Eg. now rewrite Eg.
  - intros x c -> -> Hi Hc.
    assert (Ec : (match rc_color cfg with Some c => ret c | None => refl x end) = ret c) by (destruct Hc as [-> |[-> H]]; [reflexivity|exact H]).
    assert (Eg : forall (B C : pm vec3), (match igeom x with Infinite w => B | _ => C end) = C) by (intros; destruct (igeom x); [reflexivity|reflexivity|discriminate Hi]).
    split.
    + intros Hk. destruct (igeom x); [| |discriminate Hi]; now rewrite Ec, pbind_val, Hk.
    + intros n Hk En Nn Nd. exists (2 / 10 + 8 / 10 * Rabs (dot n (vneg d))).
      assert (Ed : dot n (vneg d) = - dot n d) by (unfold dot, vneg; cbn; ring). rewrite Ed, Rabs_Ropp.
      split; [destruct (igeom x); [| |discriminate Hi]; rewrite Ec, pbind_val, Hk, En, pbind_okval, Ed, Rabs_Ropp; reflexivity|]. split; [lra|].
      assert (B : Rabs (dot n d) <= 1).
      { clear - Nn Nd. rename Nn into D1, Nd into D2. unfold dot in *. destruct n as [a b c], d as [e f g]; cbn in *. apply Rabs_le. assert (0 <= (a - e) * (a - e) + (b - f) * (b - f) + (c - g) * (c - g)) by (repeat apply Rplus_le_le_0_compat; apply Rle_0_sqr). assert (0 <= (a + e) * (a + e) + (b + f) * (b + f) + (c + g) * (c + g)) by (repeat apply Rplus_le_le_0_compat; apply Rle_0_sqr). split; nra. }
      assert (0 <= Rabs (dot n d)) by apply Rabs_pos. lra.
Qed.
Print Assumptions C55_shading.
Example C55_shading_example : exists x n, normal (igeom x) = Val n /\ dot n n = 1 /\ infinite (igeom x) = false /\ dot (V3 0 0 (-1)) (V3 0 0 (-1)) = 1 /\ dot n (V3 0 0 (-1)) = -1.
Proof.
  exists (mk_sp SurfaceInteraction 1 (OnSurface (make_on_surface false v0 (V3 0 0 1) (V3 0 0 1))) (V2 0 0)), (V3 0 0 1). split; [reflexivity|]. unfold dot. cbn. repeat split; lra.
Qed.
(** The center of a pixel belongs to it, and the ray through it is the one that projects to it. *)
Theorem C55_center : forall k w h x y, proper_camera k -> (0 < w <= 2147483647)%Z -> (0 < h <= 2147483647)%Z -> inside w h x y ->
  FilmModel.raster_to_pixel w h (center w h x y) = Ok (x, y) /\ exists d, primary_ray k (center w h x y) = Val d /\ raster_position k d = Val (Some (center w h x y)).
Proof.
  intros k w h x y K Hw Hh [Hx Hy].
  assert (A : forall a n, (0 < n)%Z -> (0 <= a < n)%Z -> 0 <= (IZR a + / 2) / IZR n < 1 /\ (IZR a + / 2) / IZR n * IZR n = IZR a + / 2).
  { intros a n Hn [Ha Hb]. apply IZR_lt in Hn. apply IZR_le in Ha. assert (IZR a + 1 <= IZR n) by (rewrite <- plus_IZR; apply IZR_le; lia).
    assert (E : (IZR a + / 2) / IZR n * IZR n = IZR a + / 2) by (field; lra). split; [|exact E]. split; [apply Rmult_le_pos; [lra|left; now apply Rinv_0_lt_compat]|]. apply (Rmult_lt_reg_r (IZR n)); [exact Hn|]. rewrite E. lra. }
  destruct (A x w ltac:(lia) Hx) as [Bx Ex]. destruct (A y h ltac:(lia) Hy) as [By Ey].
  split.
  - destruct (raster_contains w h (center w h x y) Hw Hh Bx By) as (x' & y' & E & B1 & B2). rewrite E. cbn [center v2x v2y] in B1, B2. rewrite Ex in B1. rewrite Ey in B2.
    assert (forall a b, IZR b <= IZR a + / 2 < IZR b + 1 -> b = a). { intros a b [H1 H2]. assert (IZR b < IZR (a + 1)) by (rewrite plus_IZR; lra). assert (IZR a < IZR (b + 1)) by (rewrite plus_IZR; lra). apply lt_IZR in H, H0. lia. }
    rewrite (H _ _ B1), (H _ _ B2). reflexivity.
  - destruct (C44_round_trip k (center w h x y) K) as (d & E1 & _ & E2); [unfold in_square; cbn [center v2x v2y]; lra|]. eauto.
Qed.
Print Assumptions C55_center.

(** ** Windows *)
Lemma window_ok w h i : (0 < w)%Z -> (0 < h)%Z -> window w h i = Val (1 / IZR w * IZR (Z.rem i w), 1 / IZR h * IZR (Z.quot i w), 1 / IZR w, 1 / IZR h).
Proof. intros Hw Hh. apply IZR_lt in Hw, Hh. unfold window, FilmModel.pixel_of_index. rewrite (rdiv_ok 1 (IZR w)) by lra. cbn [fbind]. rewrite (rdiv_ok 1 (IZR h)) by lra. reflexivity. Qed.
(** A sample of a pixel is drawn from the pixel's cell, all of it; the cells have equal areas and every point of
    the unit square is in the cell of exactly one pixel. *)
Theorem C55_windows : forall w h, (0 < w)%Z -> (0 < h)%Z ->
  (forall i, (0 <= i < w * h)%Z -> exists win, window w h i = Val win
     /\ (let '(_, _, a, b) := win in a * b = 1 / (IZR w * IZR h))
     /\ (forall u, in_unit u -> cell w h (Z.rem i w) (Z.quot i w) (in_window win u))
     /\ (forall q, cell w h (Z.rem i w) (Z.quot i w) q -> exists u, in_unit u /\ in_window win u = q))
  /\ forall q, in_unit q -> exists i, (0 <= i < w * h)%Z /\ cell w h (Z.rem i w) (Z.quot i w) q /\ forall j, (0 <= j < w * h)%Z -> cell w h (Z.rem j w) (Z.quot j w) q -> j = i.
Proof.
  intros w h Hw Hh. pose proof (IZR_lt _ _ Hw) as Rw. pose proof (IZR_lt _ _ Hh) as Rh. split.
  - intros i Hi. eexists. split; [now apply window_ok|]. cbv beta iota. split; [field; lra|]. split.
    + intros [a b] [Ha Hb]. cbn [v2x v2y] in *. unfold cell, in_window. cbn [v2x v2y].
      replace ((1 / IZR w * IZR (Z.rem i w) + 1 / IZR w * a) * IZR w) with (IZR (Z.rem i w) + a) by (field; lra). replace ((1 / IZR h * IZR (Z.quot i w) + 1 / IZR h * b) * IZR h) with (IZR (Z.quot i w) + b) by (field; lra). lra.
    + intros [a b] [Ha Hb]. cbn [v2x v2y] in *. exists (V2 (a * IZR w - IZR (Z.rem i w)) (b * IZR h - IZR (Z.quot i w))). split; [split; cbn [v2x v2y]; lra|]. unfold in_window. cbn [v2x v2y]. f_equal; field; lra.
  - intros [a b] [Ha Hb]. cbn [v2x v2y] in *.
    assert (T : forall r n, (0 < n)%Z -> 0 <= r < 1 -> (0 <= trunc (r * IZR n) < n)%Z /\ IZR (trunc (r * IZR n)) <= r * IZR n < IZR (trunc (r * IZR n)) + 1).
    { intros r n Hn Hr. apply IZR_lt in Hn. assert (0 <= r * IZR n < IZR n) by nra. split; [apply trunc_range; lra|apply trunc_bounds; lra]. }
    destruct (T a w Hw Ha) as [X1 X2]. destruct (T b h Hh Hb) as [Y1 Y2]. set (x := trunc (a * IZR w)) in *. set (y := trunc (b * IZR h)) in *.
    assert (Hi : inside w h x y) by (split; assumption). assert (B := inside_index w h x y Hi). destruct (pixel_inside w h (y * w + x) Hw B) as (Hi' & E'). destruct (inside_inj w h _ _ _ _ Hi' Hi E') as [E1 E2].
    exists (y * w + x)%Z. split; [exact B|]. split; [unfold cell; rewrite E1, E2; split; assumption|]. intros j Hj [C1 C2]. cbn [v2x v2y] in *.
    destruct (pixel_inside w h j Hw Hj) as (_ & Ej). assert (U : forall r p q, IZR p <= r < IZR p + 1 -> IZR q <= r < IZR q + 1 -> p = q). { intros r p q H1 H2. assert (IZR p < IZR (q + 1)) by (rewrite plus_IZR; lra). assert (IZR q < IZR (p + 1)) by (rewrite plus_IZR; lra). apply lt_IZR in H, H0. lia. }
    rewrite <- Ej. rewrite (U _ _ _ C1 X2), (U _ _ _ C2 Y2). reflexivity.
Qed.
Print Assumptions C55_windows.

(** ** Path tracing *)
(** On a scene with a proper camera the direction sampled from numbers [u] is that of the ray through [u]. *)
Theorem C55_camera : forall tr mat lgt cam pha mesh_of neg0 zs emitter med (s : scene VisModel.affine) a k, carries s (camera_node s) p_camera k -> proper_camera (cam k) ->
  sees_raster (scene_rapi tr mat lgt cam pha mesh_of neg0 zs emitter med s a).
Proof.
  intros tr mat lgt cam pha mesh_of neg0 zs emitter med s a k Hc K u0 sp wE u wi c wo w E Hu Ed. destruct (prim_carries s _ _ _ Hc) as (p & Ep & Ek).
  cbn [scene_rapi r_sample_position r_api scene_api a_sample_direction a_raster] in *. unfold sample_position in E. rewrite Ep in E. cbn [obind] in E. rewrite Ek in E. cbn [deref obind cam_sample_position pbind] in E. apply ret_inj in E. injection E as <- _.
  unfold sample_direction in Ed. cbn [endpoint iprim it] in Ed. rewrite Ep in Ed. cbn [obind] in Ed. rewrite Ek in Ed. cbn [deref obind] in Ed. unfold cam_sample_direction in Ed.
  destruct (C44_round_trip (cam k) (dw_d u) K) as (d & E1 & _ & E2); [destruct Hu; unfold in_square; lra|]. rewrite E1 in Ed. cbn [fbind] in Ed. apply ret_inj in Ed. injection Ed as <- _.
  unfold path_raster_position. rewrite Ep. cbn [obind]. rewrite Ek. cbn [deref obind]. rewrite E2. reflexivity.
Qed.
Print Assumptions C55_camera.
Example C55_camera_example : carries (VisProps.x_scene None None) (camera_node (VisProps.x_scene None None)) p_camera 0 /\ proper_camera cam0.
Proof. split; [|apply C44_example]. eexists _, _. split; [split; [|reflexivity]|reflexivity]. cbn. lia. Qed.

Tactic Notation "split_bind" hyp(H) ident(x) ident(E) := match type of H with
  | pbind ?Y _ = ret _ => destruct Y as [[x| |]| | |] eqn:E; cbn [pbind] in H; try discriminate H
  | obind ?Y _ = ret _ => destruct Y as [x| | |] eqn:E; cbn [obind] in H; try discriminate H
  end.
Ltac ret_list H := apply ret_inj in H; subst; intros rp' v' Hin.
Lemma nee_at A sm nv sp wi c thr rp u l : (1 < nv)%Z -> pt_nee A sm nv sp wi c thr rp u = ret l -> forall q v, In (q, v) l -> q = rp.
Proof.
  intros Hn H. unfold pt_nee in H. replace (nv =? 1)%Z with false in H by lia. split_bind H o E1. destruct o as [[[spL woL] wL]|]; [|ret_list H; destruct Hin]. split_bind H b E2. destruct b; cbn [negb] in H; [|ret_list H; destruct Hin].
  rewrite pbind_val in H. split_bind H fs E3. destruct (is_zero fs); [ret_list H; destruct Hin|]. split_bind H w E4. ret_list H. destruct Hin as [[= <- _]|[]]. reflexivity.
Qed.
Lemma hit_at A sm nee sp wi wo c thr rp y l : pt_hit A sm nee sp wi wo c thr rp y = ret l -> forall q v, In (q, v) l -> q = rp.
Proof.
  intros H. unfold pt_hit in H. match type of H with (if ?b then _ else _) = _ => destruct b end; [|ret_list H; destruct Hin]. split_bind H b E1. destruct b; [|ret_list H; destruct Hin]. split_bind H fs E2. split_bind H w E3. ret_list H. destruct Hin as [[= <- _]|[]]. reflexivity.
Qed.
(** From the second vertex on all splats are at the raster position found at the first. *)
Lemma walk_at A sm pmd win k : forall nv rng sp wi c thr rp l, (1 < nv)%Z -> pt_walk A sm pmd win k nv rng sp wi c thr rp = ret l -> forall q v, In (q, v) l -> q = rp.
Proof.
  induction k as [|k IH]; intros nv rng sp wi c thr rp l Hn H; [ret_list H; destruct Hin|]. cbn [pt_walk] in H. replace (nv =? 1)%Z with false in H by lia. cbv zeta in H. split_bind H nee E1. split_bind H ld E2.
  assert (L1 : forall q v, In (q, v) ld -> q = rp) by (destruct nee; [eapply nee_at; eassumption|ret_list E2; destruct Hin]).
  split_bind H o E3. destruct o as [[wo w]|]; [|ret_list H; eauto]. rewrite pbind_val in H. cbn [pbind] in H. destruct (position (igeom sp)) as [p| |] eqn:E4; try discriminate H. split_bind H o E5.
  destruct o as [y|]; [|ret_list H; eauto]. split_bind H le E6. pose proof (hit_at _ _ _ _ _ _ _ _ _ _ _ E6) as L2. destruct (infinite (igeom y)); [ret_list H; apply in_app_or in Hin; destruct Hin; eauto|].
  destruct (roulette nv (2 / 10) (rn_rr (rng 0%nat)) (vmul thr w)) as [[t|]| |]; try discriminate H; [|ret_list H; apply in_app_or in Hin; destruct Hin; eauto].
  split_bind H cw E7. destruct cw as [c' wc]. split_bind H rest E8. pose proof (IH _ _ _ _ _ _ _ _ (ltac:(lia) : (1 < nv + 1)%Z) E8) as L3. ret_list H. apply in_app_or in Hin. destruct Hin as [Hin|Hin]; [eauto|]. apply in_app_or in Hin. destruct Hin; eauto.
Qed.
(** In pixel mode all splats of a sample of pixel [index] land on that pixel. *)
Theorem C55_own_pixel : forall A sm max_verts w h index u0 rng l, (0 < w <= 2147483647)%Z -> (0 < h <= 2147483647)%Z -> (0 <= index < w * h)%Z -> sees_raster A -> in_unit (dw_d (rn_draw (rng O))) ->
  pt_sample A sm PixelMode max_verts w h index u0 rng = ret l -> forall rp v, In (rp, v) l -> FilmModel.raster_to_pixel w h rp = Ok (FilmModel.pixel_of_index w index).
Proof.
  intros A sm max_verts w h index u0 rng l Hw Hh Hi HA Hu H.
  assert (Hwin := window_ok w h index ltac:(lia) ltac:(lia)). set (win := (1 / IZR w * IZR (Z.rem index w), 1 / IZR h * IZR (Z.quot index w), 1 / IZR w, 1 / IZR h)) in *.
  assert (Hcell : cell w h (Z.rem index w) (Z.quot index w) (in_window win (dw_d (rn_draw (rng O)))) /\ in_unit (in_window win (dw_d (rn_draw (rng O))))).
  { destruct (C55_windows w h ltac:(lia) ltac:(lia)) as [C _]. destruct (C index Hi) as (win' & Ew & _ & Hc & _). rewrite Hwin in Ew. injection Ew as <-. assert (D := Hc _ Hu). split; [exact D|].
    destruct (pixel_inside w h index ltac:(lia) Hi) as ([[X1 X2] [Y1 Y2]] & _). destruct D as [D1 D2]. assert (0 < IZR w) by (apply IZR_lt; lia). assert (0 < IZR h) by (apply IZR_lt; lia). set (x := Z.rem index w) in *. set (y := Z.quot index w) in *. apply IZR_le in X1, Y1.
    assert (IZR x + 1 <= IZR w) by (rewrite <- plus_IZR; apply IZR_le; lia). assert (IZR y + 1 <= IZR h) by (rewrite <- plus_IZR; apply IZR_le; lia). split; split; try nra. }
  destruct Hcell as [Hcell Hin1]. set (ud := in_window win (dw_d (rn_draw (rng O)))) in *.
  assert (Hpix : FilmModel.raster_to_pixel w h ud = Ok (FilmModel.pixel_of_index w index)).
  { destruct Hin1 as [I1 I2]. destruct (raster_contains w h ud Hw Hh I1 I2) as (x & y & E & B1 & B2). rewrite E. destruct Hcell as [C1 C2].
    assert (U : forall r p q, IZR p <= r < IZR p + 1 -> IZR q <= r < IZR q + 1 -> p = q). { intros r p q H1 H2. assert (IZR p < IZR (q + 1)) by (rewrite plus_IZR; lra). assert (IZR q < IZR (p + 1)) by (rewrite plus_IZR; lra). apply lt_IZR in H0, H3. lia. }
    unfold FilmModel.pixel_of_index. now rewrite (U _ _ _ B1 C1), (U _ _ _ B2 C2). }
  unfold pt_sample in H. rewrite Hwin in H. cbn [pbind] in H. split_bind H o E1. destruct o as [[sp wE]|]; [|discriminate]. split_bind H cw E2. destruct cw as [c wc]. revert H. generalize (vscale wc wE). intros thr H.
  destruct (Z.to_nat (max_verts - 1)) as [|k]; [ret_list H; destruct Hin|]. cbn [pt_walk] in H. cbv zeta in H. change (1 =? 1)%Z with true in H. cbv iota in H.
  assert (Enee : samplable_by_nee A sm PixelMode 1 sp c = ret false \/ forall b, samplable_by_nee A sm PixelMode 1 sp c <> ret b).
  { unfold samplable_by_nee. destruct sm; [now left|..]; (destruct (a_specular (r_api A) sp c) as [[b| |]| | |]; cbn [pbind]; [left; reflexivity|right; intros; discriminate..]). }
  destruct Enee as [En|En]; [|destruct (samplable_by_nee A sm PixelMode 1 sp c) as [[b| |]| | |]; cbn [pbind] in H; try discriminate H; now elim (En b)].
  rewrite En in H. unfold ret at 1 in H. cbn [pbind] in H. unfold ret at 1 in H. cbn [pbind] in H. unfold pt_direction in H. change (1 =? 1)%Z with true in H. cbv iota in H. fold ud in H.
  split_bind H o E3. destruct o as [[wo w']|]; [|ret_list H; destruct Hin]. pose proof (HA u0 sp wE _ v0 c wo w' E1 (Hin1 : in_unit (dw_d (mk_draw (dw_ray (rn_draw (rng O))) ud (dw_dc (rn_draw (rng O))) (dw_c (rn_draw (rng O)))))) E3) as Er. cbn [dw_d] in Er. rewrite Er in H. unfold ret at 1 in H. cbn [pbind dw_d] in H. unfold ret at 1 in H. cbn [pbind] in H.
  destruct (position (igeom sp)) as [p| |] eqn:E4; try discriminate H. split_bind H o E5.
  destruct o as [y|]; [|ret_list H; destruct Hin]. split_bind H le E6. pose proof (hit_at _ _ _ _ _ _ _ _ _ _ _ E6) as L2.
  assert (Hfin : forall q v, In (q, v) l -> q = ud).
  { cbn [app] in H. destruct (infinite (igeom y)); [ret_list H; eauto|].
    destruct (roulette 1 (2 / 10) (rn_rr (rng 0%nat)) (vmul thr w')) as [[t|]| |]; try discriminate H; [|ret_list H; eauto].
    split_bind H cw E7. destruct cw as [c' wc']. split_bind H rest E8. pose proof (walk_at _ _ _ _ _ _ _ _ _ _ _ _ _ (ltac:(lia) : (1 < 1 + 1)%Z) E8) as L3. ret_list H. apply in_app_or in Hin. destruct Hin; eauto. }
  intros rp v Hv. rewrite (Hfin _ _ Hv). exact Hpix.
Qed.
Print Assumptions C55_own_pixel.

Lemma vadd_assoc a b c : vadd (vadd a b) c = vadd a (vadd b c). Proof. unfold vadd. cbn. f_equal; ring. Qed.
Lemma vadd_0_r a : vadd a v0 = a. Proof. destruct a. unfold vadd, v0. cbn. f_equal; ring. Qed.
Lemma splat_own w h x y : (0 < w)%Z -> (0 < h)%Z -> forall l f c, shows f w h c -> (forall rp v, In (rp, v) l -> FilmModel.raster_to_pixel w h rp = Ok (x, y)) ->
  exists f' c', splat_all f l = Ok f' /\ shows f' w h c' /\ forall x' y', c' x' y' = if ((x' =? x)%Z && (y' =? y)%Z)%bool then vadd (c x' y') (values l) else c x' y'.
Proof.
  intros Hw Hh. unfold splat_all. induction l as [|[rp v] l IH]; intros f c Hs Hl; cbn [fold_left].
  - exists f, c. split; [reflexivity|]. split; [exact Hs|]. intros x' y'. cbn. rewrite vadd_0_r. now destruct (_ && _)%bool.
  - destruct (C28_splat f w h c rp v (x, y) Hw Hh Hs) as (f1 & E & Hs1); [apply (Hl rp v); now left|]. cbn [obind fst snd]. rewrite E. cbn [fst snd] in Hs1.
    destruct (IH f1 _ Hs1) as (f' & c' & F & Hs' & Hc); [intros; eapply Hl; right; eassumption|]. exists f', c'. split; [exact F|]. split; [exact Hs'|]. intros x' y'. rewrite Hc. unfold with_pixel.
    destruct (Z.eqb_spec x' x) as [->|]; cbn [andb]; [|reflexivity]. destruct (Z.eqb_spec y' y) as [->|]; cbn [andb]; [|reflexivity]. cbn [values fold_right snd]. apply vadd_assoc.
Qed.
Definition fair (A : rapi) (sm : smode) (max_verts w h : Z) (cl : call) (l : splats) : Prop := let '(i, u0, rng) := cl in
  (0 <= i < w * h)%Z /\ in_unit (dw_d (rn_draw (rng O))) /\ pt_sample A sm PixelMode max_verts w h i u0 rng = ret l.
Lemma run_own A sm max_verts w h : (0 < w <= 2147483647)%Z -> (0 < h <= 2147483647)%Z -> sees_raster A -> forall calls outs f c, shows f w h c -> Forall2 (fair A sm max_verts w h) calls outs ->
  exists f' c', run_calls (pt_sample A sm PixelMode max_verts w h) f calls = ret f' /\ shows f' w h c' /\ forall x y, inside w h x y -> c' x y = vadd (c x y) (samples_of (y * w + x) calls outs).
Proof.
  intros Hw Hh HA. induction calls as [|[[i u0] rng] calls IH]; intros outs f c Hs HF; inversion HF as [|? l ? outs' HX HF']; subst.
  - exists f, c. split; [reflexivity|]. split; [exact Hs|]. intros. cbn. now rewrite vadd_0_r.
  - destruct HX as (Hi & Hu & E). cbn [run_calls]. rewrite E, pbind_val.
    destruct (splat_own w h (Z.rem i w) (Z.quot i w) ltac:(lia) ltac:(lia) l f c Hs) as (f1 & c1 & E1 & Hs1 & Hc1); [intros rp v Hv; eapply C55_own_pixel; eassumption|]. rewrite E1. cbn [obind].
    destruct (IH outs' f1 c1 Hs1 HF') as (f' & c' & E' & Hs' & Hc'). exists f', c'. split; [exact E'|]. split; [exact Hs'|]. intros x y Hxy. rewrite (Hc' x y Hxy), Hc1. cbn [samples_of].
    destruct (pixel_inside w h i ltac:(lia) Hi) as (Hi' & Ei).
    destruct (Z.eqb_spec i (y * w + x)) as [e|e].
    + destruct (inside_inj w h _ _ _ _ Hi' Hxy ltac:(lia)) as [-> ->]. rewrite !Z.eqb_refl. cbn [andb]. apply vadd_assoc.
    + destruct (Z.eqb_spec x (Z.rem i w)) as [->|]; [|reflexivity]. destruct (Z.eqb_spec y (Z.quot i w)) as [->|]; [|reflexivity]. lia.
Qed.
(** The rendered pixel is the sum of the values of its own samples over the number of samples per pixel, in
    whatever order the samples are taken. *)
Theorem C55_path : forall A sm max_verts f w h c calls outs processed order, (0 < w <= 2147483647)%Z -> (0 < h <= 2147483647)%Z -> shows f w h c -> sees_raster A ->
  Forall2 (fun cl l => let '(i, u0, rng) := cl in (0 <= i < w * h)%Z /\ in_unit (dw_d (rn_draw (rng O))) /\ pt_sample A sm PixelMode max_verts w h i u0 rng = ret l) calls outs ->
  (0 < processed)%Z -> Permutation order (upto (w * h)) ->
  exists f' c', pt_render A sm PixelMode max_verts f calls processed order = ret f' /\ shows f' w h c'
    /\ forall x y, inside w h x y -> c' x y = vscale (1 / IZR processed) (samples_of (y * w + x) calls outs).
Proof.
  intros A sm max_verts f w h c calls outs processed order Hw Hh Hs HA HF Hp Ho. unfold pt_render. pose proof Hs as (-> & -> & _).
  destruct (C27_clear f w h c ltac:(lia) ltac:(lia) Hs) as (f1 & E & Hs1). rewrite E. cbn [obind].
  destruct (run_own A sm max_verts w h Hw Hh HA calls outs f1 _ Hs1 HF) as (f2 & c2 & E2 & Hs2 & Hc2). rewrite E2, pbind_val. apply IZR_lt in Hp. rewrite (rdiv_ok 1 (IZR processed)) by lra. rewrite pbind_okval.
  destruct (rescale_shows f2 w h c2 (1 / IZR processed) order Hs2 Ho) as (f3 & E3 & Hs3). rewrite E3. cbn [obind]. eexists _, _. split; [reflexivity|]. split; [exact Hs3|]. intros x y Hi. cbv beta. rewrite (Hc2 x y Hi). f_equal. destruct (samples_of _ _ _). unfold vadd, v0. cbn. f_equal; ring.
Qed.
Print Assumptions C55_path.

(** An environment of value 3, seen by a camera whose directions are raster positions *)
Definition sky : interaction := mk_sp SurfaceInteraction 1 (Infinite (V3 0 0 1)) (V2 0 0).
Definition sky_api : api := {|
  a_specular := fun _ _ => ret false; a_connectable := fun _ => ret true; a_pdf_position := fun _ => ret 1; a_pdf_component := fun _ _ _ => ret 1; a_contrb := fun _ _ _ _ _ _ => ret (grey 3);
  a_pdf_ray := fun _ _ _ => ret 1; a_pdf_direction := fun _ _ _ _ _ => ret 1; a_sample_ray := fun _ _ => ret None;
  a_sample_direction := fun u _ _ _ _ => ret (Some (V3 (v2x (dw_d u)) (v2y (dw_d u)) (-1), grey 1)); a_sample_component := fun _ _ _ => ret (0%Z, 1);
  a_intersect := fun _ _ => ret (Some sky); a_visible := fun _ _ => ret true; a_is_light := fun _ => Ok true; a_is_camera := fun _ => Ok false;
  a_raster := fun wo => ret (Some (V2 (vx wo) (vy wo))) |}.
Definition sky_rapi : rapi := {|
  r_api := sky_api; r_sample_position := fun _ _ => ret (Some (mk_sp CameraEndpoint 0 (Degenerated v0) (V2 0 0), grey 1));
  r_sample_direct := fun _ _ _ => ret None; r_pdf_direct := fun _ _ _ _ => ret 2; r_sample_distance := fun _ _ _ => ret None; r_transmittance := fun _ _ _ => ret v0 |}.
Definition mid : draw := mk_draw (mk_u (V2 0 0) (V2 0 0) (V2 0 0)) (V2 (1 / 2) (1 / 2)) 0 0.
Example C55_path_example : sees_raster sky_rapi /\ in_unit (dw_d mid) /\ (forall i, exists rp, pt_sample sky_rapi MIS PixelMode 5 2 1 i mid (fun _ => mk_round mid 0 [] []) = ret [(rp, vscale 1 (vmul (vmul (vscale 1 (grey 1)) (grey 1)) (grey 3)))])
  /\ Permutation [1%Z; 0%Z] (upto (2 * 1)) /\ shows (FilmModel.mk_film 2 1 [v0; v0]) 2 1 (fun _ _ => v0).
Proof.
  split; [|split; [|split; [|split]]].
  - intros u0 sp wE u wi c wo w _ _ Ed. cbn in Ed. apply ret_inj in Ed. injection Ed as <- _. cbn. now destruct (dw_d u).
  - unfold in_unit. cbn. lra.
  - intros i. unfold pt_sample. rewrite window_ok by lia. cbn. eexists. reflexivity.
  - apply perm_swap.
  - split; [reflexivity|]. split; [reflexivity|]. split; [reflexivity|]. intros x y [Hx Hy]. assert (y = 0%Z) by lia. assert (x = 0%Z \/ x = 1%Z) as [-> | ->] by lia; subst y; reflexivity.
Qed.
(** The run of two threads shown for C23, on a film of three pixels *)
Example C55_raycast_example : exists cs k', spp_sample 5 2 (3 * 1) 1 (fun _ => 0%Z) cs k' (Ok 1%Z)
  /\ forall x y, shade (fun rp => ret (v0, V3 (v2x rp) (v2y rp) (-1))) (fun _ _ => ret (Some sky)) (fun _ _ _ => ret (grey 3)) (fun _ => ret v0) (mk_raycast v0 false false None) (center 3 1 x y) = ret (grey 3).
Proof.
  destruct C23_example_ok as (s & Hr & Hf & Ht & Hs & _). exists (calls (fun i => (Z.quot i 1, Z.rem i 1)) (trace s)), (count s).
  split; [|reflexivity]. exists (trace s), (Ok tt). split; [|auto].
  exists x_ok, s. repeat split; auto. destruct (finished_ok 3 5 2 (fun _ => 0%Z) x_ok s ltac:(lia) Hr Hf Ht) as (_ & _ & _ & E). now rewrite E.
Qed.
