(** C71: the splats of one sample of the optimised bidirectional path tracer. *)
From Coq Require Import List Reals ZArith Bool Lra Lia ZifyBool.
From Verif Require Import Base RBase SceneModel MatSpec SurfSpec VecBase SurfModel MatModel CamModel LightModel PathModel VisModel VisSpec VisProps BidirModel BidirSpec BidirProofs BidirProps BdptModel BdptSpec BdptProofs BdptWeights BdptScene BdptProps.
Import ListNotations.
Open Scope R_scope.

(** The last [s] and [t] vertices of the two subpaths can be joined: if one side makes the whole path, its last
    vertex is not a point; otherwise neither of the two is at infinity or specular, one that starts its subpath
    can be connected to, and they see each other. *)
Definition connects (A : api) (qL qE : cpath) (s t : nat) : Prop :=
  (s = 0%nat -> exists v, nth_error (strip qE) (t - 1) = Some v /\ forall x, igeom (vs_sp v) <> Degenerated x) /\
  (t = 0%nat -> exists v, nth_error (strip qL) (s - 1) = Some v /\ forall x, igeom (vs_sp v) <> Degenerated x) /\
  ((1 <= s)%nat -> (1 <= t)%nat -> exists v w, nth_error (strip qL) (s - 1) = Some v /\ nth_error (strip qE) (t - 1) = Some w /\
    (forall x, igeom (vs_sp v) <> Infinite x) /\ (forall x, igeom (vs_sp w) <> Infinite x) /\
    (s = 1%nat -> a_connectable A (vs_sp v) = ret true) /\ (t = 1%nat -> a_connectable A (vs_sp w) = ret true) /\
    a_specular A (vs_sp v) (vs_comp v) = ret false /\ a_specular A (vs_sp w) (vs_comp w) = ret false /\ a_visible A (vs_sp v) (vs_sp w) = ret true).

Lemma connects_iff A qL qE s t b : (2 <= s + t)%nat -> opt_samplable A qE qL (Z.of_nat s) (Z.of_nat t) = ret b ->
  forall o, (b = true -> opt_value A qE qL (Z.of_nat s) (Z.of_nat t) = ret o) -> (connects A qL qE s t <-> b = true /\ o <> None).
Proof.
  intros N H o Ho. unfold opt_samplable in H. unfold connects. assert (RD : forall X (l : list X) k x, rd (nth_error l k) = Ok x -> nth_error l k = Some x) by (intros X l k x; destruct (nth_error l k); cbn; congruence).
  assert (ST : forall q k x, nth_error q k = Some x -> nth_error (strip q) k = Some (cv_v x)) by (intros q k x X; unfold strip; now rewrite nth_error_map, X).
  assert (DG : forall g, negb (degenerated g) = true <-> forall x, g <> Degenerated x) by (intros [g|x|x]; cbn; split; try congruence; try discriminate; intros X; now elim (X x)).
  assert (IF : forall g, infinite g = false <-> forall x, g <> Infinite x) by (intros [g|x|x]; cbn; split; try congruence; try discriminate; intros X; now elim (X x)).
  unfold opt_value in Ho. destruct (Nat.eq_dec s 0) as [-> |S0]; [|destruct (Nat.eq_dec t 0) as [-> |T0]].
  - change (Z.of_nat 0 =? 0)%Z with true in *. cbv iota in H, Ho. replace (Z.to_nat (Z.of_nat t - 1)) with (t - 1)%nat in * by lia. mstep H. apply RD in E. apply ret_inj in H. specialize (DG (cgeom a)). rewrite H in DG.
    assert (On : b = true -> o <> None). { intros B. specialize (Ho B). do 3 mstep Ho. apply ret_inj in Ho. subst o. discriminate. }
    split.
    + intros (X & _). destruct (X eq_refl) as (v & Ev & Dv). rewrite (ST _ _ _ E) in Ev. injection Ev as <-. assert (B : b = true) by (apply DG; exact Dv). auto.
    + intros (B & _). split; [intros _; exists (cv_v a); split; [now apply ST|]; now apply DG|]. split; lia.
  - change (Z.of_nat 0 =? 0)%Z with true in *. replace (Z.of_nat s =? 0)%Z with false in * by lia. cbv iota in H, Ho. replace (Z.to_nat (Z.of_nat s - 1)) with (s - 1)%nat in * by lia. mstep H. apply RD in E. apply ret_inj in H. specialize (DG (cgeom a)). rewrite H in DG.
    assert (On : b = true -> o <> None). { intros B. specialize (Ho B). do 3 mstep Ho. apply ret_inj in Ho. subst o. discriminate. }
    split.
    + intros (_ & X & _). destruct (X eq_refl) as (v & Ev & Dv). rewrite (ST _ _ _ E) in Ev. injection Ev as <-. assert (B : b = true) by (apply DG; exact Dv). auto.
    + intros (B & _). split; [lia|]. split; [intros _; exists (cv_v a); split; [now apply ST|]; now apply DG|lia].
  - replace (Z.of_nat s =? 0)%Z with false in * by lia. replace (Z.of_nat t =? 0)%Z with false in * by lia. cbv iota in H, Ho. replace (Z.to_nat (Z.of_nat s - 1)) with (s - 1)%nat in * by lia. replace (Z.to_nat (Z.of_nat t - 1)) with (t - 1)%nat in * by lia.
    mstep H. apply RD in E. mstep H. apply RD in E0. rename a into x, a0 into y. rewrite E, E0 in Ho. cbn [rd] in Ho. rewrite !obind_ok in Ho.
    split.
    + intros (_ & _ & X). destruct (X ltac:(lia) ltac:(lia)) as (v & w & Ev & Ew & Iv & Iw & Cv & Cw & Sv & Sw & Vs). rewrite (ST _ _ _ E) in Ev. rewrite (ST _ _ _ E0) in Ew. injection Ev as <-. injection Ew as <-.
      assert (C1 : (if (Z.of_nat s =? 1)%Z then a_connectable A (vs_sp (cv_v x)) else ret true) = ret true) by (destruct (Z.eqb_spec (Z.of_nat s) 1); [apply Cv; lia|reflexivity]).
      assert (C2 : (if (Z.of_nat t =? 1)%Z then a_connectable A (vs_sp (cv_v y)) else ret true) = ret true) by (destruct (Z.eqb_spec (Z.of_nat t) 1); [apply Cw; lia|reflexivity]).
      rewrite C1, pbind_val in H. cbn [negb] in H. rewrite C2, pbind_val in H. cbn [negb] in H. unfold cgeom in H. rewrite (proj2 (IF _) Iv), (proj2 (IF _) Iw) in H. cbn [orb] in H. rewrite Sv, pbind_val, Sw, pbind_val in H. apply ret_inj in H. subst b. cbn [negb] in Ho.
      split; [reflexivity|]. specialize (Ho eq_refl). rewrite Vs, pbind_val in Ho. cbn [negb] in Ho. do 7 mstep Ho. apply ret_inj in Ho. subst o. discriminate.
    + intros (B & On). subst b. specialize (Ho eq_refl). split; [lia|]. split; [lia|]. intros _ _. exists (cv_v x), (cv_v y). split; [now apply ST|]. split; [now apply ST|].
      mstep H. destruct a; cbn [negb] in H; [|now apply ret_inj in H]. mstep H. destruct a; cbn [negb] in H; [|now apply ret_inj in H]. destruct (infinite (cgeom x)) eqn:I1; [now apply ret_inj in H|]. destruct (infinite (cgeom y)) eqn:I2; [now apply ret_inj in H|]. cbn [orb] in H.
      mstep H. destruct a; [now apply ret_inj in H|]. mstep H. apply ret_inj in H. destruct a; [discriminate|].
      split; [now apply IF|]. split; [now apply IF|]. split; [intros ->; exact E1|]. split; [intros ->; exact E2|]. split; [exact E3|]. split; [exact E4|].
      mstep Ho. destruct a; [exact E5|]. cbn [negb] in Ho. apply ret_inj in Ho. congruence.
Qed.

Lemma zero_is : is_zero v0 = true.
Proof. unfold is_zero, v0. cbn. destruct (Req_EM_T 0 0); [reflexivity|contradiction]. Qed.
(** A strategy splats exactly if its ends can be joined and the contribution is not zero. *)
Theorem C71_connects : forall A qL qE s t o, (2 <= s + t)%nat -> connect_and_eval_contrb A qE qL (Z.of_nat s) (Z.of_nat t) = ret o ->
  (o <> None -> connects A qL qE s t) /\ (forall C rp, o = Some (C, rp) -> C <> v0).
Proof.
  intros A qL qE s t o N H. destruct o as [(C & rp)|]; [|split; congruence]. apply connect_value in H as (H1 & H2 & H3); [|exact N].
  split; [intros _; apply (connects_iff A qL qE s t true N H1 (Some C) (fun _ => H2)); split; congruence|]. intros C' rp' [= <- <-] ->. now rewrite zero_is in H3.
Qed.
Print Assumptions C71_connects.
(** If it does not splat a path that it can sample, it had nothing to: the ends do not see each other (or are at
    infinity), or the measurement contribution is zero. *)
Theorem C71_missed_partial : forall A U V qL qE s t p q f r, sane A U V -> honest A U V -> sampled A U LE qL -> sampled A U EL qE -> (2 <= s + t)%nat -> joined (strip qL) (strip qE) s t p ->
  last_component A qL qE s t r -> pdf_bidir A p (Z.of_nat s) = ret q -> q <> 0 -> eval_measurement_contrb_bidir A p (Z.of_nat s) = ret f ->
  connect_and_eval_contrb A qE qL (Z.of_nat s) (Z.of_nat t) = ret None -> f = v0 \/ ~ connects A qL qE s t.
Proof.
  intros A U V qL qE s t p q f r SA HA (fL & rL & mL & UL & HL) (fE & rE & mE & UE & HE) N J (R1 & R2 & R3) Hq Nz Hf HC.
  unfold connect_and_eval_contrb in HC. replace ((Z.of_nat s <? 0) || (Z.of_nat t <? 0) || (Z.of_nat s + Z.of_nat t <? 2))%Z with false in HC by lia. mstep HC. destruct a; cbn [negb] in HC.
  2: { right. intros X. apply (connects_iff A qL qE s t false N E None) in X; [|discriminate]. destruct X; discriminate. }
  mstep HC. destruct a as [C|].
  - left. assert (Z0 : is_zero C = true) by (destruct (is_zero C); [reflexivity|]; mstep HC; apply ret_inj in HC; discriminate). apply is_zero_true in Z0. subst C.
    rewrite (value_contribution A U V fL rL mL qL fE rE mE qE s t p q f v0 r); auto. unfold vscale, v0. cbn. f_equal; ring.
  - right. intros X. apply (connects_iff A qL qE s t true N E None) in X; [|auto]. destruct X as (_ & X). now apply X.
Qed.
Print Assumptions C71_missed_partial.

(** What the strategy with [s] and [t] vertices adds to the film *)
Definition splats (A : api) (min_verts max_verts : Z) (qL qE : cpath) (s t : nat) (l : list (vec2 * vec3)) : Prop :=
  ((min_verts <= Z.of_nat (s + t) <= max_verts)%Z ->
    (connect_and_eval_contrb A qE qL (Z.of_nat s) (Z.of_nat t) = ret None /\ l = []) \/
    (exists C rp w, connect_and_eval_contrb A qE qL (Z.of_nat s) (Z.of_nat t) = ret (Some (C, rp)) /\ opt_mis_weight A qE qL s t = ret w /\ l = [(rp, vscale w C)])) /\
  (~ (min_verts <= Z.of_nat (s + t) <= max_verts)%Z -> l = []).
(** One sample: the splats of all pairs of lengths of the two subpaths, each once. *)
Lemma each_map {X} (f : X -> pm (list (vec2 * vec3))) : forall l r, each l f = ret r -> exists g, (forall x, In x l -> f x = ret (g x)) /\ r = flat_map g l.
Proof.
  induction l as [|x l IH]; intros r H; cbn [each] in H.
  - apply ret_inj in H. subst r. exists (fun _ => []). split; [intros ? []|reflexivity].
  - mstep H. mstep H. apply ret_inj in H. subst r. destruct (IH _ E0) as (g & Hg & ->).
    exists (fun y => match f y with Ok (Val b) => b | _ => [] end). split.
    + intros y [<-|Y]; [now rewrite E|]. now rewrite (Hg y Y).
    + cbn [flat_map]. rewrite E. cbn. f_equal. clear - Hg. induction l as [|y l IH]; [reflexivity|]. cbn [flat_map]. rewrite (Hg y) by now left. cbn. f_equal. apply IH. intros z Hz. apply Hg. now right.
Qed.
Theorem C71_sample : forall A min_verts max_verts fuel rngE rngL l, opt_sample A min_verts max_verts fuel rngE rngL = ret l ->
  exists qL qE c, opt_subpath A fuel rngL max_verts LE = ret qL /\ opt_subpath A fuel rngE max_verts EL = ret qE /\
    (forall s t, (s <= length qL)%nat -> (t <= length qE)%nat -> splats A min_verts max_verts qL qE s t (c s t)) /\
    l = flat_map (fun s => flat_map (c s) (seq 0 (S (length qE)))) (seq 0 (S (length qL))).
Proof.
  intros A mn mx fuel rngE rngL l H. unfold opt_sample in H. mstep H. mstep H. rename a into qE, a0 into qL. exists qL, qE.
  exists (fun s t => match opt_strategy A mn mx qE qL s t with Ok (Val b) => b | _ => [] end). split; [exact E0|]. split; [exact E|].
  apply each_map in H as (g & Hg & ->).
  assert (Ev : forall s t, (s <= length qL)%nat -> (t <= length qE)%nat -> exists b, opt_strategy A mn mx qE qL s t = ret b).
  { intros s t Ls Lt. specialize (Hg s ltac:(apply in_seq; lia)). apply each_map in Hg as (h & Hh & _). exists (h t). apply Hh, in_seq. lia. }
  split.
  - intros s t Ls Lt. destruct (Ev s t Ls Lt) as (b & Eb). rewrite Eb. cbn [ret]. unfold opt_strategy in Eb. destruct ((Z.of_nat (s + t) <? mn) || (mx <? Z.of_nat (s + t)))%Z eqn:G.
    + apply ret_inj in Eb. subst b. split; [lia|reflexivity].
    + split; [intros _|lia]. mstep Eb. destruct a as [(C & rp)|]; [|apply ret_inj in Eb; subst b; now left]. right. mstep Eb. apply ret_inj in Eb. subst b. exists C, rp, a. auto.
  - assert (F : forall (X Y : Type) (u v : X -> list Y) k, (forall x, In x k -> u x = v x) -> flat_map u k = flat_map v k).
    { intros X Y u v k. induction k as [|x k IH]; intros Q; [reflexivity|]. cbn. rewrite (Q x) by now left. f_equal. apply IH. intros y Hy. apply Q. now right. }
    apply F. intros s Hs. specialize (Hg s Hs). apply each_map in Hg as (h & Hh & ->). apply F. intros t Ht. now rewrite (Hh t Ht).
Qed.
Print Assumptions C71_sample.

(** Every splat is worth the measurement contribution of its path over the sum of the densities of all
    strategies, if every vertex has a single component. *)
Theorem C71_splat_partial : forall A U V min_verts max_verts qL qE s t p F B b q f l, sane A U V -> honest A U V -> sampled A U LE qL -> sampled A U EL qE -> (2 <= s + t)%nat -> joined (strip qL) (strip qE) s t p ->
  densities A p F B b -> (forall v w, In v p \/ In v (strip qL) \/ In v (strip qE) -> a_pdf_component A (vs_sp v) w (vs_comp v) = ret 1) ->
  pdf_bidir A p (Z.of_nat s) = ret q -> q <> 0 -> eval_measurement_contrb_bidir A p (Z.of_nat s) = ret f -> splats A min_verts max_verts qL qE s t l ->
  forall rp v, In (rp, v) l -> vscale (total (S (s + t)) (density_of F B b (s + t))) v = f.
Proof.
  intros A U V mn mx qL qE s t p F B b q f l SA HA SL SE N J D Cp Hq Nz Hf (P1 & P2) rp v Hin.
  destruct (Z_le_dec mn (Z.of_nat (s + t))) as [M1|M1]; [|rewrite P2 in Hin by lia; destruct Hin]. destruct (Z_le_dec (Z.of_nat (s + t)) mx) as [M2|M2]; [|rewrite P2 in Hin by lia; destruct Hin].
  destruct (P1 ltac:(lia)) as [(_ & ->)|(C & rp' & w & HC & Hw & ->)]; [destruct Hin|]. destruct Hin as [[= <- <-]|[]].
  assert (LP : length p = (s + t)%nat) by apply J.
  assert (Dq : pdf_bidir A p (Z.of_nat s) = ret (density_of F B b (length p) s)) by (apply C39_optimised_densities; auto; lia). rewrite Hq, LP in Dq. apply ret_inj in Dq.
  destruct (C39_optimised A U V qL qE s t p F B b SA SL SE N J D ltac:(now rewrite <- Dq)) as (w' & Hw' & Ew). rewrite Hw in Hw'. apply ret_inj in Hw'. subst w'.
  assert (Ef : f = vscale (q * 1) C).
  { apply (C71_contribution_partial A U V qL qE s t p q f C rp' 1); auto. split; [auto|]. split; intros x wx _ Hx _; apply Cp; [right; right; apply (nth_error_In _ (t - 1)%nat)|right; left; apply (nth_error_In _ (s - 1)%nat)]; unfold strip; now rewrite nth_error_map, Hx. }
  rewrite Ef, Dq, <- Ew. destruct C; unfold vscale; cbn; f_equal; ring.
Qed.
Print Assumptions C71_splat_partial.

(** The splat goes to where the path meets the film. If the walk from the light hit the camera ([t] = 0) it does not:
    the tracer looks up the direction in which that walk would go on. *)
Theorem C71_raster_partial : forall A U V qL qE s t p C rp rp', sane A U V -> sampled A U EL qE -> (2 <= s + t)%nat -> (1 <= t)%nat -> joined (strip qL) (strip qE) s t p ->
  connect_and_eval_contrb A qE qL (Z.of_nat s) (Z.of_nat t) = ret (Some (C, rp)) -> raster_of_path A p = ret rp' -> rp = rp'.
Proof.
  intros A U V qL qE s t p C rp rp' SA (fE & rE & mE & UE & HE) N T J HC HR. assert (IE := subpath_indexed _ _ _ _ _ _ _ _ SA UE HE).
  unfold connect_and_eval_contrb in HC. replace ((Z.of_nat s <? 0) || (Z.of_nat t <? 0) || (Z.of_nat s + Z.of_nat t <? 2))%Z with false in HC by lia. mstep HC. destruct a; cbn [negb] in HC; [|apply ret_inj in HC; discriminate].
  mstep HC. destruct a as [C'|]; [|apply ret_inj in HC; discriminate]. destruct (is_zero C'); [apply ret_inj in HC; discriminate|]. mstep HC. apply ret_inj in HC. injection HC as _ ->. clear E E0. rename E1 into HC.
  destruct J as (S1 & S2 & LP & JL & JE & _). unfold strip in S1, S2. rewrite map_length in S1, S2.
  assert (Get : forall q k, (k < length q)%nat -> exists x : cvert, nth_error q k = Some x /\ nth_error (strip q) k = Some (cv_v x)).
  { intros q k K. destruct (nth_error q k) as [x|] eqn:E; [|apply nth_error_None in E; lia]. exists x. split; [reflexivity|]. unfold strip. now rewrite nth_error_map, E. }
  assert (VE : forall k, (k < s + t)%nat -> vertex_at p (Z.of_nat k) EL = nth_error p (s + t - 1 - k)).
  { intros k K. rewrite vertex_at_rev. unfold vertex_at, index, num_verts. rewrite LP. replace (Z.of_nat (s + t) - 1 - Z.of_nat k)%Z with (Z.of_nat (s + t - 1 - k)) by lia. replace ((0 <=? Z.of_nat (s + t - 1 - k)) && (Z.of_nat (s + t - 1 - k) <? Z.of_nat (s + t)))%Z with true by lia. now rewrite Nat2Z.id. }
  unfold raster_of_path in HR. change 0%Z with (Z.of_nat 0) in HR. change 1%Z with (Z.of_nat 1) in HR. rewrite !VE in HR by lia. replace (s + t - 1 - 0)%nat with (s + t - 1)%nat in HR by lia.
  destruct (Get qE 0%nat ltac:(lia)) as (e & Ee & Se). destruct (JE 0%nat _ T Se) as (e' & Ee' & (_ & Ge & _) & _). replace (s + t - 1 - 0)%nat with (s + t - 1)%nat in Ee' by lia. rewrite Ee' in HR.
  unfold opt_raster in HC. replace (Z.of_nat t =? 0)%Z with false in HC by lia. mstep HR. apply okval in E. mstep HC. assert (a0 = a).
  { destruct (Nat.eq_dec t 1) as [-> |T1].
    - change (Z.of_nat 1 =? 1)%Z with true in E0. cbv iota in E0. replace (Z.to_nat (Z.of_nat s - 1)) with (s - 1)%nat in E0 by lia. destruct (Get qL (s - 1)%nat ltac:(lia)) as (x & Ex & Sx). rewrite Ex, Ee in E0. cbn [rd] in E0. rewrite !obind_ok in E0. apply okval in E0.
      destruct (JL (s - 1)%nat _ ltac:(lia) Sx) as (x' & Ex' & (_ & Gx & _) & _). replace (s + 1 - 1 - 1)%nat with (s - 1)%nat in E by lia. rewrite Ex' in E. unfold cdirection in E0. cbn [option_map] in E0.
      rewrite (direction_geom _ e' _ x') in E0 by congruence. congruence.
    - replace (Z.of_nat t =? 1)%Z with false in E0 by lia. rewrite Ee in E0. cbn [rd] in E0. rewrite obind_ok in E0. mstep E0. apply ret_inj in E0. subst a1.
      destruct (Get qE 1%nat ltac:(lia)) as (x & Ex & Sx). destruct (JE 1%nat _ ltac:(lia) Sx) as (x' & Ex' & (_ & Gx & _) & _). rewrite Ex' in E.
      assert (W := proj1 (ix_dir _ _ _ IE 0 e x Ee Ex)). unfold okw in W. rewrite (direction_geom _ e' _ x') in W by congruence. rewrite (W a E) in E1. cbn in E1. congruence. }
  subst a0. destruct (a_raster A a) as [[[r|]| |]| | |]; cbn [pbind] in HC, HR; try discriminate. apply ret_inj in HC, HR. congruence.
Qed.
Print Assumptions C71_raster_partial.

(** * An example: the eye sees the lamp below; subpaths with at most two vertices *)
Definition w_path : fullpath := [x_lamp; x_eye].
Lemma w_dirs : direction (Some x_lamp) (Some x_eye) = Val (V3 0 0 1) /\ direction (Some x_eye) (Some x_lamp) = Val (V3 0 0 (-1)).
Proof.
  unfold direction. cbn [x_lamp x_eye vs_sp igeom endpoint pos_of]. split.
  - rewrite <- (up (/ 2)) by lra. f_equal. apply vec3_eq; cbn; field.
  - rewrite <- (down (- / 2)) by lra. f_equal. apply vec3_eq; cbn; field.
Qed.
Lemma w_terms : geometry_term (igeom (vs_sp x_lamp)) (igeom (vs_sp x_eye)) = Some 4 /\ geometry_term (igeom (vs_sp x_eye)) (igeom (vs_sp x_lamp)) = Some 4.
Proof.
  unfold geometry_term. cbn [x_lamp x_eye vs_sp igeom endpoint pos_of cos_at].
  replace (dot _ _) with (/ 2 * / 2) by (unfold dot; cbn; field). replace (dot (vsub (V3 0 0 (/ 2)) _) _) with (/ 2 * / 2) by (unfold dot; cbn; field).
  rewrite sqrt_square by lra. unfold fdiv. destruct (Req_EM_T (/ 2) 0); [lra|]. destruct (Req_EM_T (/ 2 * / 2) 0); [lra|]. split; f_equal; field.
Qed.
Section W.
  Variables (neg0 : bool) (zs : vec3 -> nat -> bool) (a : accel).
  Notation A := (y_api neg0 zs a).
  Lemma w_light : exists w f, opt_subpath A 1 (fun _ => y_draw) 2 LE = ret [mk_cvert x_lamp (grey 1) w (Some v0) f None].
  Proof.
    destruct (y_ray neg0 zs a) as (w & p & Er), (x_lamp_values neg0 zs a) as (A1 & A2 & A3 & A4 & A5 & A6). unfold opt_subpath. cbn [opt_walk length]. change (Z.of_nat 0 <? 2)%Z with true. cbv iota.
    rewrite Er, pbind_val. cbv zeta. unfold pdf_start. cbn [pr_sp pr_wo pr_origin pr_weight vs_sp vs_comp]. change (a_connectable A) with (a_connectable (x_api neg0 zs a)). rewrite A1, !pbind_val. change (a_pdf_position A) with (a_pdf_position (x_api neg0 zs a)). rewrite A3, pbind_val.
    assert (Ev : vdiv (grey 1) 1 = Val (grey 1)) by (unfold vdiv; destruct (Req_EM_T 1 0); [lra|]; f_equal; unfold grey; apply vec3_eq; cbn; field).
    rewrite Ev, !pbind_okval. cbv iota. change (a_pdf_direction A) with (a_pdf_direction (x_api neg0 zs a)). rewrite A6, !pbind_val. cbn [obind a_intersect y_api].
    assert (Nv : same_vec (V3 0 0 (/ 2)) (V3 0 0 1) = false). { destruct (same_vec _ _) eqn:E; [|reflexivity]. apply same_vec_true in E. apply (f_equal vz) in E. cbn in E. lra. }
    rewrite Nv. cbn [andb]. rewrite !pbind_val. eexists _, _. reflexivity.
  Qed.
  Lemma w_joined ql qe : strip ql = [x_lamp] -> strip qe = [x_eye; x_spot] -> joined (strip ql) (strip qe) 1 1 w_path.
  Proof.
    intros -> ->. split; [cbn; lia|]. split; [cbn; lia|]. split; [reflexivity|]. split; [|split; [|split]].
    - intros [|k] v K; [|lia]. intros [= <-]. exists x_lamp. repeat split; auto.
    - intros [|k] v K; [|lia]. intros [= <-]. exists x_eye. repeat split; auto.
    - intros v _ [= <-]. reflexivity.
    - intros v [= <-]. reflexivity.
  Qed.
  Lemma w_densities : exists F B, densities A w_path F B (fun s => match s with 1%nat => true | _ => false end) /\ strategy F B 2 1 = 1.
  Proof.
    destruct (x_lamp_values neg0 zs a) as (A1 & A2 & A3 & A4 & A5 & A6), (x_eye_values neg0 zs a) as (B1 & B2 & B3 & B4 & B5 & B6), w_dirs as (D1 & D2), w_terms as (G1 & G2). pose proof LightProofs.sphere_pdf_pos as P.
    exists (fun i => match i with 0%nat => 1 | _ => pdf_uniform_sphere * 4 end), (fun i => match i with 0%nat => / 4 * 4 | _ => 1 end).
    split; [split; [|split]|].
    - change (length w_path) with 2%nat. intros [|[|i]] L; [| |lia].
      + split; [|lra]. cbn [density nth_error w_path]. unfold first_vertex. change (a_connectable A) with (a_connectable (x_api neg0 zs a)). rewrite A1, pbind_val. exact A3.
      + split; [|nra]. cbn [density nth_error w_path Nat.sub]. unfold second_vertex. change (a_connectable A) with (a_connectable (x_api neg0 zs a)). rewrite A1, pbind_val, D1, pbind_okval. change (a_pdf_direction A) with (a_pdf_direction (x_api neg0 zs a)). rewrite A6, pbind_val.
        unfold convert_to_area. rewrite G1. reflexivity.
    - change (length w_path) with 2%nat. change (rev w_path) with [x_eye; x_lamp]. intros [|[|i]] L; [| |lia].
      + split; [|lra]. cbn [density nth_error Nat.sub]. unfold second_vertex. change (a_connectable A) with (a_connectable (x_api neg0 zs a)). rewrite B1, pbind_val, D2, pbind_okval. change (a_pdf_direction A) with (a_pdf_direction (x_api neg0 zs a)). rewrite B6, pbind_val.
        unfold convert_to_area. rewrite G2. reflexivity.
      + split; [|lra]. cbn [density nth_error Nat.sub]. unfold first_vertex. change (a_connectable A) with (a_connectable (x_api neg0 zs a)). rewrite B1, pbind_val. exact B3.
    - change (length w_path) with 2%nat. intros [|[|[|s]]] L; [| | |lia]; reflexivity.
    - unfold strategy. cbn. lra.
  Qed.
  Lemma w_raster : exists rp, raster_position x_cam (V3 0 0 (-1)) = Val (Some rp).
  Proof.
    destruct (raster_position x_cam (V3 0 0 (-1))) as [[rp|]| |] eqn:ER; [eauto|exfalso..]; destruct x_cam_values as (V1 & _); unfold cam_pdf_direction in V1; rewrite ER in V1; try discriminate. cbn in V1. injection V1. lra.
  Qed.
  Notation qE f r g := [mk_cvert x_eye (grey 1) (Some (V3 0 0 (-1))) (Some v0) f r; mk_cvert x_spot (grey 1) None (Some (V3 0 0 1)) g None].
  Notation qL w f := [mk_cvert x_lamp (grey 1) w (Some v0) f None].
  Lemma w_connect w f f' r g : exists rp, connect_and_eval_contrb A (qE f' r g) (qL w f) (Z.of_nat 1) (Z.of_nat 1) = ret (Some (grey 1, rp)) /\ raster_of_path A w_path = ret rp.
  Proof.
    destruct (x_lamp_values neg0 zs a) as (A1 & A2 & A3 & A4 & A5 & A6), (x_eye_values neg0 zs a) as (B1 & B2 & B3 & B4 & B5 & B6), w_dirs as (D1 & D2), w_terms as (G1 & G2), w_raster as (rp & ER). exists rp. split.
    - unfold connect_and_eval_contrb. change (_ || _ || _)%bool with false. cbv iota. change (opt_samplable _ _ _ _ _) with (ret true). rewrite pbind_val. cbn [negb].
      assert (OV : opt_value A (qE f' r g) (qL w f) (Z.of_nat 1) (Z.of_nat 1) = ret (Some (grey 1))).
      { unfold opt_value. change (Z.of_nat 1 =? 0)%Z with false. cbv iota. change (Z.to_nat (Z.of_nat 1 - 1)) with 0%nat. cbn [nth_error rd obind]. change (a_visible A ?[p] ?[q]) with (ret true). rewrite pbind_val. cbn [negb cv_wr rd obind].
        unfold cdirection, cgeom. cbn [option_map cv_v cv_alpha]. rewrite D1, D2, !pbind_okval. change (a_contrb A) with (a_contrb (x_api neg0 zs a)). rewrite A5, !pbind_val. rewrite !pbind_okval. rewrite B5, pbind_val, G1. cbn [of_option]. rewrite pbind_okval. unfold ret. do 3 f_equal. unfold grey, vmul, vscale. cbn. f_equal; field. }
      rewrite OV, pbind_val. assert (Z0 : is_zero (grey 1) = false). { destruct (is_zero _) eqn:E; [|reflexivity]. apply is_zero_true in E. apply (f_equal vx) in E. cbn in E. lra. }
      rewrite Z0. unfold opt_raster. change (Z.of_nat 1 =? 0)%Z with false. change (Z.of_nat 1 =? 1)%Z with true. cbv iota. change (Z.to_nat (Z.of_nat 1 - 1)) with 0%nat. cbn [nth_error rd]. rewrite !obind_ok. unfold cdirection. cbn [option_map cv_v]. rewrite D2, !pbind_okval.
      change (a_raster A (V3 0 0 (-1))) with (Ok (raster_position x_cam (V3 0 0 (-1)))). rewrite ER, pbind_okval, pbind_val. reflexivity.
    - unfold raster_of_path. change (vertex_at w_path 0 EL) with (Some x_eye). change (vertex_at w_path 1 EL) with (Some x_lamp). rewrite D2, pbind_okval. change (a_raster A (V3 0 0 (-1))) with (Ok (raster_position x_cam (V3 0 0 (-1)))). now rewrite ER, pbind_okval.
  Qed.
  Lemma w_none w f f' r g : connect_and_eval_contrb A (qE f' r g) (qL w f) (Z.of_nat 0) (Z.of_nat 2) = ret None.
  Proof.
    unfold connect_and_eval_contrb. change (_ || _ || _)%bool with false. cbv iota. change (opt_samplable _ _ _ _ _) with (ret true). rewrite pbind_val. cbn [negb].
    unfold opt_value. change (Z.of_nat 0 =? 0)%Z with true. cbv iota. change (Z.to_nat (Z.of_nat 2 - 1)) with 1%nat. cbn [nth_error rd cv_wr cv_v obind].
    change (a_contrb A (as_type (vs_sp x_spot) LightEndpoint) v0 (V3 0 0 1) 0 LE true) with (ret v0). rewrite !pbind_val.
    replace (vmul v0 (cv_alpha _)) with v0 by (apply vec3_eq; cbn; ring). now rewrite zero_is.
  Qed.
End W.
(** The sample has one splat: the lamp, in full. *)
Example C71_sample_example : forall neg0 zs, exists a rp qL qE F B b q f, let A := y_api neg0 zs a in opt_sample A 2 2 1 (fun _ => y_draw) (fun _ => y_draw) = ret [(rp, grey 1)] /\
  sane A in_range scene_point /\ honest A in_range scene_point /\ sampled A in_range LE qL /\ sampled A in_range EL qE /\ joined (strip qL) (strip qE) 1 1 w_path /\ densities A w_path F B b /\
  (forall v w, In v w_path \/ In v (strip qL) \/ In v (strip qE) -> a_pdf_component A (vs_sp v) w (vs_comp v) = ret 1) /\ pdf_bidir A w_path (Z.of_nat 1) = ret q /\ q <> 0 /\ eval_measurement_contrb_bidir A w_path (Z.of_nat 1) = ret f /\
  splats A 2 2 qL qE 1 1 [(rp, grey 1)] /\ connects A qL qE 1 1 /\ raster_of_path A w_path = ret rp /\ connect_and_eval_contrb A qE qL (Z.of_nat 0) (Z.of_nat 2) = ret None.
Proof.
  intros neg0 zs. destruct (x_built None None) as (a & Bu & D). destruct (w_light neg0 zs a) as (w & f & HL), (y_camera neg0 zs a) as (f' & r & g & HE), (w_densities neg0 zs a) as (F & B & HD & St).
  destruct (w_connect neg0 zs a w f f' r g) as (rp & HC & HR). pose proof (w_none neg0 zs a w f f' r g) as HN.
  match type of HL with _ = ret ?x => set (qL := x) in * end. match type of HE with _ = ret ?x => set (qE := x) in * end.
  assert (SL : sampled (y_api neg0 zs a) in_range LE qL) by (exists 1%nat, (fun _ => y_draw), 2%Z; split; [intros _; apply y_range|exact HL]).
  assert (SE : sampled (y_api neg0 zs a) in_range EL qE) by (exists 1%nat, (fun _ => y_draw), 2%Z; split; [intros _; apply y_range|exact HE]).
  assert (J : joined (strip qL) (strip qE) 1 1 w_path) by now apply w_joined.
  assert (Sa := y_sane neg0 zs a Bu D). assert (Ho := y_honest neg0 zs a).
  assert (Cp : forall v w, In v w_path \/ In v (strip qL) \/ In v (strip qE) -> a_pdf_component (y_api neg0 zs a) (vs_sp v) w (vs_comp v) = ret 1).
  { intros v u Hv. cbn in Hv. assert (Hx : v = x_lamp \/ v = x_eye \/ v = x_spot) by intuition. destruct Hx as [-> |[-> | ->]]; reflexivity. }
  destruct (C39_optimised _ _ _ qL qE 1 1 w_path F B _ Sa SL SE ltac:(lia) J HD) as (w' & Hw & Ew); [unfold density_of; change (1 + 1)%nat with 2%nat; rewrite St; lra|]. unfold density_of in Ew. cbn [total Nat.add] in Ew. rewrite St in Ew. assert (w' = 1) by lra. subst w'.
  assert (Dq : pdf_bidir (y_api neg0 zs a) w_path (Z.of_nat 1) = ret 1). { rewrite (C39_optimised_densities _ w_path F B _ 1 ltac:(cbn; lia) ltac:(cbn; lia) HD); [|intros v u Hv; apply Cp; now left]. unfold density_of. change (length w_path) with 2%nat. now rewrite St. }
  exists a, rp, qL, qE, F, B. eexists _, 1, (grey 1). cbv zeta. split; [|split; [exact Sa|split; [exact Ho|split; [exact SL|split; [exact SE|split; [exact J|split; [exact HD|split; [exact Cp|split; [exact Dq|split; [lra|split]]]]]]]]]].
  - unfold opt_sample. rewrite HE, pbind_val, HL, pbind_val. change (length qL) with 1%nat. change (length qE) with 2%nat. cbn [seq each]. 
    assert (O : forall s t, (s + t <> 2)%nat -> opt_strategy (y_api neg0 zs a) 2 2 qE qL s t = ret []) by (intros s t H; unfold opt_strategy; replace ((Z.of_nat (s + t) <? 2) || (2 <? Z.of_nat (s + t)))%Z with true by lia; reflexivity).
    rewrite !O by lia. unfold opt_strategy. change ((Z.of_nat (0 + 2) <? 2) || (2 <? Z.of_nat (0 + 2)))%Z with false. change ((Z.of_nat (1 + 1) <? 2) || (2 <? Z.of_nat (1 + 1)))%Z with false. cbv iota. rewrite HN, HC, !pbind_val. cbv iota. rewrite Hw, !pbind_val. cbn [app]. replace (vscale 1 (grey 1)) with (grey 1) by (apply vec3_eq; cbn; ring). reflexivity.
  - change 1%Z with (Z.of_nat 1). destruct (x_lamp_values neg0 zs a) as (A1 & A2 & A3 & A4 & A5 & A6), (x_eye_values neg0 zs a) as (B1 & B2 & B3 & B4 & B5 & B6), w_dirs as (D1 & D2), w_terms as (G1 & G2).
    unfold eval_measurement_contrb_bidir. change (num_verts w_path - Z.of_nat 1)%Z with 1%Z. change (Z.of_nat 1 =? 0)%Z with false. change (1 =? 0)%Z with false. cbv iota. change (Z.to_nat (Z.of_nat 1 - 1)) with 0%nat. change (Z.to_nat (1 - 1)) with 0%nat. cbn [contrb_loop]. rewrite !pbind_val.
    unfold eval_connection_term. change (num_verts w_path - Z.of_nat 1)%Z with 1%Z. change (Z.of_nat 1 =? 0)%Z with false. change (1 =? 0)%Z with false. change (0 <? Z.of_nat 1)%Z with true. change (0 <? 1)%Z with true. cbn [andb].
    change (vertex_at w_path (Z.of_nat 1 - 1) LE) with (Some x_lamp). change (vertex_at w_path (1 - 1) EL) with (Some x_eye). change (vertex_at w_path (Z.of_nat 1 - 2) LE) with (@None vert). change (vertex_at w_path (1 - 2) EL) with (@None vert). cbn [at_vert]. rewrite !obind_ok, D1, D2.
    change (direction (Some x_lamp) None) with (@Val vec3 v0). change (direction (Some x_eye) None) with (@Val vec3 v0). rewrite !pbind_okval. change (a_contrb (y_api neg0 zs a)) with (a_contrb (x_api neg0 zs a)). rewrite A5, pbind_val, !pbind_okval, B5, pbind_val, G1. cbn [of_option]. rewrite pbind_okval, pbind_val. unfold ret. do 2 f_equal. unfold grey, vmul, vscale. cbn. f_equal; field.
  - split; [|split; [|split; [exact HR|exact HN]]].
    + split; [|intros X; exfalso; apply X; cbn; lia]. intros _. right. exists (grey 1), rp, 1. split; [exact HC|]. split; [exact Hw|]. do 2 f_equal. unfold vscale, grey. cbn. f_equal; ring.
    + apply (C71_connects _ qL qE 1 1 _ (le_n 2) HC). discriminate.
Qed.
