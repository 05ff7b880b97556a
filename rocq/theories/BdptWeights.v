(** Proofs about the throughputs that the optimised bidirectional path tracer caches *)
From Coq Require Import List Reals ZArith Bool Lra Lia ZifyBool Psatz.
From Verif Require Import Base RBase VecBase SurfModel MatModel CamModel LightModel PathModel BidirModel BidirSpec BidirProofs SurfSpec BdptModel BdptSpec BdptProofs.
From Verif Require CamProofs.
Import ListNotations.
Open Scope R_scope.

Section Traced.
  Variables (A : api) (U : draw -> Prop) (V : interaction -> Prop) (d : trans_dir).
  Record traced (q : cpath) : Prop := {
    tr_first : forall x, nth_error q 0 = Some x -> started A x /\ it (vs_sp (cv_v x)) = start_type d;
    tr_second : forall x y, nth_error q 0 = Some x -> nth_error q 1 = Some y -> by_ray A U d x y;
    tr_later : forall k x y, nth_error q (S k) = Some x -> nth_error q (S (S k)) = Some y -> by_direction A U d x y;
    tr_V : forall k x, nth_error q k = Some x -> V (vs_sp (cv_v x)) }.
  Lemma cached_traced q : cached A U V d q -> traced (rev q).
  Proof.
    induction 1 as [v Hv Ht Hw Hp Hs|v u C IH Hv Hg _ Hr W1 W2 Hp|x v u r C IH Hv Hg _ Hr W1 W2 Hp Hq]; cbn [rev app].
    - constructor; intros.
      + injection H as <-. auto.
      + discriminate.
      + destruct k; discriminate.
      + destruct k as [|[|k]]; [|discriminate..]. injection H as <-. exact Hv.
    - destruct IH as [I1 I2 I3 I4]. constructor; intros.
      + apply I1. exact H.
      + cbn in *. injection H as <-. injection H0 as <-. exact Hr.
      + destruct k; discriminate.
      + destruct k as [|[|k]]; [|injection H as <-; exact Hv|destruct k; discriminate]. apply (I4 0%nat). exact H.
    - destruct IH as [I1 I2 I3 I4]. change ((rev r ++ [u]) ++ [v]) with (rev (v :: u :: r)) in *. set (q := rev (v :: u :: r)) in *.
      assert (L : length q = (2 + length r)%nat) by (unfold q; rewrite rev_length; reflexivity).
      assert (N1 : nth_error q (S (length r)) = Some v). { unfold q. cbn [rev]. rewrite nth_snoc. rewrite app_length, rev_length. cbn [length]. replace (S (length r) =? length r + 1)%nat with true by lia. reflexivity. }
      constructor; intros; rewrite nth_snoc in *; rewrite L in *; cbn [Nat.add] in *; try change (0 =? S _)%nat with false in *; try change (1 =? S (S _))%nat with false in *.
      + auto.
      + eauto.
      + destruct (S (S k) =? S (S (length r)))%nat eqn:K.
        * replace k with (length r) in * by lia. replace (S (length r) =? S (S (length r)))%nat with false in H by lia. injection H0 as <-. rewrite N1 in H. injection H as <-. exact Hr.
        * assert (K1 := nth_lt _ _ _ H0). rewrite L in K1. replace (S k =? S (S (length r)))%nat with false in H by lia. eauto.
      + destruct (k =? S (S (length r)))%nat; [injection H as <-; exact Hv|eauto].
  Qed.
End Traced.
Lemma nil_traced A U V d : traced A U V d [].
Proof. constructor; intros; try destruct k; discriminate. Qed.
Lemma subpath_traced A U V fuel rng max d q : sane A U V -> (forall k, U (rng k)) -> opt_subpath A fuel rng max d = ret q -> traced A U V d q.
Proof.
  intros S RU H. unfold opt_subpath in H. mstep H. apply ret_inj in H. subst q. apply (walk_cached A U V d fuel S) in E; [|exact RU|now left].
  destruct E as [-> |C]; [apply nil_traced|]. apply cached_traced; exact C.
Qed.

Lemma vscale_vscale a b v : vscale a (vscale b v) = vscale (a * b) v.
Proof. unfold vscale; cbn. f_equal; ring. Qed.

Section Side.
  Variables (A : api) (U : draw -> Prop) (V : interaction -> Prop) (d : trans_dir) (p : fullpath) (Q : nat -> vert) (q : cpath) (n l : nat) (r : R).
  Hypothesis HA : honest A U V.
  Hypothesis T : traced A U V d q.
  Hypothesis I : indexed A (start_type d) q.
  Hypothesis N : (2 <= n)%nat.
  Hypothesis HQ : forall k, (k < n)%nat -> vertex_at p (Z.of_nat k) d = Some (Q k).
  Hypothesis Hq : forall k, (k < l)%nat -> exists x, nth_error q k = Some x /\ same_place (cv_v x) (Q k) /\ ((k < n - 1)%nat -> Q k = cv_v x).
  Hypothesis Hl : (1 <= l <= n)%nat.
  Hypothesis He : l = n -> it (vs_sp (Q (n - 1)%nat)) = LightEndpoint \/ it (vs_sp (Q (n - 1)%nat)) = CameraEndpoint.
  Hypothesis Hr : forall x w, l = n -> nth_error q (n - 1) = Some x -> cv_wr x = Some w -> a_pdf_component A (vs_sp (cv_v x)) w (vs_comp (cv_v x)) = ret r.
  (** The probability of the component is not part of the density of the last vertex. *)
  Definition extra (k : nat) : R := if (k =? n - 1)%nat then r else 1.

  Lemma at_q k : (k < l)%nat -> vertex_at p (Z.of_nat k) d = Some (Q k).
  Proof using HQ Hl. clear - HQ Hl. intros K. apply HQ. lia. Qed.
  Lemma geom_q k x : (k < l)%nat -> nth_error q k = Some x -> igeom (vs_sp (Q k)) = igeom (vs_sp (cv_v x)).
  Proof using Hq. clear - Hq. intros K Hx. destruct (Hq k K) as (y & Hy & (_ & G & _) & _). assert (y = x) by congruence. subst y. congruence. Qed.
  Lemma same_q k x : (k < l)%nat -> (k < n - 1)%nat -> nth_error q k = Some x -> Q k = cv_v x.
  Proof using Hq. clear - Hq. intros K K' Hx. destruct (Hq k K) as (y & Hy & _ & E). assert (y = x) by congruence. subst y. auto. Qed.
  (** The component probability in the density of vertex [k], and the weight of the selection *)
  Lemma component k x w u c pc : (0 < k < l)%nat -> nth_error q k = Some x -> cv_wr x = Some w -> unit w -> U u ->
    a_sample_component A u (vs_sp (cv_v x)) w = ret (vs_comp (cv_v x), c) -> a_pdf_component A (vs_sp (Q k)) w (vs_comp (Q k)) = ret pc -> pc * extra k * c = 1.
  Proof using HA T Hq Hl He Hr.
    intros K Hx Hw Uw Uu Hc Hp. assert (Vx := tr_V _ _ _ _ _ T k x Hx). unfold extra. destruct (k =? n - 1)%nat eqn:E.
    - assert (l = n) by (clear - E K Hl; lia). assert (k = (n - 1)%nat) by (clear - E; lia). subst k. assert (R1 := honest_component _ _ _ HA _ _ _ _ _ _ Uu Vx Uw Hc (Hr x w H Hx Hw)).
      rewrite (honest_end _ _ _ HA _ _ _ _ (He H) Hp). lra.
    - rewrite (same_q k x) in Hp by (exact Hx || (clear - E K Hl; lia)). rewrite Rmult_1_r. exact (honest_component _ _ _ HA _ _ _ _ _ _ Uu Vx Uw Hc Hp).
  Qed.

  Lemma later k : forall i x y f0 q0 f pq, (1 <= i)%nat -> (i + k < l)%nat -> nth_error q i = Some x -> nth_error q (i + k) = Some y -> f0 = vscale (q0 * extra i) (cv_alpha x) ->
    contrb_loop A p d (Z.of_nat i) k f0 = ret f -> pdf_loop A p d (Z.of_nat i) k q0 = ret pq -> f = vscale (pq * extra (i + k)) (cv_alpha y).
  Proof using HA T I N HQ Hq Hl He Hr.
    induction k as [|k IH]; intros i x y f0 q0 f pq I1 IK Hx Hy E0 Hf Hp; cbn [contrb_loop pdf_loop] in Hf, Hp.
    - rewrite Nat.add_0_r in *. apply ret_inj in Hf, Hp. subst. assert (y = x) by congruence. now subst y.
    - destruct (Hq (S i) ltac:(clear - IK; lia)) as (z & Hz & _). destruct i as [|i]; [lia|]. destruct (tr_later _ _ _ _ _ T i x z Hx Hz) as (u & wr & wo & w & c & Uu & Wr & Ur & Pk & Uo & Sd & Dz & Sc & Al & Wz).
      destruct (Hq i ltac:(clear - IK; lia)) as (m & Hm & _).
      assert (Ix : (S i < n - 1)%nat) by (clear - IK Hl; lia). assert (Qx := same_q (S i) x ltac:(clear - IK; lia) Ix Hx).
      assert (Qm := same_q i m ltac:(clear - IK; lia) ltac:(clear - Ix; lia) Hm).
      assert (A1 := at_q i ltac:(clear - IK; lia)). assert (A2 := at_q (S i) ltac:(clear - IK; lia)). assert (A3 := at_q (S (S i)) ltac:(clear - IK; lia)).
      replace (Z.of_nat (S i) - 1)%Z with (Z.of_nat i) in * by lia. replace (Z.of_nat (S i) + 1)%Z with (Z.of_nat (S (S i))) in * by lia.
      rewrite A1, A2, A3, Qx in *. cbn [at_vert] in *. rewrite obind_ok in Hf. rewrite obind_ok in Hp. mstep Hf. mstep Hp. assert (a0 = a) by (apply ret_inj; congruence). subst a0. apply okval in E. clear E1.
      mstep Hf. mstep Hp. assert (a1 = a0) by (apply ret_inj; congruence). subst a1. apply okval in E1. clear E2. rewrite obind_ok in Hp. mstep Hf. mstep Hp. mstep Hp. mstep Hp. rewrite obind_ok in Hf. mstep Hf.
      apply okval in E5, E6. unfold convert_to_area in E5. destruct (geometry_term _ _) as [G|]; cbn [of_option] in *; [|discriminate]. injection E5 as <-. injection E6 as <-.
      destruct (ix_dir _ _ _ I i m x Hm Hx) as (_ & Wx). rewrite Qm in E. apply Wx in E. assert (a = wr) by congruence. subst a.
      rewrite (direction_geom (cv_v x) (cv_v x) (Q (S (S i))) (cv_v z) eq_refl (geom_q (S (S i)) z ltac:(clear - IK; lia) Hz)) in E1. assert (Dz' := Dz _ E1). subst a0.
      assert (CC := component (S (S i)) z (vneg wo) u c a2 ltac:(clear - IK; lia) Hz Wz (unit_vneg _ Uo) Uu Sc E3).
      rewrite (honest_direction _ _ _ HA _ _ _ _ _ _ _ _ _ Uu (tr_V _ _ _ _ _ T _ _ Hx) Ur Pk Sd E2 E4) in *.
      replace (S i + S k)%nat with (S (S i) + k)%nat in * by (clear; lia). refine (IH (S (S i)) z y _ _ f pq _ _ Hz Hy _ Hf Hp); [clear; lia|clear - IK; lia|].
      subst f0. rewrite Al. assert (X1 : extra (S i) = 1) by (unfold extra; replace (S i =? n - 1)%nat with false by (clear - Ix; lia); reflexivity). rewrite X1.
      transitivity (vscale (q0 * a3 * G * (a2 * extra (S (S i)) * c)) (vmul (cv_alpha x) w)); [rewrite CC|]; unfold vscale, vmul; cbn; f_equal; ring.
  Qed.

  Lemma vdiv_val v k w : vdiv v k = Val w -> k <> 0 /\ w = vscale (/ k) v.
  Proof. unfold vdiv. destruct (Req_EM_T k 0); [discriminate|]. intros [= <-]. auto. Qed.
  Lemma type_end x : it (vs_sp (cv_v x)) = start_type d -> it (vs_sp (cv_v x)) = LightEndpoint \/ it (vs_sp (cv_v x)) = CameraEndpoint.
  Proof. unfold start_type. destruct d; auto. Qed.
  (** Value and density of the step from the first to the second vertex *)
  Lemma first_step x y w f pr pc : nth_error q 0 = Some x -> nth_error q 1 = Some y -> (2 <= l)%nat -> direction (Some (Q 0%nat)) (Some (Q 1%nat)) = Val w ->
    a_contrb A (vs_sp (Q 0%nat)) v0 w (vs_comp (Q 0%nat)) d false = ret f -> a_pdf_ray A (vs_sp (Q 0%nat)) w false = ret pr ->
    a_pdf_component A (vs_sp (Q 1%nat)) (vneg w) (vs_comp (Q 1%nat)) = ret pc -> f = vscale (pr * pc * extra 1) (cv_alpha y).
  Proof using HA T I N HQ Hq Hl He Hr.
    intros Hx Hy L2 Hd Hf Hpr Hpc. destruct (tr_second _ _ _ _ _ T x y Hx Hy) as (u & s & c & Uu & Sr & Us & Es & Ds & Sc & Al & Wy). destruct (tr_first _ _ _ _ _ T x Hx) as ((C0 & _) & _).
    assert (Qx := same_q 0 x ltac:(clear - L2; lia) ltac:(clear - N; lia) Hx). rewrite Qx in *. rewrite (direction_geom (cv_v x) (cv_v x) (Q 1%nat) (cv_v y) eq_refl (geom_q 1 y ltac:(clear - L2; lia) Hy)) in Hd.
    apply Ds in Hd. subst w. rewrite C0 in Hf. rewrite <- Es in *. assert (F := honest_ray _ _ _ HA _ _ _ _ _ Uu Sr Hf Hpr).
    assert (CC := component 1 y _ u c pc ltac:(clear - L2; lia) Hy Wy (unit_vneg _ Us) Uu Sc Hpc). rewrite F, Al.
    transitivity (vscale (pr * (pc * extra 1 * c)) (pr_weight s)); [rewrite CC|]; unfold vscale; cbn; f_equal; ring.
  Qed.
  Lemma side x f pq : nth_error q (l - 1) = Some x -> (l = 1%nat -> a_connectable A (vs_sp (Q 0%nat)) = ret true) ->
    contrb_loop A p d 0 (l - 1) (grey 1) = ret f -> pdf_subpath A p (Z.of_nat l) d = ret pq -> f = vscale (pq * extra (l - 1)) (cv_alpha x).
  Proof using HA T I N HQ Hq Hl He Hr.
    intros Hx Hc Hf Hp. destruct (Hq 0 ltac:(clear - Hl; lia)) as (y & Hy & _). assert (Qy := same_q 0 y ltac:(clear - Hl; lia) ltac:(clear - N; lia) Hy).
    destruct (tr_first _ _ _ _ _ T y Hy) as ((C0 & p0 & F0 & A0) & Ty). apply vdiv_val in A0 as (N0 & A0). assert (Te := type_end y Ty).
    assert (V0 := at_q 0 ltac:(clear - Hl; lia)). change (Z.of_nat 0) with 0%Z in V0.
    unfold pdf_subpath in Hp. replace (Z.of_nat l =? 0)%Z with false in Hp by (clear - Hl; lia). rewrite V0 in Hp. cbn [at_vert] in Hp. rewrite obind_ok in Hp. mstep Hp. unfold first_vertex in F0. rewrite Qy in *. rewrite E in F0, Hc. rewrite pbind_val in F0.
    destruct (Nat.eq_dec l 1) as [L1|L1].
    - specialize (Hc L1). apply ret_inj in Hc. subst a. replace (l - 1)%nat with 0%nat in * by (clear - L1; lia). replace (Z.of_nat l - 1)%Z with 0%Z in Hp by (clear - L1; lia).
      mstep Hp. mstep Hp. cbn [contrb_loop pdf_loop Z.to_nat] in *. apply ret_inj in Hf, Hp. assert (a = p0) by (apply ret_inj; congruence). subst a f pq. assert (y = x) by congruence. subst y.
      rewrite (honest_end _ _ _ HA _ _ _ _ Te E1). unfold extra. replace (0 =? n - 1)%nat with false by (clear - N; lia). rewrite A0. unfold vscale, grey; cbn. f_equal; field; exact N0.
    - destruct (Hq 1 ltac:(clear - Hl L1; lia)) as (z & Hz & _). assert (V1 := at_q 1 ltac:(clear - Hl L1; lia)). change (Z.of_nat 1) with 1%Z in V1.
      assert (Ll : (l - 1 = S (l - 2))%nat) by (clear - Hl L1; lia). rewrite Ll in Hf. cbn [contrb_loop] in Hf. rewrite V0 in Hf. cbn [at_vert] in Hf. rewrite obind_ok in Hf.
      change (vertex_at p (0 - 1) d) with (@None vert) in Hf. change (direction (Some (cv_v y)) None) with (@Val vec3 v0) in Hf. rewrite pbind_okval in Hf. change (0 + 1)%Z with 1%Z in *. rewrite V1 in Hf. cbn [at_vert] in Hf. mstep Hf. apply okval in E0. mstep Hf. rewrite obind_ok in Hf. mstep Hf. apply okval in E2.
      assert (FS := fun pr pc => first_step y z a0 a1 pr pc Hy Hz ltac:(clear - Hl L1; lia)). rewrite Qy in FS. specialize (fun pr pc => FS pr pc E0 E1).
      replace (vscale a2 (vmul (grey 1) a1)) with (vscale a2 a1) in Hf by (unfold vscale, vmul, grey; cbn; f_equal; ring).
      assert (Rest : forall q1, pdf_loop A p d 1 (l - 2) q1 = ret pq -> vscale a2 a1 = vscale (q1 * extra 1) (cv_alpha z) -> f = vscale (pq * extra (l - 1)) (cv_alpha x)).
      { intros q1 H1 H2. rewrite Ll in *. refine (later (l - 2) 1 z x _ _ f pq _ _ Hz Hx H2 Hf H1); clear - Hl L1; lia. }
      destruct a.
      + mstep Hp. mstep Hp. assert (a = p0) by (apply ret_inj; congruence). subst a. rewrite (honest_end _ _ _ HA _ _ _ _ Te E4) in Hp. replace (Z.to_nat (Z.of_nat l - 1)) with (S (l - 2)) in Hp by (clear - Ll; lia).
        cbn [pdf_loop] in Hp. rewrite V0 in Hp. cbn [at_vert] in Hp. rewrite obind_ok in Hp. change (vertex_at p (0 - 1) d) with (@None vert) in Hp. change (direction (Some (cv_v y)) None) with (@Val vec3 v0) in Hp. rewrite pbind_okval in Hp.
        change (0 + 1)%Z with 1%Z in *. rewrite V1 in Hp. cbn [at_vert] in Hp. mstep Hp. apply okval in E5. assert (a = a0) by congruence. subst a. rewrite obind_ok in Hp. mstep Hp. mstep Hp. mstep Hp. apply okval in E8.
        unfold convert_to_area in E8. destruct (geometry_term _ _) as [G|]; cbn [of_option] in *; [|discriminate]. injection E8 as <-. injection E2 as <-.
        rewrite C0 in E7. assert (HR := honest_split _ _ _ HA _ _ _ _ Te E E3 E7). apply (Rest _ Hp). rewrite (FS _ _ HR E6). rewrite vscale_vscale. f_equal. ring.
      + mstep Hp. apply okval in E3. assert (a = a0) by congruence. subst a. mstep Hp. mstep Hp. rewrite V1 in Hp. cbn [at_vert] in Hp. rewrite obind_ok in Hp. mstep Hp. mstep Hp. apply okval in E7.
        unfold convert_to_area in E7. destruct (geometry_term _ _) as [G|]; cbn [of_option] in *; [|discriminate]. injection E7 as <-. injection E2 as <-. rewrite (honest_end _ _ _ HA _ _ _ _ Te E5) in Hp.
        replace (Z.to_nat (Z.of_nat l - 2)) with (l - 2)%nat in Hp by (clear - Ll; lia). apply (Rest _ Hp). rewrite (FS _ _ E4 E6). rewrite vscale_vscale. f_equal. ring.
  Qed.
End Side.

Lemma rd_some {X} (o : option X) x : rd o = Ok x -> o = Some x.
Proof. destruct o; cbn; congruence. Qed.
Lemma as_type_same v w ty : same_place v w -> it (vs_sp w) = ty -> as_type (vs_sp v) ty = vs_sp w.
Proof. intros (P1 & P2 & P3 & _) T. unfold as_type. rewrite P1, P2, P3. destruct (vs_sp w); cbn in *. now subst. Qed.

Lemma value_contribution A U V fuelL rngL maxL qL fuelE rngE maxE qE s t p pq f C r :
  sane A U V -> honest A U V -> (forall k, U (rngL k)) -> (forall k, U (rngE k)) -> opt_subpath A fuelL rngL maxL LE = ret qL -> opt_subpath A fuelE rngE maxE EL = ret qE ->
  (2 <= s + t)%nat -> joined (strip qL) (strip qE) s t p ->
  (forall x w, s = 0%nat -> nth_error qE (t - 1) = Some x -> cv_wr x = Some w -> a_pdf_component A (vs_sp (cv_v x)) w (vs_comp (cv_v x)) = ret r) ->
  (forall x w, t = 0%nat -> nth_error qL (s - 1) = Some x -> cv_wr x = Some w -> a_pdf_component A (vs_sp (cv_v x)) w (vs_comp (cv_v x)) = ret r) ->
  ((1 <= s)%nat -> (1 <= t)%nat -> r = 1) ->
  pdf_bidir A p (Z.of_nat s) = ret pq -> pq <> 0 -> eval_measurement_contrb_bidir A p (Z.of_nat s) = ret f ->
  opt_value A qE qL (Z.of_nat s) (Z.of_nat t) = ret (Some C) -> f = vscale (pq * r) C.
Proof.
  intros SA HA UL UE HL HE N J Rs Rt R1 Hp Nz Hf HC.
  assert (IL := subpath_indexed _ _ _ _ _ _ _ _ SA UL HL). assert (IE := subpath_indexed _ _ _ _ _ _ _ _ SA UE HE).
  assert (TrL := subpath_traced _ _ _ _ _ _ _ _ SA UL HL). assert (TrE := subpath_traced _ _ _ _ _ _ _ _ SA UE HE).
  assert (TL : forall x, nth_error qL 0 = Some x -> it (vs_sp (cv_v x)) = LightEndpoint) by (intros x Hx; exact (proj1 (proj2 (ix_first _ _ _ IL x Hx)))).
  assert (TE : forall x, nth_error qE 0 = Some x -> it (vs_sp (cv_v x)) = CameraEndpoint) by (intros x Hx; exact (proj1 (proj2 (ix_first _ _ _ IE x Hx)))).
  assert (exists q, opt_full qE qL s t = Ok q) as (q & Hq).
  { destruct J as (S1 & S2 & _). unfold strip in S1, S2. rewrite map_length in S1, S2. unfold opt_full. replace ((s <=? length qL) && (t <=? length qE) && (1 <=? s + t))%nat with true by lia. eauto. }
  assert (EP := joined_unique _ _ _ _ _ _ N J (full_joined _ _ _ _ _ N Hq)).
  assert (LQ := full_length _ _ _ _ _ N Hq). assert (LP : length p = (s + t)%nat) by apply J.
  assert (JL : forall v, nth_error p 0 = Some v -> it (vs_sp v) = LightEndpoint) by (intros v Hv; exact (proj1 (proj2 (proj2 (proj2 (proj2 (proj2 J))))) v N Hv)).
  assert (JE : forall v, nth_error p (s + t - 1) = Some v -> it (vs_sp v) = CameraEndpoint) by (intros v Hv; exact (proj2 (proj2 (proj2 (proj2 (proj2 (proj2 J))))) v Hv)).
  destruct p as [|d0 p'] eqn:EPP; [cbn in LP; lia|]. rewrite <- EPP in *. clear EPP p'. set (P := fun k => nth k p d0).
  assert (NP : forall k, (k < length p)%nat -> nth_error p k = Some (P k)) by (intros k K; apply nth_error_nth'; exact K).
  assert (PV : forall i x, nth_error q i = Some x -> cv_v x = P i).
  { intros i x Hx. assert (K := nth_lt _ _ _ Hx). apply strip_nth in Hx. rewrite <- EP in Hx. rewrite NP in Hx by lia. congruence. }
  assert (PL : forall k, (k < s)%nat -> exists x, nth_error qL k = Some x /\ same_place (cv_v x) (P k) /\ ((k < s + t - 1)%nat -> P k = cv_v x)).
  { intros k K. destruct (full_light _ _ _ _ _ TL N Hq k K) as (x & v & Hx & Hy & Sv & Iv). exists x. apply PV in Hy. cbn in Hy. subst v. auto. }
  assert (PE : forall k, (k < t)%nat -> exists x, nth_error qE k = Some x /\ same_place (cv_v x) (P (s + t - 1 - k)%nat) /\ ((k < s + t - 1)%nat -> P (s + t - 1 - k)%nat = cv_v x)).
  { intros k K. destruct (full_camera _ _ _ _ _ TE N Hq k K) as (x & v & Hx & Hy & Sv & Iv). exists x. apply PV in Hy. cbn in Hy. subst v. auto. }
  assert (NV : num_verts p = Z.of_nat (s + t)) by (unfold num_verts; now rewrite LP).
  assert (VL : forall k, (k < s + t)%nat -> vertex_at p (Z.of_nat k) LE = Some (P k)).
  { intros k K. unfold vertex_at, index. rewrite NV. replace ((0 <=? Z.of_nat k) && (Z.of_nat k <? Z.of_nat (s + t)))%Z with true by lia. rewrite Nat2Z.id. apply NP. lia. }
  assert (VE : forall k, (k < s + t)%nat -> vertex_at p (Z.of_nat k) EL = Some (P (s + t - 1 - k)%nat)).
  { intros k K. rewrite vertex_at_rev, NV. replace (Z.of_nat (s + t) - 1 - Z.of_nat k)%Z with (Z.of_nat (s + t - 1 - k)) by lia. apply VL. lia. }
  assert (T0 : it (vs_sp (P 0%nat)) = LightEndpoint) by (apply JL, NP; lia). assert (Tn : it (vs_sp (P (s + t - 1)%nat)) = CameraEndpoint) by (apply JE, NP; lia).
  unfold pdf_bidir in Hp. mstep Hp. destruct a; cbn [negb] in Hp; [|apply ret_inj in Hp; congruence]. mstep Hp. mstep Hp. apply ret_inj in Hp. subst pq.
  unfold eval_measurement_contrb_bidir in Hf. mstep Hf. mstep Hf. mstep Hf. apply ret_inj in Hf. rename a into pL, a0 into pE, a1 into fL, a2 into fE, a3 into co. rewrite NV in *.
  replace (Z.of_nat (s + t) - Z.of_nat s)%Z with (Z.of_nat t) in * by lia.
  rename HC into E6. pose proof O as a.
  (* the two sides *)
  assert (SL : forall x, (1 <= s)%nat -> nth_error qL (s - 1) = Some x -> fL = vscale (pL * (if (t =? 0)%nat then r else 1)) (cv_alpha x)).
  { intros x S1 Hx. replace (Z.of_nat s =? 0)%Z with false in E2 by lia. replace (Z.to_nat (Z.of_nat s - 1)) with (s - 1)%nat in E2 by lia.
    rewrite (side A U V LE p P qL (s + t) s r HA TrL IL N VL PL ltac:(lia) ltac:(intros _; now right) ltac:(intros y w Hs Hy Hw; apply (Rt y w); [lia|replace (s - 1)%nat with (s + t - 1)%nat by lia; exact Hy|exact Hw]) x fL pL Hx); [|intros S2|exact E2|exact E0].
    - unfold extra. replace (s - 1 =? s + t - 1)%nat with (t =? 0)%nat by lia. reflexivity.
    - apply (samplable_connects_light A p); [lia| |apply NP; lia]. rewrite S2 in E. exact E. }
  assert (SE : forall x, (1 <= t)%nat -> nth_error qE (t - 1) = Some x -> fE = vscale (pE * (if (s =? 0)%nat then r else 1)) (cv_alpha x)).
  { intros x T1 Hx. replace (Z.of_nat t =? 0)%Z with false in E3 by lia. replace (Z.to_nat (Z.of_nat t - 1)) with (t - 1)%nat in E3 by lia.
    rewrite (side A U V EL p (fun k => P (s + t - 1 - k)%nat) qE (s + t) t r HA TrE IE N VE PE ltac:(lia)
      ltac:(intros _; left; replace (s + t - 1 - (s + t - 1))%nat with 0%nat by lia; exact T0) ltac:(intros y w Hs Hy Hw; apply (Rs y w); [lia|replace (t - 1)%nat with (s + t - 1)%nat by lia; exact Hy|exact Hw]) x fE pE Hx); [|intros T2|exact E3|exact E1].
    - unfold extra. replace (t - 1 =? s + t - 1)%nat with (s =? 0)%nat by lia. reflexivity.
    - apply (samplable_connects_camera A p); [lia| |rewrite LP, Nat.sub_0_r; apply NP; lia]. rewrite NV. replace (Z.of_nat (s + t) - 1)%Z with (Z.of_nat s) by lia. exact E. }
  unfold opt_value in E6. unfold eval_connection_term in E4. rewrite NV in E4. replace (Z.of_nat (s + t) - Z.of_nat s)%Z with (Z.of_nat t) in E4 by lia.
  destruct (Nat.eq_dec s 0) as [S0|S0]; [|destruct (Nat.eq_dec t 0) as [T00|T00]].
  - subst s. change (Z.of_nat 0 =? 0)%Z with true in *. cbv iota in E6, E2. cbn [Nat.add Nat.eqb] in *. replace (0 <? Z.of_nat t)%Z with true in E4 by lia. cbn [andb] in E4.
    apply ret_inj in E0, E2. mstep E6. mstep E6. mstep E6. apply ret_inj in E6. injection E6 as E6. rename a0 into x, a1 into w, a2 into Le.
    apply rd_some in E5, E7. replace (Z.to_nat (Z.of_nat t - 1)) with (t - 1)%nat in E5 by lia.
    specialize (SE x ltac:(lia) E5). destruct (PE (t - 1)%nat ltac:(lia)) as (x' & Hx' & Sx & _). assert (x' = x) by congruence. subst x'. replace (t - 1 - (t - 1))%nat with 0%nat in Sx by lia.
    destruct (PE (t - 2)%nat ltac:(lia)) as (y & Hy & Sy & Iy). replace (t - 1 - (t - 2))%nat with 1%nat in * by lia.
    unfold end_term in E4. change 0%Z with (Z.of_nat 0) in E4. change 1%Z with (Z.of_nat 1) in E4. rewrite !VL in E4 by lia. cbn [at_vert] in E4. rewrite obind_ok in E4. mstep E4.
    assert (EW : Some a0 = Some w). { rewrite <- E7. symmetry. assert (X := proj2 (ix_dir _ _ _ IE (t - 2) y x Hy ltac:(replace (S (t - 2)) with (t - 1)%nat by lia; exact E5))). apply X. transitivity (Val a0); [|reflexivity]. assert (E10 : forall d, Ok d = ret a0 -> d = Val a0) by (intros d; unfold ret; congruence). rewrite <- (E10 _ E9). apply direction_geom; [apply Sx|apply Sy]. }
    injection EW as ->. rewrite (as_type_same _ (P 0%nat)) in E8 by (rewrite ?T0; auto). rewrite (honest_contrb _ _ _ HA _ _ v0 _ _ 0 _ _ (or_introl T0)) in E4. rewrite E4 in E8. apply ret_inj in E8.
    subst. unfold vmul, vscale; cbn; f_equal; ring.
  - subst t. replace (s + 0)%nat with s in * by lia. change (Z.of_nat 0 =? 0)%Z with true in *. change (Z.of_nat 0 <? 0)%Z with false in *. replace (Z.of_nat s =? 0)%Z with false in * by lia. cbv iota in E6, E3. cbn [Nat.eqb] in *.
    replace (0 <? Z.of_nat s)%Z with true in E4 by lia. cbn [andb] in E4.
    apply ret_inj in E1, E3. mstep E6. mstep E6. mstep E6. apply ret_inj in E6. injection E6 as E6. rename a0 into x, a1 into w, a2 into We.
    apply rd_some in E5, E7. replace (Z.to_nat (Z.of_nat s - 1)) with (s - 1)%nat in E5 by lia.
    specialize (SL x ltac:(lia) E5). destruct (PL (s - 1)%nat ltac:(lia)) as (x' & Hx' & Sx & _). assert (x' = x) by congruence. subst x'.
    destruct (PL (s - 2)%nat ltac:(lia)) as (y & Hy & Sy & Iy).
    unfold end_term in E4. change 0%Z with (Z.of_nat 0) in E4. change 1%Z with (Z.of_nat 1) in E4. rewrite !VE in E4 by lia. replace (s - 1 - 0)%nat with (s - 1)%nat in E4 by lia. replace (s - 1 - 1)%nat with (s - 2)%nat in E4 by lia.
    cbn [at_vert] in E4. rewrite obind_ok in E4. mstep E4.
    assert (EW : Some a0 = Some w). { rewrite <- E7. symmetry. assert (X := proj2 (ix_dir _ _ _ IL (s - 2) y x Hy ltac:(replace (S (s - 2)) with (s - 1)%nat by lia; exact E5))). apply X. transitivity (Val a0); [|reflexivity]. assert (E10 : forall d, Ok d = ret a0 -> d = Val a0) by (intros d; unfold ret; congruence). rewrite <- (E10 _ E9). apply direction_geom; [apply Sx|apply Sy]. }
    injection EW as ->. rewrite (as_type_same _ (P (s - 1)%nat)) in E8 by (rewrite ?Tn; auto). rewrite (honest_contrb _ _ _ HA _ _ v0 _ _ 0 _ _ (or_intror Tn)) in E4. rewrite E4 in E8. apply ret_inj in E8.
    subst. unfold vmul, vscale; cbn; f_equal; ring.
  - rewrite (R1 ltac:(lia) ltac:(lia)). replace (Z.of_nat s =? 0)%Z with false in * by lia. replace (Z.of_nat t =? 0)%Z with false in * by lia. replace (0 <? Z.of_nat s)%Z with true in E4 by lia. replace (0 <? Z.of_nat t)%Z with true in E4 by lia. cbn [andb] in E4.
    replace (t =? 0)%nat with false in SL by lia. replace (s =? 0)%nat with false in SE by lia.
    mstep E6. mstep E6. mstep E6. destruct a2; cbn [negb] in E6; [|apply ret_inj in E6; discriminate]. do 7 mstep E6. apply ret_inj in E6. injection E6 as E6.
    rename a0 into x, a1 into y. apply rd_some in E5, E7, E9, E12. apply okval in E10, E13, E15. replace (Z.to_nat (Z.of_nat s - 1)) with (s - 1)%nat in E5 by lia. replace (Z.to_nat (Z.of_nat t - 1)) with (t - 1)%nat in E7 by lia.
    specialize (SL x ltac:(lia) E5). specialize (SE y ltac:(lia) E7).
    destruct (PL (s - 1)%nat ltac:(lia)) as (x' & Hx' & Sx & Ix). assert (x' = x) by congruence. subst x'. specialize (Ix ltac:(lia)).
    destruct (PE (t - 1)%nat ltac:(lia)) as (y' & Hy' & Sy & Iy). assert (y' = y) by congruence. subst y'. specialize (Iy ltac:(lia)).
    replace (Z.of_nat s - 1)%Z with (Z.of_nat (s - 1)) in E4 by lia. replace (Z.of_nat t - 1)%Z with (Z.of_nat (t - 1)) in E4 by lia. rewrite VL in E4 by lia. rewrite VE in E4 by lia. rewrite Ix, Iy in E4. cbn [at_vert] in E4. rewrite obind_ok in E4. rewrite obind_ok in E4.
    mstep E4. apply okval in E16. assert (W1 : Some a0 = Some a2).
    { rewrite <- E9. destruct (Nat.eq_dec s 1) as [S1|S1].
      - subst s. change (vertex_at p (Z.of_nat 1 - 2) LE) with (@None vert) in E16. destruct (ix_first _ _ _ IL x E5) as (W & _). rewrite W. cbn in E16. congruence.
      - destruct (PL (s - 2)%nat ltac:(lia)) as (z & Hz & Sz & Iz). replace (Z.of_nat s - 2)%Z with (Z.of_nat (s - 2)) in E16 by lia. rewrite VL in E16 by lia. rewrite (Iz ltac:(lia)) in E16.
        symmetry. apply (proj2 (ix_dir _ _ _ IL (s - 2) z x Hz ltac:(replace (S (s - 2)) with (s - 1)%nat by lia; exact E5))). exact E16. }
    injection W1 as ->. unfold cdirection in E10, E13. cbn [option_map] in E10, E13. rewrite E10, pbind_okval, E11, pbind_val in E4.
    mstep E4. apply okval in E17. assert (W2 : Some a0 = Some a5).
    { rewrite <- E12. destruct (Nat.eq_dec t 1) as [S1|S1].
      - subst t. change (vertex_at p (Z.of_nat 1 - 2) EL) with (vertex_at p (-1) EL) in E17. rewrite vertex_at_rev, NV in E17. unfold vertex_at, index in E17. rewrite NV in E17.
        replace ((0 <=? Z.of_nat (s + 1) - 1 - -1) && (Z.of_nat (s + 1) - 1 - -1 <? Z.of_nat (s + 1)))%Z with false in E17 by lia. destruct (ix_first _ _ _ IE y E7) as (W & _). rewrite W. cbn in E17. congruence.
      - destruct (PE (t - 2)%nat ltac:(lia)) as (z & Hz & Sz & Iz). replace (Z.of_nat t - 2)%Z with (Z.of_nat (t - 2)) in E17 by lia. rewrite VE in E17 by lia. rewrite (Iz ltac:(lia)) in E17.
        symmetry. apply (proj2 (ix_dir _ _ _ IE (t - 2) z y Hz ltac:(replace (S (t - 2)) with (t - 1)%nat by lia; exact E7))). exact E17. }
    injection W2 as ->. rewrite E13, pbind_okval, E14, pbind_val in E4. unfold cgeom in E15. rewrite E15, pbind_okval in E4. apply ret_inj in E4.
    subst. unfold vmul, vscale; cbn; f_equal; ring.
Qed.
Lemma connect_value A qE qL s t C rp : (2 <= s + t)%nat -> connect_and_eval_contrb A qE qL (Z.of_nat s) (Z.of_nat t) = ret (Some (C, rp)) ->
  opt_samplable A qE qL (Z.of_nat s) (Z.of_nat t) = ret true /\ opt_value A qE qL (Z.of_nat s) (Z.of_nat t) = ret (Some C) /\ is_zero C = false.
Proof.
  intros N HC. unfold connect_and_eval_contrb in HC. replace ((Z.of_nat s <? 0) || (Z.of_nat t <? 0) || (Z.of_nat s + Z.of_nat t <? 2))%Z with false in HC by lia. mstep HC. destruct a; cbn [negb] in HC; [|apply ret_inj in HC; discriminate].
  mstep HC. destruct a as [C'|]; [|apply ret_inj in HC; discriminate]. destruct (is_zero C') eqn:Z0; [apply ret_inj in HC; discriminate|]. mstep HC. apply ret_inj in HC. injection HC as -> _. auto.
Qed.
Lemma contribution A U V fuelL rngL maxL qL fuelE rngE maxE qE s t p pq f C rp r :
  sane A U V -> honest A U V -> (forall k, U (rngL k)) -> (forall k, U (rngE k)) -> opt_subpath A fuelL rngL maxL LE = ret qL -> opt_subpath A fuelE rngE maxE EL = ret qE ->
  (2 <= s + t)%nat -> joined (strip qL) (strip qE) s t p ->
  (forall x w, s = 0%nat -> nth_error qE (t - 1) = Some x -> cv_wr x = Some w -> a_pdf_component A (vs_sp (cv_v x)) w (vs_comp (cv_v x)) = ret r) ->
  (forall x w, t = 0%nat -> nth_error qL (s - 1) = Some x -> cv_wr x = Some w -> a_pdf_component A (vs_sp (cv_v x)) w (vs_comp (cv_v x)) = ret r) ->
  ((1 <= s)%nat -> (1 <= t)%nat -> r = 1) ->
  pdf_bidir A p (Z.of_nat s) = ret pq -> pq <> 0 -> eval_measurement_contrb_bidir A p (Z.of_nat s) = ret f ->
  connect_and_eval_contrb A qE qL (Z.of_nat s) (Z.of_nat t) = ret (Some (C, rp)) -> f = vscale (pq * r) C.
Proof.
  intros SA HA UL UE HL HE N J Rs Rt R1 Hp Nz Hf HC. apply connect_value in HC as (_ & HC & _); [|exact N]. now apply (value_contribution A U V fuelL rngL maxL qL fuelE rngE maxE qE s t p pq f C r).
Qed.

(** The densities of the vertices multiply to the density of the subpath, if no vertex has several components *)
Section Densities.
  Variables (A : api) (p : fullpath) (d : trans_dir) (Q : nat -> vert) (n : nat) (D : nat -> R).
  Hypothesis HQ : forall k, (k < n)%nat -> vertex_at p (Z.of_nat k) d = Some (Q k).
  Hypothesis H1 : vertex_at p (-1) d = None.
  Hypothesis Hc : forall k w, (k < n)%nat -> a_pdf_component A (vs_sp (Q k)) w (vs_comp (Q k)) = ret 1.

  Lemma product_loop k : forall i q, (S (S i) + k <= n)%nat -> (forall j, (i <= j < i + k)%nat -> hop A (Q j) (Q (S j)) (Q (S (S j))) = ret (D (S (S j)))) ->
    pdf_loop A p d (Z.of_nat (S i)) k q = ret (q * product D (S (S i)) k).
  Proof.
    induction k as [|k IH]; intros i q L H; cbn [pdf_loop product]; [f_equal; f_equal; ring|].
    replace (Z.of_nat (S i) - 1)%Z with (Z.of_nat i) by lia. replace (Z.of_nat (S i) + 1)%Z with (Z.of_nat (S (S i))) by lia. rewrite !HQ by lia. cbn [at_vert]. rewrite obind_ok.
    specialize (H i ltac:(lia)) as Hi. unfold hop in Hi. mstep Hi. mstep Hi. mstep Hi. rewrite E, pbind_val, E0, pbind_val, obind_ok, Hc, pbind_val, E1, pbind_val, Hi, pbind_val by lia.
    rewrite IH; [|lia|intros j J; apply H; lia]. f_equal. ring.
  Qed.
  Lemma product_subpath l : (1 <= l <= n)%nat -> (l = 1%nat -> a_connectable A (vs_sp (Q 0%nat)) = ret true) -> first_vertex A (Q 0%nat) = ret (D 0%nat) ->
    ((1 < l)%nat -> second_vertex A (Q 0%nat) (Q 1%nat) = ret (D 1%nat)) -> (forall k, (S (S k) < l)%nat -> hop A (Q k) (Q (S k)) (Q (S (S k))) = ret (D (S (S k)))) ->
    pdf_subpath A p (Z.of_nat l) d = ret (product D 0 l).
  Proof.
    intros L C F0 F1 Fk. unfold pdf_subpath. replace (Z.of_nat l =? 0)%Z with false by lia. change 0%Z with (Z.of_nat 0) at 1. change (vertex_at p 1 d) with (vertex_at p (Z.of_nat 1) d). rewrite HQ by lia. cbn [at_vert]. rewrite obind_ok.
    unfold first_vertex in F0. mstep F0. rewrite E, pbind_val. destruct a.
    - rewrite F0, pbind_val, Hc, pbind_val by lia. destruct l as [|[|l]]; [lia|cbn; f_equal; ring|].
      replace (Z.to_nat (Z.of_nat (S (S l)) - 1)) with (S l) by lia. cbn [pdf_loop]. change (0 - 1)%Z with (-1)%Z. change (0 + 1)%Z with (Z.of_nat 1). rewrite H1. change (vertex_at p 0 d) with (vertex_at p (Z.of_nat 0) d). rewrite !HQ by lia. cbn [at_vert]. rewrite obind_ok.
      specialize (F1 ltac:(lia)). unfold second_vertex in F1. rewrite E, pbind_val in F1. mstep F1. mstep F1. change (Ok (direction (Some (Q 0%nat)) None)) with (ret v0). rewrite pbind_val, E0, pbind_val, obind_ok, Hc, pbind_val, E1, pbind_val, F1, pbind_val by lia.
      rewrite (product_loop l 0); [|lia|intros j J; apply Fk; lia]. cbn [product]. f_equal. ring.
    - apply ret_inj in F0. destruct l as [|[|l]]; [lia|specialize (C eq_refl); rewrite E in C; apply ret_inj in C; discriminate|].
      specialize (F1 ltac:(lia)). unfold second_vertex in F1. rewrite E, pbind_val in F1. mstep F1. mstep F1. rewrite HQ by lia. rewrite E0, pbind_val, E1, pbind_val, Hc, pbind_val by lia. cbn [at_vert]. rewrite obind_ok, Hc, pbind_val, F1, pbind_val by lia.
      replace (Z.to_nat (Z.of_nat (S (S l)) - 2)) with l by lia. change 1%Z with (Z.of_nat 1). rewrite (product_loop l 0); [|lia|intros j J; apply Fk; lia]. cbn [product]. rewrite <- F0. f_equal. ring.
  Qed.
End Densities.

Lemma product_rev B m : forall s, product (fun j => B (m + s - 1 - j)%nat) 0 m = product B s m.
Proof.
  induction m as [|m IH]; intros s; [reflexivity|]. rewrite product_split. change (product B s (S m)) with (B s * product B (S s) m). rewrite <- IH, Rmult_comm. f_equal; [f_equal; lia|].
  apply product_ext. intros j J. f_equal. lia.
Qed.
Lemma pdf_is_strategy A p n s F B b : length p = n -> (2 <= n)%nat -> (s <= n)%nat ->
  (forall i, (i < n)%nat -> density A p i = ret (F i)) -> (forall i, (i < n)%nat -> density A (rev p) (n - 1 - i) = ret (B i)) ->
  is_samplable_bidir A p (Z.of_nat s) = ret b -> (forall v w, In v p -> a_pdf_component A (vs_sp v) w (vs_comp v) = ret 1) ->
  pdf_bidir A p (Z.of_nat s) = ret (if b then strategy F B n s else 0).
Proof.
  intros LP N S HF HB Hb Hc. unfold pdf_bidir. rewrite Hb, pbind_val. destruct b; cbn [negb]; [|reflexivity].
  destruct p as [|d0 p'] eqn:EPP; [cbn in LP; lia|]. rewrite <- EPP in *. clear EPP p'. set (P := fun k => nth k p d0).
  assert (NP : forall k, (k < length p)%nat -> nth_error p k = Some (P k)) by (intros k K; apply nth_error_nth'; exact K).
  assert (NV : num_verts p = Z.of_nat n) by (unfold num_verts; now rewrite LP).
  assert (VL : forall k, (k < n)%nat -> vertex_at p (Z.of_nat k) LE = Some (P k)).
  { intros k K. unfold vertex_at, index. rewrite NV. replace ((0 <=? Z.of_nat k) && (Z.of_nat k <? Z.of_nat n))%Z with true by lia. rewrite Nat2Z.id. apply NP. lia. }
  assert (VE : forall k, (k < n)%nat -> vertex_at p (Z.of_nat k) EL = Some (P (n - 1 - k)%nat)).
  { intros k K. rewrite vertex_at_rev, NV. replace (Z.of_nat n - 1 - Z.of_nat k)%Z with (Z.of_nat (n - 1 - k)) by lia. apply VL. lia. }
  assert (RP : forall k, (k < n)%nat -> nth_error (rev p) k = Some (P (n - 1 - k)%nat)).
  { intros k K. rewrite rev_nth_error by lia. rewrite LP. rewrite NP by lia. reflexivity. }
  assert (CP : forall k w, (k < n)%nat -> a_pdf_component A (vs_sp (P k)) w (vs_comp (P k)) = ret 1) by (intros k w K; apply Hc, (nth_error_In p k), NP; lia).
  rewrite NV. replace (Z.of_nat n - Z.of_nat s)%Z with (Z.of_nat (n - s)) by lia.
  assert (EL1 : pdf_subpath A p (Z.of_nat s) LE = ret (product F 0 s)).
  { destruct (Nat.eq_dec s 0) as [->|S0]; [reflexivity|]. apply (product_subpath A p LE P n F VL); auto; try lia.
    - intros ->. apply (samplable_connects_light A p); [lia|exact Hb|apply NP; lia].
    - specialize (HF 0%nat ltac:(lia)). unfold density in HF. rewrite NP in HF by lia. destruct (nth_error p (0 - 2)), (nth_error p (0 - 1)); exact HF.
    - intros S1. specialize (HF 1%nat ltac:(lia)). unfold density in HF. cbn [Nat.sub] in HF. rewrite !NP in HF by lia. exact HF.
    - intros k K. specialize (HF (Datatypes.S (Datatypes.S k)) ltac:(lia)). unfold density in HF. replace (Datatypes.S (Datatypes.S k) - 2)%nat with k in HF by lia. replace (Datatypes.S (Datatypes.S k) - 1)%nat with (Datatypes.S k) in HF by lia. rewrite !NP in HF by lia. exact HF. }
  assert (EE1 : pdf_subpath A p (Z.of_nat (n - s)) EL = ret (product (fun j => B (n - 1 - j)%nat) 0 (n - s))).
  { destruct (Nat.eq_dec s n) as [->|S0]; [now rewrite Nat.sub_diag|]. assert (HB' : forall k, (k < n)%nat -> density A (rev p) k = ret (B (n - 1 - k)%nat)) by (intros k K; rewrite <- HB by lia; f_equal; lia).
    apply (product_subpath A p EL (fun k => P (n - 1 - k)%nat) n _ VE); auto; try lia.
    - intros k w K. apply CP. lia.
    - intros S1. apply (samplable_connects_camera A p); [lia| |rewrite LP, Nat.sub_0_r; apply NP; lia]. rewrite NV. replace (Z.of_nat n - 1)%Z with (Z.of_nat s) by lia. exact Hb.
    - specialize (HB' 0%nat ltac:(lia)). unfold density in HB'. rewrite (RP 0%nat) in HB' by lia. destruct (nth_error (rev p) (0 - 2)), (nth_error (rev p) (0 - 1)); exact HB'.
    - intros S1. specialize (HB' 1%nat ltac:(lia)). unfold density in HB'. cbn [Nat.sub] in HB'. rewrite !RP in HB' by lia. exact HB'.
    - intros k K. specialize (HB' (Datatypes.S (Datatypes.S k)) ltac:(lia)). unfold density in HB'. replace (Datatypes.S (Datatypes.S k) - 2)%nat with k in HB' by lia. replace (Datatypes.S (Datatypes.S k) - 1)%nat with (Datatypes.S k) in HB' by lia. rewrite !RP in HB' by lia. exact HB'. }
  rewrite EL1, pbind_val, EE1, pbind_val. unfold strategy. f_equal. f_equal. rewrite <- (product_rev B (n - s) s). apply product_ext. intros j J. f_equal. lia.
Qed.
