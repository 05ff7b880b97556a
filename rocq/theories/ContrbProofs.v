From Coq Require Import List Reals ZArith Bool Lra Lia ZifyBool Psatz FunctionalExtensionality.
From Verif Require Import Base RBase VecBase SurfModel SurfSpec SurfProofs MatModel CamModel LightModel PathModel GeoModel BidirModel BidirSpec BidirProofs BdptSpec ContrbSpec.
Import ListNotations.
Open Scope R_scope.

(** ** Products *)
Lemma product_last g k : forall i, product g i (S k) = product g i k * g (i + k)%nat.
Proof. induction k as [|k IH]; intros i; [cbn; rewrite Nat.add_0_r; ring|]. change (product g i (S (S k))) with (g i * product g (S i) (S k)). rewrite IH. cbn [product]. replace (S i + k)%nat with (i + S k)%nat by lia. ring. Qed.
Lemma product_split g k j : forall i, product g i (k + j) = product g i k * product g (i + k) j.
Proof. induction k as [|k IH]; intros i; [cbn; rewrite Nat.add_0_r; ring|]. cbn [Nat.add product]. rewrite IH. replace (S i + k)%nat with (i + S k)%nat by lia. ring. Qed.
Lemma product_ext g h k : forall i, (forall j, (i <= j < i + k)%nat -> g j = h j) -> product g i k = product h i k.
Proof. induction k as [|k IH]; intros i H; cbn; [reflexivity|]. rewrite H by lia. rewrite (IH (S i)); [reflexivity|]. intros; apply H; lia. Qed.
(** Read from the other end *)
Lemma product_rev g N k : forall i, (i + k <= S N)%nat -> product (fun j => g (N - j)%nat) i k = product g (S N - i - k) k.
Proof.
  induction k as [|k IH]; intros i H; [reflexivity|]. rewrite product_last. cbn [product]. rewrite IH by lia.
  replace (S N - i - k)%nat with (S (S N - i - S k)) by lia. replace (N - (i + k))%nat with (S N - i - S k)%nat by lia. ring.
Qed.
Lemma vproduct_comp f k : forall i, vproduct f i k = V3 (product (fun j => vx (f j)) i k) (product (fun j => vy (f j)) i k) (product (fun j => vz (f j)) i k).
Proof. induction k as [|k IH]; intros i; cbn; [reflexivity|]. rewrite IH. reflexivity. Qed.
Lemma vproduct_split f k j i : vproduct f i (k + j) = vmul (vproduct f i k) (vproduct f (i + k) j).
Proof. rewrite !vproduct_comp. unfold vmul; cbn. f_equal; apply product_split. Qed.
Lemma vproduct_rev f N k i : (i + k <= S N)%nat -> vproduct (fun j => f (N - j)%nat) i k = vproduct f (S N - i - k) k.
Proof. intros H. rewrite !vproduct_comp. f_equal; [exact (product_rev (fun j => vx (f j)) N k i H)|exact (product_rev (fun j => vy (f j)) N k i H)|exact (product_rev (fun j => vz (f j)) N k i H)]. Qed.
Lemma vproduct_ext f h k : forall i, (forall j, (i <= j < i + k)%nat -> f j = h j) -> vproduct f i k = vproduct h i k.
Proof. induction k as [|k IH]; intros i H; cbn; [reflexivity|]. rewrite H by lia. rewrite (IH (S i)); [reflexivity|]. intros; apply H; lia. Qed.

Lemma product_upd g x i j k : (i < j \/ j + k <= i)%nat -> product (fun m => if (m =? i)%nat then x else g m) j k = product g j k.
Proof. intros H. apply product_ext. intros m M. destruct (Nat.eqb_spec m i); [lia|reflexivity]. Qed.
Lemma vproduct_upd g x i j k : (i < j \/ j + k <= i)%nat -> vproduct (fun m => if (m =? i)%nat then x else g m) j k = vproduct g j k.
Proof. intros H. apply vproduct_ext. intros m M. destruct (Nat.eqb_spec m i); [lia|reflexivity]. Qed.

Lemma vproduct_last f n : (1 <= n)%nat -> vproduct f 0 n = vmul (vproduct f 0 (n - 1)) (f (n - 1)%nat).
Proof. intros H. replace n with (n - 1 + 1)%nat at 1 by lia. rewrite vproduct_split. cbn [Nat.add vproduct]. unfold grey, vmul; cbn; f_equal; ring. Qed.
Lemma vproduct_at f n s : (0 < s < n)%nat -> vproduct f 0 n = vmul (vproduct f 0 (s - 1)) (vmul (f (s - 1)%nat) (vmul (f s) (vproduct f (S s) (n - s - 1)))).
Proof.
  intros H. replace n with ((s - 1) + (1 + (1 + (n - s - 1))))%nat at 1 by lia. rewrite !vproduct_split. cbn [Nat.add vproduct]. replace (s - 1 + 1)%nat with s by lia. replace (s + 1)%nat with (S s) by lia.
  unfold grey, vmul; cbn; f_equal; ring.
Qed.
Lemma product_at g n s : (0 < s < n)%nat -> product g 0 (n - 1) = product g 0 (s - 1) * g (s - 1)%nat * product g s (n - s - 1).
Proof. intros H. replace (n - 1)%nat with ((s - 1) + (1 + (n - s - 1)))%nat by lia. rewrite !product_split. cbn [Nat.add product]. replace (s - 1 + 1)%nat with s by lia. ring. Qed.
Lemma side_LE n s k : (k = 0 \/ k < s /\ k <> n - 1)%nat -> side n s k = LE.
Proof. intros H. unfold side. destruct (Nat.eqb_spec k 0); [reflexivity|]. destruct (Nat.eqb_spec k (n - 1)); [lia|]. destruct (Nat.ltb_spec k s); [reflexivity|lia]. Qed.
Lemma side_EL n s k : (k <> 0 /\ (k = n - 1 \/ s <= k))%nat -> side n s k = EL.
Proof. intros H. unfold side. destruct (Nat.eqb_spec k 0); [lia|]. destruct (Nat.eqb_spec k (n - 1)); [reflexivity|]. destruct (Nat.ltb_spec k s); [lia|reflexivity]. Qed.
Lemma joint_yes s k : (S k = s \/ k = s)%nat -> joint s k = true.
Proof. unfold joint. lia. Qed.
Lemma joint_no s k : (S k <> s /\ k <> s)%nat -> joint s k = false.
Proof. unfold joint. lia. Qed.

Section C.
  Variable A : api.
  Variable p : fullpath.
  Notation n := (length p).

  (** Vertices counted from the end that [d] starts at *)
  Definition pos d (i : nat) : nat := match d with LE => i | EL => (n - 1 - i)%nat end.
  Lemma vertex_pos d i : (i < n)%nat -> vertex_at p (Z.of_nat i) d = nth_error p (pos d i).
  Proof. intros H. unfold vertex_at, index, num_verts, pos. replace (_ && _)%bool with true by lia. f_equal. destruct d; lia. Qed.
  Lemma vertex_some d i : (i < n)%nat -> exists v, vertex_at p (Z.of_nat i) d = Some v.
  Proof. intros H. rewrite vertex_pos by exact H. destruct (nth_error p (pos d i)) eqn:E; [eauto|]. apply nth_error_None in E. destruct d; unfold pos in E; lia. Qed.
  (** What the code computes at index [i] of side [d] *)
  Definition scat d (i : nat) (delta : bool) (f : vec3) : Prop :=
    exists v a b, vertex_at p (Z.of_nat i) d = Some v /\ direction (Some v) (vertex_at p (Z.of_nat i - 1) d) = Val a /\ direction (Some v) (vertex_at p (Z.of_nat i + 1) d) = Val b /\
      a_contrb A (vs_sp v) a b (vs_comp v) d delta = ret f.
  Definition step_term d (i : nat) (g : R) : Prop :=
    exists v w, vertex_at p (Z.of_nat i) d = Some v /\ vertex_at p (Z.of_nat i + 1) d = Some w /\ geometry_term (igeom (vs_sp v)) (igeom (vs_sp w)) = Some g.

  Lemma scat_pos d i delta f : (i < n)%nat -> scat d i delta f <-> scattered A p (pos d i) d delta f.
  Proof.
    intros H. unfold scat, scattered. rewrite vertex_pos by exact H.
    assert (E1 : vertex_at p (Z.of_nat i - 1) d = match d with LE => before p (pos d i) | EL => after p (pos d i) end).
    { destruct i as [|i]; [destruct d; [reflexivity|]|].
      - unfold after, pos. replace (S (n - 1 - 0)) with n by lia. rewrite (proj2 (nth_error_None _ _)) by lia. reflexivity.
      - replace (Z.of_nat (S i) - 1)%Z with (Z.of_nat i) by lia. rewrite vertex_pos by lia. unfold after, before, pos. destruct d; [reflexivity|]. f_equal. lia. }
    assert (E2 : vertex_at p (Z.of_nat i + 1) d = match d with LE => after p (pos d i) | EL => before p (pos d i) end).
    { replace (Z.of_nat i + 1)%Z with (Z.of_nat (S i)) by lia. destruct (Nat.eq_dec (S i) n) as [e|ne].
      - unfold vertex_at, num_verts. replace (_ && _)%bool with false by lia. unfold after, before, pos. destruct d; [symmetry; apply nth_error_None; lia|]. now replace (n - 1 - i)%nat with O by lia.
      - rewrite vertex_pos by lia. unfold after, before, pos. destruct d; [reflexivity|]. destruct (n - 1 - i)%nat as [|m] eqn:M; [lia|]. f_equal. lia. }
    rewrite E1, E2. destruct d; split; intros (v & a & b & H1 & H2 & H3 & H4); exists v; [exists a, b|exists a, b|exists b, a|exists b, a]; auto.
  Qed.
  Lemma step_pos d i g : (S i < n)%nat -> step_term d i g <-> edge p (match d with LE => i | EL => n - 2 - i end)%nat g.
  Proof.
    intros H. unfold step_term, edge. replace (Z.of_nat i + 1)%Z with (Z.of_nat (S i)) by lia. rewrite !vertex_pos by lia. unfold pos. destruct d; [reflexivity|].
    replace (n - 1 - S i)%nat with (n - 2 - i)%nat by lia. replace (n - 1 - i)%nat with (S (n - 2 - i)) by lia.
    split; intros (v & w & H1 & H2 & H3); exists w, v; rewrite geometry_term_sym; auto.
  Qed.
  Lemma scattered_fun k d b f f' : scattered A p k d b f -> scattered A p k d b f' -> f = f'.
  Proof.
    intros (v & a & c & H1 & H2 & H3 & H4) (v' & a' & c' & H1' & H2' & H3' & H4'). assert (v' = v) by congruence. subst. assert (a' = a) by congruence. assert (c' = c) by congruence. subst.
    destruct d; apply ret_inj; congruence.
  Qed.
  Lemma edge_fun k g g' : edge p k g -> edge p k g' -> g = g'.
  Proof. intros (v & w & H1 & H2 & H3) (v' & w' & H1' & H2' & H3'). assert (v' = v) by congruence. assert (w' = w) by congruence. subst. congruence. Qed.

  Lemma loop_iff d k : forall i f0 F, (i + k < n)%nat -> contrb_loop A p d (Z.of_nat i) k f0 = ret F <->
    exists f g, (forall j, (i <= j < i + k)%nat -> scat d j false (f j) /\ step_term d j (g j)) /\ F = vscale (product g i k) (vmul f0 (vproduct f i k)).
  Proof.
    induction k as [|k IH]; intros i f0 F H; cbn [contrb_loop].
    - split; [intros E; apply ret_inj in E; subst F; exists (fun _ => v0), (fun _ => 0); split; [intros; lia|]|intros (f & g & _ & ->); unfold ret; do 2 f_equal]; cbn [product vproduct]; destruct f0; unfold vscale, vmul; cbn; f_equal; ring.
    - replace (Z.of_nat i + 1)%Z with (Z.of_nat (S i)) by lia. split.
      + intros E. mstep E. mstep E. mstep E. mstep E. mstep E. mstep E. apply okval in E1, E2, E5. apply (IH (S i)) in E as (f & g & H0 & ->); [|lia].
        destruct (vertex_at p (Z.of_nat i) d) as [v|] eqn:Ev; [|discriminate]. cbn in E0. injection E0 as <-. destruct (vertex_at p (Z.of_nat (S i)) d) as [w|] eqn:Ew; [|discriminate]. cbn in E4. injection E4 as <-.
        destruct (geometry_term _ _) as [G|] eqn:EG in E5; [|discriminate]. cbn in E5. injection E5 as <-.
        exists (fun j => if (j =? i)%nat then a2 else f j), (fun j => if (j =? i)%nat then G else g j). split.
        * intros j Hj. destruct (Nat.eqb_spec j i) as [->|N]; [|apply H0; lia]. split; [exists v, a0, a1; replace (Z.of_nat i + 1)%Z with (Z.of_nat (S i)) by lia; rewrite Ew; auto|exists v, w; replace (Z.of_nat i + 1)%Z with (Z.of_nat (S i)) by lia; auto].
        * cbn [product vproduct]. rewrite Nat.eqb_refl. rewrite product_upd, vproduct_upd by lia.
          unfold vscale, vmul; cbn; f_equal; ring.
      + intros (f & g & H0 & ->). destruct (H0 i ltac:(lia)) as ((v & a & b & S1 & S2 & S3 & S4) & (v' & w & T1 & T2 & T3)). assert (v' = v) by congruence. subst v'.
        replace (Z.of_nat i + 1)%Z with (Z.of_nat (S i)) in * by lia. rewrite S1. cbn [at_vert]. rewrite obind_ok, S2, pbind_okval, S3, pbind_okval, S4, pbind_val, T2. cbn [at_vert]. rewrite obind_ok, T3. cbn [of_option]. rewrite pbind_okval.
        apply IH; [lia|]. exists f, g. split; [intros j Hj; apply H0; lia|]. cbn [product vproduct]. unfold vscale, vmul; cbn; f_equal; ring.
  Qed.

  Lemma side_loop d l F : (l <= n)%nat -> (if (Z.of_nat l =? 0)%Z then ret (grey 1) else contrb_loop A p d 0 (Z.to_nat (Z.of_nat l - 1)) (grey 1)) = ret F <->
    exists f g, (forall j, (j < l - 1)%nat -> scat d j false (f j) /\ step_term d j (g j)) /\ F = vscale (product g 0 (l - 1)) (vproduct f 0 (l - 1)).
  Proof.
    intros L. destruct l as [|l].
    - cbn. split; [intros E; apply ret_inj in E; subst F; exists (fun _ => v0), (fun _ => 0); split; [intros; lia|]|intros (f & g & _ & ->); unfold ret; do 2 f_equal]; unfold grey, vscale; cbn; f_equal; ring.
    - replace (Z.of_nat (S l) =? 0)%Z with false by lia. replace (Z.to_nat (Z.of_nat (S l) - 1)) with l by lia. change 0%Z with (Z.of_nat 0). rewrite loop_iff by lia. replace (S l - 1)%nat with l by lia.
      split; intros (f & g & H & ->); exists f, g; (split; [intros j Hj; apply H; lia|]); destruct (vproduct f 0 l); unfold grey, vscale, vmul; cbn; f_equal; ring.
  Qed.

  Lemma end_iff d F : (1 <= n)%nat -> end_term A p d = ret F <-> scat d 0 true F.
  Proof.
    intros H. unfold end_term, scat. change (Z.of_nat 0) with 0%Z. change (vertex_at p (0 - 1) d) with (@None vert). split.
    - intros E. mstep E. mstep E. apply okval in E1. destruct (vertex_at p 0 d) as [v|]; [|discriminate]. cbn in E0. injection E0 as <-. exists v, v0, a0. auto.
    - intros (v & a & b & -> & S2 & S3 & S4). cbn [at_vert]. rewrite obind_ok. change (0 + 1)%Z with 1%Z in S3. rewrite S3, pbind_okval. cbn in S2. injection S2 as <-. exact S4.
  Qed.

  Lemma connection_iff s F : (0 < s < n)%nat -> eval_connection_term A p (Z.of_nat s) = ret F <->
    exists fl fe g, scat LE (s - 1) true fl /\ scat EL (n - s - 1) true fe /\ step_term LE (s - 1) g /\ F = vscale g (vmul fl fe).
  Proof.
    intros H. unfold eval_connection_term. replace (num_verts p - Z.of_nat s)%Z with (Z.of_nat (n - s)) by (unfold num_verts; lia).
    replace (_ && _)%bool with false by lia. replace (_ && _)%bool with false by lia. replace (_ && _)%bool with true by lia.
    replace (Z.of_nat s - 1)%Z with (Z.of_nat (s - 1)) by lia. replace (Z.of_nat (n - s) - 1)%Z with (Z.of_nat (n - s - 1)) by lia.
    unfold scat, step_term. replace (Z.of_nat (s - 1) - 1)%Z with (Z.of_nat s - 2)%Z by lia. replace (Z.of_nat (n - s - 1) - 1)%Z with (Z.of_nat (n - s) - 2)%Z by lia.
    assert (X1 : vertex_at p (Z.of_nat (s - 1) + 1) LE = vertex_at p (Z.of_nat (n - s - 1)) EL).
    { replace (Z.of_nat (s - 1) + 1)%Z with (Z.of_nat s) by lia. rewrite !vertex_pos by lia. unfold pos. f_equal. lia. }
    assert (X2 : vertex_at p (Z.of_nat (n - s - 1) + 1) EL = vertex_at p (Z.of_nat (s - 1)) LE).
    { replace (Z.of_nat (n - s - 1) + 1)%Z with (Z.of_nat (n - s)) by lia. rewrite !vertex_pos by lia. unfold pos. f_equal. lia. }
    rewrite X1, X2. destruct (vertex_some LE (s - 1) ltac:(lia)) as (vL & HL). destruct (vertex_some EL (n - s - 1) ltac:(lia)) as (vE & HE). rewrite HL, HE. cbn [at_vert]. rewrite !obind_ok. split.
    - intros E. repeat mstep E. apply ret_inj in E. subst F. apply okval in E0, E1, E3, E4, E6. destruct (geometry_term _ _) as [G|] eqn:EG in E6; [|discriminate]. cbn in E6. injection E6 as <-.
      exists a1, a4, G. split; [exists vL, a, a0; auto|]. split; [exists vE, a2, a3; auto|]. split; [exists vL, vE; auto|]. unfold vscale, vmul; cbn; f_equal; ring.
    - intros (fl & fe & g & (v & a & b & S1 & S2 & S3 & S4) & (v' & a' & b' & S1' & S2' & S3' & S4') & (x & y & T1 & T2 & T3) & ->).
      injection S1 as <-. injection S1' as <-. injection T1 as <-. injection T2 as <-. rewrite S2, pbind_okval, S3, pbind_okval, S4, pbind_val, S2', pbind_okval, S3', pbind_okval, S4', pbind_val, T3. cbn [of_option]. rewrite pbind_okval.
      unfold ret. do 2 f_equal. unfold vscale, vmul; cbn; f_equal; ring.
  Qed.

  Theorem contribution_iff s C : (2 <= n)%nat -> (s <= n)%nat -> eval_measurement_contrb_bidir A p (Z.of_nat s) = ret C <->
    exists f g, (forall k, (k < n)%nat -> scattered A p k (side n s k) (joint s k) (f k)) /\ (forall k, (S k < n)%nat -> edge p k (g k)) /\ C = measured f g n.
  Proof.
    intros N L. unfold eval_measurement_contrb_bidir. cbv zeta. replace (num_verts p - Z.of_nat s)%Z with (Z.of_nat (n - s)) by (unfold num_verts; lia).
    set (l := if (s =? 0)%nat then 1%nat else if (s =? n)%nat then (n - 1)%nat else s).
    (* the factors of the two ends of the connection, its geometry term *)
    assert (CT : forall F, eval_connection_term A p (Z.of_nat s) = ret F <->
      ((s = 0)%nat /\ scattered A p 0 LE true F) \/ ((s = n)%nat /\ scattered A p (n - 1) EL true F) \/
      ((0 < s < n)%nat /\ exists fl fe g, scattered A p (s - 1) LE true fl /\ scattered A p s EL true fe /\ edge p (s - 1) g /\ F = vscale g (vmul fl fe))).
    { intros F. destruct (Nat.eq_dec s 0) as [-> |S0]; [|destruct (Nat.eq_dec s n) as [-> |Sn]].
      - unfold eval_connection_term. change (Z.of_nat 0) with 0%Z. replace (_ && _)%bool with true by (unfold num_verts; lia). rewrite end_iff by lia. rewrite scat_pos by lia. cbn [pos].
        split; [auto|]. intros [[_ H]|[[H _]|[H _]]]; [exact H|lia|lia].
      - unfold eval_connection_term. replace (_ && _)%bool with false by (unfold num_verts; lia). replace (_ && _)%bool with true by (unfold num_verts; lia). rewrite end_iff by lia. rewrite scat_pos by lia. cbn [pos]. rewrite Nat.sub_0_r.
        split; [auto|]. intros [[H _]|[[_ H]|[H _]]]; [lia|exact H|lia].
      - rewrite connection_iff by lia. setoid_rewrite scat_pos; [|lia|lia]. setoid_rewrite step_pos; [|lia]. cbn [pos]. replace (n - 1 - (n - s - 1))%nat with s by lia.
        split; [intros H; right; right; split; [lia|exact H]|]. intros [[H _]|[[H _]|[_ H]]]; [lia|lia|exact H]. }
    (* the light side and the camera side *)
    assert (LL : forall F, (if (Z.of_nat s =? 0)%Z then ret (grey 1) else contrb_loop A p LE 0 (Z.to_nat (Z.of_nat s - 1)) (grey 1)) = ret F <->
      exists f g, (forall k, (k < s - 1)%nat -> scattered A p k LE false (f k) /\ edge p k (g k)) /\ F = vscale (product g 0 (s - 1)) (vproduct f 0 (s - 1))).
    { intros F. rewrite side_loop by lia. split; intros (f & g & H & ->); exists f, g; (split; [|reflexivity]); intros k K; destruct (H k K) as (H1 & H2); apply (scat_pos LE) in H1 || apply (scat_pos LE k false (f k)) in H1; try lia; apply (step_pos LE k (g k)) in H2; try lia; auto. }
    assert (EE : forall F, (if (Z.of_nat (n - s) =? 0)%Z then ret (grey 1) else contrb_loop A p EL 0 (Z.to_nat (Z.of_nat (n - s) - 1)) (grey 1)) = ret F <->
      exists f g, (forall k, (s < k < n)%nat -> scattered A p k EL false (f k) /\ edge p (k - 1) (g (k - 1)%nat)) /\ F = vscale (product g s (n - s - 1)) (vproduct f (S s) (n - s - 1))).
    { intros F. rewrite side_loop by lia. split.
      - intros (f & g & H & ->). exists (fun k => f (n - 1 - k)%nat), (fun k => g (n - 2 - k)%nat). split.
        + intros k K. destruct (H (n - 1 - k)%nat ltac:(lia)) as (H1 & H2). apply (scat_pos EL) in H1; [|lia]. apply (step_pos EL) in H2; [|lia]. cbn [pos] in H1. replace (n - 1 - (n - 1 - k))%nat with k in H1 by lia.
          replace (n - 2 - (n - 1 - k))%nat with (k - 1)%nat in H2 by lia. replace (n - 2 - (k - 1))%nat with (n - 1 - k)%nat by lia. auto.
        + destruct (Nat.eq_dec (n - s - 1) 0) as [e|ne]; [rewrite e; reflexivity|]. rewrite (product_rev g) by lia. rewrite (vproduct_rev f) by lia.
          replace (S (n - 2) - s - (n - s - 1))%nat with 0%nat by lia. replace (S (n - 1) - S s - (n - s - 1))%nat with 0%nat by lia. reflexivity.
      - intros (f & g & H & ->). exists (fun k => f (n - 1 - k)%nat), (fun k => g (n - 2 - k)%nat). split.
        + intros k K. destruct (H (n - 1 - k)%nat ltac:(lia)) as (H1 & H2). split; [apply scat_pos; [lia|exact H1]|]. apply step_pos; [lia|]. now replace (n - 2 - k)%nat with (n - 1 - k - 1)%nat by lia.
        + destruct (Nat.eq_dec (n - s - 1) 0) as [e|ne]; [rewrite e; reflexivity|]. rewrite (product_rev g) by lia. rewrite (vproduct_rev f) by lia.
          replace (S (n - 2) - 0 - (n - s - 1))%nat with s by lia. replace (S (n - 1) - 0 - (n - s - 1))%nat with (S s) by lia. reflexivity. }
    split.
    - intros E. do 3 mstep E. apply ret_inj in E. subst C. apply LL in E0 as (f1 & g1 & H1 & ->). apply EE in E1 as (f2 & g2 & H2 & ->). apply CT in E2.
      destruct E2 as [(-> & E2)|[(-> & E2)|(S1 & fl & fe & G & E2 & E3 & E4 & ->)]].
      + exists (fun k => if (k =? 0)%nat then a1 else f2 k), g2. split; [|split].
        * intros k K. destruct (Nat.eqb_spec k 0) as [-> |Nk]; [exact E2|]. rewrite side_EL, joint_no by lia. apply H2. lia.
        * intros k K. specialize (H2 (S k) ltac:(lia)). replace (S k - 1)%nat with k in H2 by lia. apply H2.
        * unfold measured. rewrite Nat.sub_0_r. clear - N. destruct n as [|m]; [lia|]. replace (S m - 1)%nat with m by lia. cbn [vproduct product Nat.eqb]. rewrite vproduct_upd by lia.
          cbn. unfold vscale, vmul; cbn; f_equal; ring.
      + exists (fun k => if (k =? n - 1)%nat then a1 else f1 k), g1. split; [|split].
        * intros k K. destruct (Nat.eqb_spec k (n - 1)) as [-> |Nk]; [rewrite side_EL, joint_yes by lia; exact E2|]. rewrite side_LE, joint_no by lia. apply H1. lia.
        * intros k K. apply H1. lia.
        * unfold measured. rewrite Nat.sub_diag. cbn [Nat.sub product vproduct]. rewrite (vproduct_last _ n) by lia. cbv beta. rewrite Nat.eqb_refl.
          rewrite vproduct_upd by lia. unfold grey, vscale, vmul; cbn; f_equal; ring.
      + set (ff := fun k => if (S k =? s)%nat then fl else if (k =? s)%nat then fe else if (k <? s)%nat then f1 k else f2 k). set (gg := fun k => if (S k =? s)%nat then G else if (k <? s)%nat then g1 k else g2 k).
        assert (P : product gg 0 (s - 1) = product g1 0 (s - 1) /\ product gg s (n - s - 1) = product g2 s (n - s - 1) /\ vproduct ff 0 (s - 1) = vproduct f1 0 (s - 1) /\ vproduct ff (S s) (n - s - 1) = vproduct f2 (S s) (n - s - 1) /\ gg (s - 1)%nat = G /\ ff (s - 1)%nat = fl /\ ff s = fe).
        { repeat split; try (apply product_ext || apply vproduct_ext; intros j J); unfold ff, gg;
            repeat match goal with |- context [(?a =? ?b)%nat] => destruct (Nat.eqb_spec a b); try lia | |- context [(?a <? ?b)%nat] => destruct (Nat.ltb_spec a b); try lia end; reflexivity. }
        destruct P as (P1 & P2 & P3 & P4 & P5 & P6 & P7). exists ff, gg. split; [|split].
        * intros k K. unfold ff. destruct (Nat.eqb_spec (S k) s) as [e|N1]; [rewrite side_LE, joint_yes by lia; now replace k with (s - 1)%nat by lia|].
          destruct (Nat.eqb_spec k s) as [-> |N2]; [rewrite side_EL, joint_yes by lia; exact E3|].
          destruct (Nat.ltb_spec k s); [rewrite side_LE, joint_no by lia; apply H1; lia|rewrite side_EL, joint_no by lia; apply H2; lia].
        * intros k K. unfold gg. destruct (Nat.eqb_spec (S k) s) as [e|N1]; [now replace k with (s - 1)%nat by lia|]. destruct (k <? s)%nat eqn:Ks; [apply H1; lia|]. specialize (H2 (S k) ltac:(lia)). replace (S k - 1)%nat with k in H2 by lia. apply H2.
        * unfold measured. rewrite (product_at _ n s), (vproduct_at _ n s) by lia. rewrite P1, P2, P3, P4, P5, P6, P7.
          unfold grey, vscale, vmul; cbn; f_equal; ring.
    - intros (f & g & Hf & Hg & ->).
      assert (H1 : exists F, F = vscale (product g 0 (s - 1)) (vproduct f 0 (s - 1)) /\ (if (Z.of_nat s =? 0)%Z then ret (grey 1) else contrb_loop A p LE 0 (Z.to_nat (Z.of_nat s - 1)) (grey 1)) = ret F).
      { eexists. split; [reflexivity|]. apply LL. exists f, g. split; [|reflexivity]. intros k K. split; [|apply Hg; lia]. specialize (Hf k ltac:(lia)). now rewrite side_LE, joint_no in Hf by lia. }
      assert (H2 : exists F, F = vscale (product g s (n - s - 1)) (vproduct f (S s) (n - s - 1)) /\ (if (Z.of_nat (n - s) =? 0)%Z then ret (grey 1) else contrb_loop A p EL 0 (Z.to_nat (Z.of_nat (n - s) - 1)) (grey 1)) = ret F).
      { eexists. split; [reflexivity|]. apply EE. exists f, g. split; [|reflexivity]. intros k K. split; [|apply Hg; lia]. specialize (Hf k ltac:(lia)). now rewrite side_EL, joint_no in Hf by lia. }
      destruct H1 as (F1 & E1 & H1), H2 as (F2 & E2 & H2). rewrite H1, pbind_val, H2, pbind_val. clear H1 H2 LL EE. subst F1 F2.
      destruct (Nat.eq_dec s 0) as [-> |S0]; [|destruct (Nat.eq_dec s n) as [Sn|Sn]].
      + assert (H : eval_connection_term A p (Z.of_nat 0) = ret (f 0%nat)). { apply CT. left. split; [reflexivity|]. specialize (Hf 0%nat ltac:(lia)). exact Hf. }
        rewrite H, pbind_val. unfold ret, measured. do 2 f_equal. rewrite Nat.sub_0_r. clear - N. destruct n as [|m]; [lia|]. replace (S m - 1)%nat with m by lia. cbn [vproduct product Nat.sub]. unfold grey, vscale, vmul; cbn; f_equal; ring.
      + assert (H : eval_connection_term A p (Z.of_nat s) = ret (f (n - 1)%nat)).
        { apply CT. right. left. split; [exact Sn|]. specialize (Hf (n - 1)%nat ltac:(lia)). now rewrite side_EL, joint_yes in Hf by lia. }
        rewrite H, pbind_val. unfold ret, measured. do 2 f_equal. rewrite Sn. rewrite Nat.sub_diag. cbn [Nat.sub product vproduct]. rewrite (vproduct_last _ n) by lia. unfold grey, vscale, vmul; cbn; f_equal; ring.
      + assert (H : eval_connection_term A p (Z.of_nat s) = ret (vscale (g (s - 1)%nat) (vmul (f (s - 1)%nat) (f s)))).
        { apply CT. right. right. split; [lia|]. exists (f (s - 1)%nat), (f s), (g (s - 1)%nat). split; [|split; [|split; [|reflexivity]]]; [| |apply Hg; lia].
          - specialize (Hf (s - 1)%nat ltac:(lia)). now rewrite side_LE, joint_yes in Hf by lia.
          - specialize (Hf s ltac:(lia)). now rewrite side_EL, joint_yes in Hf by lia. }
        rewrite H, pbind_val. unfold ret, measured. do 2 f_equal. rewrite (product_at _ n s), (vproduct_at _ n s) by lia. unfold grey, vscale, vmul; cbn; f_equal; ring.
  Qed.
End C.

(** ** Strategies *)
Lemma vproduct_scale c f n : forall i, vproduct (fun k => vscale (c k) (f k)) i n = vscale (product c i n) (vproduct f i n).
Proof. induction n as [|n IH]; intros i; cbn [vproduct product]; [unfold grey, vscale; cbn; f_equal; ring|]. rewrite IH. unfold vscale, vmul; cbn; f_equal; ring. Qed.
Lemma product_ones c n : forall i, (forall k, (i <= k < i + n)%nat -> c k = 1) -> product c i n = 1.
Proof. induction n as [|n IH]; intros i H; cbn; [reflexivity|]. rewrite H by lia. rewrite IH; [ring|intros; apply H; lia]. Qed.
Lemma product_window c s s' n : (s <= s' <= n)%nat -> product (fun k => if (s <=? k)%nat && (k <? s')%nat then c k else 1) 0 n = product c s (s' - s).
Proof.
  intros H. replace n with (s + ((s' - s) + (n - s')))%nat by lia. rewrite !product_split. cbn [Nat.add]. rewrite (product_ones _ s 0), (product_ones _ (n - s') (s + (s' - s))).
  - rewrite Rmult_1_l, Rmult_1_r. apply product_ext. intros k K. now replace (_ && _)%bool with true by lia.
  - intros k K. now replace (_ && _)%bool with false by lia.
  - intros k K. now replace (_ && _)%bool with false by lia.
Qed.

(** ** Materials *)
From Verif Require Import SceneModel MatSpec MatProofs PhaseModel PhaseProps LightSpec VisModel.
Lemma not_specular_0 m : reflecting m -> is_specular m 0 = false.
Proof.
  revert m. fix IH 2. intros m [Kd map Hk Hm|Ks ax ay Hk A B|m' H|es H|es H|Kd map Ks ax ay mk Hk Hm Hs A B]; try reflexivity.
  - cbn. now apply IH.
  - cbn [mixture_rr is_specular]. destruct (@at_index entry_ es 0) as [[m1 w]| |] eqn:E; [|reflexivity|reflexivity]. apply at_index_in in E. destruct (H m1 w E). now apply IH.
Qed.
Lemma steady m : reflecting m -> forall c, is_specular m c = false -> forall g wi wo d b d' b', eval m g wi wo c d b = eval m g wi wo c d' b'.
Proof.
  revert m. fix IH 2. intros m [Kd map Hk Hm|Ks ax ay Hk A B|m' H|es H|es H|Kd map Ks ax ay mk Hk Hm Hs A B] c Sp g wi wo d b d' b'; try reflexivity.
  - cbn [proxy eval]. now apply IH.
  - cbn [mixture_rr eval]. destruct (@at_index entry_ es c) as [[m1 w]| |] eqn:E; [|reflexivity|reflexivity]. cbn [fbind]. cbn [mixture_rr is_specular] in Sp. rewrite E in Sp. apply at_index_in in E.
    destruct (H m1 w E) as [Hr _]. now rewrite (IH m1 Hr 0%Z Sp g wi wo d b d' b').
  - cbn [mixture_marginalized eval]. destruct (at_index (groups es) c) as [grp| |] eqn:E; [|reflexivity|reflexivity]. cbn [fbind]. apply at_index_in in E.
    rewrite reflecting_groups in E by assumption. destruct E as [<-|[]]. 
    assert (Q : forall acc, group_eval es g wi wo d b acc = group_eval es g wi wo d' b' acc).
    { assert (K : forall m w, In (m, w) es -> eval m g wi wo 0 d b = eval m g wi wo 0 d' b').
      { intros m1 w Hi'. destruct (H m1 w Hi') as [Hr _]. apply (IH m1 Hr). now apply not_specular_0. }
      clear - K. induction es as [|[m w] es IHe]; intros acc; [reflexivity|]. cbn [group_eval]. rewrite (K m w) by now left. destruct (eval m g wi wo 0 d' b'); cbn [fbind]; auto. apply IHe. intros; eapply K; right; eassumption. }
    apply Q.
  - unfold mixture_obj in *. cbn [eval is_specular] in *. destruct (c =? 0)%Z; [reflexivity|discriminate].
Qed.
Lemma phase_sym f wi wo : phase_made f -> ph_eval f wi wo = ph_eval f wo wi.
Proof. intros [|neg0 g]; [reflexivity|]. cbn. unfold hg_pdf. replace (dot wo wi) with (dot wi wo) by (unfold dot; ring). reflexivity. Qed.
