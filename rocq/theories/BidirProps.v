(** C39, C40, C41, C70: bidirectional paths. All statements are for every implementation [A] of the functions
    the paths are built on; [scene_api] is that of the path and scene models. *)
From Coq Require Import List Reals ZArith Bool Lra Lia ZifyBool.
From Verif Require Import Base RBase SceneModel VecBase SurfModel MatModel CamModel CamSpec CamProofs LightModel PathModel MeshModel GeoModel VisModel VisSpec VisProps BidirModel BidirSpec BidirProofs.
Import ListNotations.
Open Scope R_scope.

(** * C40: connections *)
Theorem C40_vertices : forall A pL pE s t p, connect_subpaths A pL pE s t = ret (Some p) -> (0 <= s)%Z /\ (0 <= t)%Z /\ joined pL pE (Z.to_nat s) (Z.to_nat t) p.
Proof.
  intros A pL pE s t p H. unfold connect_subpaths in H. destruct (_ || _)%bool eqn:G in H; [discriminate|].
  assert (S0 : (0 <= s)%Z) by lia. assert (T0 : (0 <= t)%Z) by lia. split; [exact S0|]. split; [exact T0|]. unfold front, front_reversed in H.
  destruct (s =? 0)%Z eqn:Es; [|destruct (t =? 0)%Z eqn:Et].
  - apply Z.eqb_eq in Es. subst s. mstep H. destruct (degenerated _); [discriminate|]. mstep H. destruct (t <=? num_verts pE)%Z eqn:Lt; [|discriminate].
    injection E0 as <-. apply finish_some in H as [-> _]. change (rev (firstn (Z.to_nat t) pE)) with (firstn (Z.to_nat 0) pL ++ rev (firstn (Z.to_nat t) pE)). apply joined_fin; unfold num_verts in *; cbn; lia.
  - apply Z.eqb_eq in Et. subst t. mstep H. destruct (degenerated _); [discriminate|]. mstep H. destruct (s <=? num_verts pL)%Z eqn:Ls; [|discriminate].
    injection E0 as <-. apply finish_some in H as [-> _]. replace (firstn (Z.to_nat s) pL) with (firstn (Z.to_nat s) pL ++ rev (firstn (Z.to_nat 0) pE)) by apply app_nil_r. apply joined_fin; unfold num_verts in *; cbn; lia.
  - do 2 mstep H. destruct (_ || _)%bool eqn:I in H; [discriminate|]. mstep H. destruct a1; [|discriminate]. cbn [negb] in H. do 2 mstep H.
    destruct (s <=? num_verts pL)%Z eqn:Ls; [|discriminate]. destruct (t <=? num_verts pE)%Z eqn:Lt; [|discriminate]. injection E2 as <-. injection E3 as <-.
    apply finish_some in H as [-> _]. apply joined_fin; unfold num_verts in *; lia.
Qed.
Print Assumptions C40_vertices.
(** Counting from the two ends gives the same vertices; there is none at other indices. *)
Theorem C40_index : forall p i, vertex_at p i EL = vertex_at p (num_verts p - 1 - i) LE /\
  ((0 <= i < num_verts p)%Z -> vertex_at p i LE = nth_error p (Z.to_nat i) /\ vertex_at p i LE <> None) /\
  (~ (0 <= i < num_verts p)%Z -> vertex_at p i LE = None).
Proof.
  intros p i. split; [apply vertex_at_rev|]. unfold vertex_at, index, num_verts. split; intros H.
  - replace ((0 <=? i) && (i <? Z.of_nat (length p)))%Z with true by lia. split; [reflexivity|]. apply nth_error_Some. lia.
  - replace ((0 <=? i) && (i <? Z.of_nat (length p)))%Z with false by lia. reflexivity.
Qed.
Print Assumptions C40_index.
(** The functions of the scene answer at the vertices of a subpath. *)
Definition answers_at (A : api) (pL pE : fullpath) : Prop :=
  (forall v, In v pL \/ In v pE -> (exists b, a_is_light A (vs_sp v) = Ok b) /\ (exists b, a_is_camera A (vs_sp v) = Ok b)) /\
  (forall v w, In v pL -> In w pE -> (forall x, igeom (vs_sp v) <> Infinite x) -> (forall x, igeom (vs_sp w) <> Infinite x) -> exists b, a_visible A (vs_sp v) (vs_sp w) = ret b).
Lemma last_any {X} (l : list X) : forall x d d', last (x :: l) d = last (x :: l) d'.
Proof. induction l as [|y l IH]; intros x d d'; [reflexivity|]. exact (IH y d d'). Qed.
Lemma finish_ends A p v w bl bc : nth_error p 0 = Some v -> nth_error p (length p - 1) = Some w -> a_is_light A (vs_sp v) = Ok bl -> a_is_camera A (vs_sp w) = Ok bc ->
  exists r, finish A p = ret r /\ (r <> None <-> bl = true /\ bc = true).
Proof.
  destruct p as [|x r]; [discriminate|]. cbn [nth_error]. intros [= ->] Hw Hl Hc. unfold finish. rewrite Hl. cbn [obind].
  assert (E : last r v = w). { clear Hl Hc. replace (length (v :: r) - 1)%nat with (length r) in Hw by (cbn; lia). revert v Hw. induction r as [|y r IH]; intros v Hw; cbn in Hw; [now injection Hw|]. destruct r as [|z r]; [cbn in *; now injection Hw|]. rewrite <- (IH y Hw). change (last (z :: r) v = last (z :: r) y). apply last_any. }
  rewrite E, Hc. cbn [obind]. destruct bl, bc; cbn [negb]; eexists; (split; [reflexivity|]); intuition (try discriminate; congruence).
Qed.
(** With at least as many vertices as needed, the connection is defined and succeeds exactly if the strategy
    applies. *)
Theorem C40_connects : forall A pL pE s t, answers_at A pL pE -> (s <= length pL)%nat -> (t <= length pE)%nat -> (1 <= s + t)%nat ->
  exists r, connect_subpaths A pL pE (Z.of_nat s) (Z.of_nat t) = ret r /\ (r <> None <-> joinable A pL pE s t).
Proof.
  intros A pL pE s t (AE & AV) Hs Ht Hn. unfold connect_subpaths. replace (_ || _)%bool with false by lia.
  assert (NS : forall p k, (k < length p)%nat -> exists v : vert, nth_error p k = Some v /\ In v p).
  { intros p k K. destruct (nth_error p k) as [v|] eqn:E; [exists v; split; [reflexivity|eapply nth_error_In; exact E]|]. apply nth_error_None in E. lia. }
  assert (Dg : forall v, degenerated (igeom (vs_sp v)) = false <-> forall x, igeom (vs_sp v) <> Degenerated x).
  { intros v. destruct (igeom (vs_sp v)) as [g|x|x]; cbn; split; try congruence; try discriminate. intros H. now elim (H x). }
  assert (If : forall v, infinite (igeom (vs_sp v)) = false <-> forall x, igeom (vs_sp v) <> Infinite x).
  { intros v. destruct (igeom (vs_sp v)) as [g|x|x]; cbn; split; try congruence; try discriminate. intros H. now elim (H x). }
  assert (F : forall (l : fullpath) n k, (k < n)%nat -> nth_error (firstn n l) k = nth_error l k).
  { clear. intros l. induction l; intros [|n] [|k] ?; cbn; auto; try lia. apply IHl. lia. }
  assert (RV : forall (l : fullpath) k v, (k < length l)%nat -> nth_error l (length l - 1 - k) = Some v -> nth_error (rev l) k = Some v).
  { intros l k v K E. rewrite (nth_error_nth' _ v) by (rewrite rev_length; lia). rewrite rev_nth by lia. f_equal. replace (length l - S k)%nat with (length l - 1 - k)%nat by lia. now apply nth_error_nth. }
  destruct s as [|s]; [|destruct t as [|t]].
  - cbn [Z.of_nat Z.eqb]. destruct (NS pE (t - 1)%nat) as (v & Ev & Iv); [lia|]. destruct (NS pE 0%nat) as (w & Ew & Iw); [lia|].
    unfold subpath_vertex_at. replace (_ && _)%bool with true by (unfold num_verts; lia). replace (Z.to_nat (Z.of_nat t - 1)) with (t - 1)%nat by lia. rewrite Ev. cbn [at_vert obind].
    unfold front_reversed. replace (_ <=? _)%Z with true by (unfold num_verts; lia). cbn [obind]. rewrite Nat2Z.id.
    assert (LT : length (firstn t pE) = t) by (rewrite firstn_length; lia).
    destruct (AE v (or_intror Iv)) as ((bl & El) & _). destruct (AE w (or_intror Iw)) as (_ & (bc & Ec)).
    destruct (finish_ends A (rev (firstn t pE)) v w bl bc) as (r & Er & Hr); [..|exact El|exact Ec|].
    { apply RV; rewrite LT; [lia|]. rewrite F by lia. now replace (t - 1 - 0)%nat with (t - 1)%nat by lia. }
    { rewrite rev_length, LT. apply RV; rewrite LT; [lia|]. rewrite F by lia. now replace (t - 1 - (t - 1))%nat with 0%nat by lia. }
    unfold joinable, light_end, camera_end. replace (0 <? t)%nat with true by lia. cbn [Nat.ltb Nat.leb].
    destruct (degenerated (igeom (vs_sp v))) eqn:D.
    + exists None. split; [reflexivity|]. split; [congruence|]. intros (_ & _ & H & _). specialize (H v eq_refl Ev). apply Dg in H. congruence.
    + exists r. split; [exact Er|]. rewrite Hr. split.
      * intros [-> ->]. split; [intros v' E'; congruence|]. split; [intros v' E'; congruence|]. split; [|split; [intros; lia|intros; lia]]. intros v' _ E'. apply Dg. congruence.
      * intros (H1 & H2 & _). specialize (H1 v Ev). specialize (H2 w Ew). split; congruence.
  - replace (Z.of_nat (S s) =? 0)%Z with false by lia. change (Z.of_nat 0 =? 0)%Z with true. cbv iota. destruct (NS pL s) as (v & Ev & Iv); [lia|]. destruct (NS pL 0%nat) as (w & Ew & Iw); [lia|].
    unfold subpath_vertex_at. replace (_ && _)%bool with true by (unfold num_verts; lia). replace (Z.to_nat (Z.of_nat (S s) - 1)) with s by lia. rewrite Ev. cbn [at_vert obind].
    unfold front. replace (_ <=? _)%Z with true by (unfold num_verts; lia). cbn [obind]. rewrite Nat2Z.id.
    assert (LT : length (firstn (S s) pL) = S s) by (rewrite firstn_length; lia).
    destruct (AE w (or_introl Iw)) as ((bl & El) & _). destruct (AE v (or_introl Iv)) as (_ & (bc & Ec)).
    destruct (finish_ends A (firstn (S s) pL) w v bl bc) as (r & Er & Hr); [..|exact El|exact Ec|].
    { rewrite F by lia. exact Ew. } { rewrite LT, F by lia. now replace (S s - 1)%nat with s by lia. }
    unfold joinable, light_end, camera_end. cbn [Nat.ltb Nat.leb]. replace (S s - 1)%nat with s by lia.
    destruct (degenerated (igeom (vs_sp v))) eqn:D.
    + exists None. split; [reflexivity|]. split; [congruence|]. intros (_ & _ & _ & H & _). specialize (H v eq_refl Ev). apply Dg in H. congruence.
    + exists r. split; [exact Er|]. rewrite Hr. split.
      * intros [-> ->]. split; [intros v' E'; congruence|]. split; [intros v' E'; congruence|]. split; [intros; lia|]. split; [|intros; lia]. intros v' _ E'. apply Dg. congruence.
      * intros (H1 & H2 & _). specialize (H1 w Ew). specialize (H2 v Ev). split; congruence.
  - replace (Z.of_nat (S s) =? 0)%Z with false by lia. replace (Z.of_nat (S t) =? 0)%Z with false by lia.
    replace (Z.to_nat (Z.of_nat (S s) - 1)) with s by lia. replace (Z.to_nat (Z.of_nat (S t) - 1)) with t by lia.
    destruct (NS pL s) as (v & Ev & Iv); [lia|]. destruct (NS pE t) as (w & Ew & Iw); [lia|]. destruct (NS pL 0%nat) as (v1 & Ev1 & Iv1); [lia|]. destruct (NS pE 0%nat) as (w1 & Ew1 & Iw1); [lia|].
    rewrite Ev, Ew. cbn [at_vert obind]. unfold front, front_reversed. replace (_ <=? num_verts pL)%Z with true by (unfold num_verts; lia). replace (_ <=? num_verts pE)%Z with true by (unfold num_verts; lia). cbn [obind]. rewrite !Nat2Z.id.
    assert (LS : length (firstn (S s) pL) = S s) by (rewrite firstn_length; lia). assert (LT : length (firstn (S t) pE) = S t) by (rewrite firstn_length; lia).
    destruct (AE v1 (or_introl Iv1)) as ((bl & El) & _). destruct (AE w1 (or_intror Iw1)) as (_ & (bc & Ec)).
    destruct (finish_ends A (firstn (S s) pL ++ rev (firstn (S t) pE)) v1 w1 bl bc) as (r & Er & Hr); [..|exact El|exact Ec|].
    { rewrite nth_error_app1 by lia. rewrite F by lia. exact Ev1. }
    { rewrite app_length, rev_length, LS, LT. rewrite nth_error_app2 by lia. rewrite LS. apply RV; rewrite LT; [lia|]. rewrite F by lia. now replace (S t - 1 - (S s + S t - 1 - S s))%nat with 0%nat by lia. }
    unfold joinable, light_end, camera_end. cbn [Nat.ltb Nat.leb]. replace (S s - 1)%nat with s by lia. replace (S t - 1)%nat with t by lia.
    destruct (infinite (igeom (vs_sp v))) eqn:D1; [|destruct (infinite (igeom (vs_sp w))) eqn:D2]; cbn [orb].
    1,2: exists None; split; [reflexivity|]; split; [congruence|]; intros (_ & _ & _ & _ & H); destruct (H v w ltac:(lia) ltac:(lia) Ev Ew) as (I1 & I2 & _); apply (proj2 (If v)) in I1; apply (proj2 (If w)) in I2; congruence.
    assert (D1' := proj1 (If v) D1). assert (D2' := proj1 (If w) D2). destruct (AV v w Iv Iw D1' D2') as (b & Eb). rewrite Eb. cbn [pbind ret]. destruct b; cbn [negb].
    + exists r. split; [exact Er|]. rewrite Hr. split.
      * intros [-> ->]. split; [intros v' E'; congruence|]. split; [intros v' E'; congruence|]. split; [intros; lia|]. split; [intros; lia|]. intros v' w' _ _ E1 E2. assert (v' = v) by congruence. assert (w' = w) by congruence. subst. auto.
      * intros (H1 & H2 & _). specialize (H1 v1 Ev1). specialize (H2 w1 Ew1). split; congruence.
    + exists None. split; [reflexivity|]. split; [congruence|]. intros (_ & _ & _ & _ & H). destruct (H v w ltac:(lia) ltac:(lia) Ev Ew) as (_ & _ & H'). rewrite Eb in H'. discriminate H'.
Qed.
Print Assumptions C40_connects.

(** * C41: random walks *)
(** Never more vertices than the maximum, unless that is one; then at most two. *)
Theorem C41_limit_partial : forall A fuel rng max d p, sample_subpath A fuel rng max d = ret p ->
  (max <> 1 -> num_verts p <= Z.max 0 max)%Z /\ (max = 1 -> num_verts p <= 2)%Z.
Proof.
  intros A fuel rng max d p H. unfold sample_subpath, sample_subpath_from_endpoint in H. destruct (max =? 0)%Z eqn:M; [unfold ret in H; injection H as <-; unfold num_verts; cbn; lia|].
  apply walk_length in H. change (num_verts []) with 0%Z in H. lia.
Qed.
Print Assumptions C41_limit_partial.
(** A walk continued from given vertices keeps them in place. *)
Theorem C41_continues : forall A fuel rng p max d q, sample_subpath_from_endpoint A fuel rng p max d = ret q -> (0 < num_verts p)%Z ->
  (exists r, q = p ++ r) /\ (num_verts q <= Z.max (num_verts p) max)%Z.
Proof.
  intros A fuel rng p max d q H N. unfold sample_subpath_from_endpoint in H. destruct (max =? 0)%Z; [unfold ret in H; injection H as <-; split; [exists []; now rewrite app_nil_r|lia]|].
  split; [|apply walk_length in H; lia].
  revert rng p N H. induction fuel as [|fuel IH]; intros rng p N H; cbn [walk] in H; destruct (num_verts p <? max)%Z eqn:Lt; try discriminate; try (unfold ret in H; injection H as <-; exists []; now rewrite app_nil_r).
  replace (num_verts p =? 0)%Z with false in H by lia. mstep H. destruct a as [[[p' o] w]|]; [|unfold ret in H; injection H as <-; exists []; now rewrite app_nil_r].
  assert (p' = p). { mstep E. mstep E. mstep E. destruct a1 as [[wo w']|]; [|discriminate]. mstep E. unfold ret in E. congruence. } subst p'.
  mstep H. destruct a as [h|]; [|unfold ret in H; injection H as <-; exists []; now rewrite app_nil_r]. mstep H. destruct a as [c wt]. destruct (infinite (igeom h)).
  - unfold ret in H. injection H as <-. eauto.
  - apply IH in H as (r & ->); [exists ([mk_vert h c] ++ r); now rewrite app_assoc|]. unfold num_verts in *. rewrite app_length. cbn. lia.
Qed.
Print Assumptions C41_continues.
(** The walk ends: as many rounds as vertices wanted suffice. *)
Theorem C41_ends : forall A fuel rng p max d, answers A -> (max - num_verts p <= Z.of_nat fuel)%Z -> sample_subpath_from_endpoint A fuel rng p max d <> Fuel.
Proof. intros A fuel rng p max d H K. unfold sample_subpath_from_endpoint. destruct (max =? 0)%Z; [discriminate|]. now apply walk_ends. Qed.
Print Assumptions C41_ends.

(** * C70: weights and densities *)
(** Where a path has a positive density under a strategy, its weight is the contribution over the density. *)
Theorem C70_weight : forall A p s q f, (0 <= s <= num_verts p)%Z -> (2 <= num_verts p)%Z -> pdf_bidir A p s = ret q -> q <> 0 ->
  eval_measurement_contrb_bidir A p s = ret f -> exists C, eval_sampling_weight_bidir A p s = ret C /\ f = vscale q C.
Proof. exact weight_is_ratio. Qed.
Print Assumptions C70_weight.

(** The path API says so exactly if the strategy can sample the path; others have density 0. *)
Lemma end_samplable A v b : samplable_end A (Some v) = ret b -> (b = true <-> hittable A v).
Proof.
  unfold samplable_end, hittable. cbn [at_vert]. rewrite obind_ok. intros H. destruct (igeom (vs_sp v)) as [g|x|x] eqn:G; cbn [degenerated] in H.
  2: { apply ret_inj in H. subst b. split; [discriminate|]. intros (D & _). now elim (D x). }
  all: mstep H; apply ret_inj in H; subst b; rewrite E; destruct a; cbn [negb]; (split; [intros X; first [discriminate X|split; [congruence|reflexivity]]|intros (_ & X); apply ret_inj in X; congruence]).
Qed.
Theorem C70_usable : forall A p s b, (1 <= length p)%nat -> (s <= length p)%nat -> is_samplable_bidir A p (Z.of_nat s) = ret b ->
  (b = true <-> usable A p s) /\ (~ usable A p s -> pdf_bidir A p (Z.of_nat s) = ret 0).
Proof.
  intros A p s b N L H. assert (R : b = true <-> usable A p s).
  { assert (At : forall k, (k < length p)%nat -> exists v, nth_error p k = Some v) by (intros k K; destruct (nth_error p k) eqn:E; [eauto|]; apply nth_error_None in E; lia).
    assert (VL : forall k, (k < length p)%nat -> vertex_at p (Z.of_nat k) LE = nth_error p k).
    { intros k K. unfold vertex_at, index, num_verts. replace ((0 <=? Z.of_nat k) && (Z.of_nat k <? Z.of_nat (length p)))%Z with true by lia. now rewrite Nat2Z.id. }
    assert (VE : forall k, (k < length p)%nat -> vertex_at p (Z.of_nat k) EL = nth_error p (length p - 1 - k)).
    { intros k K. rewrite vertex_at_rev. unfold num_verts. replace (Z.of_nat (length p) - 1 - Z.of_nat k)%Z with (Z.of_nat (length p - 1 - k)) by lia. apply VL. lia. }
    unfold is_samplable_bidir in H. unfold num_verts in H. unfold usable.
    destruct (Nat.eq_dec s 0) as [-> |S0]; [|destruct (Nat.eq_dec s (length p)) as [e|T0]].
    - change (Z.of_nat 0 =? 0)%Z with true in H. cbv iota in H. change 0%Z with (Z.of_nat 0) in H. rewrite VL in H by lia. destruct (At 0%nat ltac:(lia)) as (v & Ev). rewrite Ev in *. apply end_samplable in H. rewrite H. split.
      + intros Hh. split; [eauto|]. split; lia.
      + intros (Hh & _). destruct (Hh eq_refl) as (v' & [= <-] & Q). exact Q.
    - replace (Z.of_nat s =? 0)%Z with false in H by lia. replace (Z.of_nat (length p) - Z.of_nat s =? 0)%Z with true in H by lia. cbv iota in H. change 0%Z with (Z.of_nat 0) in H. rewrite VE in H by lia.
      replace (length p - 1 - 0)%nat with (length p - 1)%nat in H by lia. destruct (At (length p - 1)%nat ltac:(lia)) as (v & Ev). rewrite Ev in *. apply end_samplable in H. rewrite H. split.
      + intros Hh. split; [lia|]. split; [eauto|lia].
      + intros (_ & Hh & _). destruct (Hh e) as (v' & [= <-] & Q). exact Q.
    - replace (Z.of_nat s =? 0)%Z with false in H by lia. replace (Z.of_nat (length p) - Z.of_nat s =? 0)%Z with false in H by lia. cbv iota in H.
      replace (Z.of_nat s - 1)%Z with (Z.of_nat (s - 1)) in H by lia. replace (Z.of_nat (length p) - Z.of_nat s - 1)%Z with (Z.of_nat (length p - 1 - s)) in H by lia. rewrite VL, VE in H by lia.
      replace (length p - 1 - (length p - 1 - s))%nat with s in H by lia. destruct (At (s - 1)%nat ltac:(lia)) as (v & Ev), (At s ltac:(lia)) as (w & Ew). rewrite Ev, Ew in *. cbn [at_vert] in H. rewrite !obind_ok in H.
      assert (Q : forall P, (exists v0 w0, Some v = Some v0 /\ Some w = Some w0 /\ P v0 w0) <-> P v w) by (intros P; split; [intros (? & ? & [= <-] & [= <-] & X); exact X|eauto]).
      assert (Q2 : forall P : Prop, ((s = 0%nat -> exists v0, nth_error p 0 = Some v0 /\ hittable A v0) /\ (s = length p -> exists v0, nth_error p (length p - 1) = Some v0 /\ hittable A v0) /\ ((0 < s < length p)%nat -> P)) <-> P).
      { intros P. split; [intros (_ & _ & X); apply X; lia|]. intros X. split; [lia|]. split; [lia|auto]. }
      rewrite Q2, (Q (fun v w => (s = 1%nat -> a_connectable A (vs_sp v) = ret true) /\ (S s = length p -> a_connectable A (vs_sp w) = ret true) /\ a_specular A (vs_sp v) (vs_comp v) = ret false /\ a_specular A (vs_sp w) (vs_comp w) = ret false)). clear Q Q2.
      mstep H. assert (CL : a = true <-> (s = 1%nat -> a_connectable A (vs_sp v) = ret true)).
      { destruct (Z.eqb_spec (Z.of_nat s) 1) as [e|e]; [rewrite E|apply ret_inj in E; subst a; split; [lia|reflexivity]]. split; [intros ->; reflexivity|]. intros X. specialize (X ltac:(lia)). now apply ret_inj in X. }
      destruct a; cbn [negb] in H; [|apply ret_inj in H; subst b; split; [discriminate|intros (X & _); apply CL in X; discriminate]].
      mstep H. assert (CE : a = true <-> (S s = length p -> a_connectable A (vs_sp w) = ret true)).
      { destruct (Z.eqb_spec (Z.of_nat (length p) - Z.of_nat s) 1) as [e|e]; [rewrite E0|apply ret_inj in E0; subst a; split; [lia|reflexivity]]. split; [intros ->; reflexivity|]. intros X. specialize (X ltac:(lia)). now apply ret_inj in X. }
      destruct a; cbn [negb] in H; [|apply ret_inj in H; subst b; split; [discriminate|intros (_ & X & _); apply CE in X; discriminate]].
      mstep H. destruct a; [apply ret_inj in H; subst b; split; [discriminate|intros (_ & _ & X & _); rewrite E1 in X; now apply ret_inj in X]|].
      mstep H. apply ret_inj in H. subst b. destruct a; cbn [negb]; split; try discriminate.
      + intros (_ & _ & _ & X). rewrite E2 in X. now apply ret_inj in X.
      + intros _. split; [now apply CL|]. split; [now apply CE|]. auto.
      + reflexivity. }
  split; [exact R|]. intros U. destruct b; [now elim U; apply R|]. unfold pdf_bidir. rewrite H, pbind_val. reflexivity.
Qed.
Print Assumptions C70_usable.

(** * C39: multiple importance sampling *)
Lemma total_pos n f j : (forall i, (i < n)%nat -> 0 <= f i) -> (j < n)%nat -> f j <= total n f.
Proof.
  intros H J. assert (N : forall m, (m <= n)%nat -> 0 <= total m f). { induction m as [|m IH]; intros L; cbn; [lra|]. specialize (IH ltac:(lia)). specialize (H m ltac:(lia)). lra. }
  induction n as [|n IH]; [lia|]. cbn. destruct (Nat.eq_dec j n) as [->|D]; [specialize (N n ltac:(lia)); lra|]. assert (f j <= total n f) by (apply IH; [intros; apply H; lia|lia|intros; apply N; lia]). specialize (H n ltac:(lia)). lra.
Qed.
Lemma total_scale n f c : total n (fun j => c * f j) = c * total n f.
Proof. induction n as [|n IH]; cbn; [ring|rewrite IH; ring]. Qed.
Lemma total_ext n f g : (forall i, (i < n)%nat -> f i = g i) -> total n f = total n g.
Proof. induction n as [|n IH]; intros H; cbn; [reflexivity|]. rewrite IH by (intros; apply H; lia). now rewrite H by lia. Qed.
(** The weights (power heuristic with exponent two) of the n + 1 strategies of a path: where a strategy has a
    positive density, the function gives a weight in (0, 1], and these sum to one. *)
Theorem C39_power : forall A p (q : nat -> R), let n := length p in
  (forall s, (s <= n)%nat -> pdf_bidir A p (Z.of_nat s) = ret (q s) /\ 0 <= q s) -> (exists s, (s <= n)%nat /\ 0 < q s) ->
  exists w : nat -> R, total (S n) w = 1 /\
    forall s, (s <= n)%nat -> (0 < q s -> eval_mis_weight A p (Z.of_nat s) = ret (w s) /\ 0 < w s <= 1 /\ w s * total (S n) (fun i => q i ^ 2) = q s ^ 2) /\ (q s = 0 -> w s = 0).
Proof.
  intros A p q n H (s0 & L0 & P0). set (T := total (S n) (fun j => q j * q j)).
  assert (TP : forall s, (s <= n)%nat -> q s * q s <= T). { intros s L. apply (total_pos (S n) (fun j => q j * q j)); [|lia]. intros i Li. apply Rle_0_sqr. }
  assert (T0 : 0 < T). { specialize (TP s0 L0). assert (0 < q s0 * q s0) by now apply Rmult_lt_0_compat. lra. }
  exists (fun s => / T * (q s * q s)). split; [rewrite total_scale; fold T; field; lra|]. intros s L. split.
  - intros P. assert (PP : 0 < q s * q s) by now apply Rmult_lt_0_compat. split; [|split; [split|]].
    + unfold eval_mis_weight. destruct (H s L) as [E _]. rewrite E. cbn [pbind ret]. destruct (Rlt_dec 0 (q s)); [|contradiction].
      replace (Z.to_nat (num_verts p + 1)) with (S n) by (unfold num_verts; lia). assert (ML := mis_loop_sum A p (q s) q (S n) P 0 0 (fun j J => proj1 (H j ltac:(lia)))). change (Z.of_nat 0) with 0%Z in ML. rewrite ML. rewrite pbind_val. cbn [Nat.add]. fold T.
      change (total 0 _) with 0. assert (D : 0 + (T - 0) / (q s * q s) <> 0). { intros D. assert (0 < T / (q s * q s)) by now apply Rdiv_lt_0_compat. lra. }
      rewrite rdiv_ok by exact D. unfold ret. f_equal. f_equal. field. lra.
    + apply Rmult_lt_0_compat; [now apply Rinv_0_lt_compat|exact PP].
    + apply Rmult_le_reg_l with T; [exact T0|]. rewrite <- Rmult_assoc, Rinv_r, Rmult_1_l, Rmult_1_r by lra. auto.
    + rewrite (total_ext _ (fun i => q i ^ 2) (fun j => q j * q j)) by (intros; ring). fold T. field. lra.
  - intros ->. ring.
Qed.
Print Assumptions C39_power.
(** The balance heuristic of two techniques *)
Theorem C39_balance : forall p q, 0 <= p -> 0 <= q -> 0 < p + q ->
  exists v w, balance_heuristic p q = Val v /\ balance_heuristic q p = Val w /\ v + w = 1 /\ 0 <= v <= 1 /\ 0 <= w <= 1 /\ v * q = w * p.
Proof.
  intros p q P Q S. exists (p / (p + q)), (q / (p + q)).
  assert (B : forall a b, a + b <> 0 -> balance_heuristic a b = Val (a / (a + b))).
  { intros a b D. unfold balance_heuristic. destruct (Req_EM_T a 0), (Req_EM_T b 0); try (apply rdiv_ok; assumption). lra. }
  rewrite !B by lra. rewrite (Rplus_comm q p).
  assert (forall a, 0 <= a <= p + q -> 0 <= a / (p + q) <= 1).
  { intros a (A1 & A2). unfold Rdiv. assert (0 < / (p + q)) by now apply Rinv_0_lt_compat. split; [now apply Rmult_le_pos; lra|]. apply Rmult_le_reg_r with (p + q); [lra|]. rewrite Rmult_assoc, Rinv_l by lra. lra. }
  repeat split; try reflexivity; try (apply H; lra); field; lra.
Qed.
Print Assumptions C39_balance.
Theorem C39_balance_zero : balance_heuristic 0 0 = Val 0.
Proof. unfold balance_heuristic. destruct (Req_EM_T 0 0); [reflexivity|contradiction]. Qed.
Print Assumptions C39_balance_zero.

(** * Examples: a point light and a camera above the triangle of VisProps *)
Definition x_cam : camera := mk_camera (V3 0 0 1) (Some (V3 0 1 0)) (V3 1 0 0) (V3 0 1 0) (V3 0 0 1) 90 1 1.
Definition x_api neg0 zs a : api :=
  scene_api (fun _ => mk_tr (M3 v0 v0 v0) v0 (M3 v0 v0 v0) 1) (fun _ => diffuse (grey 1) None) (fun _ => point_light (grey 1) (V3 0 0 (/ 2))) (fun _ => x_cam)
    (fun _ => PhaseModel.isotropic) x_meshes neg0 zs (fun _ => false) (x_scene None None) a.
Definition x_lamp : vert := mk_vert (endpoint LightEndpoint 3 (Degenerated (V3 0 0 (/ 2)))) 0.
Definition x_eye : vert := mk_vert (endpoint CameraEndpoint 2 (Degenerated (V3 0 0 1))) 0.
Definition x_spot : vert := mk_vert (mk_sp SurfaceInteraction 1 (OnSurface (make_on_surface false v0 (V3 0 0 1) (V3 0 0 1))) (V2 0 0)) 0.
(** These three are the vertices of a path that three of the functions connect at the surface. *)
Definition x_path : fullpath := [x_lamp; x_spot; x_eye].
Lemma down z : z < 0 -> fnormalize (V3 0 0 z) = Val (V3 0 0 (-1)).
Proof.
  intros H. unfold fnormalize, vdiv, vlen. replace (dot _ _) with ((- z) * (- z)) by (unfold dot; cbn; ring). rewrite sqrt_square by lra. destruct (Req_EM_T (- z) 0); [lra|].
  f_equal. apply vec3_eq; cbn; try ring. field. lra.
Qed.
Lemma up z : 0 < z -> fnormalize (V3 0 0 z) = Val (V3 0 0 1).
Proof.
  intros H. unfold fnormalize, vdiv, vlen. replace (dot _ _) with (z * z) by (unfold dot; cbn; ring). rewrite sqrt_square by lra. destruct (Req_EM_T z 0); [lra|].
  f_equal. apply vec3_eq; cbn; try ring. field. lra.
Qed.
Lemma x_dirs : direction (Some x_lamp) (Some x_spot) = Val (V3 0 0 (-1)) /\ direction (Some x_spot) (Some x_lamp) = Val (V3 0 0 1) /\
  direction (Some x_eye) (Some x_spot) = Val (V3 0 0 (-1)) /\ direction (Some x_spot) (Some x_eye) = Val (V3 0 0 1).
Proof.
  unfold direction. cbn [x_lamp x_spot x_eye vs_sp igeom endpoint].
  assert (E : pos_of (OnSurface (make_on_surface false v0 (V3 0 0 1) (V3 0 0 1))) = v0) by (unfold make_on_surface; destruct (orthonormal_basis _ _); reflexivity).
  rewrite E. cbn [pos_of]. repeat split.
  - rewrite <- (down (- / 2)) by lra. f_equal. apply vec3_eq; cbn; ring.
  - rewrite <- (up (/ 2)) by lra. f_equal. apply vec3_eq; cbn; ring.
  - rewrite <- (down (- 1)) by lra. f_equal. apply vec3_eq; cbn; ring.
  - rewrite <- (up 1) by lra. f_equal. apply vec3_eq; cbn; ring.
Qed.
Lemma x_term h : 0 < h -> let e := Degenerated (V3 0 0 h) in let g := igeom (vs_sp x_spot) in
  geometry_term e g = Some (/ (h * h)) /\ geometry_term g e = Some (/ (h * h)).
Proof.
  intros H e g. unfold g, x_spot. cbn [vs_sp igeom]. set (o := make_on_surface _ _ _ _). assert (E : sp o = v0 /\ sn o = V3 0 0 1) by (unfold o, make_on_surface; destruct (orthonormal_basis _ _); split; reflexivity).
  destruct E as (E1 & E2). unfold geometry_term, e. cbn [pos_of]. rewrite E1.
  assert (D1 : dot (vsub v0 (V3 0 0 h)) (vsub v0 (V3 0 0 h)) = h * h) by (unfold dot; cbn; ring). assert (D2 : dot (vsub (V3 0 0 h) v0) (vsub (V3 0 0 h) v0) = h * h) by (unfold dot; cbn; ring).
  rewrite D1, D2, !sqrt_square by lra. unfold fdiv. destruct (Req_EM_T h 0); [lra|]. destruct (Req_EM_T (h * h) 0); [nra|]. cbn [cos_at]. rewrite E2.
  split; f_equal.
  - replace (dot _ _) with 1 by (unfold dot; cbn; field; lra). rewrite Rabs_R1. field. lra.
  - replace (dot _ _) with 1 by (unfold dot; cbn; field; lra). rewrite Rabs_R1. field. lra.
Qed.
Lemma x_cam_values : cam_pdf_direction x_cam (V3 0 0 (-1)) = Val (/ 4) /\ cam_eval x_cam (V3 0 0 (-1)) = Val (grey (/ 4)).
Proof.
  assert (E : to_eye x_cam (V3 0 0 (-1)) = V3 0 0 (-1)) by (apply vec3_eq; cbn; ring).
  assert (R : raster_position x_cam (V3 0 0 (-1)) = Val (Some (V2 (/ 2) (/ 2)))).
  { unfold raster_position. rewrite E. cbn [vx vy vz c_tf c_aspect x_cam]. destruct (Rle_dec 0 (-1)); [lra|]. repeat (rewrite rdiv_ok by lra; cbn [fbind]).
   
    replace (- 0 / -1 / 1 / 1 * / 2 + / 2) with (/ 2) by field. replace (- 0 / -1 / 1 * / 2 + / 2) with (/ 2) by field. destruct (Rlt_dec (/ 2) 0); [lra|]. destruct (Rlt_dec 1 (/ 2)); [lra|]. reflexivity. }
  assert (J4 : J x_cam (V3 0 0 (-1)) = Val (/ 4)).
  { unfold J. rewrite E. cbn [vz c_tf c_aspect x_cam]. rewrite rdiv_ok by lra. cbn [fbind]. rewrite rdiv_ok by lra. f_equal. field. }
  unfold cam_pdf_direction, cam_eval. rewrite R. cbn [fbind]. rewrite J4. split; reflexivity.
Qed.
Section X.
  Variables (neg0 : bool) (zs : vec3 -> nat -> bool) (a : accel).
  Notation A := (x_api neg0 zs a).
  Lemma x_lamp_values : a_connectable A (vs_sp x_lamp) = ret true /\ a_specular A (vs_sp x_lamp) 0 = ret false /\ a_pdf_position A (vs_sp x_lamp) = ret 1 /\
    (forall c, a_pdf_component A (vs_sp x_lamp) v0 c = ret 1) /\ (forall c d b wi wo, a_contrb A (vs_sp x_lamp) wi wo c d b = ret (grey 1)) /\
    (forall c b wi wo, a_pdf_direction A (vs_sp x_lamp) wi wo c b = ret pdf_uniform_sphere).
  Proof.
    split; [reflexivity|]. split; [reflexivity|]. split; [|split; [reflexivity|split; reflexivity]].
    unfold x_api, scene_api. cbn [a_pdf_position]. unfold pdf_position, find_light.
    change (prim_at (x_scene None None) (iprim (vs_sp x_lamp))) with (Ok (mk_prim None None (Some 0%nat) None None)).
    change (light_index_at (x_scene None None) (iprim (vs_sp x_lamp))) with (Ok 0%Z). change (light_primitive_index_at (x_scene None None) 0) with (Ok (id_affine, 3%Z)).
    cbn [obind it vs_sp x_lamp endpoint deref SceneModel.p_light unsupported l_pdf_position point_light s_lights x_scene length fst]. 
    unfold SelectModel.pdf_light_selection, fdiv. destruct (Req_EM_T (INR 1) 0) as [e|_]; [cbn in e; lra|]. change (light_primitive_index_at (x_scene None None) 0) with (Ok (id_affine, 3%Z)). cbn [obind of_num pbind]. unfold ret. do 2 f_equal. cbn. field.
  Qed.
  Lemma x_eye_values : a_connectable A (vs_sp x_eye) = ret true /\ a_specular A (vs_sp x_eye) 0 = ret false /\ a_pdf_position A (vs_sp x_eye) = ret 1 /\
    (forall c, a_pdf_component A (vs_sp x_eye) v0 c = ret 1) /\ (forall c d b wi, a_contrb A (vs_sp x_eye) wi (V3 0 0 (-1)) c d b = ret (grey (/ 4))) /\
    (forall c b wi, a_pdf_direction A (vs_sp x_eye) wi (V3 0 0 (-1)) c b = ret (/ 4)).
  Proof.
    destruct x_cam_values as (V1 & V2). split; [reflexivity|]. split; [reflexivity|]. split; [reflexivity|]. split; [reflexivity|]. split.
    - intros c d b wi. change (a_contrb A (vs_sp x_eye) wi (V3 0 0 (-1)) c d b) with (Ok (cam_eval x_cam (V3 0 0 (-1)))). now rewrite V2.
    - intros c b wi. change (a_pdf_direction A (vs_sp x_eye) wi (V3 0 0 (-1)) c b) with (Ok (cam_pdf_direction x_cam (V3 0 0 (-1)))). now rewrite V1.
  Qed.
  Lemma x_spot_values : a_specular A (vs_sp x_spot) 0 = ret false /\ (forall c wi, a_pdf_component A (vs_sp x_spot) wi c = ret 1) /\
    (forall c d b, exists f, a_contrb A (vs_sp x_spot) (V3 0 0 1) (V3 0 0 1) c d b = ret f).
  Proof.
    split; [reflexivity|]. split; [reflexivity|]. intros c d b. unfold x_api, scene_api. cbn [a_contrb]. unfold eval_contrb_direction.
    change (prim_at (x_scene None None) (iprim (vs_sp x_spot))) with (Ok (mk_prim (Some 0%nat) (Some 0%nat) None None (Some 0%nat))).
    cbn [obind it vs_sp x_spot deref p_material spoint_of igeom itc pbind]. cbn [eval diffuse geo]. destruct (opposite _ _ _); cbn [pbind]; eexists; reflexivity.
  Qed.
  Lemma x_at : vertex_at x_path 0 LE = Some x_lamp /\ vertex_at x_path 1 LE = Some x_spot /\ vertex_at x_path 2 LE = Some x_eye /\ vertex_at x_path (-1) LE = None /\
    vertex_at x_path 0 EL = Some x_eye /\ vertex_at x_path 1 EL = Some x_spot /\ vertex_at x_path 2 EL = Some x_lamp /\ vertex_at x_path (-1) EL = None.
  Proof. repeat split. Qed.
  Lemma x_densities : pdf_bidir A x_path 0 = ret 0 /\ pdf_bidir A x_path 1 = ret (/ 4) /\ pdf_bidir A x_path 2 = ret (4 * pdf_uniform_sphere) /\ pdf_bidir A x_path 3 = ret 0.
  Proof.
    destruct x_at as (L0 & L1 & L2 & L3 & E0 & E1 & E2 & E3), x_lamp_values as (A1 & A2 & A3 & A4 & A5 & A6), x_eye_values as (B1 & B2 & B3 & B4 & B5 & B6), x_spot_values as (C1 & C2 & C3).
    destruct x_dirs as (D1 & D2 & D3 & D4). destruct (x_term (/ 2) ltac:(lra)) as (G1 & G2), (x_term 1 ltac:(lra)) as (G3 & G4).
    split; [reflexivity|]. split; [|split; [|reflexivity]].
    - unfold pdf_bidir, is_samplable_bidir. change (num_verts x_path - 1)%Z with 2%Z. change (1 =? 0)%Z with false. change (2 =? 0)%Z with false. change (1 =? 1)%Z with true. change (2 =? 1)%Z with false.
      change (1 - 1)%Z with 0%Z. change (2 - 1)%Z with 1%Z. cbv iota. rewrite L0, E1. cbn [at_vert obind]. rewrite A1, pbind_val. cbn [negb]. rewrite pbind_val. cbn [negb].
      change (vs_comp x_lamp) with 0%Z. change (vs_comp x_spot) with 0%Z. rewrite A2, pbind_val, C1, pbind_val, pbind_val. cbn [negb].
      unfold pdf_subpath. change (1 =? 0)%Z with false. change (2 =? 0)%Z with false. cbv iota. rewrite L0, E0. cbn [at_vert]. rewrite !obind_ok, A1, B1, !pbind_val, A3, !pbind_val, A4, !pbind_val, B3, !pbind_val, B4.
      change (Z.to_nat (1 - 1)) with 0%nat. change (Z.to_nat (2 - 1)) with 1%nat. cbn [pdf_loop]. change (0 - 1)%Z with (-1)%Z. change (0 + 1)%Z with 1%Z. rewrite E0, E1, E3. cbn [at_vert]. rewrite !pbind_val, obind_ok.
      rewrite D3. change (direction (Some x_eye) None) with (@Val vec3 v0). rewrite !pbind_okval, obind_ok, C2, pbind_val, B6, pbind_val. unfold convert_to_area. change (igeom (vs_sp x_eye)) with (Degenerated (V3 0 0 1)). rewrite G3. cbn [of_option]. rewrite pbind_okval, !pbind_val.
      unfold ret. do 2 f_equal. field.
    - unfold pdf_bidir, is_samplable_bidir. change (num_verts x_path - 2)%Z with 1%Z. change (1 =? 0)%Z with false. change (2 =? 0)%Z with false. change (1 =? 1)%Z with true. change (2 =? 1)%Z with false.
      change (1 - 1)%Z with 0%Z. change (2 - 1)%Z with 1%Z. cbv iota. rewrite L1, E0. cbn [at_vert obind]. rewrite pbind_val. cbn [negb]. rewrite B1, pbind_val. cbn [negb].
      change (vs_comp x_eye) with 0%Z. change (vs_comp x_spot) with 0%Z. rewrite C1, pbind_val, B2, pbind_val, pbind_val. cbn [negb].
      unfold pdf_subpath. change (1 =? 0)%Z with false. change (2 =? 0)%Z with false. cbv iota. rewrite L0, E0. cbn [at_vert]. rewrite !obind_ok, A1, B1, !pbind_val, A3, !pbind_val, A4, !pbind_val.
      change (Z.to_nat (1 - 1)) with 0%nat. change (Z.to_nat (2 - 1)) with 1%nat. cbn [pdf_loop]. change (0 - 1)%Z with (-1)%Z. change (0 + 1)%Z with 1%Z. rewrite L0, L1, L3. cbn [at_vert]. rewrite obind_ok.
      rewrite D1. change (direction (Some x_lamp) None) with (@Val vec3 v0). rewrite !pbind_okval, obind_ok, C2, pbind_val, A6, pbind_val. unfold convert_to_area. change (igeom (vs_sp x_lamp)) with (Degenerated (V3 0 0 (/ 2))). rewrite G1. cbn [of_option]. rewrite pbind_okval, !pbind_val, B3, pbind_val, B4, !pbind_val.
      unfold ret. do 2 f_equal. field.
  Qed.
  Lemma x_contribution : exists f, eval_measurement_contrb_bidir A x_path 1 = ret f.
  Proof.
    destruct x_at as (L0 & L1 & L2 & L3 & E0 & E1 & E2 & E3), x_lamp_values as (A1 & A2 & A3 & A4 & A5 & A6), x_eye_values as (B1 & B2 & B3 & B4 & B5 & B6), x_spot_values as (C1 & C2 & C3).
    destruct x_dirs as (D1 & D2 & D3 & D4). destruct (x_term (/ 2) ltac:(lra)) as (G1 & G2), (x_term 1 ltac:(lra)) as (G3 & G4).
    destruct (C3 (vs_comp x_spot) EL true) as (f & Hf). unfold eval_measurement_contrb_bidir. change (num_verts x_path - 1)%Z with 2%Z. change (1 =? 0)%Z with false. change (2 =? 0)%Z with false.
    change (Z.to_nat (1 - 1)) with 0%nat. change (Z.to_nat (2 - 1)) with 1%nat. cbv iota. cbn [contrb_loop]. rewrite pbind_val.
    change (0 - 1)%Z with (-1)%Z. change (0 + 1)%Z with 1%Z. rewrite E0, E1, E3. cbn [at_vert]. rewrite obind_ok, D3. change (direction (Some x_eye) None) with (@Val vec3 v0).
    rewrite !pbind_okval, B5, pbind_val, obind_ok. change (igeom (vs_sp x_eye)) with (Degenerated (V3 0 0 1)). rewrite G3. cbn [of_option]. rewrite pbind_okval, pbind_val.
    unfold eval_connection_term. change (num_verts x_path - 1)%Z with 2%Z. change (1 =? 0)%Z with false. change (2 =? 0)%Z with false. change (0 <? 1)%Z with true. change (0 <? 2)%Z with true. cbn [andb].
    change (1 - 1)%Z with 0%Z. change (2 - 1)%Z with 1%Z. change (1 - 2)%Z with (-1)%Z. change (2 - 2)%Z with 0%Z. rewrite L0, L3, E0, E1. cbn [at_vert]. rewrite !obind_ok, D1, D2, D4. change (direction (Some x_lamp) None) with (@Val vec3 v0).
    rewrite !pbind_okval, A5, pbind_val, !pbind_okval, Hf, pbind_val. change (igeom (vs_sp x_lamp)) with (Degenerated (V3 0 0 (/ 2))). rewrite G1. cbn [of_option]. rewrite pbind_okval, pbind_val. eexists. reflexivity.
  Qed.
End X.
(** The strategies with one and with two light vertices sample this path, the others do not. *)
Example C39_example : forall neg0 zs a, exists q,
  (forall s, (s <= length x_path)%nat -> pdf_bidir (x_api neg0 zs a) x_path (Z.of_nat s) = ret (q s) /\ 0 <= q s) /\ q 0%nat = 0 /\ 0 < q 1%nat /\ 0 < q 2%nat /\ q 3%nat = 0.
Proof.
  intros neg0 zs a. destruct (x_densities neg0 zs a) as (H0 & H1 & H2 & H3). pose proof LightProofs.sphere_pdf_pos as P.
  exists (fun s => match s with 1%nat => / 4 | 2%nat => 4 * pdf_uniform_sphere | _ => 0 end). repeat split; try lra.
  - destruct s as [|[|[|[|s]]]]; cbn in H; [exact H0|exact H1|exact H2|exact H3|lia].
  - destruct s as [|[|[|s]]]; lra.
Qed.
Example C39_balance_example : 0 <= 1 /\ 0 <= 2 /\ 0 < 1 + 2.
Proof. lra. Qed.
(** The strategy with one light vertex can sample the path, that with none cannot: the lamp is a point. *)
Example C70_usable_example : forall neg0 zs a, is_samplable_bidir (x_api neg0 zs a) x_path (Z.of_nat 1) = ret true /\ usable (x_api neg0 zs a) x_path 1 /\ is_samplable_bidir (x_api neg0 zs a) x_path (Z.of_nat 0) = ret false.
Proof.
  intros neg0 zs a. assert (H : is_samplable_bidir (x_api neg0 zs a) x_path (Z.of_nat 1) = ret true) by reflexivity. split; [exact H|]. split; [|reflexivity].
  apply (C70_usable (x_api neg0 zs a) x_path 1 true ltac:(cbn; lia) ltac:(cbn; lia) H). reflexivity.
Qed.
Example C70_example : forall neg0 zs a, exists q f, (0 <= 1 <= num_verts x_path)%Z /\ (2 <= num_verts x_path)%Z /\ pdf_bidir (x_api neg0 zs a) x_path 1 = ret q /\ q <> 0 /\ eval_measurement_contrb_bidir (x_api neg0 zs a) x_path 1 = ret f.
Proof.
  intros neg0 zs a. destruct (x_densities neg0 zs a) as (_ & H1 & _). destruct (x_contribution neg0 zs a) as (f & Hf). exists (/ 4), f. split; [cbn; lia|]. split; [cbn; lia|]. split; [exact H1|]. split; [lra|exact Hf].
Qed.

(** Finding: asked for one vertex the walk returns two if the first ray hits something. *)
Lemma x_ray neg0 zs a u : u_d (dw_ray u) = V2 (/ 2) (/ 2) -> a_sample_ray (x_api neg0 zs a) u EL = ret (Some (mk_path_ray (endpoint CameraEndpoint 2 (Degenerated (V3 0 0 1))) (V3 0 0 1) (V3 0 0 (-1)) (grey 1))).
Proof.
  intros U. change (a_sample_ray (x_api neg0 zs a) u EL) with (let! r := Ok (cam_sample_ray x_cam (u_d (dw_ray u))) in match r with None => ret None | Some r => ret (Some (mk_path_ray (endpoint CameraEndpoint 2 (r_geom r)) (pos_of (r_geom r)) (r_wo r) (r_weight r))) end).
  rewrite U. unfold cam_sample_ray, primary_ray. cbn [v2x v2y c_aspect c_tf x_cam]. replace (V3 (1 * 1 * (2 * / 2 - 1)) (1 * (2 * / 2 - 1)) (-1)) with (V3 0 0 (-1)) by (apply vec3_eq; cbn; field).
  rewrite (down (-1)) by lra. cbn [fbind pbind r_geom r_wo r_weight pos_of c_pos c_u c_v c_w x_cam vx vy vz]. unfold ret. do 3 f_equal. apply f_equal2; [|reflexivity]. apply vec3_eq; cbn; ring.
Qed.
Theorem C41_one_refuted : forall neg0 zs, exists a, built_for x_meshes (x_scene None None) a /\
  forall fuel rng, (1 <= fuel)%nat -> u_d (dw_ray (rng 0%nat)) = V2 (/ 2) (/ 2) -> exists v w, sample_subpath (x_api neg0 zs a) fuel rng 1 EL = ret [v; w].
Proof.
  intros neg0 zs. destruct (x_built None None) as (a & B & D). exists a. split; [exact B|]. intros [|fuel] rng Hf U; [lia|].
  unfold sample_subpath, sample_subpath_from_endpoint. change (1 =? 0)%Z with false. cbv iota. cbn [walk]. change (num_verts [] <? 1)%Z with true. change (num_verts [] =? 0)%Z with true. cbv iota.
  rewrite (x_ray neg0 zs a _ U). rewrite !pbind_val. cbv iota. cbn [pr_sp pr_origin pr_wo].
  destruct (C57_intersect x_meshes neg0 (x_scene None None) a (mk_ray (V3 0 0 1) (V3 0 0 (-1)) (zs (V3 0 0 (-1)))) Eps Inf (x_sound None None) B D) as (o & Eo & Ho & _).
  destruct Ho as (x & -> & Hx). { exists 1. split; [unfold Eps, Inf; lra|]. apply x_meets; lra. }
  change (a_intersect (x_api neg0 zs a) (V3 0 0 1) (V3 0 0 (-1))) with (intersect x_meshes neg0 (x_scene None None) a (mk_ray (V3 0 0 1) (V3 0 0 (-1)) (zs (V3 0 0 (-1)))) Eps Inf). rewrite Eo, pbind_val.
  destruct Hx as (t & f & P & Q & W & g & Ht & Wt & Mt & Nt & Tx & Gx & Hx). apply x_triangle in Wt as (Px & _).
  assert (Sc : a_sample_component (x_api neg0 zs a) (rng 0%nat) x (vneg (V3 0 0 (-1))) = ret (0%Z, 1)).
  { unfold x_api, scene_api. cbn [a_sample_component]. unfold sample_component. rewrite Tx, Px.
    change (prim_at (x_scene None None) 1) with (Ok (mk_prim (Some 0%nat) (Some 0%nat) None None (Some 0%nat))). cbn [obind deref p_material]. unfold spoint_of. rewrite Gx. reflexivity. }
  rewrite Sc, pbind_val. rewrite Gx. cbn [infinite]. destruct fuel; cbn [walk app]; match goal with |- context [(num_verts ?p <? 1)%Z] => change (num_verts p <? 1)%Z with false end; eexists _, _; reflexivity.
Qed.
Print Assumptions C41_one_refuted.

(** The functions of a scene always answer, so walks end (C41_ends). *)
Lemma obind_fuel {X Y} (x : outcome X) (f : X -> outcome Y) : x <> Fuel -> (forall a, f a <> Fuel) -> obind x f <> Fuel.
Proof. destruct x; cbn; try discriminate; auto. Qed.
Lemma pbind_fuel {X Y} (x : pm X) (f : X -> pm Y) : x <> Fuel -> (forall a, f a <> Fuel) -> pbind x f <> Fuel.
Proof. destruct x as [[| |]| | |]; cbn; try discriminate; auto. Qed.
Ltac nofuel := repeat first [discriminate | apply obind_fuel | apply pbind_fuel | progress intros | match goal with |- context [match ?x with _ => _ end] => destruct x end].
Theorem C41_scene : forall tr mat lgt cam pha mesh_of neg0 zs emitter s a, sound_scene mesh_of s -> built_for mesh_of s a -> shallow a ->
  answers (scene_api tr mat lgt cam pha mesh_of neg0 zs emitter s a).
Proof.
  intros tr mat lgt cam pha mesh_of neg0 zs emitter s a Hs Hb Hd.
  assert (P : forall i, prim_at s i <> Fuel) by (intros i; unfold prim_at, node_at; nofuel).
  assert (DR : forall X (f : nat -> X) o, deref f o <> Fuel) by (intros X f []; discriminate).
  split; [|split; [|split]].
  - intros u []; cbn [a_sample_ray scene_api sample_primary_ray].
    + apply obind_fuel; [unfold select_light, light_primitive_index_at; nofuel|]. intros [[T n] q]. apply obind_fuel; [apply P|]. intros p. apply obind_fuel; [apply DR|]. intros l. nofuel.
    + apply obind_fuel; [apply P|]. intros p. apply obind_fuel; [apply DR|]. intros l. nofuel.
  - intros u x wi c d. cbn [a_sample_direction scene_api]. unfold sample_direction. apply obind_fuel; [apply P|]. intros p. destruct (it x); (apply obind_fuel; [apply DR|]; intros l); nofuel; unfold unsupported; nofuel.
  - intros u x wi. cbn [a_sample_component scene_api]. unfold sample_component. destruct (it x); try discriminate. apply obind_fuel; [apply P|]. intros p. apply obind_fuel; [apply DR|]. nofuel.
  - intros o w. cbn [a_intersect scene_api]. destruct (C57_intersect mesh_of neg0 s a (mk_ray o w (zs w)) Eps Inf Hs Hb Hd) as (r & -> & _). discriminate.
Qed.
Print Assumptions C41_scene.
Example C41_example : exists a, sound_scene x_meshes (x_scene None None) /\ built_for x_meshes (x_scene None None) a /\ shallow a.
Proof. destruct (x_built None None) as (a & B & D). exists a. split; [apply x_sound|auto]. Qed.

(** The lamp sees the triangle: connecting the two end points directly, over the surface, and where this fails *)
Example C40_example : forall neg0 zs, exists a, built_for x_meshes (x_scene None None) a /\ let A := x_api neg0 zs a in
  answers_at A [x_lamp] [x_eye; x_spot] /\ joinable A [x_lamp] [x_eye; x_spot] 1 2 /\ ~ joinable A [x_lamp] [x_eye; x_spot] 0 2 /\
  connect_subpaths A [x_lamp] [x_eye; x_spot] 1 2 = ret (Some x_path).
Proof.
  intros neg0 zs. destruct (x_built None None) as (a & B & D). exists a. split; [exact B|]. intros A.
  assert (Vis : forall v p, at_position (vs_sp v) p -> (vz p = 0 \/ vz p = 1) -> vx p = 0 -> vy p = 0 -> a_visible A (vs_sp x_lamp) (vs_sp v) = ret true).
  { intros v [px py pz] Hp Hz Px Py. cbn [vx vy vz] in *. subst px py. change (a_visible A (vs_sp x_lamp) (vs_sp v)) with (visible x_meshes neg0 zs (x_scene None None) a (vs_sp x_lamp) (vs_sp v)).
    assert (EL : vlen (vsub (V3 0 0 pz) (V3 0 0 (/ 2))) = / 2). { unfold vlen. replace (dot _ _) with (/ 2 * / 2) by (unfold dot; destruct Hz; subst pz; cbn; field). apply sqrt_square. lra. }
    destruct (C57_visible x_meshes neg0 zs _ a (vs_sp x_lamp) (vs_sp v) (V3 0 0 (/ 2)) (V3 0 0 pz) (x_sound None None) B D eq_refl Hp) as (b & E & H).
    { intros [= Q]. lra. } { rewrite EL. unfold Eps, Inf. lra. }
    rewrite E. f_equal. destruct b; [reflexivity|]. exfalso. apply diff_false_true, H. intros t Ht Mt. rewrite EL in Ht. revert Mt.
    replace (direction_to _ _) with (V3 0 0 (2 * pz - 1)) by (unfold direction_to; rewrite EL; unfold vscale, vsub; cbn; f_equal; field). rewrite x_meets by (destruct Hz; subst pz; ring).
    unfold Eps in Ht. destruct Hz; subst pz; lra. }
  assert (Ps : at_position (vs_sp x_spot) v0) by (unfold at_position, x_spot; cbn [vs_sp igeom]; unfold make_on_surface; destruct (orthonormal_basis _ _); reflexivity).
  assert (V1 := Vis x_spot v0 Ps (or_introl eq_refl) eq_refl eq_refl).
  assert (V2 := Vis x_eye (V3 0 0 1) eq_refl (or_intror eq_refl) eq_refl eq_refl).
  assert (An : answers_at A [x_lamp] [x_eye; x_spot]).
  { split.
    - intros v [[<-|[]]|[<-|[<-|[]]]]; split; eexists; reflexivity.
    - intros v w [<-|[]] [<-|[<-|[]]] _ _; eauto. }
  assert (Jn : joinable A [x_lamp] [x_eye; x_spot] 1 2).
  { repeat split; try (intros; discriminate); try lia; cbn.
    - intros v [= <-]. reflexivity.
    - intros v [= <-]. reflexivity.
    - intros x. injection H1 as <-. discriminate.
    - intros x. injection H2 as <-. discriminate.
    - injection H1 as <-. injection H2 as <-. exact V1. }
  split; [exact An|]. split; [exact Jn|]. split.
  - intros (H & _). specialize (H x_spot eq_refl). discriminate H.
  - transitivity (let! b := a_visible A (vs_sp x_lamp) (vs_sp x_spot) in if negb b then ret None else finish A [x_lamp; x_spot; x_eye]); [reflexivity|]. rewrite V1. reflexivity.
Qed.
