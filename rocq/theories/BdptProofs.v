From Coq Require Import List Reals ZArith Bool Lra Lia ZifyBool Psatz.
From Verif Require Import Base RBase VecBase SurfModel MatModel CamModel LightModel PathModel BidirModel BidirSpec BidirProofs SurfSpec BdptModel BdptSpec.
From Verif Require CamProofs.
Import ListNotations.
Open Scope R_scope.

(** ** Directions along sampled rays *)
Lemma vneg_vneg v : vneg (vneg v) = v.
Proof. destruct v. unfold vneg. cbn. apply vec3_eq; cbn; ring. Qed.
Lemma direction_geom a a' b b' : igeom (vs_sp a) = igeom (vs_sp a') -> igeom (vs_sp b) = igeom (vs_sp b') ->
  direction (Some a) (Some b) = direction (Some a') (Some b').
Proof. intros E1 E2. unfold direction. now rewrite E1, E2. Qed.
Lemma normalize_along o t w : 0 < t -> unit w -> fnormalize (vsub (vadd o (vscale t w)) o) = Val w.
Proof.
  intros T U. replace (vsub (vadd o (vscale t w)) o) with (vscale t w) by (apply vec3_eq; cbn; ring).
  assert (D : dot (vscale t w) (vscale t w) = t * t). { unfold unit in U. transitivity (t * t * dot w w); [unfold dot, vscale; cbn; ring|]. rewrite U. ring. }
  rewrite CamProofs.normalize_form by (rewrite D; nra). f_equal. rewrite D. rewrite sqrt_square by lra. apply vec3_eq; cbn; field; lra.
Qed.
(** A point found along a ray from [v] in direction [w] *)
Lemma hit_direction v h w c : unit w ->
  (forall w', igeom (vs_sp v) = Infinite w' -> w = w') ->
  (igeom h = Infinite (vneg w) \/ exists g t o, (forall o', position (igeom (vs_sp v)) = Val o' -> o = o') /\ igeom h = OnSurface g /\ 0 < t /\ pos_of (OnSurface g) = vadd o (vscale t w)) ->
  (forall w', direction (Some v) (Some (mk_vert h c)) = Val w' -> w' = w) /\ (forall w', direction (Some (mk_vert h c)) (Some v) = Val w' -> w' = vneg w).
Proof.
  intros U Iv H. unfold direction. cbn [vs_sp]. destruct H as [-> |(g & t & o & Ho & -> & T & P)].
  - destruct (igeom (vs_sp v)); split; intros w' E; try discriminate; injection E as <-; auto using vneg_vneg.
  - destruct (igeom (vs_sp v)) as [s|x|x] eqn:G; cbn [position] in Ho.
    1, 2: specialize (Ho _ eq_refl); subst o; rewrite P; rewrite (normalize_along _ _ _ T U);
      (split; intros w' E; [injection E as <-; reflexivity|]);
      match type of E with fnormalize (vsub ?a (vadd ?b ?c)) = _ => replace (vsub a (vadd b c)) with (vsub (vadd a (vscale t (vneg w))) a) in E by (apply vec3_eq; cbn; ring) end;
      rewrite normalize_along in E; [injection E as <-; reflexivity|exact T|];
      unfold unit in *; rewrite <- U; unfold dot, vneg; cbn; ring.
    split; intros w' E; injection E as <-; [symmetry|f_equal; symmetry]; auto.
Qed.

(** ** What a walk caches *)
Definition okw (o : option vec3) (x y : vert) : Prop := forall w, direction (Some x) (Some y) = Val w -> o = Some w.
Definition okd (o : option R) (m : pm R) : Prop := forall r, m = ret r -> o = Some r.

Section Walk.
  Variables (A : api) (U : draw -> Prop) (V : interaction -> Prop) (d : trans_dir).
  Definition start_type : itype := match d with LE => LightEndpoint | EL => CameraEndpoint end.

  (** Where the vertices and their throughputs come from *)
  Definition started (v : cvert) : Prop := vs_comp (cv_v v) = 0%Z /\ exists p, first_vertex A (cv_v v) = ret p /\ vdiv (grey 1) p = Val (cv_alpha v).
  Definition by_ray (u v : cvert) : Prop := exists n s k, U n /\ a_sample_ray A n d = ret (Some s) /\ unit (pr_wo s) /\ pr_sp s = vs_sp (cv_v u) /\
    (forall w, direction (Some (cv_v u)) (Some (cv_v v)) = Val w -> w = pr_wo s) /\
    a_sample_component A n (vs_sp (cv_v v)) (vneg (pr_wo s)) = ret (vs_comp (cv_v v), k) /\ cv_alpha v = vscale k (pr_weight s) /\ cv_wr v = Some (vneg (pr_wo s)).
  Definition by_direction (v x : cvert) : Prop := exists n wr wo w k, U n /\ cv_wr v = Some wr /\ unit wr /\ picked A U (vs_sp (cv_v v)) wr (vs_comp (cv_v v)) /\ unit wo /\
    a_sample_direction A n (vs_sp (cv_v v)) wr (vs_comp (cv_v v)) d = ret (Some (wo, w)) /\
    (forall w, direction (Some (cv_v v)) (Some (cv_v x)) = Val w -> w = wo) /\
    a_sample_component A n (vs_sp (cv_v x)) (vneg wo) = ret (vs_comp (cv_v x), k) /\ cv_alpha x = vscale k (vmul (cv_alpha v) w) /\ cv_wr x = Some (vneg wo).
  Definition reached (v : cvert) : Prop := forall w, cv_wr v = Some w -> unit w /\ picked A U (vs_sp (cv_v v)) w (vs_comp (cv_v v)).

  (** Newest first. The direction and the density towards the next vertex are not there yet at the head. *)
  Inductive cached : cpath -> Prop :=
  | cached_one v : V (vs_sp (cv_v v)) -> it (vs_sp (cv_v v)) = start_type -> cv_wr v = Some v0 -> okd (cv_pf v) (first_vertex A (cv_v v)) -> started v -> cached [v]
  | cached_two v u : cached [u] -> V (vs_sp (cv_v v)) -> degenerated (cgeom v) = false -> reached v -> by_ray u v ->
      okw (cv_wf u) (cv_v u) (cv_v v) -> okw (cv_wr v) (cv_v v) (cv_v u) -> okd (cv_pf v) (second_vertex A (cv_v u) (cv_v v)) -> cached [v; u]
  | cached_more x v u r : cached (v :: u :: r) -> V (vs_sp (cv_v x)) -> degenerated (cgeom x) = false -> reached x -> by_direction v x ->
      okw (cv_wf v) (cv_v v) (cv_v x) -> okw (cv_wr x) (cv_v x) (cv_v v) -> okd (cv_pf x) (hop A (cv_v u) (cv_v v) (cv_v x)) ->
      (if degenerated (cgeom u) then cv_pr u = Some 1 else okd (cv_pr u) (hop A (cv_v x) (cv_v v) (cv_v u))) -> cached (x :: v :: u :: r).

  Lemma cached_head v r w : cached (v :: r) -> cached (set_wf v w :: r).
  Proof. intros H. inversion H; subst; constructor; auto. Qed.
  Lemma cached_head_pr v r p : cached (v :: r) -> cached (set_pr v p :: r).
  Proof. intros H. inversion H; subst; constructor; auto. Qed.
  Lemma cached_second v u r p : cached (v :: u :: r) -> cached (v :: set_pr u p :: r).
  Proof. intros H. inversion H; subst; constructor; auto using cached_head_pr. Qed.
  Lemma cached_V v r : cached (v :: r) -> V (vs_sp (cv_v v)).
  Proof. intros H. inversion H; auto. Qed.
  Lemma cached_tail v r : cached (v :: r) -> r <> [] -> cached r.
  Proof. intros H N. inversion H; subst; auto; try congruence. Qed.
End Walk.

Lemma unit_vneg w : unit w -> unit (vneg w).
Proof. unfold unit. intros <-. unfold dot, vneg. cbn. ring. Qed.
Lemma walk_cached A U V d fuel : sane A U V ->
  forall rng q thr max q', (forall k, U (rng k)) -> (q = [] \/ (2 <= length q)%nat /\ cached A U V d q /\ exists v r, q = v :: r /\ cv_alpha v = thr) -> opt_walk A fuel rng q thr max d = ret q' -> q' = [] \/ cached A U V d q'.
Proof.
  intros [Sr Sd Sh]. induction fuel as [|fuel IH]; intros rng q thr max q' RU C H; cbn [opt_walk] in H; destruct (_ <? max)%Z.
  1: discriminate.
  1, 3: apply ret_inj in H; subst q'; tauto.
  mstep H. destruct a as [[[[[q1 o] wo] thr1] next]|]; [|apply ret_inj in H; subst q'; tauto].
  destruct q as [|v r].
  - (* first round *)
    mstep E. destruct a as [s|]; [|discriminate]. assert (ES := E0). apply Sr in E0; [|apply RU]. destruct E0 as (HV & HU & HT & HI & HO). cbv zeta in E.
    mstep E. mstep E. mstep E. mstep E. apply ret_inj in E. injection E as <- <- <- <- <-.
    rewrite obind_ok in H. mstep H.
    assert (C1 : forall w, cached A U V d [mk_cvert (mk_vert (pr_sp s) 0) a0 w (Some v0) (Some a) None]).
    { intros w. constructor; cbn; auto; [|split; [reflexivity|]; exists a; split; [exact E0|]; cbn [cv_alpha]; now apply okval]. intros r Hr. unfold pdf_start in E0. unfold first_vertex in Hr. cbn [vs_sp] in *. f_equal. apply ret_inj. congruence. }
    destruct a3 as [h|]; [|apply ret_inj in H; subst q'; right; apply C1]. apply (Sh _ _ _ HU) in E. destruct E as (Vh & Hh).
    mstep H. destruct a3 as [c w]. mstep H.
    destruct (hit_direction (mk_vert (pr_sp s) 0) h (pr_wo s) c HU) as (D1 & D2).
    { intros w' Hw. now apply HI. }
    { destruct Hh as [Hh|(g & t & G & T & P)]; [left; exact Hh|]. right. exists g, t, (pr_origin s). repeat split; auto. }
    assert (DG : degenerated (igeom h) = false) by (destruct Hh as [-> |(g & t & -> & _)]; reflexivity).
    match type of H with (if _ then ret ?q else _) = _ => assert (C2 : cached A U V d q) end.
    { constructor; auto; cbn.
      - intros w' [= <-]. split; [now apply unit_vneg|]. exists (rng 0%nat), w. split; [apply RU|exact E]. 
      - exists (rng 0%nat), s, w. repeat split; auto.
      - intros w' Hw. apply D1 in Hw. now subst.
      - intros w' Hw. apply D2 in Hw. now subst.
      - intros x Hx. unfold second_vertex in Hx. cbn [vs_sp] in Hx. mstep Hx. mstep Hx. mstep Hx. apply okval in E4, Hx, E6. apply D1 in E6. subst a5.
        cbn [vs_sp] in E2. assert (a4 = a1) by (apply ret_inj; congruence). subst a4. cbn [vs_comp vs_sp] in *.
        assert (a6 = a2) by (apply ret_inj; congruence). subst a6. unfold cgeom in E4. cbn [cv_v vs_sp] in E4. rewrite E4 in Hx. now injection Hx as <-. }
    destruct (infinite (igeom h)); [apply ret_inj in H; subst q'; right; exact C2|]. eapply IH; [intros k; apply RU| |exact H]. right. split; [cbn; lia|]. split; [exact C2|eauto].
  - (* later rounds *)
    destruct C as [C|(Len & C & v' & r' & [= <- <-] & Al)]; [discriminate|]. assert (HV := cached_V _ _ _ _ _ _ C).
    mstep E. mstep E. destruct a0 as [[wo' w]|]; [|discriminate]. destruct r as [|u r]; [discriminate|].
    assert (WU : unit a /\ picked A U (vs_sp (cv_v v)) a (vs_comp (cv_v v))) by (unfold rd in E0; destruct (cv_wr v) eqn:Ew; [|discriminate]; injection E0 as ->; inversion C; subst; auto).
    destruct WU as (WU & WP). assert (ES := E1). apply (Sd _ _ _ _ _ _ _ (RU 0%nat) HV WU WP) in E1. mstep E. mstep E. mstep E. apply ret_inj in E. injection E as <- <- <- <- <-.
    rewrite obind_ok in H. mstep H.
    assert (C1 : cached A U V d (set_wf v wo' :: set_pr u a0 :: r)) by now apply cached_head, cached_second.
    destruct a3 as [h|]; [|apply ret_inj in H; subst q'; right; exact C1]. apply (Sh _ _ _ E1) in E. destruct E as (Vh & Hh).
    mstep H. destruct a3 as [c w1]. mstep H.
    destruct (hit_direction (cv_v v) h wo' c E1) as (D1 & D2).
    { intros w' Hw. unfold cgeom in E4. rewrite Hw in E4. discriminate. }
    { destruct Hh as [Hh|(g & t & G & T & P)]; [left; exact Hh|]. right. exists g, t, a2. apply okval in E4. repeat split; auto. unfold cgeom in E4. rewrite E4. intros o' [= <-]. reflexivity. }
    assert (DG : degenerated (igeom h) = false) by (destruct Hh as [-> |(g & t & -> & _)]; reflexivity).
    assert (WR : okw (cv_wr v) (cv_v v) (cv_v u)) by (inversion C; subst; auto).
    unfold rd in E0. destruct (cv_wr v) as [wr|] eqn:Ewr; [|discriminate]. injection E0 as <-.
    match type of H with (if _ then ret ?q else _) = _ => assert (C2 : cached A U V d q) end.
    { constructor; auto; cbn [cv_wf cv_wr cv_pf cv_pr cv_v set_wf set_pr].
      - intros w' [= <-]. split; [now apply unit_vneg|]. exists (rng 0%nat), w1. split; [apply RU|exact E].
      - exists (rng 0%nat), wr, wo', w, w1. repeat split; auto. cbn. now rewrite Al.
      - intros w' Hw. apply D1 in Hw. now subst.
      - intros w' Hw. apply D2 in Hw. now subst.
      - intros x Hx. unfold hop in Hx. mstep Hx. mstep Hx. mstep Hx. apply okval in E0, E6, E5, Hx. apply D1 in E6. apply WR in E0. injection E0 as <-. subst a4.
        assert (a5 = a1) by (apply ret_inj; congruence). subst a5. unfold cgeom in E5. cbn [cv_v vs_sp set_wf] in *. rewrite E5 in Hx. now injection Hx as <-.
      - unfold cgeom in *. cbn [cv_v set_pr] in *. destruct (degenerated (igeom (vs_sp (cv_v u)))); [apply ret_inj in E2; now subst|]. intros x Hx. unfold hop in Hx. mstep Hx. mstep Hx. apply okval in E0, E6. apply D1 in E0. apply WR in E6. injection E6 as <-. subst a.
        unfold dir_area in E2. f_equal. apply ret_inj. congruence. }
    destruct (infinite (igeom h)); [apply ret_inj in H; subst q'; right; exact C2|]. eapply IH; [intros k; apply RU| |exact H]. right. split; [cbn; lia|]. split; [exact C2|eauto].
Qed.

(** ** The caches by position *)
Lemma nth_snoc {X} (l : list X) y k : nth_error (l ++ [y]) k = if (k =? length l)%nat then Some y else nth_error l k.
Proof.
  destruct (k =? length l)%nat eqn:E.
  - replace k with (length l) by lia. rewrite nth_error_app2, Nat.sub_diag by lia. reflexivity.
  - destruct (Nat.lt_ge_cases k (length l)); [now rewrite nth_error_app1 by lia|].
    rewrite nth_error_app2 by lia. destruct (k - length l)%nat eqn:D; [lia|]. cbn. destruct n; rewrite (proj2 (nth_error_None l k)) by lia; reflexivity.
Qed.
Lemma nth_lt {X} (l : list X) k x : nth_error l k = Some x -> (k < length l)%nat.
Proof. intros H. apply nth_error_Some. congruence. Qed.

Section Index.
  Variables (A : api) (U : draw -> Prop) (V : interaction -> Prop) (d : trans_dir) (ty : itype).
  Record indexed (q : cpath) : Prop := {
    ix_first : forall x, nth_error q 0 = Some x -> cv_wr x = Some v0 /\ it (vs_sp (cv_v x)) = ty /\ okd (cv_pf x) (first_vertex A (cv_v x));
    ix_second : forall x y, nth_error q 0 = Some x -> nth_error q 1 = Some y -> okd (cv_pf y) (second_vertex A (cv_v x) (cv_v y));
    ix_later : forall k x y z, nth_error q k = Some x -> nth_error q (S k) = Some y -> nth_error q (S (S k)) = Some z ->
      okd (cv_pf z) (hop A (cv_v x) (cv_v y) (cv_v z)) /\ (if degenerated (cgeom x) then cv_pr x = Some 1 else okd (cv_pr x) (hop A (cv_v z) (cv_v y) (cv_v x)));
    ix_dir : forall k x y, nth_error q k = Some x -> nth_error q (S k) = Some y -> okw (cv_wf x) (cv_v x) (cv_v y) /\ okw (cv_wr y) (cv_v y) (cv_v x);
    ix_deg : forall k x, (0 < k)%nat -> nth_error q k = Some x -> degenerated (cgeom x) = false }.
  Lemma cached_indexed q : start_type d = ty -> cached A U V d q -> indexed (rev q).
  Proof.
    intros Ty. induction 1 as [v Hv Ht Hw Hp _|v u C IH Hv Hg _ _ W1 W2 Hp|x v u r C IH Hv Hg _ _ W1 W2 Hp Hr]; cbn [rev app].
    - constructor; intros.
      + injection H as <-. subst ty. auto.
      + discriminate.
      + discriminate.
      + destruct k; discriminate.
      + destruct k as [|[|k]]; [lia|discriminate..].
    - destruct IH as [I1 I2 I3 I4 I5]. constructor; intros.
      + apply I1. exact H.
      + cbn in *. injection H as <-. injection H0 as <-. exact Hp.
      + destruct k as [|[|k]]; discriminate.
      + destruct k as [|k]; [|destruct k as [|[|k]]; discriminate]. cbn in *. injection H as <-. injection H0 as <-. auto.
      + destruct k as [|[|k]]; [lia| |destruct k; discriminate]. cbn in H0. injection H0 as <-. exact Hg.
    - destruct IH as [I1 I2 I3 I4 I5]. change ((rev r ++ [u]) ++ [v]) with (rev (v :: u :: r)) in *. set (q := rev (v :: u :: r)) in *.
      assert (L : length q = (2 + length r)%nat) by (unfold q; rewrite rev_length; reflexivity).
      assert (N1 : nth_error q (S (length r)) = Some v). { unfold q. cbn [rev]. rewrite nth_snoc. rewrite app_length, rev_length. cbn [length]. replace (S (length r) =? length r + 1)%nat with true by lia. reflexivity. }
      assert (N2 : nth_error q (length r) = Some u). { unfold q. cbn [rev]. rewrite nth_snoc. rewrite app_length, rev_length. cbn [length]. replace (length r =? length r + 1)%nat with false by lia. rewrite nth_snoc, rev_length, Nat.eqb_refl. reflexivity. }
      constructor; intros; rewrite nth_snoc in *; rewrite L in *; cbn [Nat.add] in *; try change (0 =? S _)%nat with false in *; try change (1 =? S (S _))%nat with false in *.
      + auto.
      + eauto.
      + destruct (S (S k) =? S (S (length r)))%nat eqn:K.
        * replace k with (length r) in * by lia. replace (length r =? S (S (length r)))%nat with false in H by lia. replace (S (length r) =? S (S (length r)))%nat with false in H0 by lia.
          injection H1 as <-. rewrite N2 in H. rewrite N1 in H0. injection H as <-. injection H0 as <-. auto.
        * assert (K1 := nth_lt _ _ _ H1). rewrite L in K1. replace (k =? S (S (length r)))%nat with false in H by lia. replace (S k =? S (S (length r)))%nat with false in H0 by lia. eauto.
      + destruct (S k =? S (S (length r)))%nat eqn:K.
        * replace k with (S (length r)) in * by lia. replace (S (length r) =? S (S (length r)))%nat with false in H by lia. injection H0 as <-. rewrite N1 in H. injection H as <-. auto.
        * assert (K1 := nth_lt _ _ _ H0). rewrite L in K1. replace (k =? S (S (length r)))%nat with false in H by lia. eauto.
      + destruct (k =? S (S (length r)))%nat; [injection H0 as <-; exact Hg|eauto].
  Qed.
End Index.

(** ** One end of a full path *)
Lemma hop_ext A w w' x y y' : igeom (vs_sp w) = igeom (vs_sp w') -> igeom (vs_sp y) = igeom (vs_sp y') -> hop A w x y = hop A w' x y'.
Proof. intros E1 E2. unfold hop. rewrite (direction_geom x x w w'), (direction_geom x x y y') by auto. now rewrite E2. Qed.
Lemma second_ext A x y y' : igeom (vs_sp y) = igeom (vs_sp y') -> second_vertex A x y = second_vertex A x y'.
Proof. intros E. unfold second_vertex. rewrite (direction_geom x x y y') by auto. now rewrite E. Qed.

Section Side.
  Variables (A : api) (ty : itype) (q : cpath) (P : nat -> vert) (n m : nat).
  Hypothesis I : indexed A ty q.
  Hypothesis N : (2 <= n)%nat.
  Hypothesis M : (m <= n)%nat.
  Hypothesis PQ : forall k, (k < m)%nat -> exists x, nth_error q k = Some x /\ same_place (cv_v x) (P k) /\ ((k < n - 1)%nat -> P k = cv_v x).

  Lemma side_first x : (0 < m)%nat -> nth_error q 0 = Some x -> okd (cv_pf x) (first_vertex A (P 0%nat)) /\ cv_wr x = Some v0.
  Proof. intros K H. destruct (PQ 0 K) as (y & Hy & _ & E). assert (y = x) by congruence. subst y. rewrite E by lia. destruct (ix_first _ _ _ I _ H) as (? & ? & ?). auto. Qed.
  Lemma side_second x : (1 < m)%nat -> nth_error q 1 = Some x -> okd (cv_pf x) (second_vertex A (P 0%nat) (P 1%nat)).
  Proof.
    intros K H. destruct (PQ 0) as (y & Hy & _ & E); [lia|]. destruct (PQ 1 K) as (y1 & Hy1 & (_ & G & _) & _). assert (y1 = x) by congruence. subst y1. rewrite E by lia.
    rewrite (second_ext A _ _ (cv_v x)) by congruence. exact (ix_second _ _ _ I _ _ Hy Hy1).
  Qed.
  Lemma side_later k x : (S (S k) < m)%nat -> nth_error q (S (S k)) = Some x -> okd (cv_pf x) (hop A (P k) (P (S k)) (P (S (S k)))).
  Proof.
    intros K H. destruct (PQ k) as (y & Hy & (_ & G & _) & _); [lia|]. destruct (PQ (S k)) as (y1 & Hy1 & _ & E); [lia|]. destruct (PQ (S (S k)) K) as (y2 & Hy2 & (_ & G2 & _) & _).
    assert (y2 = x) by congruence. subst y2. rewrite E by lia. rewrite (hop_ext A _ (cv_v y) _ _ (cv_v x)) by congruence. exact (proj1 (ix_later _ _ _ I _ _ _ _ Hy Hy1 Hy2)).
  Qed.
  Lemma side_back k x : (S (S k) < m)%nat -> nth_error q k = Some x ->
    if degenerated (cgeom x) then cv_pr x = Some 1 else okd (cv_pr x) (hop A (P (S (S k))) (P (S k)) (P k)).
  Proof.
    intros K H. destruct (PQ k) as (y & Hy & (_ & G & _) & _); [lia|]. destruct (PQ (S k)) as (y1 & Hy1 & _ & E); [lia|]. destruct (PQ (S (S k)) K) as (y2 & Hy2 & (_ & G2 & _) & _).
    assert (y = x) by congruence. subst y. assert (Z := proj2 (ix_later _ _ _ I _ _ _ _ Hy Hy1 Hy2)).
    destruct (degenerated (cgeom x)); [exact Z|]. rewrite E by lia. rewrite (hop_ext A _ (cv_v y2) _ _ (cv_v x)) by congruence. exact Z.
  Qed.
  (** The direction back along the subpath *)
  Lemma side_wr k x : (S k < m)%nat -> nth_error q (S k) = Some x -> okw (cv_wr x) (P (S k)) (P k).
  Proof.
    intros K H. destruct (PQ k) as (y & Hy & (_ & G & _) & _); [lia|]. destruct (PQ (S k) K) as (y1 & Hy1 & (_ & G1 & _) & _). assert (y1 = x) by congruence. subst y1.
    unfold okw. rewrite (direction_geom _ (cv_v x) _ (cv_v y)) by congruence. exact (proj2 (ix_dir _ _ _ I _ _ _ Hy Hy1)).
  Qed.
  Lemma side_deg k x : nth_error q k = Some x -> degenerated (cgeom x) = true -> k = 0%nat.
  Proof. intros H D. destruct k; [reflexivity|]. rewrite (ix_deg _ _ _ I (S k) x ltac:(lia) H) in D. discriminate. Qed.
End Side.

(** ** Full paths *)
Lemma strip_rev q : strip (rev q) = rev (strip q).
Proof. unfold strip. apply map_rev. Qed.
Lemma strip_firstn k q : strip (firstn k q) = firstn k (strip q).
Proof. unfold strip. symmetry. apply firstn_map. Qed.
Lemma strip_app a b : strip (a ++ b) = strip a ++ strip b.
Proof. unfold strip. apply map_app. Qed.
Lemma strip_nth q k x : nth_error q k = Some x -> nth_error (strip q) k = Some (cv_v x).
Proof. apply map_nth_error. Qed.
Lemma strip_last q x : cv_v (last q x) = last (strip q) (cv_v x).
Proof. induction q as [|a [|b r] IH]; [reflexivity..|]. exact IH. Qed.
Lemma strip_removelast q : strip (removelast q) = removelast (strip q).
Proof. induction q as [|a [|b r] IH]; [reflexivity..|]. change (cv_v a :: strip (removelast (b :: r)) = cv_v a :: removelast (strip (b :: r))). now rewrite IH. Qed.
Lemma strip_fix q : strip (fix_ends q) = fin (strip q).
Proof.
  destruct q as [|v r]; [reflexivity|]. unfold fix_ends. cbv zeta. set (q' := set_v v (retype (cv_v v) LightEndpoint) :: r).
  change (fin (strip (v :: r))) with (removelast (strip q') ++ [retype (last (strip q') (cv_v v)) CameraEndpoint]).
  rewrite strip_app, strip_removelast, <- strip_last. reflexivity.
Qed.
Lemma strip_swap s q : strip (swap_from s q) = strip q.
Proof. unfold swap_from. rewrite strip_app. unfold strip. rewrite map_map. cbn [cv_v swap]. change (fun x : cvert => cv_v x) with cv_v. rewrite <- map_app. now rewrite firstn_skipn. Qed.
(** Only vertices change *)
Definition recast (x y : cvert) : Prop := y = set_v x (cv_v y).
Lemma fix_nth q k x : nth_error q k = Some x -> exists y, nth_error (fix_ends q) k = Some y /\ recast x y.
Proof.
  destruct q as [|v r]; [destruct k; discriminate|]. unfold fix_ends. cbv zeta. set (q' := set_v v (retype (cv_v v) LightEndpoint) :: r). intros H.
  assert (E := app_removelast_last v (l := q') ltac:(discriminate)).
  assert (Q : exists u, nth_error q' k = Some u /\ recast x u). { destruct k; cbn in *; [injection H as <-; eexists; split; reflexivity|]. exists x. split; [exact H|]. destruct x; reflexivity. }
  destruct Q as (u & Hu & Ru). rewrite nth_snoc. rewrite E in Hu. rewrite nth_snoc in Hu.
  destruct (k =? _)%nat; [|eauto]. assert (Hl : last q' v = u) by congruence. rewrite Hl. eexists. split; [reflexivity|]. unfold recast in *. rewrite Ru. reflexivity.
Qed.
Lemma firstn_nth {X} (l : list X) m k : (k < m)%nat -> nth_error (firstn m l) k = nth_error l k.
Proof. revert m k. induction l; intros [|m] [|k] ?; cbn; auto; try lia. apply IHl. lia. Qed.
Lemma skipn_nth {X} (l : list X) m k : nth_error (skipn m l) k = nth_error l (m + k).
Proof. revert m. induction l; intros [|m]; cbn; auto. destruct k; reflexivity. Qed.
Lemma swap_nth s q k x : nth_error q k = Some x -> nth_error (swap_from s q) k = Some (if (k <? s)%nat then x else swap x).
Proof.
  intros H. assert (K := nth_lt _ _ _ H). unfold swap_from. destruct (k <? s)%nat eqn:E.
  - rewrite nth_error_app1 by (rewrite firstn_length; lia). now rewrite firstn_nth by lia.
  - rewrite nth_error_app2 by (rewrite firstn_length; lia). rewrite firstn_length. rewrite (map_nth_error swap _ _ (d := x)); [reflexivity|].
    rewrite skipn_nth. replace (s + (k - Init.Nat.min s (length q)))%nat with k by lia. exact H.
Qed.
Lemma rev_nth_error {X} (l : list X) k : (k < length l)%nat -> nth_error (rev l) k = nth_error l (length l - 1 - k).
Proof.
  intros K. destruct (nth_error l (length l - 1 - k)) as [x|] eqn:E; [|apply nth_error_None in E; lia].
  rewrite (nth_error_nth' _ x) by (rewrite rev_length; exact K). f_equal. rewrite rev_nth by exact K. apply nth_error_nth. replace (length l - S k)%nat with (length l - 1 - k)%nat by lia. exact E.
Qed.

Section Full.
  Variables (qL qE q : cpath) (s t : nat).
  Hypothesis TL : forall x, nth_error qL 0 = Some x -> it (vs_sp (cv_v x)) = LightEndpoint.
  Hypothesis TE : forall x, nth_error qE 0 = Some x -> it (vs_sp (cv_v x)) = CameraEndpoint.
  Hypothesis N : (2 <= s + t)%nat.
  Hypothesis H : opt_full qE qL s t = Ok q.

  Lemma full_sizes : (s <= length qL)%nat /\ (t <= length qE)%nat /\ q = swap_from s (fix_ends (firstn s qL ++ rev (firstn t qE))).
  Proof. unfold opt_full in H. destruct ((s <=? length qL) && (t <=? length qE) && (1 <=? s + t))%nat eqn:E; [|discriminate]. injection H as <-. repeat split; lia. Qed.
  Lemma full_strip : strip q = fin (firstn s (strip qL) ++ rev (firstn t (strip qE))).
  Proof. destruct full_sizes as (_ & _ & ->). rewrite strip_swap, strip_fix, strip_app, strip_rev, !strip_firstn. reflexivity. Qed.
  Lemma full_joined : joined (strip qL) (strip qE) s t (strip q).
  Proof. destruct full_sizes as (? & ? & _). rewrite full_strip. apply joined_fin; unfold strip; rewrite map_length; assumption. Qed.
  Lemma full_length : length q = (s + t)%nat.
  Proof. destruct full_joined as (_ & _ & L & _). unfold strip in L. now rewrite map_length in L. Qed.
  Lemma retyped v w ty : same_place v w -> it (vs_sp v) = ty -> it (vs_sp w) = ty -> w = v.
  Proof. destruct v as [[] ], w as [[] ]. unfold same_place. cbn. intros (-> & -> & -> & ->). now intros -> ->. Qed.
  (** From the light *)
  Lemma full_light k : (k < s)%nat -> exists x v, nth_error qL k = Some x /\ nth_error q k = Some (set_v x v) /\ same_place (cv_v x) v /\ ((k < s + t - 1)%nat -> v = cv_v x).
  Proof.
    intros K. destruct full_joined as (_ & _ & _ & J & _ & J1 & _). destruct full_sizes as (S1 & S2 & E).
    destruct (nth_error qL k) as [x|] eqn:Ex; [|apply nth_error_None in Ex; lia]. specialize (J k _ K (strip_nth _ _ _ Ex)). destruct J as (v & Hv & Sv & Iv).
    exists x, v. split; [reflexivity|].
    assert (Q : exists y, nth_error q k = Some y /\ recast x y).
    { destruct (fix_nth (firstn s qL ++ rev (firstn t qE)) k x) as (y & Hy & Ry).
      - rewrite nth_error_app1 by (rewrite firstn_length; lia). now rewrite firstn_nth.
      - exists y. split; [|exact Ry]. rewrite E. erewrite swap_nth by exact Hy. now replace (k <? s)%nat with true by lia. }
    destruct Q as (y & Hy & Ry). assert (cv_v y = v). { apply strip_nth in Hy. congruence. } subst v. rewrite <- Ry. split; [exact Hy|]. split; [exact Sv|].
    intros K1. destruct k; [|apply Iv; lia]. eapply retyped; [exact Sv|exact (TL _ Ex)|]. eapply J1; [lia|exact Hv].
  Qed.
  (** From the camera *)
  Lemma full_camera k : (k < t)%nat -> exists x v, nth_error qE k = Some x /\ nth_error q (s + t - 1 - k) = Some (swap (set_v x v)) /\ same_place (cv_v x) v /\ ((k < s + t - 1)%nat -> v = cv_v x).
  Proof.
    intros K. destruct full_joined as (_ & _ & _ & _ & J & _ & J1). destruct full_sizes as (S1 & S2 & E).
    destruct (nth_error qE k) as [x|] eqn:Ex; [|apply nth_error_None in Ex; lia]. specialize (J k _ K (strip_nth _ _ _ Ex)). destruct J as (v & Hv & Sv & Iv).
    exists x, v. split; [reflexivity|].
    assert (LT : length (firstn t qE) = t) by (rewrite firstn_length; lia).
    assert (Q : exists y, nth_error q (s + t - 1 - k) = Some (swap y) /\ recast x y).
    { destruct (fix_nth (firstn s qL ++ rev (firstn t qE)) (s + t - 1 - k) x) as (y & Hy & Ry).
      - rewrite nth_error_app2 by (rewrite firstn_length; lia). rewrite firstn_length, Nat.min_l by lia. rewrite rev_nth_error by lia. rewrite LT.
        replace (t - 1 - (s + t - 1 - k - s))%nat with k by lia. now rewrite firstn_nth.
      - exists y. split; [|exact Ry]. rewrite E. erewrite swap_nth by exact Hy. now replace (s + t - 1 - k <? s)%nat with false by lia. }
    destruct Q as (y & Hy & Ry). assert (cv_v y = v). { apply strip_nth in Hy. cbn in Hy. congruence. } subst v. rewrite <- Ry. split; [exact Hy|]. split; [exact Sv|].
    intros K1. destruct (Nat.eq_dec k 0) as [-> |Nk]; [|apply Iv; lia]. eapply retyped; [exact Sv|exact (TE _ Ex)|]. eapply J1. rewrite Nat.sub_0_r in Hv. exact Hv.
  Qed.
End Full.

(** ** The values at the connection *)
Lemma assign_ok i f q x y : nth_error q i = Some x -> f x = ret y -> exists q', assign i f q = ret q' /\ forall j, nth_error q' j = if (j =? i)%nat then Some y else nth_error q j.
Proof.
  intros H Hf. assert (K := nth_lt _ _ _ H). unfold assign. rewrite H, Hf. rewrite pbind_val. eexists. split; [reflexivity|]. intros j.
  destruct (Nat.lt_trichotomy j i) as [L|[-> |L]].
  - replace (j =? i)%nat with false by lia. rewrite nth_error_app1 by (rewrite firstn_length; lia). now apply firstn_nth.
  - rewrite Nat.eqb_refl. rewrite nth_error_app2 by (rewrite firstn_length; lia). rewrite firstn_length, Nat.min_l by lia. now rewrite Nat.sub_diag.
  - replace (j =? i)%nat with false by lia. rewrite nth_error_app2 by (rewrite firstn_length; lia). rewrite firstn_length, Nat.min_l by lia.
    destruct (j - i)%nat eqn:D; [lia|]. cbn [nth_error]. rewrite skipn_nth. f_equal. lia.
Qed.
Lemma hop_step A w x y r : hop A w x y = ret r -> exists a b, direction (Some x) (Some w) = Val a /\ direction (Some x) (Some y) = Val b /\ dir_area A x y a b = ret r.
Proof. unfold hop. intros H. mstep H. mstep H. apply okval in E, E0. exists a, a0. auto. Qed.
Lemma second_step A x y r : second_vertex A x y = ret r -> exists c b, a_connectable A (vs_sp x) = ret c /\ direction (Some x) (Some y) = Val b /\
  (if c then dir_area A x y v0 b else ray_area A x y b) = ret r.
Proof. unfold second_vertex. intros H. mstep H. mstep H. apply okval in E0. exists a, a0. repeat split; auto. unfold dir_area, ray_area. destruct a; exact H. Qed.

(** Density of vertex [i], on functions *)
Definition fdens (A : api) (P : nat -> vert) (i : nat) : pm R :=
  match i with O => first_vertex A (P 0%nat) | S O => second_vertex A (P 0%nat) (P 1%nat) | S (S k) => hop A (P k) (P (S k)) (P (S (S k))) end.

Section Recompute.
  Variables (A : api) (q : cpath) (s t : nat) (P : nat -> vert) (F B : nat -> R).
  Notation n := (s + t)%nat.
  Hypothesis N : (2 <= n)%nat.
  Hypothesis L : length q = n.
  Hypothesis PV : forall i x, nth_error q i = Some x -> cv_v x = P i.
  Hypothesis HF : forall i, (i < n)%nat -> fdens A P i = ret (F i).
  Hypothesis HB : forall i, (i < n)%nat -> fdens A (fun k => P (n - 1 - k)%nat) (n - 1 - i) = ret (B i).
  Hypothesis WL1 : forall x, s = 1%nat -> nth_error q 0 = Some x -> cv_wr x = Some v0.
  Hypothesis WL2 : forall x, (2 <= s)%nat -> nth_error q (s - 1) = Some x -> okw (cv_wr x) (P (s - 1)%nat) (P (s - 2)%nat).
  Hypothesis WE1 : forall x, t = 1%nat -> nth_error q s = Some x -> cv_wf x = Some v0.
  Hypothesis WE2 : forall x, (2 <= t)%nat -> nth_error q s = Some x -> okw (cv_wf x) (P s) (P (s + 1)%nat).
  Hypothesis CL : s = 1%nat -> (1 <= t)%nat -> a_connectable A (vs_sp (P 0%nat)) = ret true.
  Hypothesis CE : t = 1%nat -> (1 <= s)%nat -> a_connectable A (vs_sp (P s)) = ret true.

  Lemma HF0 : first_vertex A (P 0%nat) = ret (F 0%nat).
  Proof using N HF. clear WE2 WE1 WL2 WL1 CL CE PV L. apply (HF 0). lia. Qed.
  Lemma HF1 : second_vertex A (P 0%nat) (P 1%nat) = ret (F 1%nat).
  Proof using N HF. clear WE2 WE1 WL2 WL1 CL CE PV L. apply (HF 1). lia. Qed.
  Lemma HF2 i : (2 <= i < n)%nat -> hop A (P (i - 2)%nat) (P (i - 1)%nat) (P i) = ret (F i).
  Proof using N HF. clear WE2 WE1 WL2 WL1 CL CE PV L. intros K. destruct i as [|[|i]]; try lia. rewrite <- (HF (S (S i))) by lia. cbn [fdens]. do 2 f_equal; lia. Qed.
  Lemma HB0 : first_vertex A (P (n - 1)%nat) = ret (B (n - 1)%nat).
  Proof using N HB. clear WE2 WE1 WL2 WL1 CL CE PV L. rewrite <- (HB (n - 1)) by lia. rewrite Nat.sub_diag. cbn [fdens]. do 2 f_equal; lia. Qed.
  Lemma HB1 : second_vertex A (P (n - 1)%nat) (P (n - 2)%nat) = ret (B (n - 2)%nat).
  Proof using N HB. clear WE2 WE1 WL2 WL1 CL CE PV L. rewrite <- (HB (n - 2)) by lia. replace (n - 1 - (n - 2))%nat with 1%nat by lia. cbn [fdens]. do 2 f_equal; lia. Qed.
  Lemma HB2 i : (i + 2 < n)%nat -> hop A (P (i + 2)%nat) (P (i + 1)%nat) (P i) = ret (B i).
  Proof using N HB. clear WE2 WE1 WL2 WL1 CL CE PV L. intros K. rewrite <- (HB i) by lia. destruct (n - 1 - i)%nat as [|[|k]] eqn:D; try lia. cbn [fdens]. f_equal; f_equal; lia. Qed.

  (** The directions across the connection *)
  Lemma across_LE : (1 <= s)%nat -> (1 <= t)%nat -> exists w, direction (Some (P (s - 1)%nat)) (Some (P s)) = Val w /\
    (forall x, nth_error q (s - 1) = Some x -> exists wr, cv_wr x = Some wr /\ dir_area A (P (s - 1)%nat) (P s) wr w = ret (F s)).
  Proof.
    intros S1 T1. destruct (Nat.eq_dec s 1) as [S|S].
    - destruct (second_step _ _ _ _ HF1) as (c & b & Ec & Eb & Ea). rewrite (CL S T1) in Ec. apply ret_inj in Ec. subst c. rewrite S. cbn [Nat.sub]. exists b. split; [exact Eb|].
      intros x Hx. exists v0. split; [exact (WL1 x S Hx)|]. exact Ea.
    - destruct (hop_step _ _ _ _ _ (HF2 s ltac:(lia))) as (a & b & Ea & Eb & Ed). exists b. split; [exact Eb|]. intros x Hx. exists a. split; [|exact Ed]. apply (WL2 x ltac:(lia) Hx). exact Ea.
  Qed.
  Lemma across_EL : (1 <= s)%nat -> (1 <= t)%nat -> exists w, direction (Some (P s)) (Some (P (s - 1)%nat)) = Val w /\
    (forall x, nth_error q s = Some x -> exists wf, cv_wf x = Some wf /\ dir_area A (P s) (P (s - 1)%nat) wf w = ret (B (s - 1)%nat)).
  Proof.
    intros S1 T1. destruct (Nat.eq_dec t 1) as [T|T].
    - destruct (second_step _ _ _ _ HB1) as (c & b & Ec & Eb & Ea). replace (n - 1)%nat with s in * by lia. replace (n - 2)%nat with (s - 1)%nat in * by lia.
      rewrite (CE T S1) in Ec. apply ret_inj in Ec. subst c. exists b. split; [exact Eb|]. intros x Hx. exists v0. split; [exact (WE1 x T Hx)|]. exact Ea.
    - destruct (hop_step _ _ _ _ _ (HB2 (s - 1) ltac:(lia))) as (a & b & Ea & Eb & Ed). replace (s - 1 + 1)%nat with s in * by lia. exists b. split; [exact Eb|].
      intros x Hx. exists a. split; [|exact Ed]. apply (WE2 x ltac:(lia) Hx). replace (s - 1 + 2)%nat with (s + 1)%nat in * by lia. exact Ea.
  Qed.
  Lemma at_q i : (i < n)%nat -> exists x, nth_error q i = Some x /\ cv_v x = P i.
  Proof. intros K. destruct (nth_error q i) as [x|] eqn:E; [|apply nth_error_None in E; lia]. eauto. Qed.

  Definition updated (q' : cpath) : Prop := forall i x, nth_error q i = Some x -> exists y, nth_error q' i = Some y /\ cv_v y = cv_v x /\
    cv_pf y = (if ((i =? s) || (i =? s + 1))%nat then Some (F i) else cv_pf x) /\
    cv_pr y = (if ((i + 1 =? s) || (i + 2 =? s))%nat then Some (B i) else cv_pr x).

  Lemma pick (q1 : cpath) i y z j : nth_error q1 j = (if (j =? i)%nat then Some y else z) -> j = i -> nth_error q1 j = Some y.
  Proof. intros H ->. now rewrite Nat.eqb_refl in H. Qed.
  Lemma same (q1 : cpath) i y z j : nth_error q1 j = (if (j =? i)%nat then Some y else z) -> j <> i -> nth_error q1 j = z.
  Proof. intros H K. apply Nat.eqb_neq in K. now rewrite K in H. Qed.

  Lemma recompute_both : (1 <= s)%nat -> (1 <= t)%nat -> exists q', opt_recompute A s t q = ret q' /\ updated q'.
  Proof.
    intros S1 T1. destruct (across_LE S1 T1) as (wLE & D1 & X1). destruct (across_EL S1 T1) as (wEL & D2 & X2).
    destruct (at_q (s - 1) ltac:(lia)) as (l & Hl & Pl). destruct (at_q s ltac:(lia)) as (e & He & Pe).
    destruct (X1 l Hl) as (wr & Wr & A1). destruct (X2 e He) as (wf & Wf & A2).
    unfold opt_recompute. replace (1 <=? s)%nat with true by lia. replace (1 <=? t)%nat with true by lia. cbn [when negb].
    edestruct (assign_ok (s - 1) (fun x => let! w := Ok (cdirection (Some x) (nth_error q s)) in ret (set_wf x w)) q l) as (q1 & E1 & Q1); [exact Hl| |].
    { rewrite He. unfold cdirection. cbn [option_map]. rewrite Pl, Pe, D1. rewrite pbind_okval. reflexivity. }
    rewrite E1, pbind_val.
    assert (H1 : nth_error q1 (s - 1) = Some (set_wf l wLE)) by (rewrite Q1, Nat.eqb_refl; reflexivity).
    assert (H1e : nth_error q1 s = Some e) by (rewrite Q1; replace (s =? s - 1)%nat with false by lia; exact He).
    edestruct (assign_ok s (fun x => let! w := Ok (cdirection (Some x) (nth_error q1 (s - 1))) in ret (set_wr x w)) q1 e) as (q2 & E2 & Q2); [exact H1e| |].
    { rewrite H1. unfold cdirection. cbn [option_map cv_v set_wf]. rewrite Pl, Pe, D2. rewrite pbind_okval. reflexivity. }
    rewrite E2, pbind_val.
    assert (H2 : nth_error q2 (s - 1) = Some (set_wf l wLE)) by (rewrite Q2; replace (s - 1 =? s)%nat with false by lia; exact H1).
    assert (H2e : nth_error q2 s = Some (set_wr e wEL)) by (rewrite Q2, Nat.eqb_refl; reflexivity).
    match goal with |- exists q', pbind (assign (s - 1) ?f q2) _ = _ /\ _ => destruct (assign_ok (s - 1) f q2 _ (set_pr (set_wf l wLE) (B (s - 1)%nat)) H2) as (q3 & E3 & Q3) end.
    { rewrite H2e. cbn [rd obind cv_wf cv_wr set_wr cv_v set_wf]. rewrite Wf. cbn [rd obind]. rewrite Pl, Pe, A2, pbind_val. reflexivity. }
    rewrite E3, pbind_val.
    assert (H3 : nth_error q3 (s - 1) = Some (set_pr (set_wf l wLE) (B (s - 1)%nat))) by (rewrite Q3, Nat.eqb_refl; reflexivity).
    assert (H3e : nth_error q3 s = Some (set_wr e wEL)) by (rewrite Q3; replace (s =? s - 1)%nat with false by lia; exact H2e).
    match goal with |- exists q', pbind (assign s ?f q3) _ = _ /\ _ => destruct (assign_ok s f q3 _ (set_pf (set_wr e wEL) (F s)) H3e) as (q4 & E4 & Q4) end.
    { rewrite H3. cbn [rd obind cv_wf cv_wr set_wr set_wf set_pr cv_v]. rewrite Wr. cbn [rd obind]. rewrite Pl, Pe, A1, pbind_val. reflexivity. }
    rewrite E4, pbind_val.
    assert (H4 : nth_error q4 (s - 1) = Some (set_pr (set_wf l wLE) (B (s - 1)%nat))) by (rewrite Q4; replace (s - 1 =? s)%nat with false by lia; exact H3).
    assert (H4e : nth_error q4 s = Some (set_pf (set_wr e wEL) (F s))) by (rewrite Q4, Nat.eqb_refl; reflexivity).
    match goal with |- exists q', pbind ?m _ = _ /\ _ => assert (St5 : exists q5, m = ret q5 /\ forall j, nth_error q5 j = if (j + 2 =? s)%nat then option_map (fun x => set_pr x (B j)) (nth_error q j) else nth_error q4 j) end.
    { destruct (2 <=? s)%nat eqn:S2; cbn [when].
      - destruct (at_q (s - 2) ltac:(lia)) as (l' & Hl' & Pl').
        assert (H4l : nth_error q4 (s - 2) = Some l').
        { rewrite Q4. replace (s - 2 =? s)%nat with false by lia. rewrite Q3. replace (s - 2 =? s - 1)%nat with false by lia. rewrite Q2. replace (s - 2 =? s)%nat with false by lia. rewrite Q1. replace (s - 2 =? s - 1)%nat with false by lia. exact Hl'. }
        destruct (hop_step A (P s) (P (s - 1)%nat) (P (s - 2)%nat) (B (s - 2)%nat)) as (a & b & Ea & Eb & Ed).
        { rewrite <- (HB2 (s - 2)) by lia. f_equal; f_equal; lia. }
        match goal with |- exists q', assign ?i ?f ?q = _ /\ _ => destruct (assign_ok i f q _ (set_pr l' (B (s - 2)%nat)) H4l) as (q5 & E5 & Q5) end.
        { rewrite H4. cbn [rd obind cv_wf cv_wr set_wr set_wf set_pr cv_v]. rewrite pbind_val.
          replace (cv_wr l) with (Some b) by (symmetry; apply (WL2 l ltac:(lia) Hl); exact Eb). cbn [rd obind]. rewrite Pl, Pl'. rewrite D1 in Ea. injection Ea as <-. rewrite Ed, pbind_val. reflexivity. }
        exists q5. split; [exact E5|]. intros j. rewrite Q5. destruct (j + 2 =? s)%nat eqn:J; [replace j with (s - 2)%nat by lia; rewrite Nat.eqb_refl, Hl'; reflexivity|]. now replace (j =? s - 2)%nat with false by lia.
      - exists q4. split; [reflexivity|]. intros j. now replace (j + 2 =? s)%nat with false by lia. }
    destruct St5 as (q5 & E5 & Q5). rewrite E5, pbind_val.
    assert (H5e : nth_error q5 s = Some (set_pf (set_wr e wEL) (F s))) by (rewrite Q5; replace (s + 2 =? s)%nat with false by lia; exact H4e).
    match goal with |- exists q', ?m = _ /\ _ => assert (St6 : exists q6, m = ret q6 /\ forall j, nth_error q6 j = if ((j =? s + 1) && (2 <=? t))%nat then option_map (fun x => set_pf x (F j)) (nth_error q j) else nth_error q5 j) end.
    { destruct (2 <=? t)%nat eqn:T2; cbn [when].
      - destruct (at_q (s + 1) ltac:(lia)) as (e' & He' & Pe').
        assert (H5l : nth_error q5 (s + 1) = Some e').
        { rewrite Q5. replace (s + 1 + 2 =? s)%nat with false by lia. rewrite Q4. replace (s + 1 =? s)%nat with false by lia. rewrite Q3. replace (s + 1 =? s - 1)%nat with false by lia. rewrite Q2. replace (s + 1 =? s)%nat with false by lia. rewrite Q1. replace (s + 1 =? s - 1)%nat with false by lia. exact He'. }
        destruct (hop_step A (P (s - 1)%nat) (P s) (P (s + 1)%nat) (F (s + 1)%nat)) as (a & b & Ea & Eb & Ed).
        { rewrite <- (HF2 (s + 1)) by lia. f_equal; f_equal; lia. }
        match goal with |- exists q', assign ?i ?f ?q = _ /\ _ => destruct (assign_ok i f q _ (set_pf e' (F (s + 1)%nat)) H5l) as (q6 & E6 & Q6) end.
        { rewrite H5e. cbn [rd obind cv_wf cv_wr set_wr set_wf set_pf cv_v]. rewrite pbind_val.
          replace (cv_wf e) with (Some b) by (symmetry; apply (WE2 e ltac:(lia) He); exact Eb). cbn [rd obind]. rewrite Pe, Pe'. rewrite D2 in Ea. injection Ea as <-. rewrite Ed, pbind_val. reflexivity. }
        exists q6. split; [exact E6|]. intros j. rewrite Q6. destruct (j =? s + 1)%nat eqn:J; [replace j with (s + 1)%nat by lia; rewrite He'; reflexivity|reflexivity].
      - exists q5. split; [reflexivity|]. intros j. now rewrite andb_false_r. }
    destruct St6 as (q6 & E6 & Q6). exists q6. split; [exact E6|]. intros i x Hx. assert (K := nth_lt _ _ _ Hx). rewrite L in K.
    rewrite Q6. destruct ((i =? s + 1) && (2 <=? t))%nat eqn:C6.
    { rewrite Hx. eexists. split; [reflexivity|]. cbn. replace ((i =? s) || (i =? s + 1))%nat with true by lia. replace ((i + 1 =? s) || (i + 2 =? s))%nat with false by lia. auto. }
    rewrite Q5. destruct (i + 2 =? s)%nat eqn:C5.
    { rewrite Hx. eexists. split; [reflexivity|]. cbn. replace ((i =? s) || (i =? s + 1))%nat with false by lia. replace ((i + 1 =? s) || true)%nat with true by (destruct (i + 1 =? s)%nat; reflexivity). auto. }
    rewrite Q4. destruct (i =? s)%nat eqn:C4.
    { assert (i = s) by lia. subst i. assert (x = e) by congruence. subst x. eexists. split; [reflexivity|]. cbn. replace ((s + 1 =? s) || false)%nat with false by lia. auto. }
    rewrite Q3. destruct (i =? s - 1)%nat eqn:C3.
    { assert (i = s - 1)%nat by lia. subst i. assert (x = l) by congruence. subst x. eexists. split; [reflexivity|]. cbn. replace (s - 1 =? s + 1)%nat with false by lia. replace (s - 1 + 1 =? s)%nat with true by lia. auto. }
    rewrite Q2, C4, Q1, C3. exists x. split; [exact Hx|]. replace (i =? s + 1)%nat with false by lia. replace (i + 1 =? s)%nat with false by lia. auto.
  Qed.
  Lemma recompute_camera : s = 0%nat -> exists q', opt_recompute A s t q = ret q' /\ updated q'.
  Proof.
    intros S0. destruct (at_q s ltac:(lia)) as (e & He & Pe). destruct (at_q (s + 1) ltac:(lia)) as (e' & He' & Pe').
    destruct (second_step _ _ _ _ HF1) as (c & b & Ec & Eb & Ea).
    assert (Wf : cv_wf e = Some b). { apply (WE2 e ltac:(lia) He). rewrite S0. exact Eb. }
    unfold opt_recompute. replace (1 <=? s)%nat with false by lia. replace (1 <=? t)%nat with true by lia. replace (2 <=? s)%nat with false by lia. replace (2 <=? t)%nat with true by lia. cbn [when negb].
    rewrite pbind_val.
    match goal with |- exists q', pbind (assign s ?f ?q) _ = _ /\ _ => destruct (assign_ok s f q e (set_wr e v0) He) as (q1 & E1 & Q1) end.
    { reflexivity. }
    rewrite E1, pbind_val. rewrite pbind_val.
    assert (H1 : nth_error q1 s = Some (set_wr e v0)) by (rewrite Q1, Nat.eqb_refl; reflexivity).
    match goal with |- exists q', pbind (assign s ?f ?q) _ = _ /\ _ => destruct (assign_ok s f q _ (set_pf (set_wr e v0) (F s)) H1) as (q2 & E2 & Q2) end.
    { cbn [cv_v set_wr]. rewrite Pe. change (pdf_start A (P s)) with (first_vertex A (P s)). rewrite S0, HF0, pbind_val. reflexivity. }
    rewrite E2, pbind_val. rewrite pbind_val.
    assert (H2 : nth_error q2 s = Some (set_pf (set_wr e v0) (F s))) by (rewrite Q2, Nat.eqb_refl; reflexivity).
    assert (H2e : nth_error q2 (s + 1) = Some e') by (rewrite Q2; replace (s + 1 =? s)%nat with false by lia; rewrite Q1; replace (s + 1 =? s)%nat with false by lia; exact He').
    match goal with |- exists q', assign ?i ?f ?q = _ /\ _ => destruct (assign_ok i f q _ (set_pf e' (F (s + 1)%nat)) H2e) as (q3 & E3 & Q3) end.
    { rewrite H2. cbn [rd obind cv_wf cv_wr set_wr set_wf set_pf cv_v]. rewrite Wf, Pe, Pe'. rewrite S0. cbn [Nat.add]. rewrite Ec. rewrite !pbind_val. cbn [rd obind]. destruct c; cbn [negb]; rewrite Ea, pbind_val; reflexivity. }
    exists q3. split; [exact E3|]. intros i x Hx. rewrite Q3. replace ((i + 1 =? s) || (i + 2 =? s))%nat with false by lia. destruct (i =? s + 1)%nat eqn:C3.
    { assert (i = s + 1)%nat by lia. subst i. assert (x = e') by congruence. subst x. eexists. split; [reflexivity|]. cbn. rewrite orb_true_r. auto. }
    rewrite Q2, Q1. destruct (i =? s)%nat eqn:C2; cbn [orb]; [|exists x; auto].
    assert (i = s)%nat by lia. subst i. assert (x = e) by congruence. subst x. eexists. split; [reflexivity|]. cbn. auto.
  Qed.
  Lemma recompute_light : t = 0%nat -> exists q', opt_recompute A s t q = ret q' /\ updated q'.
  Proof.
    intros T0. destruct (at_q (s - 1) ltac:(lia)) as (e & He & Pe). destruct (at_q (s - 2) ltac:(lia)) as (e' & He' & Pe').
    destruct (second_step _ _ _ _ HB1) as (c & b & Ec & Eb & Ea). replace (n - 1)%nat with (s - 1)%nat in Ec, Eb, Ea by lia. replace (n - 2)%nat with (s - 2)%nat in Eb, Ea by lia.
    assert (Wr : cv_wr e = Some b). { apply (WL2 e ltac:(lia) He). exact Eb. }
    unfold opt_recompute. replace (1 <=? s)%nat with true by lia. replace (1 <=? t)%nat with false by lia. replace (2 <=? s)%nat with true by lia. replace (2 <=? t)%nat with false by lia. cbn [when negb].
    match goal with |- exists q', pbind (assign (s - 1) ?f ?q) _ = _ /\ _ => destruct (assign_ok (s - 1) f q e (set_wf e v0) He) as (q1 & E1 & Q1) end.
    { reflexivity. }
    rewrite E1, pbind_val. rewrite pbind_val.
    assert (H1 : nth_error q1 (s - 1) = Some (set_wf e v0)) by (rewrite Q1, Nat.eqb_refl; reflexivity).
    match goal with |- exists q', pbind (assign (s - 1) ?f ?q) _ = _ /\ _ => destruct (assign_ok (s - 1) f q _ (set_pr (set_wf e v0) (B (s - 1)%nat)) H1) as (q2 & E2 & Q2) end.
    { cbn [cv_v set_wf]. rewrite Pe. change (pdf_start A (P (s - 1)%nat)) with (first_vertex A (P (s - 1)%nat)). assert (Z := HB0). replace (n - 1)%nat with (s - 1)%nat in Z by lia. rewrite Z, pbind_val. reflexivity. }
    rewrite E2, pbind_val. rewrite pbind_val.
    assert (H2 : nth_error q2 (s - 1) = Some (set_pr (set_wf e v0) (B (s - 1)%nat))) by (rewrite Q2, Nat.eqb_refl; reflexivity).
    assert (H2e : nth_error q2 (s - 2) = Some e') by (rewrite Q2; replace (s - 2 =? s - 1)%nat with false by lia; rewrite Q1; replace (s - 2 =? s - 1)%nat with false by lia; exact He').
    match goal with |- exists q', pbind (assign ?i ?f ?q) _ = _ /\ _ => destruct (assign_ok i f q _ (set_pr e' (B (s - 2)%nat)) H2e) as (q3 & E3 & Q3) end.
    { rewrite H2. cbn [rd obind cv_wf cv_wr set_wr set_wf set_pr cv_v]. rewrite Wr, Pe, Pe'. rewrite Ec. rewrite !pbind_val. cbn [rd obind]. destruct c; cbn [negb]; rewrite Ea, pbind_val; reflexivity. }
    rewrite E3, pbind_val.
    exists q3. split; [reflexivity|]. intros i x Hx. assert (K := nth_lt _ _ _ Hx). rewrite L in K. rewrite Q3. replace ((i =? s) || (i =? s + 1))%nat with false by lia. destruct (i =? s - 2)%nat eqn:C3.
    { assert (i = s - 2)%nat by lia. subst i. assert (x = e') by congruence. subst x. eexists. split; [reflexivity|]. cbn. replace (s - 2 + 2 =? s)%nat with true by lia. rewrite orb_true_r. auto. }
    rewrite Q2, Q1. replace (i + 2 =? s)%nat with false by lia. destruct (i =? s - 1)%nat eqn:C2.
    - assert (i = s - 1)%nat by lia. subst i. assert (x = e) by congruence. subst x. eexists. split; [reflexivity|]. cbn. replace (s - 1 + 1 =? s)%nat with true by lia. auto.
    - replace (i + 1 =? s)%nat with false by lia. exists x; auto.
  Qed.
  Lemma recompute_ok : exists q', opt_recompute A s t q = ret q' /\ updated q'.
  Proof.
    destruct (Nat.eq_dec s 0); [now apply recompute_camera|]. destruct (Nat.eq_dec t 0); [now apply recompute_light|]. apply recompute_both; lia.
  Qed.
End Recompute.

(** ** The sums *)
Lemma product_split f k : forall i, product f i (S k) = product f i k * f (i + k)%nat.
Proof. induction k as [|k IH]; intros i; [cbn; rewrite Nat.add_0_r; ring|]. change (product f i (S (S k))) with (f i * product f (S i) (S k)). rewrite IH. cbn [product]. replace (S i + k)%nat with (i + S k)%nat by lia. ring. Qed.
Lemma product_ext f g k : forall i, (forall j, (i <= j < i + k)%nat -> f j = g j) -> product f i k = product g i k.
Proof. induction k as [|k IH]; intros i E; [reflexivity|]. cbn [product]. rewrite (E i) by lia. f_equal. apply IH. intros j K. apply E. lia. Qed.
Lemma product_nz f k : forall i, product f i k <> 0 -> forall j, (i <= j < i + k)%nat -> f j <> 0.
Proof. induction k as [|k IH]; intros i E j K; [lia|]. cbn [product] in E. destruct (Nat.eq_dec j i) as [-> |]; [intros Z; apply E; rewrite Z; ring|]. apply (IH (S i)); [|lia]. intros Z. apply E. rewrite Z. ring. Qed.
Lemma product_pos f k : forall i, (forall j, (i <= j < i + k)%nat -> 0 <= f j) -> 0 <= product f i k.
Proof. induction k as [|k IH]; intros i E; cbn [product]; [lra|]. apply Rmult_le_pos; [apply E; lia|]. apply IH. intros j K. apply E. lia. Qed.
Lemma strategy_step F B n i : (i < n)%nat -> strategy F B n (S i) * B i = strategy F B n i * F i.
Proof.
  intros K. unfold strategy. rewrite product_split. replace (n - i)%nat with (S (n - S i)) by lia. cbn [product]. cbn [Nat.add]. ring.
Qed.
Lemma strategy_ext F B F' B' n s : (s <= n)%nat -> (forall i, (i < s)%nat -> F i = F' i) -> (forall i, (s <= i < n)%nat -> B i = B' i) -> strategy F B n s = strategy F' B' n s.
Proof. intros K E1 E2. unfold strategy. f_equal; apply product_ext; intros j J; [apply E1|apply E2]; lia. Qed.

Section Sums.
  Variables (A : api) (q : cpath) (n : nat) (F B : nat -> R) (b : nat -> bool).
  Hypothesis L : length q = n.
  Hypothesis HF : forall i x, nth_error q i = Some x -> cv_pf x = Some (F i) /\ cv_pr x = Some (B i).
  Hypothesis Hb : forall i, (i <= n)%nat -> is_samplable_bidir A (strip q) (Z.of_nat i) = ret (b i).
  Definition ind (i : nat) : R := if b i then 1 else 0.
  Fixpoint usum (i k : nat) : R := match k with O => 0 | S k => F i / B i * (ind (S i) + usum (S i) k) end.
  Fixpoint dsum (i : nat) : R := match i with O => 0 | S i => B i / F i * (ind i + dsum i) end.
  Lemma up_ok k : forall i r sum, (i + k)%nat = n -> (forall j, (i <= j < n)%nat -> B j <> 0) -> up_loop A q i k r sum = ret (sum + r * usum i k).
  Proof.
    induction k as [|k IH]; intros i r sum K Nz; [cbn; unfold ret; do 2 f_equal; ring|]. cbn [up_loop usum].
    destruct (nth_error q i) as [x|] eqn:Ex; [|apply nth_error_None in Ex; lia]. destruct (HF i x Ex) as (Ep & Eq). cbn [rd obind]. rewrite Ep. cbn [rd obind]. rewrite Eq. cbn [rd obind].
    rewrite CamProofs.rdiv_ok by (apply Nz; lia). rewrite pbind_okval. replace (Z.of_nat i + 1)%Z with (Z.of_nat (S i)) by lia. rewrite Hb by lia. rewrite pbind_val.
    rewrite IH; [|lia|intros; apply Nz; lia]. unfold ret. do 2 f_equal. unfold ind. destruct (b (S i)); ring.
  Qed.
  Lemma down_ok i : forall r sum, (i <= n)%nat -> (forall j, (j < i)%nat -> F j <> 0) -> down_loop A q i r sum = ret (sum + r * dsum i).
  Proof.
    induction i as [|i IH]; intros r sum K Nz; [cbn; unfold ret; do 2 f_equal; ring|]. cbn [down_loop dsum].
    destruct (nth_error q i) as [x|] eqn:Ex; [|apply nth_error_None in Ex; lia]. destruct (HF i x Ex) as (Ep & Eq). cbn [rd obind]. rewrite Ep. cbn [rd obind]. rewrite Eq. cbn [rd obind].
    rewrite CamProofs.rdiv_ok by (apply Nz; lia). rewrite pbind_okval. rewrite Hb by lia. rewrite pbind_val.
    rewrite IH; [|lia|intros; apply Nz; lia]. unfold ret. do 2 f_equal. unfold ind. destruct (b i); ring.
  Qed.
  Notation w j := (if b j then strategy F B n j else 0).
  Lemma usum_total k : forall i, (i + k)%nat = n -> (forall j, (i <= j < n)%nat -> B j <> 0) ->
    total (S n) (fun j => w j) = total (S i) (fun j => w j) + strategy F B n i * usum i k.
  Proof.
    induction k as [|k IH]; intros i K Nz; [replace i with n by lia; cbn [usum]; ring|]. rewrite (IH (S i)); [|lia|intros; apply Nz; lia].
    change (total (S (S i)) (fun j => w j)) with (total (S i) (fun j => w j) + w (S i)). cbn [usum].
    assert (St := strategy_step F B n i ltac:(lia)). assert (Bi : B i <> 0) by (apply Nz; lia).
    replace (strategy F B n i * (F i / B i * (ind (S i) + usum (S i) k))) with (strategy F B n (S i) * (ind (S i) + usum (S i) k)).
    - unfold ind. destruct (b (S i)); ring.
    - replace (strategy F B n (S i)) with (strategy F B n i * F i / B i); [field; exact Bi|]. rewrite <- St. field. exact Bi.
  Qed.
  Lemma dsum_total i : (i <= n)%nat -> (forall j, (j < i)%nat -> F j <> 0) -> total i (fun j => w j) = strategy F B n i * dsum i.
  Proof.
    induction i as [|i IH]; intros K Nz; [cbn; ring|]. cbn [total dsum]. rewrite IH by (lia || (intros; apply Nz; lia)).
    assert (St := strategy_step F B n i ltac:(lia)). assert (Fi : F i <> 0) by (apply Nz; lia).
    replace (strategy F B n (S i) * (B i / F i * (ind i + dsum i))) with (strategy F B n i * (ind i + dsum i)).
    - unfold ind. destruct (b i); ring.
    - replace (strategy F B n i) with (strategy F B n (S i) * B i / F i); [field; exact Fi|]. rewrite St. field. exact Fi.
  Qed.
End Sums.

Lemma total_nonneg n f : (forall i, (i < n)%nat -> 0 <= f i) -> 0 <= total n f.
Proof. induction n as [|n IH]; intros H; cbn [total]; [lra|]. assert (0 <= f n) by (apply H; lia). assert (0 <= total n f) by (apply IH; intros; apply H; lia). lra. Qed.
Lemma total_ge n f s : (forall i, (i < n)%nat -> 0 <= f i) -> (s < n)%nat -> f s <= total n f.
Proof.
  induction n as [|n IH]; intros H K; [lia|]. cbn [total]. destruct (Nat.eq_dec s n) as [-> |].
  - assert (0 <= total n f) by (apply total_nonneg; intros; apply H; lia). lra.
  - assert (0 <= f n) by (apply H; lia). assert (f s <= total n f) by (apply IH; [intros; apply H; lia|lia]). lra.
Qed.
Lemma total_same n f g : (forall i, (i < n)%nat -> f i = g i) -> total n f = total n g.
Proof. induction n as [|n IH]; intros H; cbn [total]; [reflexivity|]. rewrite H, IH by (auto || (intros; apply H; lia)). reflexivity. Qed.

(** ** The weight *)
Lemma list_ext {X} (l : list X) : forall l', (forall k, nth_error l k = nth_error l' k) -> l = l'.
Proof.
  induction l as [|x l IH]; intros [|y l'] E; [reflexivity|specialize (E 0%nat); discriminate..|]. assert (E0 := E 0%nat). cbn in E0. injection E0 as <-. f_equal. apply IH. intros k. exact (E (S k)).
Qed.
Lemma when_length b i f q q' : when b (fun q => assign i (f q) q) q = ret q' -> length q' = length q.
Proof.
  destruct b; cbn [when]; intros H; [|apply ret_inj in H; now subst]. unfold assign in H. destruct (nth_error q i) eqn:E; [|discriminate]. apply nth_lt in E. mstep H. apply ret_inj in H. subst q'.
  rewrite app_length, firstn_length. cbn [length]. rewrite skipn_length. lia.
Qed.
Lemma recompute_length A s t q q' : opt_recompute A s t q = ret q' -> length q' = length q.
Proof.
  unfold opt_recompute. intros H. do 5 mstep H. apply when_length in E, E0, E1, E2, E3, H. congruence.
Qed.
Lemma joined_unique a b s t p p' : (2 <= s + t)%nat -> joined a b s t p -> joined a b s t p' -> p = p'.
Proof.
  intros N (Sa & Sb & L & J1 & J2 & J3 & J4) (_ & _ & L' & J1' & J2' & J3' & J4').
  assert (EQ : forall k v w u, same_place u v -> same_place u w -> nth_error p k = Some v -> nth_error p' k = Some w -> (k < s + t)%nat ->
    ((0 < k < s + t - 1)%nat -> v = u) -> ((0 < k < s + t - 1)%nat -> w = u) -> v = w).
  { intros k v w u Sv Sw Hv Hw K Iv Iw. destruct (Nat.eq_dec k 0) as [-> |K0].
    { eapply retyped; [|exact (J3' _ N Hw)|exact (J3 _ N Hv)]. destruct Sv as (? & ? & ? & ?), Sw as (? & ? & ? & ?). repeat split; congruence. }
    destruct (Nat.eq_dec k (s + t - 1)) as [-> |K1].
    { eapply retyped; [|exact (J4' _ Hw)|exact (J4 _ Hv)]. destruct Sv as (? & ? & ? & ?), Sw as (? & ? & ? & ?). repeat split; congruence. }
    rewrite Iv, Iw by lia. reflexivity. }
  apply list_ext. intros k. destruct (Nat.lt_ge_cases k (s + t)) as [K|K].
  - destruct (Nat.lt_ge_cases k s) as [Ks|Ks].
    + destruct (nth_error a k) as [u|] eqn:Eu; [|apply nth_error_None in Eu; lia].
      destruct (J1 k u Ks Eu) as (v & Hv & Sv & Iv). destruct (J1' k u Ks Eu) as (w & Hw & Sw & Iw). rewrite Hv, Hw. f_equal. eapply EQ; eauto.
    + destruct (nth_error b (s + t - 1 - k)) as [u|] eqn:Eu; [|apply nth_error_None in Eu; lia].
      destruct (J2 (s + t - 1 - k)%nat u ltac:(lia) Eu) as (v & Hv & Sv & Iv). destruct (J2' (s + t - 1 - k)%nat u ltac:(lia) Eu) as (w & Hw & Sw & Iw). replace (s + t - 1 - (s + t - 1 - k))%nat with k in * by lia. rewrite Hv, Hw. f_equal. eapply EQ; eauto.
  - rewrite (proj2 (nth_error_None p k)), (proj2 (nth_error_None p' k)) by lia. reflexivity.
Qed.
Lemma density_fdens A p P i : (forall k, (k < length p)%nat -> nth_error p k = Some (P k)) -> (i < length p)%nat -> density A p i = fdens A P i.
Proof.
  intros H K. unfold density, fdens. destruct i as [|[|i]].
  - cbn [Nat.sub]. rewrite (H 0%nat K). reflexivity.
  - cbn [Nat.sub]. rewrite (H 0%nat), (H 1%nat) by lia. reflexivity.
  - cbn [Nat.sub]. replace (i - 0)%nat with i by lia. rewrite (H i), (H (S i)), (H (S (S i))) by lia. reflexivity.
Qed.
Lemma nil_indexed A ty : indexed A ty [].
Proof. constructor; intros; destruct k || idtac; discriminate. Qed.
Lemma subpath_indexed A U V fuel rng max d q : sane A U V -> (forall k, U (rng k)) -> opt_subpath A fuel rng max d = ret q -> indexed A (match d with LE => LightEndpoint | EL => CameraEndpoint end) q.
Proof.
  intros S RU H. unfold opt_subpath in H. mstep H. apply ret_inj in H. subst q. apply (walk_cached A U V d fuel S) in E; [|exact RU|now left].
  destruct E as [-> |C]; [apply nil_indexed|]. eapply cached_indexed; [|exact C]; reflexivity.
Qed.

Lemma samplable_connects_light A p : (2 <= length p)%nat -> is_samplable_bidir A p 1 = ret true -> forall v, nth_error p 0 = Some v -> a_connectable A (vs_sp v) = ret true.
Proof.
  intros N H v Hv. unfold is_samplable_bidir in H. cbn [Z.eqb] in H. replace (num_verts p - 1 =? 0)%Z with false in H by (unfold num_verts; lia).
  mstep H. mstep H. unfold vertex_at, index in E. replace ((0 <=? 1 - 1) && (1 - 1 <? num_verts p))%Z with true in E by (unfold num_verts; lia). change (Z.to_nat (1 - 1)) with 0%nat in E. rewrite Hv in E. injection E as <-.
  change (1 =? 1)%Z with true in H. cbv iota in H. mstep H. destruct a; [exact E|]. discriminate.
Qed.
Lemma samplable_connects_camera A p : (2 <= length p)%nat -> is_samplable_bidir A p (num_verts p - 1) = ret true -> forall v, nth_error p (length p - 1) = Some v -> a_connectable A (vs_sp v) = ret true.
Proof.
  intros N H v Hv. unfold is_samplable_bidir in H. replace (num_verts p - 1 =? 0)%Z with false in H by (unfold num_verts; lia). replace (num_verts p - (num_verts p - 1))%Z with 1%Z in H by lia. change (1 =? 0)%Z with false in H. cbv iota in H.
  mstep H. mstep H. rewrite vertex_at_rev in E0. unfold vertex_at, index in E0. replace (num_verts p - 1 - (1 - 1))%Z with (num_verts p - 1)%Z in E0 by lia. replace ((0 <=? num_verts p - 1) && (num_verts p - 1 <? num_verts p))%Z with true in E0 by (unfold num_verts; lia). replace (Z.to_nat (num_verts p - 1)) with (length p - 1)%nat in E0 by (unfold num_verts; lia). rewrite Hv in E0. injection E0 as <-.
  mstep H. destruct a0; [|discriminate]. cbn [negb] in H. change (1 =? 1)%Z with true in H. cbv iota in H. mstep H. destruct a0; [assumption|discriminate].
Qed.
Lemma samplable_first A p v : is_samplable_bidir A p 0 = ret true -> nth_error p 0 = Some v -> degenerated (igeom (vs_sp v)) = false.
Proof.
  intros H Hv. assert (K := nth_lt _ _ _ Hv). unfold is_samplable_bidir in H. cbn [Z.eqb] in H. unfold samplable_end in H. mstep H. unfold vertex_at, index in E. replace ((0 <=? 0) && (0 <? num_verts p))%Z with true in E by (unfold num_verts; lia). cbn [Z.to_nat] in E. rewrite Hv in E. injection E as <-.
  destruct (degenerated _); [discriminate|reflexivity].
Qed.
Lemma samplable_last A p v : is_samplable_bidir A p (num_verts p) = ret true -> nth_error p (length p - 1) = Some v -> degenerated (igeom (vs_sp v)) = false.
Proof.
  intros H Hv. assert (K := nth_lt _ _ _ Hv). unfold is_samplable_bidir in H. replace (num_verts p =? 0)%Z with false in H by (unfold num_verts; lia). replace (num_verts p - num_verts p)%Z with 0%Z in H by lia. change (0 =? 0)%Z with true in H. cbv iota in H.
  unfold samplable_end in H. mstep H. rewrite vertex_at_rev in E. unfold vertex_at, index in E. replace ((0 <=? num_verts p - 1 - 0) && (num_verts p - 1 - 0 <? num_verts p))%Z with true in E by (unfold num_verts; lia). replace (Z.to_nat (num_verts p - 1 - 0)) with (length p - 1)%nat in E by (unfold num_verts; lia). rewrite Hv in E. injection E as <-.
  destruct (degenerated _); [discriminate|reflexivity].
Qed.

Lemma opt_weight A U V fuelL rngL maxL qL fuelE rngE maxE qE s t p F B b :
  sane A U V -> (forall k, U (rngL k)) -> (forall k, U (rngE k)) -> opt_subpath A fuelL rngL maxL LE = ret qL -> opt_subpath A fuelE rngE maxE EL = ret qE ->
  (2 <= s + t)%nat -> joined (strip qL) (strip qE) s t p ->
  (forall i, (i < s + t)%nat -> density A p i = ret (F i) /\ 0 <= F i) ->
  (forall i, (i < s + t)%nat -> density A (rev p) (s + t - 1 - i) = ret (B i) /\ 0 <= B i) ->
  (forall j, (j <= s + t)%nat -> is_samplable_bidir A p (Z.of_nat j) = ret (b j)) -> b s = true ->
  strategy F B (s + t) s <> 0 ->
  exists w, opt_mis_weight A qE qL s t = ret w /\
    w * total (S (s + t)) (fun j => if b j then strategy F B (s + t) j else 0) = strategy F B (s + t) s.
Proof.
  intros SA UL UE HL HE N J HF HB Hb Hs Nz. assert (IL := subpath_indexed _ _ _ _ _ _ _ _ SA UL HL). assert (IE := subpath_indexed _ _ _ _ _ _ _ _ SA UE HE).
  assert (TL : forall x, nth_error qL 0 = Some x -> it (vs_sp (cv_v x)) = LightEndpoint) by (intros x Hx; exact (proj1 (proj2 (ix_first _ _ _ IL x Hx)))).
  assert (TE : forall x, nth_error qE 0 = Some x -> it (vs_sp (cv_v x)) = CameraEndpoint) by (intros x Hx; exact (proj1 (proj2 (ix_first _ _ _ IE x Hx)))).
  assert (exists q, opt_full qE qL s t = Ok q) as (q & Hq).
  { destruct J as (S1 & S2 & _). unfold strip in S1, S2. rewrite map_length in S1, S2. unfold opt_full. replace ((s <=? length qL) && (t <=? length qE) && (1 <=? s + t))%nat with true by lia. eauto. }
  assert (EP := joined_unique _ _ _ _ _ _ N J (full_joined _ _ _ _ _ N Hq)).
  assert (LQ := full_length _ _ _ _ _ N Hq). assert (LP : length p = (s + t)%nat) by apply J.
  destruct p as [|d0 p'] eqn:EPP; [cbn in LP; lia|]. rewrite <- EPP in *. clear EPP p'. set (P := fun k => nth k p d0).
  assert (NP : forall k, (k < length p)%nat -> nth_error p k = Some (P k)) by (intros k K; apply nth_error_nth'; exact K).
  assert (NR : forall k, (k < length (rev p))%nat -> nth_error (rev p) k = Some (P (s + t - 1 - k)%nat)).
  { intros k K. rewrite rev_length in K. rewrite rev_nth_error by exact K. rewrite NP by lia. do 2 f_equal. lia. }
  assert (PV : forall i x, nth_error q i = Some x -> cv_v x = P i).
  { intros i x Hx. assert (K := nth_lt _ _ _ Hx). apply strip_nth in Hx. rewrite <- EP in Hx. rewrite NP in Hx by lia. congruence. }
  assert (PL : forall k, (k < s)%nat -> exists x, nth_error qL k = Some x /\ same_place (cv_v x) (P k) /\ ((k < s + t - 1)%nat -> P k = cv_v x)).
  { intros k K. destruct (full_light _ _ _ _ _ TL N Hq k K) as (x & v & Hx & Hy & Sv & Iv). exists x. apply PV in Hy. cbn in Hy. subst v. auto. }
  assert (PE : forall k, (k < t)%nat -> exists x, nth_error qE k = Some x /\ same_place (cv_v x) (P (s + t - 1 - k)%nat) /\ ((k < s + t - 1)%nat -> P (s + t - 1 - k)%nat = cv_v x)).
  { intros k K. destruct (full_camera _ _ _ _ _ TE N Hq k K) as (x & v & Hx & Hy & Sv & Iv). exists x. apply PV in Hy. cbn in Hy. subst v. auto. }
  assert (DF : forall i, (i < s + t)%nat -> fdens A P i = ret (F i)) by (intros i K; rewrite <- (density_fdens A p P) by (exact NP || lia); apply HF; exact K).
  assert (DB : forall i, (i < s + t)%nat -> fdens A (fun k => P (s + t - 1 - k)%nat) (s + t - 1 - i) = ret (B i)).
  { intros i K. rewrite <- (density_fdens A (rev p)) by (exact NR || (rewrite rev_length; lia)). apply HB; exact K. }
  assert (ML : (s <= s + t)%nat) by lia. assert (ME : (t <= s + t)%nat) by lia.
  assert (NV : num_verts p = Z.of_nat (s + t)) by (unfold num_verts; now rewrite LP).
  destruct (recompute_ok A q s t P F B N LQ PV DF DB) as (q' & Hq' & UP).
  { intros x S1 Hx. destruct (full_light _ _ _ _ _ TL N Hq 0 ltac:(lia)) as (y & v & Hy & Hz & _). assert (x = set_v y v) by congruence. subst x. cbn. eapply (side_first A LightEndpoint qL P (s + t) s); eauto; lia. }
  { intros x S2 Hx. destruct (full_light _ _ _ _ _ TL N Hq (s - 1) ltac:(lia)) as (y & v & Hy & Hz & _). assert (x = set_v y v) by congruence. subst x. cbn.
    assert (Z := side_wr A LightEndpoint qL P (s + t) s IL N ML PL (s - 2) y). replace (S (s - 2)) with (s - 1)%nat in Z by lia. apply Z; [lia|exact Hy]. }
  { intros x T1 Hx. destruct (full_camera _ _ _ _ _ TE N Hq 0 ltac:(lia)) as (y & v & Hy & Hz & _). replace (s + t - 1 - 0)%nat with s in Hz by lia. assert (x = swap (set_v y v)) by congruence. subst x. cbn.
    eapply (side_first A CameraEndpoint qE (fun k => P (s + t - 1 - k)%nat) (s + t) t); eauto; lia. }
  { intros x T2 Hx. destruct (full_camera _ _ _ _ _ TE N Hq (t - 1) ltac:(lia)) as (y & v & Hy & Hz & _). replace (s + t - 1 - (t - 1))%nat with s in Hz by lia. assert (x = swap (set_v y v)) by congruence. subst x. cbn.
    assert (Z := side_wr A CameraEndpoint qE (fun k => P (s + t - 1 - k)%nat) (s + t) t IE N ME PE (t - 2) y). cbv beta in Z. replace (S (t - 2)) with (t - 1)%nat in Z by lia. replace (s + t - 1 - (t - 1))%nat with s in Z by lia. replace (s + t - 1 - (t - 2))%nat with (s + 1)%nat in Z by lia. apply Z; [lia|exact Hy]. }
  { intros S1 T1. eapply samplable_connects_light with (p := p); [lia| |apply NP; lia]. rewrite <- Hs, <- Hb by lia. now rewrite S1. }
  { intros T1 S1. eapply samplable_connects_camera with (p := p); [lia| |rewrite LP; replace (s + t - 1)%nat with s by lia; apply NP; lia]. rewrite NV. replace (Z.of_nat (s + t) - 1)%Z with (Z.of_nat s) by lia. rewrite <- Hs. apply Hb. lia. }
  (* what the caches hold *)
  assert (LQ' : length q' = (s + t)%nat) by (rewrite (recompute_length _ _ _ _ _ Hq'); exact LQ).
  assert (SL : forall i x, (i < s)%nat -> nth_error qL i = Some x -> cv_pf x = Some (F i)).
  { intros i x K Hx. specialize (DF i ltac:(lia)). destruct i as [|[|i]]; cbn [fdens] in DF.
    - eapply (side_first A LightEndpoint qL P (s + t) s); eauto.
    - eapply (side_second A LightEndpoint qL P (s + t) s); eauto.
    - eapply (side_later A LightEndpoint qL P (s + t) s); eauto. }
  assert (SE : forall k x, (k < t)%nat -> nth_error qE k = Some x -> cv_pf x = Some (B (s + t - 1 - k)%nat)).
  { intros k x K Hx. specialize (DB (s + t - 1 - k)%nat ltac:(lia)). replace (s + t - 1 - (s + t - 1 - k))%nat with k in DB by lia. destruct k as [|[|k]]; cbn [fdens] in DB.
    - eapply (side_first A CameraEndpoint qE (fun k => P (s + t - 1 - k)%nat) (s + t) t); eauto.
    - eapply (side_second A CameraEndpoint qE (fun k => P (s + t - 1 - k)%nat) (s + t) t); eauto.
    - eapply (side_later A CameraEndpoint qE (fun k => P (s + t - 1 - k)%nat) (s + t) t); eauto. }
  assert (RL : forall i x, (i + 2 < s)%nat -> nth_error qL i = Some x -> exists r, cv_pr x = Some r /\ (r = B i \/ i = 0%nat /\ b 0%nat = false)).
  { intros i x K Hx. assert (Z := side_back A LightEndpoint qL P (s + t) s IL N ML PL i x ltac:(lia) Hx). destruct (degenerated (cgeom x)) eqn:D.
    - exists 1. split; [exact Z|right]. assert (i = 0%nat) by exact (side_deg _ _ _ _ _ IL N ML _ _ Hx D). subst i. split; [reflexivity|].
      destruct (b 0%nat) eqn:B0; [|reflexivity]. rewrite <- B0 in *. assert (Hb0 := Hb 0%nat ltac:(lia)). rewrite B0 in Hb0. destruct (PL 0%nat ltac:(lia)) as (y & Hy & (_ & G & _) & _). assert (y = x) by congruence. subst y.
      assert (W := samplable_first A p (P 0%nat) Hb0 (NP 0%nat ltac:(lia))). unfold cgeom in D. congruence.
    - exists (B i). split; [|now left]. apply Z. rewrite <- (HB2 A s t P B N DB i) by lia. f_equal; f_equal; lia. }
  assert (RE : forall k x, (k + 2 < t)%nat -> nth_error qE k = Some x -> exists r, cv_pr x = Some r /\ (r = F (s + t - 1 - k)%nat \/ k = 0%nat /\ b (s + t)%nat = false)).
  { intros k x K Hx. assert (Z := side_back A CameraEndpoint qE (fun k => P (s + t - 1 - k)%nat) (s + t) t IE N ME PE k x ltac:(lia) Hx). destruct (degenerated (cgeom x)) eqn:D.
    - exists 1. split; [exact Z|right]. assert (k = 0%nat) by exact (side_deg _ _ _ _ _ IE N ME _ _ Hx D). subst k. split; [reflexivity|].
      destruct (b (s + t)%nat) eqn:B0; [|reflexivity]. assert (Hb0 := Hb (s + t)%nat ltac:(lia)). rewrite B0, <- NV in Hb0. destruct (PE 0%nat ltac:(lia)) as (y & Hy & (_ & G & _) & _). assert (y = x) by congruence. subst y.
      replace (s + t - 1 - 0)%nat with (length p - 1)%nat in G by lia.
      assert (W := samplable_last A p (P (length p - 1)%nat) Hb0 (NP (length p - 1)%nat ltac:(lia))). unfold cgeom in D. congruence.
    - exists (F (s + t - 1 - k)%nat). split; [|now left]. apply Z. rewrite <- (HF2 A s t P F N DF (s + t - 1 - k)) by lia. f_equal; f_equal; lia. }
  assert (CA : forall i, (i < s + t)%nat -> exists x f r, nth_error q' i = Some x /\ cv_pf x = Some f /\ cv_pr x = Some r /\
     (f = F i \/ i = (s + t - 1)%nat /\ b (s + t)%nat = false) /\ (r = B i \/ i = 0%nat /\ b 0%nat = false)).
  { intros i K. destruct (nth_error q i) as [x|] eqn:Ex; [|apply nth_error_None in Ex; lia]. destruct (UP i x Ex) as (y & Hy & _ & Pf & Pr). exists y.
    assert (X1 : exists f, cv_pf y = Some f /\ (f = F i \/ i = (s + t - 1)%nat /\ b (s + t)%nat = false)).
    { destruct ((i =? s) || (i =? s + 1))%nat eqn:C; [eauto|]. destruct (Nat.lt_ge_cases i s) as [Ki|Ki].
      - destruct (full_light _ _ _ _ _ TL N Hq i Ki) as (z & v & Hz & Hv & _). assert (x = set_v z v) by congruence. subst x. cbn in Pf. rewrite (SL i z Ki Hz) in Pf. eauto.
      - destruct (full_camera _ _ _ _ _ TE N Hq (s + t - 1 - i) ltac:(lia)) as (z & v & Hz & Hv & _). replace (s + t - 1 - (s + t - 1 - i))%nat with i in Hv by lia. assert (x = swap (set_v z v)) by congruence. subst x. cbn in Pf.
        destruct (RE (s + t - 1 - i)%nat z ltac:(lia) Hz) as (r & Er & Or). rewrite Er in Pf. exists r. split; [exact Pf|]. replace (s + t - 1 - (s + t - 1 - i))%nat with i in Or by lia. destruct Or as [Or|(Or & ?)]; [now left|right; split; [lia|assumption]]. }
    assert (X2 : exists r, cv_pr y = Some r /\ (r = B i \/ i = 0%nat /\ b 0%nat = false)).
    { destruct ((i + 1 =? s) || (i + 2 =? s))%nat eqn:C; [eauto|]. destruct (Nat.lt_ge_cases i s) as [Ki|Ki].
      - destruct (full_light _ _ _ _ _ TL N Hq i Ki) as (z & v & Hz & Hv & _). assert (x = set_v z v) by congruence. subst x. cbn in Pr. destruct (RL i z ltac:(lia) Hz) as (r & Er & Or). rewrite Er in Pr. eauto.
      - destruct (full_camera _ _ _ _ _ TE N Hq (s + t - 1 - i) ltac:(lia)) as (z & v & Hz & Hv & _). replace (s + t - 1 - (s + t - 1 - i))%nat with i in Hv by lia. assert (x = swap (set_v z v)) by congruence. subst x. cbn in Pr.
        rewrite (SE (s + t - 1 - i)%nat z ltac:(lia) Hz) in Pr. replace (s + t - 1 - (s + t - 1 - i))%nat with i in Pr by lia. eauto. }
    destruct X1 as (f & ? & ?), X2 as (r & ? & ?). exists f, r. auto. }
  set (F' := fun i => match nth_error q' i with Some x => match cv_pf x with Some f => f | None => 0 end | None => 0 end).
  set (B' := fun i => match nth_error q' i with Some x => match cv_pr x with Some f => f | None => 0 end | None => 0 end).
  assert (C' : forall i x, nth_error q' i = Some x -> cv_pf x = Some (F' i) /\ cv_pr x = Some (B' i)).
  { intros i x Hx. assert (K := nth_lt _ _ _ Hx). rewrite LQ' in K. destruct (CA i K) as (y & f & r & Hy & Pf & Pr & _). assert (y = x) by congruence. subst y. unfold F', B'. rewrite Hx, Pf, Pr. auto. }
  assert (F1 : forall i, (i < s + t)%nat -> (i < s + t - 1)%nat \/ b (s + t)%nat = true -> F' i = F i).
  { intros i K O. destruct (CA i K) as (y & f & r & Hy & Pf & Pr & Of & _). unfold F'. rewrite Hy, Pf. destruct Of as [? |(? & ?)]; [assumption|]. destruct O; [lia|congruence]. }
  assert (B1 : forall i, (i < s + t)%nat -> (0 < i)%nat \/ b 0%nat = true -> B' i = B i).
  { intros i K O. destruct (CA i K) as (y & f & r & Hy & Pf & Pr & _ & Or). unfold B'. rewrite Hy, Pr. destruct Or as [? |(? & ?)]; [assumption|]. destruct O; [lia|congruence]. }
  assert (ST : forall j, (j <= s + t)%nat -> b j = true -> strategy F' B' (s + t) j = strategy F B (s + t) j).
  { intros j K Bj. apply strategy_ext; [exact K| |].
    - intros i Ki. apply F1; [lia|]. destruct (Nat.eq_dec j (s + t)) as [-> |]; [now right|left; lia].
    - intros i Ki. apply B1; [lia|]. destruct (Nat.eq_dec j 0) as [-> |]; [now right|left; lia]. }
  assert (STR : strip q' = p).
  { rewrite EP. apply list_ext. intros k. destruct (Nat.lt_ge_cases k (s + t)) as [K|K].
    - destruct (nth_error q k) as [x|] eqn:Ex; [|apply nth_error_None in Ex; lia]. destruct (UP k x Ex) as (y & Hy & Ev & _). rewrite (strip_nth _ _ _ Hy), (strip_nth _ _ _ Ex). congruence.
    - rewrite (proj2 (nth_error_None (strip q') k)), (proj2 (nth_error_None (strip q) k)) by (unfold strip; rewrite map_length; lia). reflexivity. }
  assert (Hb' : forall i, (i <= s + t)%nat -> is_samplable_bidir A (strip q') (Z.of_nat i) = ret (b i)) by (rewrite STR; exact Hb).
  assert (Nz' : strategy F' B' (s + t) s <> 0) by (rewrite ST by (lia || assumption); exact Nz).
  assert (FN : forall j, (j < s)%nat -> F' j <> 0).
  { intros j K. apply (product_nz F' s 0); [|lia]. intros Z. apply Nz'. unfold strategy. rewrite Z. ring. }
  assert (BN : forall j, (s <= j < s + t)%nat -> B' j <> 0).
  { intros j K. apply (product_nz B' t s); [|lia]. intros Z. apply Nz'. unfold strategy. replace (s + t - s)%nat with t by lia. rewrite Z. ring. }
  unfold opt_mis_weight. rewrite Hq. cbn [obind]. rewrite Hq', pbind_val.
  rewrite (up_ok A q' (s + t) F' B' b LQ' C' Hb' t s) by (lia || exact BN). rewrite pbind_val.
  rewrite (down_ok A q' (s + t) F' B' b LQ' C' Hb' s) by (lia || exact FN). rewrite pbind_val.
  set (Us := usum F' B' b s t). set (D := dsum F' B' b s).
  assert (TT : total (S (s + t)) (fun j => if b j then strategy F B (s + t) j else 0) = strategy F B (s + t) s * (1 + Us + D)).
  { rewrite (total_same _ _ (fun j => if b j then strategy F' B' (s + t) j else 0)) by (intros i K; destruct (b i) eqn:Bi; [symmetry; apply ST; [lia|exact Bi]|reflexivity]).
    rewrite (usum_total q' (s + t) F' B' b LQ' t s) by (reflexivity || exact BN). cbn [total]. rewrite (dsum_total q' (s + t) F' B' b LQ' s) by (lia || exact FN). rewrite Hs. fold Us D. rewrite ST by (lia || assumption). ring. }
  assert (Ge : strategy F B (s + t) s <= strategy F B (s + t) s * (1 + Us + D)).
  { rewrite <- TT. set (f := fun j => if b j then strategy F B (s + t) j else 0). replace (strategy F B (s + t) s) with (f s) by (unfold f; now rewrite Hs). apply total_ge; [|lia].
    intros i K. unfold f. destruct (b i); [|lra]. unfold strategy. apply Rmult_le_pos; apply product_pos; intros j Kj; [apply HF|apply HB]; lia. }
  assert (P0 : 0 <= strategy F B (s + t) s) by (unfold strategy; apply Rmult_le_pos; apply product_pos; intros j Kj; [apply HF|apply HB]; lia).
  assert (W : 1 + Us + D <> 0) by (intros Z; rewrite Z in Ge; lra).
  replace (1 + (0 + 1 * Us + 1 * D)) with (1 + Us + D) by ring. rewrite CamProofs.rdiv_ok by exact W. eexists. split; [reflexivity|]. rewrite TT. field. exact W.
Qed.
