From Coq Require Import List Reals ZArith Bool Lra Lia ZifyBool.
From Verif Require Import Base RBase VecBase GeoModel GeoSpec GeoProofs SurfProofs MatModel MatProofs CamProofs PathModel PathProofs VolModel VolSpec.
Import ListNotations.
Open Scope R_scope.

Lemma in_bound_iff p b : is_in_bound p b = true <-> in_box b p.
Proof.
  unfold is_in_bound, in_box, vle. rewrite !andb_true_iff.
  repeat match goal with |- context [Rle_dec ?a ?b] => destruct (Rle_dec a b) end; intuition (try lra; try discriminate).
Qed.

Lemma trunc_nonneg x : 0 <= x -> (0 <= trunc x)%Z /\ IZR (trunc x) <= x.
Proof.
  intros H. destruct (trunc_bounds x H) as [A B]. split; [|exact A].
  assert (L : IZR (-1) < IZR (trunc x)) by lra. apply lt_IZR in L. lia.
Qed.
Lemma to_int_small x : 0 <= x <= 1000 -> exists z, to_int x = Val z /\ (0 <= z <= 1000)%Z.
Proof.
  intros H. destruct (trunc_nonneg x) as [A B]; [lra|]. assert (C : (trunc x <= 1000)%Z) by (apply le_IZR; lra).
  exists (trunc x). split; [|lia]. unfold to_int. replace ((-2147483648 <=? trunc x) && (trunc x <=? 2147483647))%Z with true by lia. reflexivity.
Qed.

Lemma checker_value b p x : checker_eval b p = Val x -> x = 0 \/ x = 1.
Proof.
  unfold checker_eval. cbv zeta. intros H. fb H. fb H. fb H. fb H.
  destruct (_ && _)%bool; [|discriminate]. destruct (_ =? 0)%Z; injection H as <-; auto.
Qed.
Lemma checker_defined lo hi p : positive (vsub hi lo) -> in_box (mk_bound lo hi) p -> exists x, checker_eval (mk_bound lo hi) p = Val x.
Proof.
  intros (A & B & _) [(C1 & C2 & _) (D1 & D2 & _)]. unfold vsub in *. cbn [vx vy vz bmin bmax] in *. unfold checker_eval. cbn [bmin bmax]. cbv zeta.
  unfold rdiv, fdiv. destruct (Req_EM_T (vx hi - vx lo) 0); [lra|]. destruct (Req_EM_T (vy hi - vy lo) 0); [lra|]. cbn [fbind].
  assert (X : forall a b c, 0 < c - b -> b <= a -> a <= c -> 0 <= (a - b) / (c - b) / / 5 <= 1000).
  { intros a b c P1 P2 P3. assert (E : 0 <= (a - b) / (c - b) <= 1).
    { split; [apply Rmult_le_pos; [lra|left; now apply Rinv_0_lt_compat]|]. apply Rmult_le_reg_r with (c - b); [lra|]. unfold Rdiv. rewrite Rmult_assoc, Rinv_l by lra. lra. }
    unfold Rdiv at 1 3. rewrite Rinv_inv. lra. }
  destruct (to_int_small _ (X _ _ _ A C1 D1)) as (z1 & E1 & L1). destruct (to_int_small _ (X _ _ _ B C2 D2)) as (z2 & E2 & L2).
  rewrite E1. cbn [fbind]. rewrite E2. cbn [fbind].
  replace ((-2147483648 <=? z1 + z2) && (z1 + z2 <=? 2147483647))%Z with true by lia. eauto.
Qed.

(** multi *)
Lemma multi_inv alb den v : multi alb den = ret v -> exists l b m,
  alb = map (fun x => Some (fst x)) l /\ den = map (fun x => Some (snd x)) l /\ l <> [] /\
  Forall (fun x => v_has_color (fst x) = true /\ v_has_scalar (snd x) = true) l /\
  multi_bound (map snd l) (mk_bound (V3 Inf Inf Inf) (V3 (- Inf) (- Inf) (- Inf))) 0 = ret (b, m) /\
  v = mk_volume b true (ret m) (fun p => multi_scalar (map snd l) p 0) true (fun p => pbind (multi_color l p 0 v0) (fun '(sum, c) => Ok (vdiv c sum))).
Proof.
  unfold multi. destruct (_ || _)%bool eqn:C; [discriminate|]. apply orb_false_iff in C as [C C3]. apply orb_false_iff in C as [C1 C2].
  apply negb_false_iff, Nat.eqb_eq in C3. apply Nat.eqb_neq in C1.
  intros H. destruct (multi_refs alb den) as [l| | |] eqn:E; cbn [obind] in H; try discriminate.
  assert (F : alb = map (fun x => Some (fst x)) l /\ den = map (fun x => Some (snd x)) l /\
    Forall (fun x => v_has_color (fst x) = true /\ v_has_scalar (snd x) = true) l).
  { clear H C1 C2. revert den C3 l E. induction alb as [|a alb IH]; intros [|d den] C3 l E; cbn in C3; try discriminate.
    - injection E as <-. repeat split; auto.
    - cbn [multi_refs] in E. destruct a as [a|]; [|discriminate]. destruct (v_has_color a) eqn:K; cbn [negb] in E; [|discriminate].
      destruct d as [d|]; [|discriminate]. destruct (v_has_scalar d) eqn:K'; cbn [negb] in E; [|discriminate].
      destruct (multi_refs alb den) as [l'| | |] eqn:E'; cbn [obind] in E; try discriminate. injection E as <-.
      destruct (IH den ltac:(lia) l' E') as (-> & -> & F). repeat split. constructor; [split; assumption|exact F]. }
  destruct F as (F1 & F2 & F3). destruct (multi_bound _ _ _) as [[[b m]| |]| | |] eqn:E2; cbn [pbind] in H; try discriminate.
  exists l, b, m. repeat split; auto. { intros ->. subst alb. now apply C1. } { unfold ret in H. injection H as <-. reflexivity. }
Qed.

Lemma multi_bound_le den : forall b m b' m', multi_bound den b m = ret (b', m') ->
  box_le b b' /\ (forall w, In w den -> box_le (v_bound w) b').
Proof.
  induction den as [|v den IH]; intros b m b' m' H; cbn [multi_bound] in H.
  - assert (b = b') by (unfold ret in H; congruence). subst. split; [apply box_le_refl|intros w []].
  - apply pbind_val in H as (x & E & H). apply IH in H as [A B].
    assert (Y : box_le b b' /\ box_le (v_bound v) b').
    { split; (eapply box_le_trans; [|exact A]); apply merge_ub. }
    destruct Y as [Y1 Y2]. split; [exact Y1|]. intros w [<-|I]; auto.
Qed.
Lemma multi_bound_max den : (forall w m, In w den -> v_max w = ret m -> 0 <= m) -> forall b m b' m',
  multi_bound den b m = ret (b', m') -> m <= m'.
Proof.
  induction den as [|v den IH]; intros N b m b' m' H; cbn [multi_bound] in H.
  - assert (m = m') by (unfold ret in H; congruence). lra.
  - apply pbind_val in H as (x & E & H). apply IH in H; [|intros; eapply N; [right|]; eassumption]. assert (0 <= x) by (eapply N; [now left|exact E]). lra.
Qed.

Definition bounded (v : volume) : Prop := forall p x m, v_scalar v p = ret x -> v_max v = ret m -> 0 <= x <= m.
Definition max_pos (v : volume) : Prop := forall m, v_max v = ret m -> 0 <= m.
Lemma multi_scalar_ge den : (forall w, In w den -> bounded w) -> (forall w, In w den -> exists m, v_max w = ret m) ->
  forall p s x, multi_scalar den p s = ret x -> s <= x.
Proof.
  intros B Mx p. induction den as [|v den IH]; intros s x H; cbn [multi_scalar] in H.
  - assert (s = x) by (unfold ret in H; congruence). lra.
  - destruct (is_in_bound p (v_bound v)); cbn [negb] in H.
    + apply pbind_val in H as (y & E & H). apply IH in H; [|intros; now apply B; right|intros; now apply Mx; right].
      destruct (Mx v (or_introl eq_refl)) as [m Em]. destruct (B v (or_introl eq_refl) p y m E Em). lra.
    + apply IH in H; [exact H|intros; now apply B; right|intros; now apply Mx; right].
Qed.
Lemma multi_scalar_le den : (forall w, In w den -> bounded w) -> (forall w, In w den -> max_pos w) ->
  forall p s x b m b' m', multi_scalar den p s = ret x -> multi_bound den b m = ret (b', m') -> s <= m -> s <= x <= m'.
Proof.
  intros B Mx p. induction den as [|v den IH]; intros s x b m b' m' H H' L; cbn [multi_scalar multi_bound] in *.
  - assert (s = x) by (unfold ret in H; congruence). assert (m = m') by (unfold ret in H'; congruence). lra.
  - apply pbind_val in H' as (k & Ek & H'). assert (P := Mx v (or_introl eq_refl) k Ek). destruct (is_in_bound p (v_bound v)); cbn [negb] in H.
    + apply pbind_val in H as (y & E & H). destruct (B v (or_introl eq_refl) p y k E Ek).
      eapply IH in H; [|intros; now apply B; right|intros; now apply Mx; right|exact H'|lra]. lra.
    + eapply IH in H; [|intros; now apply B; right|intros; now apply Mx; right|exact H'|lra]. lra.
Qed.

Lemma read_val {A} (o : option A) a : read o = ret a -> o = Some a.
Proof. destruct o; cbn; [|discriminate]. unfold ret. congruence. Qed.

Ltac ok H := match type of H with ?x = ?y => assert (X__ : Some x = Some y) by (now rewrite H); clear H; rename X__ into H end.
Lemma constant_inv lo hi c s v : constant lo hi c s = Ok v ->
  (c <> None \/ s <> None) /\ v = mk_volume (mk_bound (match lo with Some v => v | None => V3 Inf Inf Inf end) (match hi with Some v => v | None => V3 (- Inf) (- Inf) (- Inf) end))
    (isSome s) (read s) (fun _ => read s) (isSome c) (fun _ => read c).
Proof. unfold constant. destruct c, s; cbn [isSome negb andb]; intros H; try discriminate; (split; [|congruence]); auto; (left + right); discriminate. Qed.
Lemma sphere_inv c p s r v : sphere_vol c p s r = Ok v -> (c <> None \/ s <> None) /\
  v = mk_volume (mk_bound (vsub (vsub p (grey (sq3 * r))) (grey Eps)) (vadd (vadd p (grey (sq3 * r))) (grey Eps))) (isSome s) (read s)
        (fun q => pbind (read s) (fun m => ret (m * (if Rlt_dec (vlen (vsub p q)) r then 1 else 0)))) (isSome c) (fun _ => read c).
Proof. unfold sphere_vol. destruct c, s; cbn [isSome negb andb]; cbv zeta; intros H; try discriminate; (split; [|congruence]); auto; (left + right); discriminate. Qed.
Lemma gaussian_inv c s p sg v : gaussian c s p sg = ret v -> (c <> None \/ s <> None) /\ exists x y z, gauss_ac (vx sg) = Val x /\ gauss_ac (vy sg) = Val y /\ gauss_ac (vz sg) = Val z /\
  v = mk_volume (mk_bound (vsub p (grey (Rmax (Rmax x y) z))) (vadd p (grey (Rmax (Rmax x y) z)))) (isSome s) (read s)
        (fun q => pbind (read s) (fun m => Ok (gauss_eval m (vsub p q) sg))) (isSome c) (fun _ => read c).
Proof.
  unfold gaussian. destruct (gauss_ac (vx sg)) as [x| |], (gauss_ac (vy sg)) as [y| |], (gauss_ac (vz sg)) as [z| |];
  destruct c, s; cbn [isSome negb andb pbind]; cbv zeta; intros H; try discriminate; (split; [auto; (left + right); discriminate|]); unfold ret in H;
  (exists x, y, z; repeat split; congruence).
Qed.
Lemma exp_le_1 k : k <= 0 -> exp k <= 1.
Proof. intros H. destruct (Req_dec k 0) as [->|N]; [rewrite exp_0; lra|]. left. replace 1 with (exp 0) by apply exp_0. apply exp_increasing. lra. Qed.
Lemma gauss_range m q sg x : 0 <= m -> gauss_eval m q sg = Val x -> 0 <= x <= m.
Proof.
  intros M H. unfold gauss_eval in H. fb H. fb H. fb H. injection H as <-.
  assert (Q : forall u w a, rdiv (u * u) (w * w) = Val a -> 0 <= a).
  { intros u w k K. unfold rdiv, fdiv in K. destruct (Req_EM_T (w * w) 0); [discriminate|]. injection K as <-.
    assert (0 < w * w) by nra. apply Rmult_le_pos; [nra|left; now apply Rinv_0_lt_compat]. }
  assert (0 <= a) by eauto. assert (0 <= a0) by eauto. assert (0 <= a1) by eauto.
  assert (E4 := exp_pos (- (1 / 2) * (a + a0 + a1))). assert (E5 : exp (- (1 / 2) * (a + a0 + a1)) <= 1) by (apply exp_le_1; lra).
  set (k := exp _) in *. clearbody k. split; [apply Rmult_le_pos; lra|]. nra.
Qed.

Lemma made_ok v : made v -> bounded v /\ max_pos v /\ (v_has_scalar v = true -> exists m, v_max v = ret m).
Proof.
  induction 1 as [lo hi P|lo hi c s v N H|c p s r v N P H|c s p sg v N P H|alb den v _ IA _ ID H].
  - unfold bounded, max_pos. cbn [v_scalar v_max v_has_scalar checker]. split; [|split].
    + intros p x m H H0. assert (m = 1) by (unfold ret in H0; congruence). assert (E : checker_eval (mk_bound lo hi) p = Val x) by (unfold ret in H; congruence).
      apply checker_value in E. lra.
    + intros m E. assert (m = 1) by (unfold ret in E; congruence). lra.
    + eauto.
  - apply constant_inv in H as [_ ->]. unfold bounded, max_pos; cbn [v_scalar v_max v_has_scalar]. repeat split.
    + apply read_val in H. now apply N. + apply read_val in H, H0. rewrite H in H0. injection H0 as ->. lra.
    + intros m E. apply read_val in E. now apply N. + destruct s; cbn; [eauto|discriminate].
  - apply sphere_inv in H as [_ ->]. unfold bounded, max_pos; cbn [v_scalar v_max v_has_scalar]. split; [|split].
    + intros q k m H H0. apply read_val in H0; subst s; cbn [pbind read ret] in H. assert (M := N _ eq_refl).
      assert (E : k = m * (if Rlt_dec (vlen (vsub p q)) r then 1 else 0)) by (unfold ret in H; injection H as <-; reflexivity). destruct (Rlt_dec _ _); lra.
    + intros m E. apply read_val in E. now apply N.
    + destruct s; cbn; [eauto|discriminate].
  - apply gaussian_inv in H as (_ & x & y & z & _ & _ & _ & ->). unfold bounded, max_pos; cbn [v_scalar v_max v_has_scalar]. split; [|split].
    + intros q k m H H0. apply read_val in H0; subst s; cbn [pbind read ret] in H. assert (M := N _ eq_refl). apply (gauss_range m (vsub p q) sg); [exact M|unfold ret in H; injection H as H; exact H].
    + intros m E. apply read_val in E. now apply N. + destruct s; cbn; [eauto|discriminate].
  - apply multi_inv in H as (l & b & m & -> & -> & NE & F & E & ->).
    assert (I : forall w, In w (map snd l) -> In (Some w) (map (fun x => Some (snd x)) l)).
    { intros w X. apply in_map_iff in X as (y & <- & X). apply in_map_iff. now exists y. }
    assert (B : forall w, In w (map snd l) -> bounded w) by (intros w X; apply (ID w (I w X))).
    assert (Mx : forall w, In w (map snd l) -> max_pos w) by (intros w X; apply (ID w (I w X))).
    unfold bounded, max_pos; cbn [v_scalar v_max v_has_scalar]. split; [|split].
    + intros p x m' H H0. assert (m = m') by (unfold ret in H0; congruence). subst m'.
      apply (multi_scalar_le _ B Mx p 0 x _ 0 _ _ H E ltac:(lra)).
    + intros m' H0. assert (m = m') by (unfold ret in H0; congruence). subst m'.
      apply (multi_bound_max (map snd l)) in E; [exact E|]. intros w k X Y. now apply (Mx w X).
    + intros _. eauto.
Qed.

Lemma made_defined v : made v -> v_has_scalar v = true -> forall p, in_box (v_bound v) p -> exists x, v_scalar v p = ret x.
Proof.
  induction 1 as [lo hi P|lo hi c s v N H|c p s r v N P H|c s p sg v N P H|alb den v _ IA _ ID H]; intros S q Q.
  - destruct (checker_defined lo hi q P Q) as [x E]. exists x. cbn [v_scalar checker]. now rewrite E.
  - apply constant_inv in H as [_ ->]. cbn in *. destruct s; [cbn; eauto|discriminate].
  - apply sphere_inv in H as [_ ->]. cbn in *. destruct s; [cbn; eauto|discriminate].
  - apply gaussian_inv in H as (_ & x & y & z & _ & _ & _ & ->). cbn in S. destruct s as [m|]; [|discriminate]. cbn [v_scalar read ret pbind].
    destruct P as (P1 & P2 & P3). unfold gauss_eval, rdiv, fdiv.
    destruct (Req_EM_T (vx sg * vx sg) 0); [nra|]. destruct (Req_EM_T (vy sg * vy sg) 0); [nra|]. destruct (Req_EM_T (vz sg * vz sg) 0); [nra|]. cbn [fbind]. unfold ret. eauto.
  - apply multi_inv in H as (l & b & m & -> & -> & NE & F & E & ->). cbn [v_scalar]. clear NE E Q S IA b m. generalize 0.
    induction l as [|[a d] l IH]; intros s0; cbn [map multi_scalar]; [unfold ret; eauto|].
    inversion F as [|? ? [F1 F2] F3]; subst. cbn [fst snd] in *.
    assert (IH' : forall s0, exists x, multi_scalar (map snd l) q s0 = ret x) by (apply IH; [intros w X; apply ID; now right|exact F3]).
    destruct (is_in_bound q (v_bound d)) eqn:K; cbn [negb]; [|apply IH'].
    destruct (ID d (or_introl eq_refl) F2 q) as [x ->]; [now apply in_bound_iff|]. cbn [pbind ret]. apply IH'.
Qed.

Lemma multi_color_spec lo hi p l : (forall a d, In (a, d) l -> made d /\ v_has_scalar d = true) ->
  (forall a d, In (a, d) l -> exists c, v_color a p = ret c /\ within lo hi c) ->
  forall s c, exists s' c', multi_color l p s c = ret (s', c') /\ multi_scalar (map snd l) p s = ret s' /\ s <= s' /\
    (forall k, (k < 3)%nat -> lo * (s' - s) <= comp c' k - comp c k <= hi * (s' - s)).
Proof.
  induction l as [|[a d] l IH]; intros D A s c; cbn [multi_color multi_scalar map snd].
  - exists s, c. repeat split; try lra.
  - assert (IH' := IH (fun a d X => D a d (or_intror X)) (fun a d X => A a d (or_intror X))).
    destruct (is_in_bound p (v_bound d)) eqn:K; cbn [negb]; [|apply IH'].
    apply in_bound_iff in K. destruct (D a d (or_introl eq_refl)) as [Md Sd]. destruct (made_defined d Md Sd p K) as [x Ex].
    destruct (A a d (or_introl eq_refl)) as (y & Ey & W). rewrite Ex, Ey. cbn [pbind ret].
    destruct (made_ok d Md) as (B & _ & Mx). destruct (Mx Sd) as [m Em]. assert (R := B p x m Ex Em).
    destruct (IH' (s + x) (vadd c (vscale x y))) as (s' & c' & E1 & E2 & E3 & E4). exists s', c'. repeat split; auto; [lra| |].
    + assert (Z := E4 k H). destruct W as (W1 & W2 & W3). destruct k as [|[|[|k]]]; [| | |lia]; unfold vadd, vscale in Z; cbn [comp vx vy vz] in *; nra.
    + assert (Z := E4 k H). destruct W as (W1 & W2 & W3). destruct k as [|[|[|k]]]; [| | |lia]; unfold vadd, vscale in Z; cbn [comp vx vy vz] in *; nra.
Qed.
