From Coq Require Import List Reals ZArith Bool Lra Lia ZifyBool Psatz.
From Verif Require Import Base RBase VecBase SurfModel MatModel CamModel LightModel PathModel GeoModel BidirModel BidirSpec.
Import ListNotations.
Open Scope R_scope.

(** ** Indices *)
Lemma vertex_at_LE p i : vertex_at p i LE = subpath_vertex_at p i.
Proof. reflexivity. Qed.
Lemma vertex_at_rev p i : vertex_at p i EL = vertex_at p (num_verts p - 1 - i) LE.
Proof.
  unfold vertex_at, index. replace ((0 <=? num_verts p - 1 - i) && (num_verts p - 1 - i <? num_verts p))%Z with ((0 <=? i) && (i <? num_verts p))%Z by lia.
  reflexivity.
Qed.

(** ** Connections *)
Definition fin (p : fullpath) : fullpath :=
  match p with [] => [] | v :: r => let p := retype v LightEndpoint :: r in removelast p ++ [retype (last p v) CameraEndpoint] end.
Lemma fin_length p : length (fin p) = length p.
Proof.
  destruct p as [|v r]; [reflexivity|]. unfold fin. cbv zeta. rewrite app_length. cbn [length].
  assert (H := app_removelast_last v (l := retype v LightEndpoint :: r) ltac:(discriminate)). apply (f_equal (@length vert)) in H.
  rewrite app_length in H. cbn [length] in *. lia.
Qed.
Lemma fin_nth p k v : nth_error p k = Some v -> exists w, nth_error (fin p) k = Some w /\ same_place v w /\ ((0 < k < length p - 1)%nat -> w = v).
Proof.
  destruct p as [|x r]; [destruct k; discriminate|]. intros H. set (q := retype x LightEndpoint :: r).
  assert (E := app_removelast_last x (l := q) ltac:(discriminate)).
  assert (Q : exists u, nth_error q k = Some u /\ same_place v u /\ ((0 < k)%nat -> u = v)).
  { destruct k; cbn in *; [injection H as <-; eexists; split; [reflexivity|]; split; [repeat split|lia]|]. exists v. split; [exact H|]. split; [repeat split|auto]. }
  destruct Q as (u & Hu & Su & Iu). change (fin (x :: r)) with (removelast q ++ [retype (last q x) CameraEndpoint]).
  assert (L : length (removelast q) = length r). { apply (f_equal (@length vert)) in E. rewrite app_length in E. cbn [length q] in E. lia. }
  assert (K : (k < S (length r))%nat) by (change (S (length r)) with (length q); apply nth_error_Some; congruence).
  destruct (Nat.eq_dec k (length r)) as [->|Nk].
  - exists (retype (last q x) CameraEndpoint). rewrite nth_error_app2, L, Nat.sub_diag by lia. split; [reflexivity|]. split; [|cbn; lia].
    rewrite E, nth_error_app2, L, Nat.sub_diag in Hu by lia. cbn in Hu. injection Hu as <-. destruct Su as (? & ? & ? & ?). repeat split; assumption.
  - exists u. rewrite nth_error_app1 by lia. split; [rewrite E, nth_error_app1 in Hu by lia; exact Hu|]. split; [exact Su|]. intros ?. apply Iu. lia.
Qed.
Lemma fin_first p v : (2 <= length p)%nat -> nth_error (fin p) 0 = Some v -> it (vs_sp v) = LightEndpoint.
Proof. destruct p as [|x [|y r]]; cbn; try lia. intros _ [= <-]. reflexivity. Qed.
Lemma fin_last p v : nth_error (fin p) (length p - 1) = Some v -> it (vs_sp v) = CameraEndpoint.
Proof.
  destruct p as [|x r]; [discriminate|]. intros H. unfold fin in H. cbv zeta in H.
  assert (E := app_removelast_last x (l := retype x LightEndpoint :: r) ltac:(discriminate)). apply (f_equal (@length vert)) in E. rewrite app_length in E. cbn [length] in E.
  rewrite nth_error_app2 in H by (cbn [length]; lia). replace (length (x :: r) - 1 - _)%nat with 0%nat in H by (cbn [length]; lia). cbn in H. injection H as <-. reflexivity.
Qed.
Lemma finish_some A p q : finish A p = ret (Some q) -> q = fin p /\ p <> [].
Proof.
  destruct p as [|v r]; [discriminate|]. unfold finish. destruct (a_is_light A (vs_sp v)) as [[]| | |]; cbn [obind]; try discriminate. cbn [negb].
  destruct (a_is_camera A (vs_sp (last r v))) as [[]| | |]; cbn [obind negb]; try discriminate. intros H. unfold ret in H. injection H as <-. split; [reflexivity|discriminate].
Qed.
Lemma joined_fin pL pE s t : (s <= length pL)%nat -> (t <= length pE)%nat -> joined pL pE s t (fin (firstn s pL ++ rev (firstn t pE))).
Proof.
  intros Hs Ht. set (p := firstn s pL ++ rev (firstn t pE)). assert (L : length p = (s + t)%nat) by (unfold p; rewrite app_length, rev_length, !firstn_length; lia).
  assert (F : forall {X} (l : list X) n k, (k < n)%nat -> nth_error (firstn n l) k = nth_error l k).
  { clear. intros X l. induction l; intros [|n] [|k] ?; cbn; auto; try lia. apply IHl. lia. }
  split; [exact Hs|]. split; [exact Ht|]. split; [rewrite fin_length; exact L|]. split; [|split; [|split]].
  - intros k v K E. rewrite <- L. apply fin_nth. unfold p. rewrite nth_error_app1 by (rewrite firstn_length; lia). now rewrite F.
  - intros k v K E. rewrite <- L. apply fin_nth. rewrite L. unfold p. rewrite nth_error_app2 by (rewrite firstn_length; lia). rewrite firstn_length, Nat.min_l by lia.
    assert (LT : length (firstn t pE) = t) by (rewrite firstn_length; lia).
    rewrite (nth_error_nth' _ v) by (rewrite rev_length, LT; lia). rewrite rev_nth by (rewrite LT; lia). rewrite LT. replace (t - S (s + t - 1 - k - s))%nat with k by lia.
    f_equal. apply nth_error_nth. now rewrite F.
  - intros v G. rewrite <- L in G. apply fin_first. exact G.
  - intros v. rewrite <- L. apply fin_last.
Qed.

(** ** Walks *)
Lemma walk_length A fuel : forall rng p max d q, walk A fuel rng p max d = ret q ->
  (num_verts p <= num_verts q)%Z /\ ((num_verts q <= Z.max (num_verts p) max)%Z \/ (num_verts p = 0 /\ max = 1 /\ num_verts q = 2)%Z).
Proof.
  induction fuel as [|fuel IH]; intros rng p max d q H; cbn [walk] in H; destruct (num_verts p <? max)%Z eqn:Lt.
  1: discriminate.
  1,3: unfold ret in H; injection H as <-; split; lia.
  match type of H with pbind ?e _ = _ => set (st := e) in H end.
  assert (St : forall p' o w, st = ret (Some (p', o, w)) -> p' = p \/ num_verts p = 0%Z /\ num_verts p' = 1%Z).
  { intros p' o w. unfold st. destruct (num_verts p =? 0)%Z eqn:Z0.
    - destruct (a_sample_ray A (rng 0%nat) d) as [[[r|]| |]| | |]; cbn [pbind]; intros E; try discriminate; unfold ret in E; injection E as <- <- <-. right. split; [lia|reflexivity].
    - destruct (subpath_vertex_at p (num_verts p - 1)) as [v|]; cbn [at_vert obind]; [|discriminate].
      destruct (direction (Some v) (subpath_vertex_at p (num_verts p - 2))) as [wi| |]; cbn [pbind]; try discriminate.
      destruct (a_sample_direction A (rng 0%nat) (vs_sp v) wi (vs_comp v) d) as [[[[wo w']|]| |]| | |]; cbn [pbind]; try discriminate.
      destruct (position (igeom (vs_sp v))); cbn [pbind]; intros E; try discriminate. unfold ret in E. injection E as <- <- <-. now left. }
  destruct st as [[[[[p' o] w]|]| |]| | |] eqn:Est; cbn [pbind] in H; try discriminate; [|unfold ret in H; injection H as <-; split; lia].
  specialize (St p' o w eq_refl).
  destruct (a_intersect A o w) as [[[h|]| |]| | |]; cbn [pbind] in H; try discriminate.
  2: { unfold ret in H. injection H as <-. destruct St as [-> |[? ?]]; lia. }
  destruct (a_sample_component A (rng 0%nat) h (vneg w)) as [[[c wt]| |]| | |]; cbn [pbind] in H; try discriminate.
  assert (N : num_verts (p' ++ [mk_vert h c]) = (num_verts p' + 1)%Z) by (unfold num_verts; rewrite app_length; cbn [length]; lia).
  destruct (infinite (igeom h)).
  - unfold ret in H. injection H as <-. rewrite N. destruct St as [-> |[? ?]]; lia.
  - apply IH in H. rewrite N in H. assert (0 <= num_verts p)%Z by apply Zle_0_nat. destruct St as [-> |[? ?]]; lia.
Qed.
(** Enough rounds *)
Definition answers (A : api) : Prop :=
  (forall u d, a_sample_ray A u d <> Fuel) /\ (forall u x wi c d, a_sample_direction A u x wi c d <> Fuel) /\
  (forall u x wi, a_sample_component A u x wi <> Fuel) /\ (forall o w, a_intersect A o w <> Fuel).
Lemma walk_ends A fuel : answers A -> forall rng p max d, (max - num_verts p <= Z.of_nat fuel)%Z -> walk A fuel rng p max d <> Fuel.
Proof.
  intros (A1 & A2 & A3 & A4). induction fuel as [|fuel IH]; intros rng p max d K; cbn [walk]; destruct (num_verts p <? max)%Z eqn:Lt; try discriminate; [lia|].
  match goal with |- pbind ?e _ <> _ => set (st := e) end.
  assert (St : st <> Fuel /\ forall p' o w, st = ret (Some (p', o, w)) -> (num_verts p <= num_verts p')%Z).
  { unfold st. destruct (num_verts p =? 0)%Z eqn:Z0.
    - specialize (A1 (rng 0%nat) d). destruct (a_sample_ray A (rng 0%nat) d) as [[[r|]| |]| | |]; cbn [pbind]; (split; [try discriminate; contradiction|]); intros p' o w E; try discriminate; unfold ret in E; injection E as <- <- <-. unfold num_verts. cbn. unfold num_verts in Z0. lia.
    - destruct (subpath_vertex_at p (num_verts p - 1)) as [v|]; cbn [at_vert obind]; [|split; discriminate].
      destruct (direction (Some v) (subpath_vertex_at p (num_verts p - 2))) as [wi| |]; cbn [pbind]; try (split; discriminate).
      specialize (A2 (rng 0%nat) (vs_sp v) wi (vs_comp v) d).
      destruct (a_sample_direction A (rng 0%nat) (vs_sp v) wi (vs_comp v) d) as [[[[wo w']|]| |]| | |]; cbn [pbind]; try (split; try discriminate; contradiction).
      destruct (position (igeom (vs_sp v))); cbn [pbind]; (split; [discriminate|]); intros p' o w E; try discriminate. unfold ret in E. injection E as <- <- <-. lia. }
  destruct St as (S1 & S2). destruct st as [[[[[p' o] w]|]| |]| | |] eqn:Est; cbn [pbind]; try discriminate; [|contradiction].
  specialize (S2 p' o w eq_refl). specialize (A4 o w). destruct (a_intersect A o w) as [[[h|]| |]| | |]; cbn [pbind]; try discriminate; [|contradiction].
  specialize (A3 (rng 0%nat) h (vneg w)). destruct (a_sample_component A (rng 0%nat) h (vneg w)) as [[[c wt]| |]| | |]; cbn [pbind]; try discriminate; [|contradiction].
  destruct (infinite (igeom h)); [discriminate|]. apply IH. unfold num_verts. rewrite app_length. cbn [length]. unfold num_verts in *. lia.
Qed.

(** ** Weights *)
Lemma is_zero_true v : is_zero v = true -> v = v0.
Proof. unfold is_zero. repeat destruct (Req_EM_T _ _); try discriminate. intros _. apply vec3_eq; assumption. Qed.

(** Inversion of the monad *)
Lemma pbind_ret {X Y} (x : pm X) (f : X -> pm Y) y : pbind x f = ret y -> exists a, x = ret a /\ f a = ret y.
Proof. destruct x as [[a| |]| | |]; cbn [pbind]; try discriminate. intros H. exists a. split; [reflexivity|exact H]. Qed.
Lemma obind_ret {X Y} (x : outcome X) (f : X -> pm Y) y : obind x f = ret y -> exists a, x = Ok a /\ f a = ret y.
Proof. destruct x as [a| | |]; cbn [obind]; try discriminate. intros H. exists a. split; [reflexivity|exact H]. Qed.
Lemma okval {X} (x : fl X) a : Ok x = ret a -> x = Val a.
Proof. unfold ret. congruence. Qed.
Lemma ret_inj {X} (a b : X) : ret a = ret b -> a = b.
Proof. unfold ret. congruence. Qed.
Ltac mstep H :=
  match type of H with
  | pbind _ _ = ret _ => let a := fresh "a" in let E := fresh "E" in apply pbind_ret in H; destruct H as (a & E & H)
  | obind _ _ = ret _ => let a := fresh "a" in let E := fresh "E" in apply obind_ret in H; destruct H as (a & E & H)
  end.

Lemma pbind_val {X Y} (a : X) (f : X -> pm Y) : pbind (ret a) f = f a.
Proof. reflexivity. Qed.
Lemma pbind_okval {X Y} (a : X) (f : X -> pm Y) : pbind (Ok (Val a)) f = f a.
Proof. reflexivity. Qed.
Lemma obind_ok {X Y} (a : X) (f : X -> pm Y) : obind (Ok a) f = f a.
Proof. reflexivity. Qed.
Section W.
  Variable A : api.
  Variable p : fullpath.

  Lemma contrb_zero d k : forall i f, contrb_loop A p d i k v0 = ret f -> f = v0.
  Proof.
    induction k as [|k IH]; intros i f H; cbn [contrb_loop] in H; [now apply ret_inj in H|]. repeat mstep H. apply (IH (i + 1)%Z).
    replace (vscale a4 (vmul v0 a2)) with v0 in H by (unfold vscale, vmul, v0; cbn; f_equal; ring). exact H.
  Qed.
  Lemma pdf_zero d k : forall i q, pdf_loop A p d i k 0 = ret q -> q = 0.
  Proof. induction k as [|k IH]; intros i q H; cbn [pdf_loop] in H; [now apply ret_inj in H|]. repeat mstep H. rewrite Rmult_0_l in H. eauto. Qed.

  Lemma vdiv_ok v x : x <> 0 -> vdiv v x = Val (vscale (/ x) v).
  Proof. intros N. unfold vdiv. destruct (Req_EM_T x 0); [contradiction|reflexivity]. Qed.

  Lemma loops d k : forall i f0 q0 a0 f q, f0 = vscale q0 a0 -> pdf_loop A p d i k q0 = ret q -> q <> 0 -> contrb_loop A p d i k f0 = ret f ->
    exists a, weight_loop A p d i k a0 = ret a /\ f = vscale q a.
  Proof.
    induction k as [|k IH]; intros i f0 q0 a0 f q Hi Hq Nq Hf; cbn [pdf_loop contrb_loop weight_loop] in *.
    - apply ret_inj in Hq, Hf. subst. eauto.
    - mstep Hq. mstep Hf. assert (a1 = a) by congruence. subst a1. rewrite E. rewrite obind_ok.
      mstep Hq. mstep Hf. assert (a2 = a1) by (apply ret_inj; congruence). subst a2. rewrite E1. rewrite pbind_val.
      mstep Hq. mstep Hf. assert (a3 = a2) by (apply ret_inj; congruence). subst a3. rewrite E3. rewrite pbind_val.
      mstep Hf. rewrite E5. rewrite pbind_val. mstep Hf. mstep Hq. assert (a5 = a4) by congruence. subst a5.
      do 3 mstep Hq. mstep Hf. apply okval in E10, E11. unfold convert_to_area in E10.
      destruct (geometry_term (igeom (vs_sp a)) (igeom (vs_sp a4))) as [G|]; cbn [of_option] in *; [|discriminate]. injection E10 as <-. injection E11 as <-.
      assert (Nz : q0 * (a5 * (a6 * G)) <> 0). { intros Z0. rewrite Z0 in Hq. apply Nq. eapply pdf_zero; eassumption. }
      assert (a5 <> 0 /\ a6 <> 0 /\ G <> 0 /\ q0 <> 0) as (N5 & N6 & NG & N0) by (repeat split; intros Z0; apply Nz; rewrite Z0; ring).
      destruct (is_zero a3) eqn:Ez.
      { apply is_zero_true in Ez. subst a3. exists v0. split; [reflexivity|]. replace (vscale G (vmul f0 v0)) with v0 in Hf by (unfold vscale, vmul, v0; cbn; f_equal; ring).
        apply contrb_zero in Hf. subst f. unfold vscale, v0; cbn; f_equal; ring. }
      rewrite E6. rewrite obind_ok. rewrite E8. rewrite pbind_val. rewrite E9. rewrite pbind_val. rewrite (vdiv_ok _ a6 N6). rewrite pbind_okval. rewrite (vdiv_ok _ a5 N5). rewrite pbind_okval.
      refine (IH _ _ _ _ _ _ _ Hq Nq Hf). subst f0. destruct a0, a3. unfold vscale, vmul; cbn. f_equal; field; auto.
  Qed.

  (** The weight of a subpath is its contribution divided by its density. *)
  Lemma subpath_weight d l q f : (0 <= l)%Z -> pdf_subpath A p l d = ret q -> q <> 0 ->
    (l <> 1%Z \/ forall v, vertex_at p 0 d = Some v -> a_connectable A (vs_sp v) = ret true) ->
    (if (l =? 0)%Z then ret (grey 1) else contrb_loop A p d 0 (Z.to_nat (l - 1)) (grey 1)) = ret f ->
    exists a, eval_subpath_sampling_weight A p l d = ret a /\ f = vscale q a.
  Proof.
    intros Hl Hq Nq Hc Hf. unfold pdf_subpath in Hq. unfold eval_subpath_sampling_weight. destruct (l =? 0)%Z eqn:L0.
    - apply ret_inj in Hq, Hf. subst. exists (grey 1). split; [reflexivity|]. unfold grey, vscale; cbn; f_equal; ring.
    - mstep Hq. rewrite E. rewrite obind_ok. mstep Hq. rewrite E0. rewrite pbind_val. destruct a0.
      + do 2 mstep Hq. rewrite E1. rewrite pbind_val. rewrite E2. rewrite pbind_val.
        assert (Nz : a0 * a1 <> 0). { intros Z0. rewrite Z0 in Hq. apply Nq. eapply pdf_zero; eassumption. }
        rewrite (vdiv_ok _ _ Nz). rewrite pbind_okval. refine (loops d _ _ _ _ _ _ _ _ Hq Nq Hf). unfold grey, vscale; cbn. f_equal; field; split; intros Z0; apply Nz; rewrite Z0; ring.
      + destruct (l =? 1)%Z eqn:L1.
        { exfalso. destruct Hc as [Hc|Hc]; [lia|]. destruct (vertex_at p 0 d) as [v|] eqn:Ev; [|discriminate]. cbn in E. injection E as <-. rewrite (Hc v eq_refl) in E0. discriminate E0. }
        replace (Z.to_nat (l - 1)) with (S (Z.to_nat (l - 2))) in Hf by lia. cbn [contrb_loop] in Hf. rewrite E in Hf. rewrite obind_ok in Hf.
        do 6 mstep Hq. apply okval in E1, E6. rewrite E1. rewrite pbind_okval. mstep Hf. apply okval in E7.
        assert (a6 = v0). { replace (vertex_at p (0 - 1) d) with (@None vert) in E7 by reflexivity. destruct a; cbn in E7; congruence. } subst a6.
        mstep Hf. apply okval in E8. replace (0 + 1)%Z with 1%Z in * by lia. assert (a6 = a0) by congruence. subst a6.
        mstep Hf. rewrite E9. rewrite pbind_val. mstep Hf. assert (a7 = a3) by congruence. subst a7. mstep Hf. apply okval in E11. unfold convert_to_area in E6.
        destruct (geometry_term (igeom (vs_sp a)) (igeom (vs_sp a3))) as [G|]; cbn [of_option] in *; [|discriminate]. injection E6 as <-. injection E11 as <-.
        assert (Nz : a1 * G * a2 * a4 <> 0). { intros Z0. rewrite Z0 in Hq. apply Nq. eapply pdf_zero; eassumption. }
        assert (a1 <> 0 /\ G <> 0 /\ a2 <> 0 /\ a4 <> 0) as (N1 & NG & N2 & N4) by (repeat split; intros Z0; apply Nz; rewrite Z0; ring).
        destruct (is_zero a6) eqn:Ez.
        { apply is_zero_true in Ez. subst a6. exists v0. split; [reflexivity|]. replace (vscale G (vmul (grey 1) v0)) with v0 in Hf by (unfold vscale, vmul, v0; cbn; f_equal; ring).
          apply contrb_zero in Hf. subst f. unfold vscale, v0; cbn; f_equal; ring. }
        rewrite E3. rewrite pbind_val. rewrite E4. rewrite obind_ok. rewrite E5. rewrite pbind_val. rewrite E2. rewrite pbind_val.
        assert (Nd : a1 * a2 * a4 <> 0) by (repeat apply Rmult_integral_contrapositive_currified; auto). rewrite (vdiv_ok _ _ Nd). rewrite pbind_okval.
        refine (loops d _ _ _ _ _ _ _ _ Hq Nq Hf). destruct a6. unfold grey, vscale, vmul; cbn. f_equal; field; auto.
  Qed.

  Lemma samplable_connectable s : is_samplable_bidir A p s = ret true -> (0 <= s <= num_verts p)%Z -> (2 <= num_verts p)%Z ->
    (s = 1%Z -> forall v, vertex_at p 0 LE = Some v -> a_connectable A (vs_sp v) = ret true) /\
    (num_verts p - s = 1 -> forall v, vertex_at p 0 EL = Some v -> a_connectable A (vs_sp v) = ret true)%Z.
  Proof.
    intros H Hs Hn. unfold is_samplable_bidir in H. destruct (s =? 0)%Z eqn:S0; [split; intros; lia|]. destruct (num_verts p - s =? 0)%Z eqn:T0; [split; intros; lia|].
    do 2 mstep H. mstep H. destruct a1; cbn [negb] in H; [|discriminate]. mstep H. destruct a1; cbn [negb] in H; [|discriminate]. split.
    - intros -> v Hv. cbn in E1. replace (1 - 1)%Z with 0%Z in E by lia. rewrite Hv in E. cbn in E. injection E as <-. exact E1.
    - intros Ht v Hv. rewrite Ht in *. cbn in E2. replace (1 - 1)%Z with 0%Z in E0 by lia. rewrite Hv in E0. cbn in E0. injection E0 as <-. exact E2.
  Qed.

  Lemma weight_is_ratio s q f : (0 <= s <= num_verts p)%Z -> (2 <= num_verts p)%Z -> pdf_bidir A p s = ret q -> q <> 0 ->
    eval_measurement_contrb_bidir A p s = ret f -> exists C, eval_sampling_weight_bidir A p s = ret C /\ f = vscale q C.
  Proof.
    intros Hs Hn Hq Nq Hf. unfold pdf_bidir in Hq. mstep Hq. destruct a; cbn [negb] in Hq; [|apply ret_inj in Hq; congruence].
    destruct (samplable_connectable s E Hs Hn) as (C1 & C2). do 2 mstep Hq. apply ret_inj in Hq. subst q.
    assert (Nl : a <> 0) by (intros Z0; apply Nq; rewrite Z0; ring). assert (Ne : a0 <> 0) by (intros Z0; apply Nq; rewrite Z0; ring).
    unfold eval_measurement_contrb_bidir in Hf. do 3 mstep Hf. apply ret_inj in Hf. unfold eval_sampling_weight_bidir.
    destruct (subpath_weight LE s a a1 ltac:(lia) E0 Nl) as (aL & WL & EL1); [|exact E2|].
    { destruct (Z.eq_dec s 1); [right; auto|now left]. }
    destruct (subpath_weight EL (num_verts p - s) a0 a2 ltac:(lia) E1 Ne) as (aE & WE & EE1); [|exact E3|].
    { destruct (Z.eq_dec (num_verts p - s) 1); [right; auto|now left]. }
    rewrite WL. rewrite pbind_val. destruct (is_zero aL) eqn:ZL.
    { apply is_zero_true in ZL. subst aL. exists v0. split; [reflexivity|]. subst. unfold vmul, vscale, v0; cbn; f_equal; ring. }
    rewrite WE. rewrite pbind_val. destruct (is_zero aE) eqn:ZE.
    { apply is_zero_true in ZE. subst aE. exists v0. split; [reflexivity|]. subst. unfold vmul, vscale, v0; cbn; f_equal; ring. }
    rewrite E4. rewrite pbind_val. eexists. split; [reflexivity|]. subst. unfold vmul, vscale; cbn; f_equal; ring.
  Qed.

  (** ** Weights of strategies *)
  Lemma mis_loop_sum ps (q : nat -> R) k : 0 < ps -> forall i w, (forall j, (i <= j < i + k)%nat -> pdf_bidir A p (Z.of_nat j) = ret (q j)) ->
    mis_loop A p ps (Z.of_nat i) k w = ret (w + (total (i + k) (fun j => q j * q j) - total i (fun j => q j * q j)) / (ps * ps)).
  Proof.
    intros P. induction k as [|k IH]; intros i w H; cbn [mis_loop].
    - rewrite Nat.add_0_r. f_equal. field. lra.
    - rewrite (H i) by lia. rewrite pbind_val. replace (Z.of_nat i + 1)%Z with (Z.of_nat (S i)) by lia. replace (i + S k)%nat with (S i + k)%nat by lia.
      destruct (Req_EM_T (q i) 0) as [Z0|Z0].
      + rewrite IH by (intros; apply H; lia). f_equal. cbn [total]. rewrite Z0. field. lra.
      + unfold rdiv, fdiv. destruct (Req_EM_T ps 0); [lra|]. rewrite pbind_okval. rewrite IH by (intros; apply H; lia). f_equal. cbn [total]. field. lra.
  Qed.
End W.
