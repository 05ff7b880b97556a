(** Proofs about boxes and triangles. *)
From Coq Require Import Reals ZArith Bool List Lra Lia.
From Verif Require Import Base RBase VecBase GeoModel GeoSpec.
Import ListNotations.
Open Scope R_scope.

Ltac mm := unfold Rmin, Rmax in *; repeat match goal with |- context [Rle_dec ?a ?b] => destruct (Rle_dec a b) | H : context [Rle_dec ?a ?b] |- _ => destruct (Rle_dec a b) end.

Lemma vle_refl a : vle a a. Proof. unfold vle. lra. Qed.
Lemma vle_trans a b c : vle a b -> vle b c -> vle a c. Proof. unfold vle. lra. Qed.
Lemma vmin_lb a b : vle (vmin a b) a /\ vle (vmin a b) b.
Proof. unfold vle, vmin; cbn. repeat split; (apply Rmin_l || apply Rmin_r). Qed.
Lemma vmax_ub a b : vle a (vmax a b) /\ vle b (vmax a b).
Proof. unfold vle, vmax; cbn. repeat split; (apply Rmax_l || apply Rmax_r). Qed.
Lemma vmin_glb a b c : vle c a -> vle c b -> vle c (vmin a b).
Proof. unfold vle, vmin; cbn. intros (? & ? & ?) (? & ? & ?). repeat split; apply Rmin_glb; assumption. Qed.
Lemma vmax_lub a b c : vle a c -> vle b c -> vle (vmax a b) c.
Proof. unfold vle, vmax; cbn. intros (? & ? & ?) (? & ? & ?). repeat split; apply Rmax_lub; assumption. Qed.
Lemma vmin_comm a b : vmin a b = vmin b a.
Proof. unfold vmin. f_equal; apply Rmin_comm. Qed.
Lemma vmax_comm a b : vmax a b = vmax b a.
Proof. unfold vmax. f_equal; apply Rmax_comm. Qed.
Lemma vmin_assoc a b c : vmin a (vmin b c) = vmin (vmin a b) c.
Proof. unfold vmin; cbn. f_equal; apply Rmin_assoc. Qed.
Lemma vmax_assoc a b c : vmax a (vmax b c) = vmax (vmax a b) c.
Proof. unfold vmax; cbn. f_equal; apply Rmax_assoc. Qed.
Lemma vmin_idem a : vmin a a = a.
Proof. destruct a. unfold vmin; cbn. f_equal; mm; lra. Qed.
Lemma vmax_idem a : vmax a a = a.
Proof. destruct a. unfold vmax; cbn. f_equal; mm; lra. Qed.

Lemma box_le_refl a : box_le a a. Proof. split; apply vle_refl. Qed.
Lemma box_le_trans a b c : box_le a b -> box_le b c -> box_le a c.
Proof. intros [H1 H2] [H3 H4]. split; eapply vle_trans; eassumption. Qed.
Lemma in_box_le a b p : box_le a b -> in_box a p -> in_box b p.
Proof. intros [H1 H2] [H3 H4]. split; eapply vle_trans; eassumption. Qed.

Lemma merge_ub a b : box_le a (merge a b) /\ box_le b (merge a b).
Proof. unfold box_le, merge; cbn. repeat split; (apply vmin_lb || apply vmax_ub). Qed.
Lemma merge_lub a b c : box_le a c -> box_le b c -> box_le (merge a b) c.
Proof. intros [H1 H2] [H3 H4]. split; cbn; [now apply vmin_glb|now apply vmax_lub]. Qed.
Lemma merge_point_ub b p : box_le b (merge_point b p) /\ in_box (merge_point b p) p.
Proof. unfold box_le, in_box, merge_point; cbn. repeat split; (apply vmin_lb || apply vmax_ub). Qed.
Lemma merge_point_lub b p c : box_le b c -> in_box c p -> box_le (merge_point b p) c.
Proof. intros [H1 H2] [H3 H4]. split; cbn; [now apply vmin_glb|now apply vmax_lub]. Qed.

(** ** Slabs *)
(** [x] is not greater than [t], and not less than [t], where NaN is neither. *)
Definition not_above (x : xr) (t : R) : Prop := xlt (Fin t) x = false.
Definition not_below (x : xr) (t : R) : Prop := xlt x (Fin t) = false.

Lemma xmax_above x y t : not_above x t -> not_above y t -> not_above (xmax x y) t.
Proof. unfold xmax. destruct (xlt x y); auto. Qed.
Lemma xmin_below x y t : not_below x t -> not_below y t -> not_below (xmin x y) t.
Proof. unfold xmin. destruct (xlt y x); auto. Qed.
Lemma range_ok l h t : not_above l t -> not_below h t -> xlt h l = false.
Proof.
  unfold not_above, not_below. destruct l, h; cbn; auto; intros; try discriminate; repeat match goal with |- context [Rlt_dec ?a ?b] => destruct (Rlt_dec a b) | H : context [Rlt_dec ?a ?b] |- _ => destruct (Rlt_dec a b) end; auto; try discriminate; lra.
Qed.

Lemma slab_in b r i l h t : not_above l t -> not_below h t ->
  comp (bmin b) i <= comp (ro r) i + t * comp (rd r) i <= comp (bmax b) i ->
  let '(l', h', go) := slab b r i l h in go = true /\ not_above l' t /\ not_below h' t.
Proof.
  intros Hl Hh Hin. unfold slab. set (a := comp (bmin b) i - comp (ro r) i). set (c := comp (bmax b) i - comp (ro r) i).
  assert (Hac : a <= t * comp (rd r) i <= c) by (unfold a, c; lra). clearbody a c. set (d := comp (rd r) i) in *. clearbody d.
  enough (Q : let '(t1, t2) := if xlt (recip d (neg0 r i)) (Fin 0) then (xscale c (recip d (neg0 r i)), xscale a (recip d (neg0 r i))) else (xscale a (recip d (neg0 r i)), xscale c (recip d (neg0 r i))) in not_above t1 t /\ not_below t2 t).
  { destruct (if xlt (recip d (neg0 r i)) (Fin 0) then _ else _) as [t1 t2]. destruct Q as [Q1 Q2].
    assert (A := xmax_above _ _ _ Q1 Hl). assert (B := xmin_below _ _ _ Q2 Hh). rewrite (range_ok _ _ _ A B). auto. }
  unfold recip. destruct (Req_EM_T d 0) as [->|Hd].
  - rewrite Rmult_0_r in Hac. destruct Hac as [Ha Hc]. unfold not_above, not_below.
    assert (Sa : forall v, xscale a v = match v with Fin b => Fin (a * b) | NaN => NaN | _ => if Req_EM_T a 0 then NaN else xneg v end).
    { intros v. unfold xscale. destruct v; try reflexivity; destruct (Req_EM_T a 0); try reflexivity; destruct (Rlt_dec a 0); try reflexivity; exfalso; assert (a = 0) by lra; contradiction. }
    assert (Sc : forall v, xscale c v = match v with Fin b => Fin (c * b) | NaN => NaN | _ => if Req_EM_T c 0 then NaN else v end).
    { intros v. unfold xscale. destruct v; try reflexivity; destruct (Req_EM_T c 0); try reflexivity; destruct (Rlt_dec c 0); try reflexivity; exfalso; lra. }
    rewrite !Sa, !Sc. destruct (neg0 r i); cbn; destruct (Req_EM_T a 0), (Req_EM_T c 0); auto.
  - cbn. destruct (Rlt_dec (/ d) 0) as [Hn|Hn]; unfold not_above, not_below; cbn;
      assert (Hi : d * / d = 1) by (apply Rinv_r; assumption);
      assert (Ht : t = t * d * / d) by (rewrite Rmult_assoc, Hi; ring).
    + rewrite Ht. split; match goal with |- context [Rlt_dec ?a ?b] => destruct (Rlt_dec a b) end; auto; exfalso; nra.
    + assert (0 < / d) by (destruct (Rlt_dec 0 (/ d)); [assumption|]; assert (/ d = 0) by lra; rewrite H in Hi; lra).
      rewrite Ht. split; match goal with |- context [Rlt_dec ?a ?b] => destruct (Rlt_dec a b) end; auto; exfalso; nra.
Qed.

Lemma in_box_comp b p i : in_box b p -> comp (bmin b) i <= comp p i <= comp (bmax b) i.
Proof. unfold in_box, vle. intros [(? & ? & ?) (? & ? & ?)]. destruct i as [|[|i]]; cbn; lra. Qed.
Lemma ray_at_comp r t i : comp (ray_at r t) i = comp (ro r) i + t * comp (rd r) i.
Proof. unfold ray_at. destruct i as [|[|i]]; reflexivity. Qed.

Lemma isect_range_in b r tmin tmax t : tmin <= t <= tmax -> in_box b (ray_at r t) ->
  exists l h, isect_range b r tmin tmax = (true, l, h) /\ not_above l t /\ not_below h t.
Proof.
  intros Ht Hb. assert (Hc : forall i, comp (bmin b) i <= comp (ro r) i + t * comp (rd r) i <= comp (bmax b) i).
  { intros i. rewrite <- ray_at_comp. now apply in_box_comp. }
  assert (L : not_above (Fin tmin) t) by (unfold not_above; cbn; destruct (Rlt_dec t tmin); [lra|reflexivity]).
  assert (H : not_below (Fin tmax) t) by (unfold not_below; cbn; destruct (Rlt_dec tmax t); [lra|reflexivity]).
  unfold isect_range. assert (S0 := slab_in b r 0 _ _ t L H (Hc 0%nat)). destruct (slab b r 0 (Fin tmin) (Fin tmax)) as [[l0 h0] g0]. destruct S0 as (-> & L0 & H0). cbn [negb].
  assert (S1 := slab_in b r 1 _ _ t L0 H0 (Hc 1%nat)). destruct (slab b r 1 l0 h0) as [[l1 h1] g1]. destruct S1 as (-> & L1 & H1). cbn [negb].
  assert (S2 := slab_in b r 2 _ _ t L1 H1 (Hc 2%nat)). destruct (slab b r 2 l1 h1) as [[l2 h2] g2]. destruct S2 as (-> & L2 & H2). cbn [negb]. eauto.
Qed.

(** The other direction, where no NaN arises. *)
Definition clean (b : bound) (r : ray) : Prop :=
  forall i, comp (rd r) i <> 0 \/ (comp (ro r) i <> comp (bmin b) i /\ comp (ro r) i <> comp (bmax b) i).

Lemma slab_out b r i l h l' h' go : comp (bmin b) i <= comp (bmax b) i -> comp (rd r) i <> 0 \/ (comp (ro r) i <> comp (bmin b) i /\ comp (ro r) i <> comp (bmax b) i) ->
  slab b r i (Fin l) (Fin h) = (l', h', go) -> go = true ->
  exists a c, l' = Fin a /\ h' = Fin c /\ a <= c
    /\ forall t, a <= t <= c <-> l <= t <= h /\ comp (bmin b) i <= comp (ro r) i + t * comp (rd r) i <= comp (bmax b) i.
Proof.
  intros Hmm Hcl E Hg. unfold slab in E. set (a := comp (bmin b) i - comp (ro r) i) in *. set (c := comp (bmax b) i - comp (ro r) i) in *.
  assert (Hac : forall x, comp (bmin b) i <= comp (ro r) i + x <= comp (bmax b) i <-> a <= x <= c) by (intros x; unfold a, c; lra).
  assert (Hcl' : comp (rd r) i <> 0 \/ (a <> 0 /\ c <> 0)) by (unfold a, c; destruct Hcl as [|[? ?]]; [left; assumption|right; split; lra]).
  assert (Hle : a <= c) by (unfold a, c; lra).
  clearbody a c. set (d := comp (rd r) i) in *. clearbody d.
  assert (Q : exists t1 t2, (if xlt (recip d (neg0 r i)) (Fin 0) then (xscale c (recip d (neg0 r i)), xscale a (recip d (neg0 r i))) else (xscale a (recip d (neg0 r i)), xscale c (recip d (neg0 r i)))) = (t1, t2)
     /\ t1 <> NaN /\ t2 <> NaN /\ forall t, (not_above t1 t /\ not_below t2 t) <-> a <= t * d <= c).
  { unfold recip. destruct (Req_EM_T d 0) as [->|Hd].
    - destruct Hcl' as [|[Ha Hc]]; [lra|]. clear E.
      assert (Sx : forall x v, x <> 0 -> xscale x v = match v with Fin b => Fin (x * b) | NaN => NaN | _ => if Rlt_dec x 0 then xneg v else v end).
      { intros x v Hx. unfold xscale. destruct v; try reflexivity; destruct (Req_EM_T x 0); try reflexivity; contradiction. }
      rewrite !Sx by assumption. unfold not_above, not_below.
      destruct (neg0 r i); cbn; destruct (Rlt_dec a 0), (Rlt_dec c 0); cbn; eexists _, _; (split; [reflexivity|]);
        (split; [discriminate|]); (split; [discriminate|]); intros t; cbn; rewrite Rmult_0_r; split; intros H;
        try (split; reflexivity); try (destruct H; discriminate); try lra; exfalso;
        first [ apply Ha; lra | apply Hc; lra | lra ].
    - assert (Hi : d * / d = 1) by (apply Rinv_r; assumption).
      cbn. destruct (Rlt_dec (/ d) 0) as [Hn|Hn].
      + eexists _, _. split; [reflexivity|]. split; [discriminate|]. split; [discriminate|]. intros t. unfold not_above, not_below; cbn.
        assert (Hw : exists w, t * d = w /\ t = w * / d) by (exists (t * d); split; [reflexivity|rewrite Rmult_assoc, Hi; ring]).
        destruct Hw as (w & -> & ->). destruct (Rlt_dec (w * / d) (c * / d)), (Rlt_dec (a * / d) (w * / d)); split; intros; try (intuition discriminate); try nra; split; auto; exfalso; nra.
      + assert (0 < / d) by (destruct (Rlt_dec 0 (/ d)); [assumption|]; assert (E0 : / d = 0) by lra; rewrite E0 in Hi; lra).
        eexists _, _. split; [reflexivity|]. split; [discriminate|]. split; [discriminate|]. intros t. unfold not_above, not_below; cbn.
        assert (Hw : exists w, t * d = w /\ t = w * / d) by (exists (t * d); split; [reflexivity|rewrite Rmult_assoc, Hi; ring]).
        destruct Hw as (w & -> & ->). destruct (Rlt_dec (w * / d) (a * / d)), (Rlt_dec (c * / d) (w * / d)); split; intros; try (intuition discriminate); try nra; split; auto; exfalso; nra. }
  destruct Q as (t1 & t2 & Eq & N1 & N2 & Q). rewrite Eq in E. injection E as <- <- <-.
  apply negb_true_iff in Hg.
  assert (X1 : xmax t1 (Fin l) = Fin l \/ xmax t1 (Fin l) = t1) by (unfold xmax; destruct (xlt t1 (Fin l)); auto).
  assert (L : exists x, xmax t1 (Fin l) = Fin x /\ forall t, x <= t <-> l <= t /\ not_above t1 t).
  { unfold xmax, not_above. destruct t1 as [r1| | |]; cbn in *; try congruence.
    - destruct (Rlt_dec r1 l); eexists; (split; [reflexivity|]); intros t; destruct (Rlt_dec t r1); split; intros; try lra; try (split; [lra|]; auto); try (destruct H; discriminate); lra.
    - exfalso. unfold xmax in Hg. cbn in Hg. unfold xmin in Hg. destruct t2 as [r2| | |]; cbn in Hg; try congruence; try destruct (Rlt_dec h r2); cbn in Hg; discriminate.
    - exists l. split; [reflexivity|]. intros t. intuition. }
  assert (H : exists x, xmin t2 (Fin h) = Fin x /\ forall t, t <= x <-> t <= h /\ not_below t2 t).
  { destruct L as (lx & EL & _). rewrite EL in Hg. unfold xmin, not_below in *. destruct t2 as [r2| | |]; cbn in *; try congruence.
    - destruct (Rlt_dec h r2); eexists; (split; [reflexivity|]); intros t; destruct (Rlt_dec r2 t); split; intros; try lra; try (split; [lra|]; auto); try (destruct H; discriminate); lra.
    - exists h. split; [reflexivity|]. intros t. intuition. }
  destruct L as (x & EL & L), H as (y & EH & H). rewrite EL, EH in *. exists x, y. split; [reflexivity|]. split; [reflexivity|].
  cbn in Hg. destruct (Rlt_dec y x) as [|Hn]; [discriminate|]. split; [lra|]. intros t. rewrite Hac.
  specialize (Q t). specialize (L t). specialize (H t). clear -Q L H. intuition.
Qed.

Definition valid_box (b : bound) : Prop := vle (bmin b) (bmax b).
Lemma valid_box_comp b i : valid_box b -> comp (bmin b) i <= comp (bmax b) i.
Proof. intros (? & ? & ?). destruct i as [|[|i]]; cbn; assumption. Qed.

Lemma isect_range_out b r tmin tmax l h : valid_box b -> clean b r -> isect_range b r tmin tmax = (true, l, h) ->
  exists x y, l = Fin x /\ h = Fin y /\ x <= y /\ forall t, x <= t <= y <-> tmin <= t <= tmax /\ in_box b (ray_at r t).
Proof.
  intros Hb Hc. unfold isect_range. destruct (slab b r 0 (Fin tmin) (Fin tmax)) as [[l0 h0] g0] eqn:E0. destruct g0; [|discriminate]. cbn [negb].
  destruct (slab_out b r 0 _ _ _ _ _ (valid_box_comp b 0 Hb) (Hc 0%nat) E0 eq_refl) as (a0 & c0 & -> & -> & _ & Q0).
  destruct (slab b r 1 (Fin a0) (Fin c0)) as [[l1 h1] g1] eqn:E1. destruct g1; [|discriminate]. cbn [negb].
  destruct (slab_out b r 1 _ _ _ _ _ (valid_box_comp b 1 Hb) (Hc 1%nat) E1 eq_refl) as (a1 & c1 & -> & -> & _ & Q1).
  destruct (slab b r 2 (Fin a1) (Fin c1)) as [[l2 h2] g2] eqn:E2. destruct g2; [|discriminate]. cbn [negb].
  destruct (slab_out b r 2 _ _ _ _ _ (valid_box_comp b 2 Hb) (Hc 2%nat) E2 eq_refl) as (a2 & c2 & -> & -> & Hle & Q2).
  intros [= <- <-]. exists a2, c2. repeat (split; [reflexivity || assumption|]). intros t. rewrite Q2, Q1, Q0. unfold in_box, vle, ray_at. cbn. tauto.
Qed.

(** ** Triangles *)
Lemma tri_isect_sound k r tl th h : tri_isect k r tl th = Some h ->
  tl <= ht h <= th /\ 0 <= hu h /\ 0 <= hv h /\ hu h + hv h <= 1
  /\ ray_at r (ht h) = vadd (tp1 k) (vadd (vscale (hu h) (te1 k)) (vscale (hv h) (te2 k))).
Proof.
  unfold tri_isect. set (p := cross (rd r) (te2 k)). set (tv := vsub (ro r) (tp1 k)). set (q := cross tv (te1 k)).
  set (d := dot (te1 k) p). set (s := if Rlt_dec d 0 then -1 else 1). set (u := dot tv p * s). set (v := dot (rd r) q * s).
  destruct (Rlt_dec (Rabs d) tri_eps) as [|Hd]; [discriminate|]. destruct (Rlt_dec u 0) as [|Hu]; [discriminate|]. destruct (Rlt_dec v 0) as [|Hv]; [discriminate|].
  destruct (Rlt_dec (Rabs d) (u + v)) as [|Huv]; [discriminate|]. destruct (Rlt_dec (dot (te2 k) q / d) tl) as [|Ht]; [discriminate|].
  destruct (Rlt_dec th (dot (te2 k) q / d)) as [|Ht']; [discriminate|]. intros [= <-]. cbn [ht hu hv].
  assert (E0 : 0 < tri_eps) by (unfold tri_eps; lra). assert (Pd : 0 < Rabs d) by lra. assert (Nd : d <> 0) by (intros E; rewrite E, Rabs_R0 in Pd; lra).
  assert (Iv : 0 < / Rabs d) by now apply Rinv_0_lt_compat. split; [lra|].
  split; [apply Rmult_le_pos; lra|]. split; [apply Rmult_le_pos; lra|]. split.
  { replace (u / Rabs d + v / Rabs d) with ((u + v) * / Rabs d) by (unfold Rdiv; ring). apply (Rmult_le_reg_r (Rabs d)); [assumption|].
    rewrite Rmult_assoc, Rinv_l by lra. lra. }
  assert (Es : forall x, x * s / Rabs d = x / d).
  { intros x. unfold s. destruct (Rlt_dec d 0); [rewrite Rabs_left by assumption|rewrite Rabs_right by lra]; field; assumption. }
  unfold u, v. rewrite !Es. unfold ray_at. clear -Nd. subst p tv q d. destruct k as [p1 e1 e2 ? ? ? ?], r as [o dd ?]. cbn [tp1 te1 te2 ro rd] in *.
  destruct p1 as [a1 a2 a3], e1 as [b1 b2 b3], e2 as [c1 c2 c3], o as [o1 o2 o3], dd as [d1 d2 d3].
  unfold vadd, vsub, vscale, dot, cross in *. cbn [vx vy vz] in *. apply vec3_eq; cbn [vx vy vz]; field; assumption.
Qed.

(** The determinant of the test. *)
Definition det (k : tri) (r : ray) : R := dot (te1 k) (cross (rd r) (te2 k)).

Lemma tri_isect_complete k r tl th t a b : tri_eps <= Rabs (det k r) -> tl <= t <= th -> in_simplex a b ->
  ray_at r t = vadd (tp1 k) (vadd (vscale a (te1 k)) (vscale b (te2 k))) -> tri_isect k r tl th = Some (mk_hit t a b).
Proof.
  intros Hd Ht (Ha & Hb & Hab) E. unfold tri_isect. fold (det k r). assert (E0 : 0 < tri_eps) by (unfold tri_eps; lra).
  assert (Nd : det k r <> 0) by (intros X; rewrite X, Rabs_R0 in Hd; lra).
  assert (Et : dot (te2 k) (cross (vsub (ro r) (tp1 k)) (te1 k)) = t * det k r
    /\ dot (vsub (ro r) (tp1 k)) (cross (rd r) (te2 k)) = a * det k r /\ dot (rd r) (cross (vsub (ro r) (tp1 k)) (te1 k)) = b * det k r).
  { assert (X : ro r = vsub (vadd (tp1 k) (vadd (vscale a (te1 k)) (vscale b (te2 k)))) (vscale t (rd r))).
    { rewrite <- E. unfold ray_at. destruct (ro r), (rd r). unfold vadd, vsub, vscale; cbn. apply vec3_eq; cbn; ring. }
    rewrite X. unfold det. destruct (tp1 k), (te1 k), (te2 k), (rd r). unfold vadd, vsub, vscale, dot, cross; cbn. repeat split; ring. }
  destruct Et as (-> & -> & ->). set (d := det k r) in *. clearbody d.
  assert (Es : (if Rlt_dec d 0 then -1 else 1) * d = Rabs d) by (destruct (Rlt_dec d 0); [rewrite Rabs_left by assumption|rewrite Rabs_right by lra]; ring).
  rewrite !Rmult_assoc, (Rmult_comm d (if Rlt_dec d 0 then -1 else 1)), Es.
  destruct (Rlt_dec (Rabs d) tri_eps); [lra|]. assert (0 < Rabs d) by lra.
  destruct (Rlt_dec (a * Rabs d) 0) as [X|_]; [exfalso; assert (0 <= a * Rabs d) by (apply Rmult_le_pos; lra); lra|].
  destruct (Rlt_dec (b * Rabs d) 0) as [X|_]; [exfalso; assert (0 <= b * Rabs d) by (apply Rmult_le_pos; lra); lra|].
  destruct (Rlt_dec (Rabs d) (a * Rabs d + b * Rabs d)) as [X|_]; [exfalso; assert ((a + b) * Rabs d <= 1 * Rabs d) by (apply Rmult_le_compat_r; lra); lra|].
  replace (t * d / d) with t by (field; assumption). destruct (Rlt_dec t tl); [lra|]. destruct (Rlt_dec th t); [lra|].
  do 2 f_equal; field; lra.
Qed.

(** The test with a smaller interval. *)
Lemma tri_isect_shrink k r tl th th' h : tri_isect k r tl th = Some h -> ht h <= th' -> tri_isect k r tl th' = Some h.
Proof.
  unfold tri_isect. repeat (match goal with |- context [if ?c then _ else _] => destruct c end; try discriminate); intros [= <-]; cbn; intros; try lra; reflexivity.
Qed.

Lemma new_tri_box p1 p2 p3 fn f a b : in_simplex a b -> in_box (tb (new_tri p1 p2 p3 fn f)) (bary p1 p2 p3 a b).
Proof.
  intros (Ha & Hb & Hab). cbn. set (B := merge_point (merge_point (merge_point new_bound p1) p2) p3).
  assert (I1 : in_box B p1). { apply (in_box_le (merge_point new_bound p1)); [|apply merge_point_ub]. eapply box_le_trans; apply merge_point_ub. }
  assert (I2 : in_box B p2). { apply (in_box_le (merge_point (merge_point new_bound p1) p2)); apply merge_point_ub. }
  assert (I3 : in_box B p3) by apply merge_point_ub. clearbody B. destruct B as [lo hi].
  unfold in_box, vle, bary, vadd, vscale in *. cbn in *. 
  assert (Conv : forall l h x y z, l <= x <= h -> l <= y <= h -> l <= z <= h -> l <= (1 - a - b) * x + (a * y + b * z) <= h) by (intros; split; nra).
  assert (X := Conv (vx lo) (vx hi) (vx p1) (vx p2) (vx p3)). assert (Y := Conv (vy lo) (vy hi) (vy p1) (vy p2) (vy p3)).
  assert (W := Conv (vz lo) (vz hi) (vz p1) (vz p2) (vz p3)). lra.
Qed.
