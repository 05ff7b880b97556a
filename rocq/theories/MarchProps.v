(** C90: ray marching computes single scattering. *)
From Coq Require Import Reals List Bool Lra Lia.
From Verif Require Import Base RBase VecBase MatModel MarchModel MarchSpec.
Import ListNotations.
Open Scope R_scope.

Lemma comp_mul a b i : comp (vmul a b) i = comp a i * comp b i. Proof. destruct i as [|[|i]]; reflexivity. Qed.
Lemma comp_add a b i : comp (vadd a b) i = comp a i + comp b i. Proof. destruct i as [|[|i]]; reflexivity. Qed.
Lemma comp_sub a b i : comp (vsub a b) i = comp a i - comp b i. Proof. destruct i as [|[|i]]; reflexivity. Qed.
Lemma comp_scale k a i : comp (vscale k a) i = k * comp a i. Proof. destruct i as [|[|i]]; reflexivity. Qed.
Lemma comp_neg a i : comp (vneg a) i = - comp a i. Proof. destruct i as [|[|i]]; reflexivity. Qed.
Lemma comp_exp a i : comp (vexp a) i = exp (comp a i). Proof. destruct i as [|[|i]]; reflexivity. Qed.
Lemma comp_one i : comp vone i = 1. Proof. destruct i as [|[|i]]; reflexivity. Qed.
Lemma comp_0 i : comp v0 i = 0. Proof. destruct i as [|[|i]]; reflexivity. Qed.
Lemma comp_nonneg a i : nonneg a -> 0 <= comp a i. Proof. intros (?&?&?). destruct i as [|[|i]]; assumption. Qed.
Lemma comp_pos a i : pos a -> 0 < comp a i. Proof. intros (?&?&?). destruct i as [|[|i]]; assumption. Qed.
Lemma comp_sq a i : comp a i * comp a i <= dot a a.
Proof. destruct a as [x y z], i as [|[|i]]; unfold dot; cbn; nra. Qed.

Lemma depth_app mu dens h a b : depth mu dens h (a ++ b) = depth mu dens h a + depth mu dens h b.
Proof. unfold depth. induction a as [|p a IH]; cbn [app fold_right]; [lra|]. rewrite IH. lra. Qed.
Lemma through_app mu dens h a b : through mu dens h (a ++ b) = through mu dens h a * through mu dens h b.
Proof. unfold through. rewrite <- exp_plus, depth_app. f_equal. lra. Qed.
Lemma through_pos mu dens h l : 0 < through mu dens h l. Proof. apply exp_pos. Qed.
Lemma through_one mu dens h p : through mu dens h [p] = exp (- (mu * dens p * h)).
Proof. unfold through, depth. cbn. f_equal. lra. Qed.
Lemma through_le mu dens h l : 0 <= mu -> 0 <= h -> (forall p, 0 <= dens p) -> through mu dens h l <= 1.
Proof.
  intros Hm Hh Hd. unfold through. rewrite <- exp_0. assert (0 <= depth mu dens h l).
  { induction l as [|p l IH]; cbn; [lra|]. assert (0 <= mu * dens p * h) by (apply Rmult_le_pos; [apply Rmult_le_pos|]; auto). unfold depth in IH. lra. }
  destruct H as [H|H]; [left; apply exp_increasing; lra|rewrite <- H, Ropp_0; lra].
Qed.

Section Channel.
  Variable c : config.
  Variable density : vec3 -> R.
  Variable stops : vec3 -> vec3 -> R -> list R.
  Hypothesis HA : nonneg (muA c).
  Hypothesis HS : nonneg (muS c).
  Hypothesis HT : pos (muT c).
  Hypothesis HL : nonneg (Le c).
  Hypothesis Hd : forall p, 0 <= density p.
  Hypothesis Hh : 0 <= step c.
  Hypothesis Hs : 0 <= step_shadow c.

  Definition points (o d : vec3) (ts : list R) : list vec3 := map (fun t => vadd o (vscale t d)) ts.
  Definition mu (i : nat) : R := comp (muT c) i.
  Definition albedo_of (i : nat) : R := comp (muS c) i / comp (muT c) i.
  Definition sunlight (i : nat) (p : vec3) : R := comp (Le c) i * through (mu i) density (step_shadow c) (points p (light_dir c) (stops p (light_dir c) (step_shadow c))).

  Lemma mu_pos i : 0 < mu i. Proof. apply comp_pos, HT. Qed.
  Lemma albedo_nonneg i : 0 <= albedo_of i.
  Proof. apply Rmult_le_pos; [apply comp_nonneg, HS|left; apply Rinv_0_lt_compat, comp_pos, HT]. Qed.
  Lemma albedo_le i : albedo_of i <= 1.
  Proof.
    unfold albedo_of. assert (E := comp_add (muA c) (muS c) i). fold (muT c) in E. assert (P := mu_pos i). unfold mu in P. assert (A := comp_nonneg _ i HA).
    apply (Rmult_le_reg_r (comp (muT c) i)); [exact P|]. unfold Rdiv. rewrite Rmult_assoc, Rinv_l by lra. lra.
  Qed.

  Lemma T_comp p h i : comp (transmittance c density p h) i = through (mu i) density h [p].
  Proof. unfold transmittance. rewrite comp_exp, comp_neg, !comp_scale, through_one. f_equal. unfold mu. lra. Qed.

  (** The shadow march: a prefix is marched, all of it unless little is left. *)
  Lemma shadow_march o d : forall ts Tr b, (forall i, comp Tr i = through (mu i) density (step_shadow c) b) ->
    exists Ts t1 t2, march (shadow_body c density o d) ts Tr = Val Ts /\ ts = t1 ++ t2 /\ (t2 = [] \/ dot Ts Ts < cutoff c)
      /\ forall i, comp Ts i = through (mu i) density (step_shadow c) (b ++ points o d t1).
  Proof.
    induction ts as [|t ts IH]; intros Tr b Hb; cbn [march].
    - exists Tr, [], []. cbn. rewrite app_nil_r. auto.
    - cbv beta. unfold shadow_body at 1. cbn [fbind fst snd]. set (p := vadd o (vscale t d)). set (Tr' := vmul Tr (transmittance c density p (step_shadow c))).
      assert (Hb' : forall i, comp Tr' i = through (mu i) density (step_shadow c) (b ++ [p])) by (intros i; unfold Tr'; now rewrite comp_mul, Hb, T_comp, through_app).
      destruct (Rlt_dec (dot Tr' Tr') (cutoff c)) as [Hc|Hc]; cbn [negb].
      + exists Tr', [t], ts. split; [reflexivity|]. split; [reflexivity|]. split; [now right|exact Hb'].
      + destruct (IH Tr' (b ++ [p]) Hb') as (Ts & t1 & t2 & E & -> & Ht & HTs). exists Ts, (t :: t1), t2. split; [exact E|]. split; [reflexivity|]. split; [exact Ht|].
        intros i. rewrite HTs, <- app_assoc. reflexivity.
  Qed.
  Lemma shadow_val p : exists Ts, shadow c density stops p = Val Ts /\ forall i, 0 <= cutoff c \/ cutoff c <= 0 ->
    sunlight i p <= comp (Le c) i * comp Ts i <= sunlight i p + comp (Le c) i * sqrt (cutoff c)
    /\ 0 < comp Ts i <= 1.
  Proof.
    destruct (shadow_march p (light_dir c) (stops p (light_dir c) (step_shadow c)) vone []) as (Ts & t1 & t2 & E & Et & Ht & HTs).
    { intros i. rewrite comp_one. unfold through. cbn. now rewrite Ropp_0, exp_0. }
    exists Ts. split; [exact E|]. intros i _. unfold sunlight. rewrite Et. unfold points. rewrite map_app, through_app. fold (points p (light_dir c) t1) (points p (light_dir c) t2). rewrite HTs. cbn [app].
    assert (A1 := through_pos (mu i) density (step_shadow c) (points p (light_dir c) t1)). assert (A2 := through_pos (mu i) density (step_shadow c) (points p (light_dir c) t2)).
    assert (P := mu_pos i). assert (B1 : through (mu i) density (step_shadow c) (points p (light_dir c) t1) <= 1) by (apply through_le; auto; lra).
    assert (B2 : through (mu i) density (step_shadow c) (points p (light_dir c) t2) <= 1) by (apply through_le; auto; lra).
    specialize (HTs i). cbn [app] in HTs. set (x := through (mu i) density (step_shadow c) (points p (light_dir c) t1)) in *. set (y := through (mu i) density (step_shadow c) (points p (light_dir c) t2)) in *.
    assert (Hl := comp_nonneg _ i HL). set (l := comp (Le c) i) in *. assert (Hq := sqrt_pos (cutoff c)).
    assert (K : x - x * y <= sqrt (cutoff c)).
    { destruct Ht as [->|Hc]; [unfold y, through; cbn; rewrite Ropp_0, exp_0; lra|].
      assert (S := comp_sq Ts i). rewrite HTs in S. assert (x <= sqrt (cutoff c)); [|assert (0 < x * y) by (apply Rmult_lt_0_compat; assumption); lra]. rewrite <- (sqrt_square x) by lra. apply sqrt_le_1_alt. lra. }
    assert (K2 : 0 <= x - x * y) by (assert (0 <= x * (1 - y)) by (apply Rmult_le_pos; lra); lra).
    split; [|split; assumption]. rewrite <- Rmult_plus_distr_l. split; apply Rmult_le_compat_l; lra.
  Qed.
  Definition lit (p : vec3) : vec3 := match shadow c density stops p with Val Ts => Ts | _ => v0 end.

  (** The primary march *)
  Lemma albedo_val : exists a, vdivv (muS c) (muT c) = Val a /\ forall i, comp a i = albedo_of i.
  Proof.
    destruct HT as (T1 & T2 & T3). unfold vdivv, rdiv, fdiv. destruct (Req_EM_T (vx (muT c)) 0); [lra|]. destruct (Req_EM_T (vy (muT c)) 0); [lra|]. destruct (Req_EM_T (vz (muT c)) 0); [lra|].
    cbn [fbind]. eexists. split; [reflexivity|]. intros [|[|i]]; reflexivity.
  Qed.
  Definition seen_light (i : nat) (p : vec3) : R := comp (Le c) i * comp (lit p) i.

  Lemma primary_march o d : forall ts L Tr b, (forall i, comp Tr i = through (mu i) density (step c) b) ->
    exists L' Tr' t1 t2, march (primary_body c density stops o d) ts (L, Tr) = Val (L', Tr') /\ ts = t1 ++ t2 /\ (t2 = [] \/ dot Tr' Tr' < cutoff c)
      /\ forall i, comp Tr' i = through (mu i) density (step c) (b ++ points o d t1)
           /\ comp L' i = comp L i + scattered (mu i) density (step c) (albedo_of i) (seen_light i) b (points o d t1).
  Proof.
    destruct albedo_val as (a & Ea & Ha). induction ts as [|t ts IH]; intros L Tr b Hb; cbn [march].
    - exists L, Tr, [], []. split; [reflexivity|]. split; [reflexivity|]. split; [now left|]. intros i. cbn. rewrite app_nil_r. split; [apply Hb|lra].
    - unfold primary_body at 1. set (p := vadd o (vscale t d)). destruct (shadow_val p) as (Ts & Es & _). rewrite Es, Ea. cbn [fbind fst snd].
      set (T := transmittance c density p (step c)). set (Tr' := vmul Tr T). set (C := vmul (vmul (vmul (vmul a (Le c)) Tr) Ts) (vsub vone T)).
      assert (Hb' : forall i, comp Tr' i = through (mu i) density (step c) (b ++ [p])) by (intros i; unfold Tr', T; now rewrite comp_mul, Hb, T_comp, through_app).
      assert (HC : forall i, comp C i = albedo_of i * seen_light i p * (through (mu i) density (step c) b - through (mu i) density (step c) (b ++ [p]))).
      { intros i. unfold C, seen_light, lit, T. rewrite Es, !comp_mul, comp_sub, comp_one, T_comp, Ha, Hb, through_app. ring. }
      destruct (Rlt_dec (dot Tr' Tr') (cutoff c)) as [Hc|Hc]; cbn [negb].
      + exists (vadd L C), Tr', [t], ts. split; [reflexivity|]. split; [reflexivity|]. split; [now right|]. intros i. split; [apply Hb'|]. unfold points. cbn [map scattered]. fold p. rewrite comp_add, HC. lra.
      + destruct (IH (vadd L C) Tr' (b ++ [p]) Hb') as (L' & Tr2 & t1 & t2 & E & -> & Ht & HT'). exists L', Tr2, (t :: t1), t2. split; [exact E|]. split; [reflexivity|]. split; [exact Ht|].
        intros i. destruct (HT' i) as [H1 H2]. split; [rewrite H1, <- app_assoc; reflexivity|]. rewrite H2, comp_add, HC. unfold points. cbn [map scattered]. fold p. fold (points o d t1). lra.
  Qed.

  (** Bounds on scattering *)
  Lemma scattered_app i light : forall ps qs b, scattered (mu i) density (step c) (albedo_of i) light b (ps ++ qs)
    = scattered (mu i) density (step c) (albedo_of i) light b ps + scattered (mu i) density (step c) (albedo_of i) light (b ++ ps) qs.
  Proof. induction ps as [|p ps IH]; intros qs b; cbn [app scattered]; [rewrite app_nil_r; lra|]. rewrite IH, <- app_assoc. cbn [app]. lra. Qed.
  Lemma scattered_le i l1 l2 k : forall ps b, (forall p, l1 p <= l2 p <= l1 p + k) ->
    0 <= scattered (mu i) density (step c) (albedo_of i) l2 b ps - scattered (mu i) density (step c) (albedo_of i) l1 b ps
      <= albedo_of i * k * (through (mu i) density (step c) b - through (mu i) density (step c) (b ++ ps)).
  Proof.
    intros ps b Hk. revert b. induction ps as [|p ps IH]; intros b; cbn [scattered]; [rewrite app_nil_r; lra|].
    assert (H := IH (b ++ [p])). rewrite <- app_assoc in H. cbn [app] in H. specialize (Hk p). assert (A := albedo_nonneg i).
    assert (D : 0 <= through (mu i) density (step c) b - through (mu i) density (step c) (b ++ [p])).
    { rewrite through_app. assert (0 < through (mu i) density (step c) b) by apply through_pos. assert (through (mu i) density (step c) [p] <= 1) by (apply through_le; auto; left; apply mu_pos). nra. }
    set (x := through (mu i) density (step c) b - through (mu i) density (step c) (b ++ [p])) in *.
    assert (E : 0 <= (l2 p - l1 p) * (albedo_of i * x) <= k * (albedo_of i * x)).
    { assert (0 <= albedo_of i * x) by (apply Rmult_le_pos; assumption). split; [apply Rmult_le_pos; lra|apply Rmult_le_compat_r; lra]. }
    unfold x in *. lra.
  Qed.
  Lemma scattered_0 i : forall ps b, scattered (mu i) density (step c) (albedo_of i) (fun _ => 0) b ps = 0.
  Proof. induction ps as [|p ps IH]; intros b; cbn [scattered]; [reflexivity|]. rewrite IH. lra. Qed.
  Lemma scattered_bound i light k ps b : (forall p, 0 <= light p <= k) ->
    0 <= scattered (mu i) density (step c) (albedo_of i) light b ps <= albedo_of i * k * (through (mu i) density (step c) b - through (mu i) density (step c) (b ++ ps)).
  Proof. intros H. assert (E := scattered_le i (fun _ => 0) light k ps b). rewrite scattered_0 in E. cbv beta in E. assert (forall p, 0 <= light p <= 0 + k) by (intros p; specialize (H p); lra). specialize (E H0). lra. Qed.

  Lemma through_nil i h : through (mu i) density h [] = 1. Proof. unfold through. cbn. now rewrite Ropp_0, exp_0. Qed.
  Lemma light_bounds i p : 0 <= seen_light i p <= comp (Le c) i.
  Proof. unfold seen_light, lit. destruct (shadow_val p) as (Ts & -> & H). destruct (H i ltac:(lra)) as [_ [H1 H2]]. assert (L := comp_nonneg _ i HL). split; nra. Qed.
  Lemma light_error i p : sunlight i p <= seen_light i p <= sunlight i p + comp (Le c) i * sqrt (cutoff c).
  Proof. unfold seen_light, lit. destruct (shadow_val p) as (Ts & -> & H). apply (H i). lra. Qed.
  Lemma sun_bounds i p : 0 <= sunlight i p <= comp (Le c) i.
  Proof.
    unfold sunlight. assert (L := comp_nonneg _ i HL). assert (P := through_pos (mu i) density (step_shadow c) (points p (light_dir c) (stops p (light_dir c) (step_shadow c)))).
    assert (B : through (mu i) density (step_shadow c) (points p (light_dir c) (stops p (light_dir c) (step_shadow c))) <= 1) by (apply through_le; auto; left; apply mu_pos). split; nra.
  Qed.

  Lemma pixel_all o d : exists L Tr, pixel c density stops o d = Val (L, Tr) /\ forall i,
    (0 <= comp L i <= albedo_of i * comp (Le c) i * (1 - comp Tr i)) /\ 0 < comp Tr i <= 1
    /\ Rabs (comp L i - scattered (mu i) density (step c) (albedo_of i) (sunlight i) [] (points o d (stops o d (step c)))) <= albedo_of i * comp (Le c) i * sqrt (cutoff c)
    /\ 0 <= comp Tr i - through (mu i) density (step c) (points o d (stops o d (step c))) <= sqrt (cutoff c).
  Proof.
    destruct (primary_march o d (stops o d (step c)) v0 vone []) as (L & Tr & t1 & t2 & E & Et & Ht & H). { intros i. now rewrite comp_one, through_nil. }
    exists L, Tr. split; [exact E|]. intros i. destruct (H i) as [HTr HLi]. rewrite comp_0 in HLi. cbn [app] in HTr. rewrite Et. unfold points. rewrite map_app, scattered_app, through_app. fold (points o d t1) (points o d t2). cbn [app].
    assert (B := scattered_bound i (seen_light i) (comp (Le c) i) (points o d t1) [] (light_bounds i)). cbn [app] in B. rewrite through_nil in B.
    assert (Q := scattered_le i (sunlight i) (seen_light i) _ (points o d t1) [] (light_error i)). cbn [app] in Q. rewrite through_nil in Q.
    assert (S := scattered_bound i (sunlight i) (comp (Le c) i) (points o d t2) (points o d t1) (sun_bounds i)). rewrite through_app in S.
    assert (P1 := through_pos (mu i) density (step c) (points o d t1)). assert (P2 := through_pos (mu i) density (step c) (points o d t2)).
    assert (P := mu_pos i). assert (B1 : through (mu i) density (step c) (points o d t1) <= 1) by (apply through_le; auto; lra). assert (B2 : through (mu i) density (step c) (points o d t2) <= 1) by (apply through_le; auto; lra).
    rewrite <- HTr in *. set (x := comp Tr i) in *. set (y := through (mu i) density (step c) (points o d t2)) in *.
    assert (Hq := sqrt_pos (cutoff c)). assert (A := albedo_nonneg i). assert (Hl := comp_nonneg _ i HL).
    assert (Al : 0 <= albedo_of i * comp (Le c) i) by (apply Rmult_le_pos; assumption). set (al := albedo_of i * comp (Le c) i) in *.
    assert (K : t2 = [] \/ x <= sqrt (cutoff c)).
    { destruct Ht as [->|Hc]; [now left|right]. assert (Sq := comp_sq Tr i). fold x in Sq. rewrite <- (sqrt_square x) by lra. apply sqrt_le_1_alt. lra. }
    assert (R1 : scattered (mu i) density (step c) (albedo_of i) (sunlight i) (points o d t1) (points o d t2) <= al * sqrt (cutoff c)).
    { destruct K as [->|K]; [cbn; apply Rmult_le_pos; assumption|]. apply Rle_trans with (1 := proj2 S). apply Rmult_le_compat_l; [exact Al|]. assert (0 < x * y) by (apply Rmult_lt_0_compat; assumption). lra. }
    assert (R2 : albedo_of i * (comp (Le c) i * sqrt (cutoff c)) * (1 - x) <= al * sqrt (cutoff c)).
    { unfold al. rewrite <- Rmult_assoc. fold al. assert (0 <= al * sqrt (cutoff c)) by (apply Rmult_le_pos; assumption). nra. }
    split; [|split; [|split]].
    - rewrite HLi. split; [lra|]. lra.
    - split; assumption.
    - apply Rabs_le. split; lra.
    - destruct K as [->|K]; [unfold y, points; cbn [map]; rewrite through_nil; lra|]. split; [nra|]. assert (0 < x * y) by (apply Rmult_lt_0_compat; assumption). lra.
  Qed.
End Channel.

(** A medium and a light as they should be. *)
Definition sensible (c : config) (density : vec3 -> R) : Prop :=
  nonneg (muA c) /\ nonneg (muS c) /\ pos (muT c) /\ nonneg (Le c) /\ (forall p, 0 <= density p) /\ 0 <= step c /\ 0 <= step_shadow c.
(** The march of the model against the specification: points of the uninterrupted march, light through the points towards it. *)
Definition exact_light (c : config) density (stops : vec3 -> vec3 -> R -> list R) (i : nat) (o d : vec3) : R :=
  scattered (comp (muT c) i) density (step c) (comp (muS c) i / comp (muT c) i)
    (fun p => comp (Le c) i * through (comp (muT c) i) density (step_shadow c) (map (fun t => vadd p (vscale t (light_dir c))) (stops p (light_dir c) (step_shadow c))))
    [] (map (fun t => vadd o (vscale t d)) (stops o d (step c))).

(** The pixel is the light scattered once, up to the cutoff. *)
Theorem C90_cutoff_partial : forall c density stops o d, sensible c density ->
  exists L Tr, pixel c density stops o d = Val (L, Tr) /\ forall i,
    Rabs (comp L i - exact_light c density stops i o d) <= comp (muS c) i / comp (muT c) i * comp (Le c) i * sqrt (cutoff c).
Proof.
  intros c density stops o d (HA & HS & HT & HL & Hd & Hh & Hs). destruct (pixel_all c density stops HS HT HL Hd Hh Hs o d) as (L & Tr & E & H). exists L, Tr. split; [exact E|]. intros i. apply H.
Qed.
Print Assumptions C90_cutoff_partial.
Lemma sqrt_neg_0' x : x <= 0 -> sqrt x = 0.
Proof. intros [H|H]; [unfold sqrt; destruct (Rcase_abs x) as [|G]; [reflexivity|exfalso; apply Rge_le in G; exact (Rlt_irrefl _ (Rle_lt_trans _ _ _ G H))]|rewrite H; apply sqrt_0]. Qed.
(** Without a cutoff it is exactly that. *)
Theorem C90_exact_partial : forall c density stops o d, sensible c density -> cutoff c <= 0 ->
  exists L Tr, pixel c density stops o d = Val (L, Tr) /\ forall i, comp L i = exact_light c density stops i o d.
Proof.
  intros c density stops o d Hc H0. destruct (C90_cutoff_partial c density stops o d Hc) as (L & Tr & E & H). exists L, Tr. split; [exact E|]. intros i. specialize (H i).
  rewrite (sqrt_neg_0' (cutoff c) H0) in H. rewrite Rmult_0_r in H. assert (P := Rle_abs (comp L i - exact_light c density stops i o d)). assert (Q := Rle_abs (- (comp L i - exact_light c density stops i o d))). rewrite Rabs_Ropp in Q. lra.
Qed.
Print Assumptions C90_exact_partial.
(** No more light is seen than the scattered part of what the march absorbs, and never more than there is. *)
Theorem C90_bounded_partial : forall c density stops o d, sensible c density ->
  exists L Tr, pixel c density stops o d = Val (L, Tr) /\ forall i,
    0 < comp Tr i <= 1 /\ 0 <= comp L i <= comp (muS c) i / comp (muT c) i * comp (Le c) i * (1 - comp Tr i) /\ comp L i <= comp (Le c) i.
Proof.
  intros c density stops o d (HA & HS & HT & HL & Hd & Hh & Hs). destruct (pixel_all c density stops HS HT HL Hd Hh Hs o d) as (L & Tr & E & H). exists L, Tr. split; [exact E|]. intros i.
  destruct (H i) as (B & T & _). split; [exact T|]. split; [exact B|]. assert (A1 := albedo_nonneg c HS HT i). assert (A2 := albedo_le c HA HT i). assert (Hl := comp_nonneg _ i HL).
  unfold albedo_of in *. apply Rle_trans with (1 := proj2 B). rewrite <- (Rmult_1_r (comp (Le c) i)) at 2. apply Rmult_le_compat; [apply Rmult_le_pos; assumption|lra| |lra]. nra.
Qed.
Print Assumptions C90_bounded_partial.
(** In a colour channel without extinction the pixel is not a number as soon as the ray meets the volume. *)
Theorem C90_channel_refuted : exists c density stops o d, nonneg (muA c) /\ nonneg (muS c) /\ nonneg (Le c) /\ (forall p, 0 <= density p) /\ 0 < vx (muT c) /\ vz (muT c) = 0 /\ pixel c density stops o d = NonFinite.
Proof.
  exists (mk_config 2 1 (V3 0 0 1) (V3 1 1 1) (V3 1 1 0) (V3 1 1 0) 0), (fun _ => 1), (fun o d h => if Req_EM_T h 2 then [1] else []), (V3 0 0 0), (V3 1 0 0).
  unfold nonneg. cbn [muA muS Le muT vadd vx vy vz]. repeat split; try lra; try (intros; lra). unfold pixel. cbn [step]. destruct (Req_EM_T 2 2); [|lra]. cbn [march].
  unfold primary_body. unfold shadow. cbn [step_shadow light_dir]. destruct (Req_EM_T 1 2); [lra|]. cbn [march fbind].
  unfold vdivv, rdiv, fdiv, muT; cbn [muA muS vadd vx vy vz]; destruct (Req_EM_T (1 + 1) 0); [lra|]; cbn [fbind]; destruct (Req_EM_T (0 + 0) 0); [reflexivity|lra].
Qed.
Print Assumptions C90_channel_refuted.
Example C90_example : sensible (mk_config (/2) 1 (V3 0 0 1) (V3 1 1 1) (V3 1 1 1) (V3 1 2 3) (5/1000)) (fun p => vx p * vx p).
Proof. unfold sensible, nonneg, pos, muT. cbn. repeat split; try lra. intros p. nra. Qed.
