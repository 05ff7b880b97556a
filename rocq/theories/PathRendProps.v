(** C82: the renderers on the path structure. *)
From Coq Require Import List Reals ZArith Bool Lra Lia ZifyBool.
From Verif Require Import Base RBase CamProofs SceneModel MatSpec SurfSpec VecBase SurfModel MatModel CamModel LightModel PathModel VisModel VisSpec VisProps BidirModel BidirSpec BidirProofs BidirProps BdptModel BdptSpec BdptProps BdptSampleProps ContrbSpec ContrbProps PathRendModel PathRendSpec PathRendProofs.
Import ListNotations.
Open Scope R_scope.

Definition wanted (mn mx : Z) (n : nat) : Prop := (mn <= Z.of_nat n <= mx)%Z.
Lemma outside_false mn mx n : wanted mn mx n -> outside mn mx n = false. Proof. unfold wanted, outside. lia. Qed.
Lemma outside_true mn mx n : ~ wanted mn mx n -> outside mn mx n = true. Proof. unfold wanted, outside. lia. Qed.

(** Naive path tracing: for each number of vertices that is wanted, the whole path comes from the camera, and one splat
    of it is its contribution over its density; nothing else is splatted. *)
Theorem C82_naive : forall A mn mx fuel rngE l, naive_sample A mn mx fuel rngE = ret l ->
  exists pE c, sample_subpath A fuel rngE mx EL = ret pE /\ l = flat_map c (seq 2 (length pE - 1)) /\
    forall t, (2 <= t <= length pE)%nat -> (wanted mn mx t -> splat_for A alone [] pE 0 t (c t)) /\ (~ wanted mn mx t -> c t = []).
Proof.
  intros A mn mx fuel rngE l H. unfold naive_sample in H. mstep H. apply each_inv in H as (c & Hc & ->). exists a, c. split; [exact E|]. split; [reflexivity|].
  intros t Ht. specialize (Hc t ltac:(apply in_seq; lia)). split; intros W.
  - rewrite outside_false in Hc by exact W. apply (strategy_splats A false); [exact Hc|lia].
  - rewrite outside_true in Hc by exact W. now apply ret_inj in Hc.
Qed.
Print Assumptions C82_naive.

(** Path tracing with connections: a path of n vertices is the camera subpath connected to a sampled point on a light,
    unless it is specular where it would be connected; then it is the camera subpath alone. *)
Theorem C82_nee : forall A mn mx fuel rngE rngL l, nee_sample A mn mx fuel rngE rngL = ret l ->
  exists pE pL c, sample_subpath A fuel rngE mx EL = ret pE /\ sample_subpath A fuel rngL 1 LE = ret pL /\ l = flat_map c (seq 2 (length pL + length pE - 1)) /\
    forall n, (2 <= n <= length pL + length pE)%nat -> (~ wanted mn mx n -> c n = []) /\ ((length pE < n - 1)%nat -> c n = []) /\
      (wanted mn mx n -> (n - 1 <= length pE)%nat -> exists v spec, nth_error pE (n - 2) = Some v /\ a_specular A (vs_sp v) (vs_comp v) = ret spec /\
        (spec = false -> splat_for A alone pL pE 1 (n - 1) (c n)) /\ (spec = true -> (n <= length pE)%nat -> splat_for A alone pL pE 0 n (c n)) /\ (spec = true -> (length pE < n)%nat -> c n = [])).
Proof.
  intros A mn mx fuel rngE rngL l H. unfold nee_sample in H. mstep H. mstep H. rename a into pE, a0 into pL. destruct (length pL =? 0)%nat eqn:L0; [discriminate|].
  apply each_inv in H as (c & Hc & ->). exists pE, pL, c. split; [exact E|]. split; [exact E0|]. split; [reflexivity|]. intros n Hn.
  specialize (Hc n ltac:(apply in_seq; lia)). unfold nee_length in Hc. split; [|split].
  - intros W. rewrite outside_true in Hc by exact W. now apply ret_inj in Hc.
  - intros Ln. destruct (outside mn mx n); [now apply ret_inj in Hc|]. replace ((length pL <? 1) || (length pE <? n - 1))%nat with true in Hc by lia. now apply ret_inj in Hc.
  - intros W Ln. rewrite outside_false in Hc by exact W. replace ((length pL <? 1) || (length pE <? n - 1))%nat with false in Hc by lia.
    mstep Hc. mstep Hc. exists a, a0. split; [destruct (nth_error pE (n - 2)); cbn in E1; congruence|]. split; [exact E2|]. destruct a0.
    + split; [discriminate|]. replace (length pL <? 0)%nat with false in Hc by lia. cbn [orb] in Hc. split; intros _ Le.
      * replace (length pE <? n)%nat with false in Hc by lia. apply (strategy_splats A false); [exact Hc|lia].
      * replace (length pE <? n)%nat with true in Hc by lia. now apply ret_inj in Hc.
    + split; [intros _|split; discriminate]. replace ((length pL <? 1) || (length pE <? n - 1))%nat with false in Hc by lia. apply (strategy_splats A false); [exact Hc|lia].
Qed.
Print Assumptions C82_nee.

(** Light tracing with connections: the light subpath connected to the camera *)
Theorem C82_lt : forall A mn mx fuel rngE rngL l, lt_sample A mn mx fuel rngE rngL = ret l ->
  exists pE pL c, sample_subpath A fuel rngE 1 EL = ret pE /\ sample_subpath A fuel rngL mx LE = ret pL /\ l = flat_map c (seq 2 (length pL + length pE - 1)) /\
    forall n, (2 <= n <= length pL + length pE)%nat -> (~ wanted mn mx n -> c n = []) /\ ((length pL < n - 1)%nat -> c n = []) /\
      (wanted mn mx n -> (n - 1 <= length pL)%nat -> splat_for A alone pL pE (n - 1) 1 (c n)).
Proof.
  intros A mn mx fuel rngE rngL l H. unfold lt_sample in H. mstep H. mstep H. rename a into pE, a0 into pL. destruct (length pE =? 0)%nat eqn:L0; [discriminate|].
  apply each_inv in H as (c & Hc & ->). exists pE, pL, c. split; [exact E|]. split; [exact E0|]. split; [reflexivity|]. intros n Hn.
  specialize (Hc n ltac:(apply in_seq; lia)). unfold lt_length in Hc. split; [|split].
  - intros W. rewrite outside_true in Hc by exact W. now apply ret_inj in Hc.
  - intros Ln. destruct (outside mn mx n); [now apply ret_inj in Hc|]. replace ((length pL <? n - 1) || (length pE <? 1))%nat with true in Hc by lia. now apply ret_inj in Hc.
  - intros W Ln. rewrite outside_false in Hc by exact W. replace ((length pL <? n - 1) || (length pE <? 1))%nat with false in Hc by lia.
    apply (strategy_splats A false); [exact Hc|lia].
Qed.
Print Assumptions C82_lt.

(** Bidirectional path tracing: every pair of lengths once, with its share *)
Theorem C82_bdpt : forall A mn mx fuel rngE rngL l, (2 <= mn)%Z -> bdpt_sample A mn mx fuel rngE rngL = ret l ->
  exists pE pL c, sample_subpath A fuel rngE mx EL = ret pE /\ sample_subpath A fuel rngL mx LE = ret pL /\
    l = flat_map (fun s => flat_map (c s) (seq 0 (S (length pE)))) (seq 0 (S (length pL))) /\
    forall s t, (s <= length pL)%nat -> (t <= length pE)%nat -> (wanted mn mx (s + t) -> splat_for A (shared A) pL pE s t (c s t)) /\ (~ wanted mn mx (s + t) -> c s t = []).
Proof.
  intros A mn mx fuel rngE rngL l M H. unfold bdpt_sample in H. mstep H. mstep H. rename a into pE, a0 into pL. apply each_inv in H as (g & Hg & ->).
  pose (one s t := if outside mn mx (s + t) then ret [] else path_strategy A true pL pE s t).
  exists pE, pL, (fun s t => match one s t with Ok (Val b) => b | _ => [] end). split; [exact E|]. split; [exact E0|].
  assert (Ev : forall s t, (s <= length pL)%nat -> (t <= length pE)%nat -> exists b, one s t = ret b).
  { intros s t Ls Lt. specialize (Hg s ltac:(apply in_seq; lia)). apply each_inv in Hg as (h & Hh & _). exists (h t). apply Hh, in_seq. lia. }
  split.
  - assert (F : forall X (f f' : X -> list (vec2 * vec3)) l0, (forall x, In x l0 -> f x = f' x) -> flat_map f l0 = flat_map f' l0).
    { intros X f f' l0. induction l0 as [|x l0 IH]; intros Hx; [reflexivity|]. cbn. rewrite (Hx x) by (now left). f_equal. apply IH. intros. apply Hx. now right. }
    apply F. intros s Hs. specialize (Hg s Hs). apply each_inv in Hg as (h & Hh & ->). apply F. intros t Ht. unfold one. now rewrite (Hh t Ht).
  - intros s t Ls Lt. destruct (Ev s t Ls Lt) as (b & Eb). rewrite Eb. cbn. unfold one in Eb. split; intros W.
    + rewrite outside_false in Eb by exact W. apply (strategy_splats A true); [exact Eb|]. unfold wanted in W. lia.
    + rewrite outside_true in Eb by exact W. now apply ret_inj in Eb.
Qed.
Print Assumptions C82_bdpt.

(** So for each path, what the strategies that can sample it splat, each times its density, adds up to the contribution
    of the path. (That all of them have the same contribution is C77.) *)
Theorem C82_total : forall A p (q : nat -> R) f (l : nat -> list (vec2 * vec3)), let n := length p in (2 <= n)%nat ->
  (forall s, (s <= n)%nat -> pdf_bidir A p (Z.of_nat s) = ret (q s) /\ 0 <= q s) -> (exists s, (s <= n)%nat /\ 0 < q s) ->
  (forall s, (s <= n)%nat -> 0 < q s -> eval_measurement_contrb_bidir A p (Z.of_nat s) = ret f) ->
  (forall s, (s <= n)%nat -> 0 < q s -> exists pL pE, connect_subpaths A pL pE (Z.of_nat s) (Z.of_nat (n - s)) = ret (Some p) /\ splat_for A (shared A) pL pE s (n - s) (l s)) ->
  vtotal (S n) (fun s => vscale (q s) (vsum (l s))) = f.
Proof. exact shares_total. Qed.
Print Assumptions C82_total.

(** Path tracing with connections does not see lights at infinity: where the path is not specular next to the light it
    has to be connected, and a point at infinity never is. *)
Theorem C82_no_distant_light : forall A mn mx fuel rngE rngL l, nee_sample A mn mx fuel rngE rngL = ret l ->
  (forall pL v, sample_subpath A fuel rngL 1 LE = ret pL -> nth_error pL 0 = Some v -> exists w, igeom (vs_sp v) = Infinite w) ->
  (forall pE v, sample_subpath A fuel rngE mx EL = ret pE -> In v pE -> a_specular A (vs_sp v) (vs_comp v) <> ret true) -> l = [].
Proof.
  intros A mn mx fuel rngE rngL l H Inf Ns. assert (H0 := H). apply C82_nee in H as (pE & pL & c & EE & EL' & -> & Hc).
  assert (Z : forall n, In n (seq 2 (length pL + length pE - 1)) -> c n = []).
  { intros n Hn. apply in_seq in Hn. destruct (Nat.le_gt_cases 2 (length pL + length pE)) as [L2|L2]; [|lia]. specialize (Hc n ltac:(lia)).
    destruct Hc as (C1 & C2 & C3). destruct (Nat.le_gt_cases (n - 1) (length pE)) as [Ln|Ln]; [|apply C2; lia].
    assert (Dw : wanted mn mx n \/ ~ wanted mn mx n) by (unfold wanted; lia). destruct Dw as [W|W]; [|now apply C1].
    destruct (C3 W Ln) as (v & spec & Ev & Es & S1 & _ & _). destruct spec; [destruct (Ns pE v EE (nth_error_In _ _ Ev) Es)|].
    destruct (S1 eq_refl) as (o & Ho & So). unfold connect_subpaths in Ho. replace (_ || _)%bool with false in Ho by lia.
    replace (Z.of_nat 1 =? 0)%Z with false in Ho by lia. replace (Z.of_nat (n - 1) =? 0)%Z with false in Ho by lia. mstep Ho.
    change (Z.to_nat (Z.of_nat 1 - 1)) with 0%nat in E. destruct (nth_error pL 0) as [x|] eqn:Ex; [|discriminate]. cbn in E. injection E as <-.
    destruct (Inf pL x EL' Ex) as (w & Iw). mstep Ho. rewrite Iw in Ho. cbn [infinite orb] in Ho. apply ret_inj in Ho. now subst o. }
  revert Z. clear. induction (seq _ _) as [|n r IH]; intros Z; [reflexivity|]. cbn. rewrite Z by now left. apply IH. intros m Hm. apply Z. now right.
Qed.
Print Assumptions C82_no_distant_light.

(** * Examples: the eye sees the lamp below (as in BdptSampleProps) *)
Section Seen.
  Variables (neg0 : bool) (zs : vec3 -> nat -> bool) (a : accel).
  Notation A := (y_api neg0 zs a).
  Lemma s_camera mx : (mx = 1 \/ mx = 2)%Z -> sample_subpath A 1 (fun _ => y_draw) mx EL = ret [x_eye; x_spot].
  Proof.
    intros M. pose proof (x_ray neg0 zs a y_draw eq_refl) as Er. unfold sample_subpath, sample_subpath_from_endpoint. replace (mx =? 0)%Z with false by lia. cbn [walk]. change (num_verts []) with 0%Z. replace (0 <? mx)%Z with true by lia.
    change (0 =? 0)%Z with true. cbv iota. change (a_sample_ray A) with (a_sample_ray (x_api neg0 zs a)). rewrite Er, !pbind_val. cbv iota. cbn [pr_sp pr_wo pr_origin a_intersect y_api]. rewrite !same_vec_refl. cbn [andb]. rewrite !pbind_val.
    change (a_sample_component A y_draw (vs_sp x_spot) (vneg (V3 0 0 (-1)))) with (@ret (Z * R) (0%Z, 1)). rewrite pbind_val. cbn [infinite igeom vs_sp x_spot app]. change (num_verts [_; _]) with 2%Z. replace (2 <? mx)%Z with false by lia. reflexivity.
  Qed.
  Lemma s_light mx : (mx = 1 \/ mx = 2)%Z -> sample_subpath A 1 (fun _ => y_draw) mx LE = ret [x_lamp].
  Proof.
    intros M. destruct (y_ray neg0 zs a) as (w & p & Er). unfold sample_subpath, sample_subpath_from_endpoint. replace (mx =? 0)%Z with false by lia. cbn [walk]. change (num_verts []) with 0%Z. replace (0 <? mx)%Z with true by lia.
    change (0 =? 0)%Z with true. cbv iota. rewrite Er, !pbind_val. cbv iota. cbn [pr_sp pr_wo pr_origin a_intersect y_api].
    assert (Nv : same_vec (V3 0 0 (/ 2)) (V3 0 0 1) = false). { destruct (same_vec _ _) eqn:E; [|reflexivity]. apply same_vec_true in E. apply (f_equal vz) in E. cbn in E. lra. }
    rewrite Nv. cbn [andb]. rewrite !pbind_val. reflexivity.
  Qed.
  Lemma s_values : pdf_bidir A w_path 0 = ret 0 /\ pdf_bidir A w_path 1 = ret 1 /\ pdf_bidir A w_path 2 = ret 0 /\ eval_measurement_contrb_bidir A w_path 1 = ret (grey 1).
  Proof.
    destruct (w_densities neg0 zs a) as (F & B & HD & St).
    assert (Dq : forall s, (s <= 2)%nat -> pdf_bidir A w_path (Z.of_nat s) = ret (density_of F B (fun s => match s with 1%nat => true | _ => false end) 2 s)).
    { intros s Hs. apply (C39_optimised_densities _ w_path F B _ s ltac:(cbn; lia) Hs HD). intros v u [<- |[<- |[]]]; reflexivity. }
    split; [exact (Dq 0%nat ltac:(lia))|]. split; [change 1%Z with (Z.of_nat 1); rewrite (Dq 1%nat ltac:(lia)); unfold density_of; now rewrite St|]. split; [exact (Dq 2%nat ltac:(lia))|].
    destruct (x_lamp_values neg0 zs a) as (A1 & A2 & A3 & A4 & A5 & A6), (x_eye_values neg0 zs a) as (B1 & B2 & B3 & B4 & B5 & B6), w_dirs as (D1 & D2), w_terms as (G1 & G2).
    unfold eval_measurement_contrb_bidir. change (num_verts w_path - 1)%Z with 1%Z. change (1 =? 0)%Z with false. cbv iota. change (Z.to_nat (1 - 1)) with 0%nat. cbn [contrb_loop]. rewrite !pbind_val.
    unfold eval_connection_term. change (num_verts w_path - 1)%Z with 1%Z. change (1 =? 0)%Z with false. change (0 <? 1)%Z with true. cbn [andb].
    change (vertex_at w_path (1 - 1) LE) with (Some x_lamp). change (vertex_at w_path (1 - 1) EL) with (Some x_eye). change (vertex_at w_path (1 - 2) LE) with (@None vert). change (vertex_at w_path (1 - 2) EL) with (@None vert). cbn [at_vert]. rewrite !obind_ok, D1, D2.
    change (direction (Some x_lamp) None) with (@Val vec3 v0). change (direction (Some x_eye) None) with (@Val vec3 v0). rewrite !pbind_okval. change (a_contrb A) with (a_contrb (x_api neg0 zs a)). rewrite A5, pbind_val, !pbind_okval, B5, pbind_val, G1. cbn [of_option]. rewrite pbind_okval, pbind_val. unfold ret. do 2 f_equal. unfold grey, vmul, vscale. cbn. f_equal; field.
  Qed.
  Lemma s_connect : connect_subpaths A [x_lamp] [x_eye; x_spot] 1 1 = ret (Some w_path).
  Proof. reflexivity. Qed.
  Lemma s_weight : eval_sampling_weight_bidir A w_path 1 = ret (grey 1).
  Proof.
    destruct s_values as (_ & Q & _ & F). destruct (weight_is_ratio A w_path 1 1 (grey 1)) as (C & EC & E); [cbn; lia|cbn; lia|exact Q|lra|exact F|]. rewrite EC. f_equal. f_equal. destruct C. unfold vscale, grey in E. cbn in E. injection E as ? ? ?. unfold grey. f_equal; lra.
  Qed.
  Lemma s_share : eval_mis_weight A w_path 1 = ret 1.
  Proof.
    destruct s_values as (Q0 & Q1 & Q2 & _). unfold eval_mis_weight. rewrite Q1, pbind_val. destruct (Rlt_dec 0 1); [|lra]. change (Z.to_nat (num_verts w_path + 1)) with 3%nat. cbn [mis_loop]. change (0 + 1)%Z with 1%Z. change (1 + 1)%Z with 2%Z. rewrite Q0, pbind_val. destruct (Req_EM_T 0 0); [|lra].
    rewrite Q1, pbind_val. destruct (Req_EM_T 1 0); [lra|]. rewrite rdiv_ok by lra. rewrite pbind_okval, Q2, pbind_val. destruct (Req_EM_T 0 0); [|lra]. rewrite pbind_val, rdiv_ok by lra. unfold ret. do 2 f_equal. field.
  Qed.
  Lemma s_strategy : exists rp, raster_of_path A w_path = ret rp /\ forall mis, path_strategy A mis [x_lamp] [x_eye; x_spot] 1 1 = ret [(rp, grey 1)].
  Proof.
    destruct (w_connect neg0 zs a None (Some 0) (Some 0) (Some 0) (Some 0)) as (rp & _ & HR). exists rp. split; [exact HR|]. intros mis. unfold path_strategy. change (Z.of_nat 1) with 1%Z. rewrite s_connect, pbind_val, s_weight, pbind_val.
    assert (Z0 : is_zero (grey 1) = false). { destruct (is_zero _) eqn:E; [|reflexivity]. apply is_zero_true in E. apply (f_equal vx) in E. cbn in E. lra. } rewrite Z0, s_share.
    destruct mis; rewrite !pbind_val, HR, pbind_val; [|reflexivity]. unfold ret. do 4 f_equal. unfold grey, vscale. cbn. f_equal; ring.
  Qed.
End Seen.

(** The whole image sample is the lamp, in full, for the three renderers that connect; following the camera alone
    finds nothing, as the lamp is a point. *)
Example C82_example : forall neg0 zs, exists a rp, let A := y_api neg0 zs a in let rng := fun _ : nat => y_draw in raster_of_path A w_path = ret rp /\
  naive_sample A 2 2 1 rng = ret [] /\ nee_sample A 2 2 1 rng rng = ret [(rp, grey 1)] /\ lt_sample A 2 2 1 rng rng = ret [(rp, grey 1)] /\ bdpt_sample A 2 2 1 rng rng = ret [(rp, grey 1)].
Proof.
  intros neg0 zs. destruct (x_built None None) as (a & Bu & D). destruct (s_strategy neg0 zs a) as (rp & HR & HS). exists a, rp. cbv zeta. split; [exact HR|].
  assert (N : forall mis pL, path_strategy (y_api neg0 zs a) mis pL [x_eye; x_spot] 0 2 = ret []) by reflexivity.
  split; [|split; [|split]].
  - unfold naive_sample. rewrite s_camera by auto. rewrite pbind_val. cbn [length Nat.sub seq each]. change (outside 2 2 2) with false. cbv iota. rewrite N. reflexivity.
  - unfold nee_sample. rewrite s_camera, s_light by auto. rewrite !pbind_val. cbn [length Nat.eqb Nat.add Nat.sub seq each]. unfold nee_length. change (outside 2 2 2) with false. change (outside 2 2 3) with true. cbv iota.
    cbn [length Nat.ltb Nat.leb orb Nat.sub nth_error at_vert]. rewrite obind_ok. change (a_specular (y_api neg0 zs a) (vs_sp x_eye) (vs_comp x_eye)) with (ret false). rewrite pbind_val. cbv iota. cbn [Nat.leb orb]. rewrite HS, !pbind_val. reflexivity.
  - unfold lt_sample. rewrite s_camera, s_light by auto. rewrite !pbind_val. cbn [length Nat.eqb Nat.add Nat.sub seq each]. unfold lt_length. change (outside 2 2 2) with false. change (outside 2 2 3) with true. cbv iota.
    cbn [length Nat.ltb Nat.leb orb Nat.sub]. rewrite HS, !pbind_val. reflexivity.
  - unfold bdpt_sample. rewrite s_camera, s_light by auto. rewrite !pbind_val. cbn [length Nat.add seq each]. change (outside 2 2 0) with true. change (outside 2 2 1) with true. change (outside 2 2 2) with false. change (outside 2 2 3) with true. cbv iota. rewrite N, HS, !pbind_val. reflexivity.
Qed.
(** The hypotheses of C82_total for that path: only connecting the lamp to the eye has a density. *)
Example C82_total_example : forall neg0 zs, exists a q l, let A := y_api neg0 zs a in
  (forall s, (s <= length w_path)%nat -> pdf_bidir A w_path (Z.of_nat s) = ret (q s) /\ 0 <= q s) /\ (exists s, (s <= length w_path)%nat /\ 0 < q s) /\
  (forall s, (s <= length w_path)%nat -> 0 < q s -> eval_measurement_contrb_bidir A w_path (Z.of_nat s) = ret (grey 1)) /\
  (forall s, (s <= length w_path)%nat -> 0 < q s -> exists pL pE, connect_subpaths A pL pE (Z.of_nat s) (Z.of_nat (length w_path - s)) = ret (Some w_path) /\ splat_for A (shared A) pL pE s (length w_path - s) (l s)).
Proof.
  intros neg0 zs. destruct (x_built None None) as (a & Bu & D). destruct (s_strategy neg0 zs a) as (rp & HR & HS), (s_values neg0 zs a) as (Q0 & Q1 & Q2 & F). exists a, (fun s => match s with 1%nat => 1 | _ => 0 end), (fun _ => [(rp, grey 1)]). cbv zeta. change (length w_path) with 2%nat.
  split; [|split; [|split]].
  - intros [|[|[|s]]] L; [| | |lia]; (split; [assumption|lra]).
  - exists 1%nat. split; [lia|lra].
  - intros [|[|[|s]]] L P; try lra. exact F.
  - intros [|[|[|s]]] L P; try lra. exists [x_lamp], [x_eye; x_spot]. split; [apply s_connect|]. apply (strategy_splats _ true); [apply HS|lia].
Qed.

(** * A sky: the constant environment is the only light *)
Definition e_api neg0 zs a : api :=
  scene_api (fun _ => mk_tr (M3 v0 v0 v0) v0 (M3 v0 v0 v0) 1) (fun _ => diffuse (grey 1) None) (fun _ => envconst_light neg0 (grey 1) (Some (v0, 2))) (fun _ => x_cam)
    (fun _ => PhaseModel.isotropic) x_meshes neg0 zs (fun _ => false) (x_scene (Some 3%Z) None) a.
Definition e_sky : vert := mk_vert (endpoint LightEndpoint 3 (Infinite (V3 0 0 (-1)))) 0.
Definition e_path : fullpath := [e_sky; x_spot; x_eye].
(** The path from the sky over the triangle to the eye carries light, and the camera's own walk samples it. But
    renderer::pt_nee_path never splats anything in this scene. *)
Theorem C82_distant_refuted : forall neg0 zs, exists a, built_for x_meshes (x_scene (Some 3%Z) None) a /\ let A := e_api neg0 zs a in
  (exists q f, pdf_bidir A e_path 0 = ret q /\ 0 < q /\ eval_measurement_contrb_bidir A e_path 0 = ret f /\ f <> v0) /\
  (forall mn mx fuel rngE rngL l, nee_sample A mn mx fuel rngE rngL = ret l -> l = []).
Proof.
  intros neg0 zs. destruct (x_built (Some 3%Z) None) as (a & Bu & D). exists a. split; [exact Bu|]. cbv zeta. split.
  - destruct (x_eye_values neg0 zs a) as (B1 & B2 & B3 & B4 & B5 & B6), (spot_pdf neg0 zs a) as (q0 & _ & _). destruct x_dirs as (_ & _ & D3 & D4), (x_term 1 ltac:(lra)) as (G3 & G4).
    set (A := e_api neg0 zs a). 
    assert (Dk : direction (Some x_spot) (Some e_sky) = Val (V3 0 0 1)) by (unfold direction; cbn [x_spot e_sky vs_sp igeom endpoint]; f_equal; apply vec3_eq; cbn; ring).
    assert (Dn : direction (Some x_eye) None = Val v0) by reflexivity. assert (Ds : direction (Some e_sky) (Some x_spot) = Val (V3 0 0 (-1))) by reflexivity.
    assert (Gk : geometry_term (igeom (vs_sp x_spot)) (igeom (vs_sp e_sky)) = Some 1).
    { unfold geometry_term. cbn [igeom vs_sp x_spot e_sky endpoint cos_at]. unfold make_on_surface. destruct (orthonormal_basis _ _). cbn [sn]. unfold fdiv. destruct (Req_EM_T 1 0); [lra|]. f_equal. unfold dot. cbn. rewrite Rabs_right; [field|lra]. }
    assert (Pd : forall c b, a_pdf_direction A (vs_sp x_spot) (V3 0 0 1) (V3 0 0 1) c b = ret (1 / PI)).
    { intros c b. unfold A, e_api, scene_api. cbn [a_pdf_direction]. unfold pdf_direction.
      change (prim_at (x_scene (Some 3%Z) None) (iprim (vs_sp x_spot))) with (Ok (mk_prim (Some 0%nat) (Some 0%nat) None None (Some 0%nat))).
      cbn [obind it vs_sp x_spot deref p_material spoint_of igeom itc]. cbn [pbind MatModel.pdf_direction diffuse geo]. rewrite (spot_front). reflexivity. }
    assert (Ce : forall c d b wi, a_contrb A (vs_sp x_eye) wi (V3 0 0 (-1)) c d b = ret (grey (/ 4))) by exact B5.
    assert (Pe : forall c b wi, a_pdf_direction A (vs_sp x_eye) wi (V3 0 0 (-1)) c b = ret (/ 4)) by exact B6.
    assert (Cs : forall c b, a_contrb A (vs_sp x_spot) (V3 0 0 1) (V3 0 0 1) c EL b = ret (vscale 1 (vscale (/ PI) (grey 1)))) by exact (spot_contrb neg0 zs a).
    pose proof (Rinv_0_lt_compat _ PI_RGT_0) as Pp.
    exists (1 * 1 * (1 * 1) * (1 * (/ 4 * / (1 * 1))) * (1 * (1 / PI * 1))), (vmul (vmul (grey 1) (grey 1)) (vscale 1 (vmul (vscale (/ (1 * 1)) (vmul (grey 1) (grey (/ 4)))) (vscale 1 (vscale (/ PI) (grey 1)))))). split; [|split; [|split]].
    + unfold pdf_bidir. change (is_samplable_bidir A e_path 0) with (ret true). rewrite pbind_val. cbn [negb]. change (pdf_subpath A e_path 0 LE) with (ret 1). rewrite pbind_val. change (num_verts e_path - 0)%Z with 3%Z.
      unfold pdf_subpath. change (3 =? 0)%Z with false. cbv iota. change (vertex_at e_path 0 EL) with (Some x_eye). cbn [at_vert]. rewrite obind_ok. change (a_connectable A (vs_sp x_eye)) with (ret true). rewrite pbind_val. change (a_pdf_position A (vs_sp x_eye)) with (ret 1). rewrite pbind_val.
      change (a_pdf_component A (vs_sp x_eye) v0 (vs_comp x_eye)) with (ret 1). rewrite pbind_val. change (Z.to_nat (3 - 1)) with 2%nat. cbn [pdf_loop]. change (0 - 1)%Z with (-1)%Z. change (0 + 1)%Z with 1%Z. change (1 - 1)%Z with 0%Z. change (1 + 1)%Z with 2%Z.
      change (vertex_at e_path 0 EL) with (Some x_eye). change (vertex_at e_path 1 EL) with (Some x_spot). change (vertex_at e_path 2 EL) with (Some e_sky). change (vertex_at e_path (-1) EL) with (@None vert). cbn [at_vert]. rewrite !obind_ok, Dn, D3, !pbind_okval, obind_ok.
      match goal with |- context [a_pdf_component A (vs_sp x_spot) ?w ?c] => change (a_pdf_component A (vs_sp x_spot) w c) with (ret 1) end. rewrite pbind_val, Pe, pbind_val. unfold convert_to_area. change (igeom (vs_sp x_eye)) with (Degenerated (V3 0 0 1)). rewrite G3. cbn [of_option]. rewrite pbind_okval, obind_ok, D4, Dk, !pbind_okval, obind_ok.
      match goal with |- context [a_pdf_component A (vs_sp e_sky) ?w ?c] => change (a_pdf_component A (vs_sp e_sky) w c) with (ret 1) end. rewrite pbind_val, Pd, pbind_val, Gk. cbn [of_option]. rewrite pbind_okval, pbind_val. unfold ret. do 2 f_equal. ring.
    + assert (0 < 1 / PI) by lra. rewrite Rmult_1_r, Rinv_1. nra.
    + unfold eval_measurement_contrb_bidir. change (num_verts e_path - 0)%Z with 3%Z. change (0 =? 0)%Z with true. change (3 =? 0)%Z with false. cbv iota. rewrite pbind_val. change (Z.to_nat (3 - 1)) with 2%nat. cbn [contrb_loop]. change (0 - 1)%Z with (-1)%Z. change (0 + 1)%Z with 1%Z. change (1 - 1)%Z with 0%Z. change (1 + 1)%Z with 2%Z.
      change (vertex_at e_path 0 EL) with (Some x_eye). change (vertex_at e_path 1 EL) with (Some x_spot). change (vertex_at e_path 2 EL) with (Some e_sky). change (vertex_at e_path (-1) EL) with (@None vert). cbn [at_vert]. rewrite !obind_ok, Dn, D3, !pbind_okval, Ce, pbind_val, obind_ok. change (igeom (vs_sp x_eye)) with (Degenerated (V3 0 0 1)). rewrite G3. cbn [of_option]. rewrite pbind_okval, obind_ok, D4, Dk, !pbind_okval, Cs, pbind_val, obind_ok, Gk. cbn [of_option]. rewrite pbind_okval, pbind_val.
      change (eval_connection_term A e_path 0) with (ret (grey 1)). rewrite pbind_val. reflexivity.
    + intros H. apply (f_equal vx) in H. unfold grey, vmul, vscale, v0 in H. cbn in H. replace (1 * 1 * (1 * (/ (1 * 1) * (1 * / 4) * (1 * (/ PI * 1))))) with (/ 4 * / PI) in H by (field; pose proof PI_RGT_0; lra). assert (0 < / 4 * / PI) by (apply Rmult_lt_0_compat; lra). lra.
  - intros mn mx fuel rngE rngL l H. apply (C82_no_distant_light _ _ _ _ _ _ _ H).
    + intros pL v HL Hv. unfold sample_subpath, sample_subpath_from_endpoint in HL. change (1 =? 0)%Z with false in HL. cbv iota in HL. destruct fuel as [|fuel]; [discriminate|]. cbn [walk] in HL. change (num_verts [] <? 1)%Z with true in HL. change (num_verts [] =? 0)%Z with true in HL. cbv iota in HL.
      mstep HL. mstep E. apply ret_inj in E. subst a0. destruct a1 as [r|]; [|apply ret_inj in HL; subst pL; discriminate].
      assert (Ir : exists w, igeom (pr_sp r) = Infinite w).
      { clear - E0. unfold e_api, scene_api in E0. cbn [a_sample_ray] in E0. unfold sample_primary_ray in E0. mstep E0. destruct a0 as [[T n] ps]. mstep E0. mstep E0. mstep E0. destruct a2 as [[rr o]|]; [|apply ret_inj in E0; discriminate]. mstep E0. mstep E0. apply ret_inj in E0. injection E0 as <-. cbn [pr_sp endpoint igeom].
        assert (a1 = envconst_light neg0 (grey 1) (Some (v0, 2))). { unfold deref in E2. destruct (SceneModel.p_light a0); [congruence|discriminate]. } subst a1. apply okval in E3. cbn [l_sample_ray envconst_light] in E3.
        destruct (disk_origin _ _ _ _) as [x| |]; try discriminate. cbn [fbind] in E3. destruct (env_pdf_ray _) as [x'| |]; try discriminate. cbn [fbind] in E3. destruct (vdiv _ _) as [x''| |]; try discriminate. cbn [fbind] in E3. injection E3 as <- _. cbn. eexists. reflexivity. }
      assert (Hd : exists rest, pL = mk_vert (pr_sp r) 0 :: rest).
      { mstep HL. destruct a0 as [h|]; [|apply ret_inj in HL; subst pL; eexists; reflexivity]. mstep HL. destruct a0 as [c w]. cbn [app] in HL. destruct (infinite _); [apply ret_inj in HL; subst pL; eexists; reflexivity|]. destruct fuel; cbn [walk] in HL; match type of HL with context [(num_verts ?p <? 1)%Z] => change (num_verts p <? 1)%Z with false in HL end; apply ret_inj in HL; subst pL; eexists; reflexivity. }
      destruct Hd as (rest & ->). injection Hv as <-. exact Ir.
    + intros pE v _ _ X. unfold e_api, scene_api in X. cbn [a_specular] in X. unfold is_specular_component in X. mstep X. destruct (it (vs_sp v)).
      all: try discriminate X. all: mstep X; apply ret_inj in X; unfold deref in E0.
      all: match type of E0 with match ?o with _ => _ end = _ => destruct o end; [|discriminate]; injection E0 as <-; discriminate X.
Qed.
Print Assumptions C82_distant_refuted.
