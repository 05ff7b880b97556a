(** C42 (weights of materials), C43 (mixtures), C61 (reciprocal non-negative scattering), C62 (directions of
    materials). *)
From Coq Require Import List Reals ZArith Bool Lia Lra.
From Verif Require Import Base RBase VecBase GeoModel SurfModel SurfSpec SurfProofs DistModel DistSpec DistProofs MatModel MatSpec MatProofs.
Import ListNotations.
Open Scope R_scope.

(** A concrete point and direction. *)
Definition pt0 : spoint := mk_spoint (make_on_surface false v0 (V3 0 0 1) (V3 0 0 1)) (V2 0 0).
Definition up : vec3 := V3 0 0 1.
Lemma pt0_ok : surface_point pt0.
Proof. exists false, v0, (V3 0 0 1), (V3 0 0 1), (V2 0 0). split; [unfold unit, dot; cbn; ring|reflexivity]. Qed.
Lemma up_unit : unit up. Proof. unfold unit, dot; cbn; ring. Qed.
Definition half_color : vec3 := grey (1 / 2).
Lemma half_color_ok : color_ok half_color. Proof. unfold color_ok, vnonneg, half_color, grey. cbn. lra. Qed.

(** ** C42: the weight of a sampled direction times the density is the value, for every material of any
    nesting, every component (of the OBJ material: the component of the surface, not of the mask), point,
    direction and random numbers. What is missing for C42: lights, cameras, phase functions and media. *)
Theorem C42_material_weights_partial : forall b m c, built b m -> b = false \/ c = 0%Z -> weight_consistent m c.
Proof. exact weights_ok. Qed.
Print Assumptions C42_material_weights_partial.

(** The pass-through component of the OBJ material has weight 1 although its value is 1 - alpha. *)
Theorem C42_alpha_mask_refuted : ~ (forall b m c, built b m -> weight_consistent m c).
Proof.
  intros H. specialize (H _ _ 1%Z (b_obj v0 (Some (mk_tex (fun _ => v0) (Some (fun _ => 1 / 2)))) v0 1 1 true) (V2 0 0) 0 pt0 up LE _ _ eq_refl).
  destruct H as (f & p & E1 & E2 & E). cbn in E1, E2. injection E1 as <-. injection E2 as <-. injection E as E _ _. lra.
Qed.
Print Assumptions C42_alpha_mask_refuted.

Example C42_material_example : exists m, built false m /\ exists wo w, sample_direction m (V2 0 0) 0 pt0 up 0 LE = Val (Some (wo, w)).
Proof.
  exists (mixture_rr [(diffuse half_color None, 1 / 4); (mirror, 3 / 4)]). split.
  - apply b_rr. intros m w [[= <- _]|[[= <- _]|[]]]; exists false; constructor.
  - cbn [mixture_rr sample_direction]. change 0%Z with (Z.of_nat 0) at 1. rewrite at_index_nat. cbn [nth_error fbind diffuse sample_direction].
    destruct (basis_twosided (geo pt0) up) as [[n u] v]. cbn [fbind]. do 2 eexists. reflexivity.
Qed.

(** ** C43: selection of components *)
Theorem C43_single : forall m, (exists Kd map, m = diffuse Kd map) \/ (exists Ks ax ay, m = glossy Ks ax ay) \/ m = mirror \/ m = mask ->
  forall g wi, selects [1] (fun u => sample_component m u g wi) (fun c => pdf_component m c g wi).
Proof. intros m [(? & ? & ->)|[(? & ? & ? & ->)|[-> | ->]]]; now apply selects_one. Qed.
Print Assumptions C43_single.

Theorem C43_rr_selection : forall es g wi, nonneg (map snd es) -> 0 < rsum (map snd es) ->
  selects (map (fun w => w / rsum (map snd es)) (map snd es)) (fun u => sample_component (mixture_rr es) u g wi) (fun c => pdf_component (mixture_rr es) c g wi).
Proof. intros es g wi. apply selects_dist. Qed.
Print Assumptions C43_rr_selection.

(** The marginalized mixture: component 0 stands for all entries that are not specular, component k + 1
    for the k-th specular entry. *)
Theorem C43_marginalized_selection : forall es g wi, nonneg (map snd es) -> 0 < rsum (map snd es) ->
  selects (map (fun w => w / rsum (map snd es)) (rsum (map snd (smooth es)) :: map snd (spiky es)))
    (fun u => sample_component (mixture_marginalized es) u g wi) (fun c => pdf_component (mixture_marginalized es) c g wi).
Proof.
  intros es g wi Hn Hp. destruct (group_weights_ok es Hn) as [Gn Gs]. change (rsum (map snd (smooth es)) :: map snd (spiky es)) with (group_weights es).
  rewrite <- Gs in *. cbn [mixture_marginalized sample_component pdf_component]. rewrite group_weights_eq. now apply selects_dist.
Qed.
Print Assumptions C43_marginalized_selection.

Theorem C43_glass_selection : forall Ni g wi, 0 < Ni -> surface_point g -> unit wi ->
  exists Fr, 0 <= Fr <= 1 /\ selects [Fr; 1 - Fr] (fun u => sample_component (glass Ni) u g wi) (fun c => pdf_component (glass Ni) c g wi).
Proof. exact glass_selects. Qed.
Print Assumptions C43_glass_selection.

(** The OBJ material: component 0 with the probability alpha of the texture (1 without). *)
Theorem C43_obj_selection : forall Kd map Ks ax ay mk g wi, map_ok map ->
  let alpha := match mk, map with true, Some (mk_tex _ (Some a)) => a (tc g) | _, _ => 1 end in
  selects [alpha; 1 - alpha] (fun u => sample_component (mixture_obj Kd map Ks ax ay mk) u g wi) (fun c => pdf_component (mixture_obj Kd map Ks ax ay mk) c g wi).
Proof.
  intros Kd map Ks ax ay mk g wi H. replace (match mk with true => _ | false => 1 end) with (alpha_of map mk g) by (destruct mk, map as [[? [?|]]|]; reflexivity).
  cbn zeta. apply selects_two; [now apply alpha_range| |]; reflexivity.
Qed.
Print Assumptions C43_obj_selection.

Example C43_selection_example : let es := [(diffuse half_color None, 1); (mirror, 2); (glossy half_color 1 1, 0); (mask, 1)] in
  nonneg (map snd es) /\ 0 < rsum (map snd es) /\ length (spiky es) = 2%nat /\ rsum (map snd (smooth es)) = 1
  /\ selects [1 / 4; 2 / 4; 1 / 4] (fun u => sample_component (mixture_marginalized es) u pt0 up) (fun c => pdf_component (mixture_marginalized es) c pt0 up).
Proof.
  cbn zeta. set (es := [_; _; _; _]). assert (N : nonneg (map snd es)) by (intros x [<-|[<-|[<-|[<-|[]]]]]; cbn; lra).
  assert (P : rsum (map snd es) = 4) by (cbn; ring). split; [assumption|]. split; [rewrite P; lra|]. split; [reflexivity|]. split; [cbn; ring|].
  pose proof (C43_marginalized_selection es pt0 up N ltac:(rewrite P; lra)) as S'. rewrite P in S'. cbn [map smooth spiky filter es is_specular fst snd negb] in S'.
  replace (rsum _) with 1 in S' by (cbn; ring). exact S'.
Qed.
Example C43_glass_example : 0 < 3 / 2 /\ surface_point pt0 /\ unit up.
Proof. split; [lra|]. split; [exact pt0_ok|exact up_unit]. Qed.
Example C43_obj_example : map_ok (Some (mk_tex (fun _ => half_color) (Some (fun t => 1 / 3)))).
Proof. split; [intros ?; exact half_color_ok|]. cbn. intros ?. lra. Qed.

(** Values and densities of the components of a mixture. *)
Theorem C43_rr_components : forall es i m w g wi wo dir delta, nth_error es i = Some (m, w) ->
  pdf_direction (mixture_rr es) g wi wo (Z.of_nat i) delta = pdf_direction m g wi wo 0 delta
  /\ (forall f, eval m g wi wo 0 dir delta = Val f -> eval (mixture_rr es) g wi wo (Z.of_nat i) dir delta = Val (vscale w f))
  /\ is_specular (mixture_rr es) (Z.of_nat i) = is_specular m 0.
Proof.
  intros es i m w g wi wo dir delta H. cbn [mixture_rr pdf_direction eval is_specular]. rewrite at_index_nat. change (nth_error es i) with (@nth_error entry_ es i) in H.
  rewrite H. cbn [fbind]. split; [reflexivity|]. split; [intros f ->; reflexivity|reflexivity].
Qed.
Print Assumptions C43_rr_components.

Theorem C43_marginalized_density : forall es g wi wo delta qs, nonneg (map snd es) -> 0 < rsum (map snd (smooth es)) ->
  vals (map (fun e => pdf_direction (fst e) g wi wo 0 delta) (smooth es)) qs ->
  pdf_direction (mixture_marginalized es) g wi wo 0 delta
    = Val (rsum (map (fun wq => fst wq / rsum (map snd (smooth es)) * snd wq) (combine (map snd (smooth es)) qs))).
Proof. exact marg_pdf0. Qed.
Print Assumptions C43_marginalized_density.

Theorem C43_marginalized_specular : forall es k m w g wi wo dir delta, nth_error (spiky es) k = Some (m, w) -> 0 < w ->
  pdf_direction (mixture_marginalized es) g wi wo (Z.of_nat (S k)) delta = pdf_direction m g wi wo 0 delta
  /\ (forall f, eval m g wi wo 0 dir delta = Val f -> eval (mixture_marginalized es) g wi wo (Z.of_nat (S k)) dir delta = Val (vscale w f))
  /\ is_specular (mixture_marginalized es) (Z.of_nat (S k)) = true.
Proof.
  intros es k m w g wi wo dir delta H P. split; [now apply (marg_pdfS es k m w)|]. split; [|cbn [mixture_marginalized is_specular]; destruct (Z.eqb_spec (Z.of_nat (S k)) 0); [lia|reflexivity]].
  intros f E. rewrite (marg_evalS es k m w) by assumption. now rewrite E.
Qed.
Print Assumptions C43_marginalized_specular.

(** Directions of component 0 are drawn from one of the entries, chosen with probability proportional to
    its weight. *)
Theorem C43_marginalized_sampling : forall es ud udc g wi dir wo k, nonneg (map snd es) -> 0 < rsum (map snd (smooth es)) -> 0 <= udc < 1 ->
  sample_direction (mixture_marginalized es) ud udc g wi 0 dir = Val (Some (wo, k)) ->
  exists i m w sw, nth_error (smooth es) i = Some (m, w) /\ 0 < w
    /\ rsum (firstn i (map snd (smooth es))) / rsum (map snd (smooth es)) <= udc < rsum (firstn i (map snd (smooth es))) / rsum (map snd (smooth es)) + w / rsum (map snd (smooth es))
    /\ sample_direction m ud udc g wi 0 dir = Val (Some (wo, sw)).
Proof. exact marg_sample0. Qed.
Print Assumptions C43_marginalized_sampling.

(** The OBJ material draws the directions of component 0 from the diffuse part with a probability w and else
    from the glossy part, and reports the mixture of the two densities with the same w. *)
Theorem C43_obj_sampling : forall Kd map Ks ax ay mk g, color_ok Kd -> map_ok map -> color_ok Ks ->
  exists w, 0 <= w <= 1 /\
    (forall ud udc wi dir wo k, sample_direction (mixture_obj Kd map Ks ax ay mk) ud udc g wi 0 dir = Val (Some (wo, k)) ->
       exists k', (udc < w -> sample_direction (diffuse Kd map) ud udc g wi 0 dir = Val (Some (wo, k'))) /\ (w <= udc -> sample_direction (glossy Ks ax ay) ud udc g wi 0 dir = Val (Some (wo, k')))) /\
    (forall wi wo delta pd pg, pdf_direction (diffuse Kd map) g wi wo 0 delta = Val pd -> pdf_direction (glossy Ks ax ay) g wi wo 0 delta = Val pg ->
       pdf_direction (mixture_obj Kd map Ks ax ay mk) g wi wo 0 delta = Val (w * pd + (1 - w) * pg)).
Proof.
  intros Kd map Ks ax ay mk g Hd Hm Hs. assert (Cd := diffuse_color_ok Kd map g Hd Hm).
  assert (N : forall c, color_ok c -> 0 <= comp_max c). { intros c ((X & _) & _). unfold comp_max. apply Rle_trans with (Rmax (vx c) (vy c)); [|apply Rmax_l]. apply Rle_trans with (vx c); [exact X|apply Rmax_l]. }
  assert (W1 := N _ Cd). assert (W2 : 0 <= comp_max (reflectance (glossy Ks ax ay) g)) by (apply N; exact Hs).
  set (wd := comp_max (reflectance (diffuse Kd map) g)) in *. set (wg := comp_max (reflectance (glossy Ks ax ay) g)) in *.
  assert (P : exists w, 0 <= w <= 1 /\ (if Req_EM_T wd 0 then if Req_EM_T wg 0 then Val 1 else rdiv wd (wd + wg) else rdiv wd (wd + wg)) = Val w).
  { assert (Q : wd + wg <> 0 -> 0 <= wd / (wd + wg) <= 1).
    { intros Q. assert (0 < / (wd + wg)) by (apply Rinv_0_lt_compat; lra). unfold Rdiv. split; [apply Rmult_le_pos; lra|]. apply Rmult_le_reg_r with (wd + wg); [lra|]. rewrite Rmult_assoc, Rinv_l by lra. lra. }
    unfold rdiv, RBase.fdiv. destruct (Req_EM_T wd 0), (Req_EM_T wg 0); [exists 1; split; [lra|reflexivity]|..]; (destruct (Req_EM_T (wd + wg) 0); [lra|]; eexists; split; [apply Q; assumption|reflexivity]). }
  destruct P as (w & Rw & Ew). exists w. split; [exact Rw|]. cbn [mixture_obj sample_direction pdf_direction]. fold wd wg. rewrite Ew. cbn [Z.eqb fbind]. split.
  - intros ud udc wi dir wo k H. destruct (Rlt_dec udc w) as [L|L].
    + destruct (sample_direction (diffuse Kd map) ud udc g wi 0 dir) as [[[wo' k']|]| |]; cbn [fbind] in H; try discriminate. exists k'. split; [intros _|intros; lra]. do 3 f_equal.
      revert H. repeat match goal with |- context [fbind ?x _] => destruct x; cbn [fbind]; try discriminate end. now intros [= -> _].
    + destruct (sample_direction (glossy Ks ax ay) ud udc g wi 0 dir) as [[[wo' k']|]| |]; cbn [fbind] in H; try discriminate. exists k'. split; [intros; lra|intros _]. do 3 f_equal.
      revert H. repeat match goal with |- context [fbind ?x _] => destruct x; cbn [fbind]; try discriminate end. now intros [= -> _].
  - intros wi wo delta pd pg -> ->. cbn [fbind]. f_equal. ring.
Qed.
Print Assumptions C43_obj_sampling.
Example C43_obj_sampling_example : color_ok half_color /\ map_ok (Some (mk_tex (fun _ => half_color) (Some (fun t => 1 / 3)))).
Proof. split; [unfold color_ok, vnonneg, half_color; cbn; lra|exact C43_obj_example]. Qed.

(** Over all components both mixtures give the weighted sum of the values of the entries. *)
Theorem C43_total : forall es g wi wo dir delta fs, vals (map (fun e => eval (fst e) g wi wo 0 dir delta) es) fs ->
  let whole := vsum (map (fun ef => vscale (snd (fst ef)) (snd ef)) (combine es fs)) in
  (exists ts, vals (map (fun c => eval (mixture_rr es) g wi wo (Z.of_nat c) dir delta) (seq 0 (length es))) ts /\ vsum ts = whole)
  /\ (exists ts, vals (map (fun c => eval (mixture_marginalized es) g wi wo (Z.of_nat c) dir delta) (seq 0 (S (length (spiky es))))) ts /\ vsum ts = whole).
Proof. intros es g wi wo dir delta fs H. split; [now apply total_rr|now apply total_marg]. Qed.
Print Assumptions C43_total.

Theorem C43_reflectance : forall es g, let whole := vsum (map (fun e => vscale (snd e) (reflectance (fst e) g)) es) in
  reflectance (mixture_rr es) g = whole /\ reflectance (mixture_marginalized es) g = whole.
Proof. intros es g. split; [apply refl_rr|apply refl_marg]. Qed.
Print Assumptions C43_reflectance.

Example C43_values_example : let es := [(diffuse half_color None, 1); (mirror, 2); (diffuse v0 None, 3)] in
  nonneg (map snd es) /\ 0 < rsum (map snd (smooth es)) /\ nth_error (spiky es) 0 = Some (mirror, 2)
  /\ (exists qs, vals (map (fun e => pdf_direction (fst e) pt0 up up 0 false) (smooth es)) qs)
  /\ (exists fs, vals (map (fun e => eval (fst e) pt0 up up 0 LE false) es) fs)
  /\ (exists wo k, sample_direction (mixture_marginalized es) (V2 0 0) 0 pt0 up 0 LE = Val (Some (wo, k))).
Proof.
  cbn zeta. set (es := [_; _; _]). split; [intros x [<-|[<-|[<-|[]]]]; cbn; lra|]. split; [cbn; lra|]. split; [reflexivity|].
  assert (O : opposite (geo pt0) up up = false) by (unfold opposite; cbn; destruct (Rle_dec _ 0) as [L|]; [exfalso; unfold dot in L; cbn in L; lra|reflexivity]).
  split; [exists [1 / PI; 1 / PI]; unfold vals, smooth, es; cbn [filter map fst snd negb is_specular diffuse mirror pdf_direction]; now rewrite O|].
  split; [exists [vscale (/ PI) half_color; grey 1; vscale (/ PI) v0]; unfold vals, es; cbn [map fst snd diffuse mirror eval]; now rewrite O|].
  destruct (sample_direction (diffuse half_color None) (V2 0 0) 0 pt0 up 0 LE) as [[[wo k]|]| |] eqn:Sd;
    cbn [diffuse sample_direction] in Sd; destruct (sp_basis pt0 up pt0_ok) as (n & u & v & Eb & F & _ & N & Pn); rewrite Eb in Sd; try discriminate.
  assert (Ew : wo = vadd (vadd (vscale (vx (sample_cosine_weighted (V2 0 0))) u) (vscale (vy (sample_cosine_weighted (V2 0 0))) v)) (vscale (vz (sample_cosine_weighted (V2 0 0))) n)) by now injection Sd.
  assert (Ow : opposite (geo pt0) up wo = false).
  { assert (Z : vz (sample_cosine_weighted (V2 0 0)) = 1).
    { cbn. rewrite !safe_sqrt_sqrt. rewrite sqrt_0. replace (1 - _ - _) with 1 by ring. apply sqrt_1. }
    destruct (frame_comb u v n (vx (sample_cosine_weighted (V2 0 0))) (vy (sample_cosine_weighted (V2 0 0))) (vz (sample_cosine_weighted (V2 0 0))) F) as [Dn _].
    rewrite <- Ew, Z in Dn. assert (U1 : dot up (sn (geo pt0)) = 1) by (unfold dot; cbn; ring).
    unfold opposite. destruct (Rle_dec _ 0) as [L|]; [exfalso|reflexivity]. rewrite U1 in *. specialize (Pn ltac:(lra)). destruct N as [-> | ->]; rewrite ?dot_neg_r in *; lra. }
  exists wo. cbn [mixture_marginalized sample_direction].
  assert (Gs : groups es = [[(diffuse half_color None, 1); (diffuse v0 None, 3)]; [(mirror, 2)]]) by reflexivity.
  rewrite Gs. change 0%Z with (Z.of_nat 0) at 1. rewrite at_index_nat. cbn [nth_error fbind map snd]. rewrite weights_dist_made.
  assert (Sa : sample (made_of [1; 3]) (Some 0) = Ok 0%Z).
  { apply (proj1 (DistProps.C31_interval [1; 3] 0 0 ltac:(intros x [<-|[<-|[]]]; lra) ltac:(cbn; lra) ltac:(cbn; lia) ltac:(lra))). cbn. lra. }
  rewrite Sa. cbn [of_outcome fbind]. change 0%Z with (Z.of_nat 0) at 1. rewrite at_index_nat. cbn [nth_error fbind].
  cbn [diffuse sample_direction]. rewrite Eb. fold (diffuse half_color None). cbv zeta. rewrite <- Ew. cbn [fbind group_eval diffuse eval]. rewrite Ow. cbn [fbind].
  rewrite (marginal_pdf_acc _ _ _ _ _ _ 0 0 [1 / 4; 3 / 4] [1 / PI; 1 / PI]).
  - cbn [fbind]. unfold vdiv. destruct (Req_EM_T _ 0) as [Z|]; [|eexists; reflexivity]. exfalso. cbn in Z. pose proof PI_RGT_0. pose proof (Rinv_0_lt_compat _ H). lra.
  - unfold vals. cbn [length seq map]. change (0 + Z.of_nat 0)%Z with (Z.of_nat 0). change (0 + Z.of_nat 1)%Z with (Z.of_nat 1). rewrite !pmf_in by (cbn; (lra || lia)). cbn [of_num nth]. repeat f_equal; cbn; field.
  - unfold vals. cbn [map fst diffuse pdf_direction]. now rewrite Ow.
Qed.

(** Glass as an entry of a mixture never refracts: only its component 0 is used. *)
Theorem C43_glass_in_mixture_refuted : ~ (forall Ni g wi ud udc dir wo w, 0 < Ni -> surface_point g -> unit wi ->
  sample_direction (glass Ni) ud udc g wi 1 dir = Val (Some (wo, w)) ->
  exists c w', sample_direction (mixture_rr [(glass Ni, 1)]) ud udc g wi c dir = Val (Some (wo, w'))).
Proof.
  intros H. destruct (glass_fr_ok 1 pt0 up ltac:(lra) pt0_ok up_unit) as (wt & Fr & E & R & Sn).
  assert (Et : wt = vneg up).
  { unfold glass_fr in E. rewrite glass_side_eq in E by lra. assert (D : dot up (sn (geo pt0)) = 1) by (unfold dot; cbn; ring).
    destruct (Rlt_dec 0 (dot up (sn (geo pt0)))) as [L|L]; [|lra]. cbn [fbind] in E. unfold refraction in E. rewrite D in E.
    destruct (Rle_dec _ 0) as [L'|L']; [rewrite Rinv_1 in L'; lra|]. fb E. injection E as <- _ _. rewrite Rinv_1, safe_sqrt_sqrt. replace (1 - 1 * 1 * (1 - 1 * 1)) with 1 by ring. rewrite sqrt_1.
    unfold up. cbn. unfold vneg, vsub, vscale. cbn. f_equal; ring. }
  assert (S1 : sample_direction (glass 1) (V2 0 0) 0 pt0 up 1 LE = Val (Some (wt, grey (1 - Fr)))).
  { cbn [glass sample_direction]. change (1 =? 0)%Z with false. cbv iota. unfold glass_eval. rewrite E. cbn [fbind]. change (1 =? 0)%Z with false. cbv iota. cbn [fbind refr_correction glass_pdf].
    unfold vdiv. destruct (Req_EM_T 1 0); [lra|]. cbn [fbind]. do 3 f_equal. rewrite Rinv_1. unfold grey, vscale. cbn. f_equal; ring. }
  destruct (H _ _ _ _ _ _ _ _ Rlt_0_1 pt0_ok up_unit S1) as (c & w' & S2). cbn [mixture_rr sample_direction] in S2. rewrite at_index_one in S2.
  destruct (c =? 0)%Z; [|discriminate]. cbn [fbind glass sample_direction] in S2. change (0 =? 0)%Z with true in S2. cbv iota in S2. repeat fb S2. destruct a as [[wo sw]|]; [|discriminate].
  repeat fb E0. injection E0 as E0 _. injection S2 as S2 _. rewrite S2, Et in E0. unfold reflection, up in E0. cbn in E0. injection E0 as _ _ E0. unfold dot in E0. cbn in E0. lra.
Qed.
Print Assumptions C43_glass_in_mixture_refuted.

(** A marginalized mixture inside another one uses the same random number for both choices: here the
    glossy entry is never sampled although it has a quarter of the reported density. *)
Theorem C43_nested_refuted : exists es, nonneg (map snd es) /\ rsum (map snd es) = 1 /\
  let D := diffuse half_color None in let G := glossy half_color 1 1 in let M := mixture_marginalized es in
  (forall ud udc g wi dir wo w, 0 <= udc < 1 -> sample_direction M ud udc g wi 0 dir = Val (Some (wo, w)) ->
     exists w', sample_direction D ud udc g wi 0 dir = Val (Some (wo, w')))
  /\ (forall g wi wo pd pg, pdf_direction D g wi wo 0 false = Val pd -> pdf_direction G g wi wo 0 false = Val pg ->
     pdf_direction M g wi wo 0 false = Val (3 / 4 * pd + 1 / 4 * pg)).
Proof.
  set (D := diffuse half_color None). set (G := glossy half_color 1 1). set (I := mixture_marginalized [(G, 1 / 2); (D, 1 / 2)]).
  assert (Nn : forall m1 m2 : material, nonneg (map snd [(m1, 1 / 2); (m2, 1 / 2)])) by (intros m1 m2 x [<-|[<-|[]]]; cbn; lra).
  assert (Rs : rsum [1 / 2; 1 / 2] = 1) by (cbn; field).
  assert (SI : smooth [(G, 1 / 2); (D, 1 / 2)] = [(G, 1 / 2); (D, 1 / 2)]) by reflexivity.
  assert (SM : smooth [(D, 1 / 2); (I, 1 / 2)] = [(D, 1 / 2); (I, 1 / 2)]) by reflexivity.
  exists [(D, 1 / 2); (I, 1 / 2)]. split; [apply Nn|]. split; [exact Rs|]. cbn zeta. split.
  - intros ud udc g wi dir wo w Hu H. apply marg_sample0 in H; [|apply Nn|rewrite SM; cbn [map snd]; lra|assumption]. rewrite SM in H. cbn [map snd] in H. rewrite Rs in H.
    destruct H as (i & m & k & sw & En & _ & Iv & Sd). destruct i as [|[|i]]; [|clear Rs|destruct i; discriminate].
    + injection En as <- <-. eauto.
    + injection En as <- <-. cbn [firstn] in Iv. assert (Iv1 : 1 / 2 <= udc) by (cbn in Iv; lra). unfold I in Sd. apply marg_sample0 in Sd; [|apply Nn|rewrite SI; cbn; lra|assumption].
      rewrite SI in Sd. destruct Sd as (j & m & k & sw' & En & _ & Iv' & Sd). destruct j as [|[|j]]; [exfalso| |destruct j; discriminate].
      * injection En as <- <-. cbn in Iv'. lra.
      * injection En as <- <-. eauto.
  - intros g wi wo pd pg Ed Eg.
    assert (EI : pdf_direction I g wi wo 0 false = Val (1 / 2 * pg + 1 / 2 * pd)).
    { unfold I. rewrite (marg_pdf0 _ g wi wo false [pg; pd]); [|apply Nn|rewrite SI; cbn; lra|rewrite SI; unfold vals; cbn [map fst]; now rewrite Eg, Ed].
      rewrite SI. cbn [map snd]. rewrite Rs. f_equal. cbn. field. }
    rewrite (marg_pdf0 _ g wi wo false [pd; 1 / 2 * pg + 1 / 2 * pd]); [|apply Nn|rewrite SM; cbn; lra|rewrite SM; unfold vals; cbn [map fst]; now rewrite Ed, EI].
    rewrite SM. cbn [map snd]. rewrite Rs. f_equal. cbn. field.
Qed.
Print Assumptions C43_nested_refuted.

(** ** C61 *)
Theorem C61_reciprocity : forall m c, reflecting m -> reciprocal m c.
Proof. exact recip_all. Qed.
Print Assumptions C61_reciprocity.

Theorem C61_nonnegative : forall m c, reflecting m -> value_nonneg m c /\ pdf_nonneg m c.
Proof. intros m c H. split; [now apply nonneg_all|now apply pdf_nonneg_all]. Qed.
Print Assumptions C61_nonnegative.

(** Diffuse and glossy surfaces have a value and a density for all pairs of directions (no division by
    zero); the density is positive exactly for directions on the same side. *)
Theorem C61_defined : forall Kd map Ks ax ay g wi wo c dir delta, color_ok Kd -> map_ok map -> color_ok Ks -> 0 < ax -> 0 < ay ->
  surface_point g -> unit wi -> unit wo -> forall m, m = diffuse Kd map \/ m = glossy Ks ax ay ->
  exists f p, eval m g wi wo c dir delta = Val f /\ pdf_direction m g wi wo c delta = Val p
    /\ (0 < p <-> 0 < dot wi (sn (geo g)) * dot wo (sn (geo g))) /\ (dot wi (sn (geo g)) * dot wo (sn (geo g)) <= 0 -> f = v0).
Proof.
  intros Kd map Ks ax ay g wi wo c dir delta Hk Hm Hs A B Hg Hi Ho m [-> | ->].
  - cbn. unfold opposite. destruct (Rle_dec _ 0); do 2 eexists; (split; [reflexivity|]; split; [reflexivity|]); split.
    + lra.
    + auto.
    + split; [lra|]. intros _. apply Rmult_lt_0_compat; [lra|]. apply Rinv_0_lt_compat, PI_RGT_0.
    + intros; contradiction.
  - destruct (glossy_eval_ok Ks ax ay g wi wo Hs A B Hg Hi Ho) as (f & Ef & _). destruct (glossy_pdf_ok ax ay g wi wo A B Hg Hi Ho) as (p & Ep & _ & Pp).
    cbn [glossy eval pdf_direction]. exists f, p. split; [assumption|]. split; [assumption|]. unfold glossy_eval, glossy_pdf, opposite in *. destruct (Rle_dec _ 0).
    + injection Ep as <-. injection Ef as <-. split; [lra|auto].
    + split; [|intros; contradiction]. split; [lra|]. intros _. now apply Pp.
Qed.
Print Assumptions C61_defined.

(** Glass splits the incoming energy: the values of its two components sum to one (for light transport;
    for importance transport the refracted part is scaled by the squared relative index). *)
Theorem C61_glass_energy : forall Ni g wi wo, 0 < Ni -> surface_point g -> unit wi ->
  exists r t, eval (glass Ni) g wi wo 0 LE false = Val (grey r) /\ eval (glass Ni) g wi wo 1 LE false = Val (grey t)
    /\ 0 <= r /\ 0 <= t /\ r + t = 1
    /\ let eta := if Rlt_dec 0 (dot wi (sn (geo g))) then / Ni else Ni in
       eval (glass Ni) g wi wo 0 EL false = Val (grey r) /\ eval (glass Ni) g wi wo 1 EL false = Val (grey (t * (eta * eta))).
Proof.
  intros Ni g wi wo HN Hg Hw. destruct (glass_fr_ok Ni g wi HN Hg Hw) as (wt & Fr & E & R & _). exists Fr, (1 - Fr).
  cbn [glass eval]. unfold glass_eval. rewrite E. cbn. rewrite Rmult_1_r. repeat split; lra.
Qed.
Print Assumptions C61_glass_energy.

Example C61_example : reflecting (mixture_marginalized [(diffuse half_color None, 1); (mixture_obj half_color None half_color 1 (1 / 2) true, 2); (glossy half_color 1 1, 0)])
  /\ surface_point pt0 /\ unit up /\ 0 < dot up (sn (geo pt0)) * dot up (sn (geo pt0)).
Proof.
  split; [|split; [exact pt0_ok|split; [exact up_unit|unfold dot; cbn; lra]]]. apply r_marg. intros m w [[= <- <-]|[[= <- <-]|[[= <- <-]|[]]]]; (split; [|lra]); constructor; try exact half_color_ok; try exact I; lra.
Qed.

(** ** C62 *)
(** Mirrors and the reflection of glass obey the law of reflection, masks let the ray pass, and glass
    refracts by Snell's law towards the other side whenever its refraction has a positive probability. *)
Theorem C62_reflection : forall g wi ud udc dir wo w, surface_point g -> unit wi ->
  sample_direction mirror ud udc g wi 0 dir = Val (Some (wo, w)) \/ (exists Ni, sample_direction (glass Ni) ud udc g wi 0 dir = Val (Some (wo, w))) ->
  unit wo /\ dot wo (sn (geo g)) = dot wi (sn (geo g)) /\ tangential wo (sn (geo g)) = vneg (tangential wi (sn (geo g))).
Proof.
  intros g wi ud udc dir wo w Hg Hw H. pose proof (sp_normal g Hg) as Hn.
  assert (wo = reflection wi (sn (geo g))) as ->.
  { destruct H as [H|[Ni H]]; [cbn in H; now injection H|]. cbn [glass sample_direction] in H. change (0 =? 0)%Z with true in H. cbv iota in H. fb H. fb H. now injection H. }
  split; [unfold unit; now rewrite reflection_len|]. split; [now apply dot_reflection|now apply reflection_tangential].
Qed.
Print Assumptions C62_reflection.

Theorem C62_pass : forall g wi ud udc c dir, sample_direction mask ud udc g wi c dir = Val (Some (vneg wi, grey 1)).
Proof. reflexivity. Qed.
Print Assumptions C62_pass.

Theorem C62_refraction : forall Ni g wi ud udc dir p, 0 < Ni -> surface_point g -> unit wi ->
  pdf_component (glass Ni) 1 g wi = Val p -> 0 < p ->
  let '(n, eta) := if Rlt_dec 0 (dot wi (sn (geo g))) then (sn (geo g), / Ni) else (vneg (sn (geo g)), Ni) in
  exists wt w, sample_direction (glass Ni) ud udc g wi 1 dir = Val (Some (wt, w)) /\ snell wi n eta wt.
Proof.
  intros Ni g wi ud udc dir p HN Hg Hw Ep P. destruct (glass_fr_ok Ni g wi HN Hg Hw) as (wt & Fr & E & R & Sn).
  cbn [glass pdf_component] in Ep. rewrite E in Ep. cbn in Ep. injection Ep as <-. specialize (Sn ltac:(lra)). unfold side_normal, side_eta in *.
  assert (S1 : exists w, sample_direction (glass Ni) ud udc g wi 1 dir = Val (Some (wt, w))).
  { cbn [glass sample_direction]. change (1 =? 0)%Z with false. cbv iota. unfold glass_eval. rewrite E. cbn [fbind]. change (1 =? 0)%Z with false. cbv iota. cbn [fbind glass_pdf].
    unfold vdiv. destruct (Req_EM_T 1 0); [lra|]. cbn [fbind]. eexists. reflexivity. }
  destruct S1 as [w S1]. destruct (Rlt_dec 0 (dot wi (sn (geo g)))); exists wt, w; auto.
Qed.
Print Assumptions C62_refraction.

(** The other materials and their mixtures give unit directions on the side of the incoming one. *)
Theorem C62_same_side : forall m c ud udc g wi dir wo w, reflecting m -> in_square ud -> surface_point g -> unit wi ->
  sample_direction m ud udc g wi c dir = Val (Some (wo, w)) ->
  unit wo /\ (is_specular m c = false -> 0 <= dot wi (sn (geo g)) * dot wo (sn (geo g))).
Proof. intros m c ud udc g wi dir wo w H. now apply direction_all. Qed.
Print Assumptions C62_same_side.

Example C62_example : exists p, 0 < p /\ pdf_component (glass 1) 1 pt0 up = Val p /\ reflecting (diffuse half_color None)
  /\ in_square (V2 0 0) /\ exists wo w, sample_direction (diffuse half_color None) (V2 0 0) 0 pt0 up 0 LE = Val (Some (wo, w)).
Proof.
  exists 1. split; [lra|]. split.
  - cbn [glass pdf_component]. unfold glass_fr. rewrite glass_side_eq by lra. assert (D : dot up (sn (geo pt0)) = 1) by (unfold dot; cbn; ring). rewrite D.
    destruct (Rlt_dec 0 1) as [L|L]; [|lra]. cbn [fbind]. unfold refraction. rewrite D. destruct (Rle_dec _ 0) as [L'|L']; [rewrite Rinv_1 in L'; lra|].
    unfold fresnel. rewrite D. destruct (Rlt_dec 0 1); [|lra]. unfold rdiv. rewrite fdiv_ok by lra. cbn [fbind]. change (1 =? 0)%Z with false. cbv iota. f_equal. field.
  - split; [constructor; [exact half_color_ok|exact I]|]. split; [unfold in_square; cbn; lra|]. cbn [diffuse sample_direction]. destruct (basis_twosided (geo pt0) up) as [[n u] v]. do 2 eexists. reflexivity.
Qed.
