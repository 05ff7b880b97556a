From Coq Require Import List Reals ZArith Bool Lia Lra ZifyBool.
From Verif Require Import Base RBase VecBase GeoModel SurfModel SurfSpec SurfProofs SurfWarpProofs DistModel DistSpec DistProofs DistProps MatModel MatSpec.
Import ListNotations.
Open Scope R_scope.

Lemma fbind_val {A B} (x : fl A) (f : A -> fl B) b : fbind x f = Val b -> exists a, x = Val a /\ f a = Val b.
Proof. destruct x; cbn; try discriminate. eauto. Qed.
Ltac fb H := let a := fresh "a" in let E := fresh "E" in apply fbind_val in H; destruct H as (a & E & H).

Lemma vdiv_val f p w : vdiv f p = Val w -> p <> 0 /\ vscale p w = f.
Proof.
  unfold vdiv. destruct (Req_EM_T p 0) as [|N]; [discriminate|]. intros [= <-]. split; [assumption|].
  vcomp; rewrite <- Rmult_assoc, Rinv_r by assumption; ring.
Qed.

(** ** Weights *)
Lemma w_diffuse Kd map c : weight_consistent (diffuse Kd map) c.
Proof.
  intros ud udc g wi dir wo w. cbn [diffuse sample_direction eval pdf_direction].
  destruct (basis_twosided (geo g) wi) as [[n u] v]. intros [= <- <-].
  destruct (opposite _ _ _); do 2 eexists; (split; [reflexivity|]; split; [reflexivity|]).
  - vring.
  - unfold Rdiv. rewrite Rmult_1_l. reflexivity.
Qed.
Lemma w_glossy Ks ax ay c : weight_consistent (glossy Ks ax ay) c.
Proof.
  intros ud udc g wi dir wo w. cbn [glossy sample_direction eval pdf_direction].
  destruct (basis_twosided (geo g) wi) as [[n u] v]. intros H. fb H. fb H. destruct (opposite _ _ _); [discriminate|]. fb H. fb H. fb H.
  injection H as <- <-. apply vdiv_val in E3. do 2 eexists. split; [eassumption|]. split; [eassumption|]. apply E3.
Qed.
Lemma w_one (m : material) c : (forall g wi wo dir, eval m g wi wo c dir false = Val (grey 1) /\ pdf_direction m g wi wo c false = Val 1) ->
  (forall ud udc g wi dir wo w, sample_direction m ud udc g wi c dir = Val (Some (wo, w)) -> w = grey 1) -> weight_consistent m c.
Proof. intros H Hw ud udc g wi dir wo w S. apply Hw in S. subst. destruct (H g wi wo dir) as [-> ->]. do 2 eexists. repeat split. unfold grey. vring. Qed.
Lemma w_glass Ni c : weight_consistent (glass Ni) c.
Proof.
  intros ud udc g wi dir wo w. cbn [glass sample_direction eval pdf_direction]. intros H.
  assert (exists f, glass_eval Ni g wi c dir false = Val f /\ vdiv f (glass_pdf false) = Val w) as (f & E & W).
  { destruct (c =? 0)%Z; repeat fb H; try (destruct a as [[? ?] ?]; repeat fb H); injection H as <- <-; eauto. }
  apply vdiv_val in W. do 2 eexists. split; [eassumption|]. split; [reflexivity|]. apply W.
Qed.
Lemma w_proxy m c : weight_consistent m c -> weight_consistent (proxy m) c.
Proof. intros H. exact H. Qed.

Lemma at_index_in {A} (l : list A) c a : at_index l c = Val a -> In a l.
Proof. unfold at_index. destruct (c <? 0)%Z; [discriminate|]. destruct (nth_error l _) eqn:E; [|discriminate]. intros [= <-]. eapply nth_error_In; eauto. Qed.
Lemma at_index_nat {A} (l : list A) i : at_index l (Z.of_nat i) = match nth_error l i with Some a => Val a | None => Undefined end.
Proof. unfold at_index. destruct (Z.of_nat i <? 0)%Z eqn:E; [lia|]. now rewrite Nat2Z.id. Qed.

Lemma w_rr es c : (forall m w, In (m, w) es -> weight_consistent m 0) -> weight_consistent (mixture_rr es) c.
Proof.
  intros IH ud udc g wi dir wo w. cbn [mixture_rr sample_direction eval pdf_direction]. intros H. fb H. destruct a as [m k]. fb H.
  destruct a as [[wo' sw]|]; [|discriminate]. injection H as -> <-. rewrite E. cbn [fbind].
  apply at_index_in in E. destruct (IH _ _ E ud udc g wi dir wo sw E0) as (f & p & -> & -> & <-). do 2 eexists. split; [reflexivity|]. split; [reflexivity|].
  vring.
Qed.
Lemma w_marg es c : weight_consistent (mixture_marginalized es) c.
Proof.
  intros ud udc g wi dir wo w. cbn [mixture_marginalized sample_direction eval pdf_direction]. cbv zeta. intros H. fb H. fb H. fb H. destruct a1 as [m k]. fb H.
  destruct a1 as [[wo' sw]|]; [|discriminate]. fb H. fb H. fb H. injection H as -> <-. rewrite E. cbn [fbind]. apply vdiv_val in E5.
  do 2 eexists. split; [eassumption|]. split; [eassumption|]. apply E5.
Qed.
Lemma w_obj Kd map Ks ax ay mk : weight_consistent (mixture_obj Kd map Ks ax ay mk) 0.
Proof.
  intros ud udc g wi dir wo w. unfold mixture_obj. cbn [sample_direction eval pdf_direction]. rewrite Z.eqb_refl. intros H.
  apply fbind_val in H. destruct H as (q & Eq & H). apply fbind_val in H. destruct H as (s & Es & H). destruct s as [[wo' sw]|]; [|discriminate].
  apply fbind_val in H. destruct H as (f & Ef & H). apply fbind_val in H. destruct H as (p & Ep & H). apply fbind_val in H. destruct H as (k & Ek & H).
  injection H as -> <-. apply vdiv_val in Ek. exists f, p. split; [assumption|]. split; [assumption|]. apply Ek.
Qed.

Lemma weights_ok b m c : built b m -> b = false \/ c = 0%Z -> weight_consistent m c.
Proof.
  intros B. revert c. revert b m B. fix IH 3. intros b m [ | | | | | b' m' B | es B | es B | ] c Hc.
  - apply w_diffuse.
  - apply w_glossy.
  - apply w_one; [split; reflexivity|]. cbn. now intros; injection H as _ <-.
  - apply w_one; [split; reflexivity|]. cbn. now intros; injection H as _ <-.
  - apply w_glass.
  - apply w_proxy. now apply (IH b').
  - apply w_rr. intros m1 w Hi. destruct (B m1 w Hi) as [b1 B1]. apply (IH b1 m1 B1). now right.
  - apply w_marg.
  - destruct Hc as [Hc|Hc]; [discriminate|]. subst c. apply w_obj.
Qed.

(** ** Selection *)
Lemma selects_one m : sample_component m = one_component -> pdf_component m = one_pdf -> forall g wi, selects [1] (fun u => sample_component m u g wi) (fun c => pdf_component m c g wi).
Proof.
  intros -> -> g wi. split; [intros x [<-|[]]; lra|]. split; [cbn; lra|]. split.
  - intros i Hi. cbn in Hi. assert (i = 0)%nat by lia. subst. reflexivity.
  - intros u Hu. exists 0%nat. cbn. split; [lia|]. split; [unfold one_component; now rewrite Rinv_1|]. lra.
Qed.
Lemma selects_two a (pick : R -> fl (Z * R)) prob : 0 <= a <= 1 ->
  (forall u, pick u = if Rlt_dec u a then do w <- rdiv 1 a; Val (0%Z, w) else do w <- rdiv 1 (1 - a); Val (1%Z, w)) ->
  (forall c, prob c = Val (if (c =? 0)%Z then a else 1 - a)) -> selects [a; 1 - a] pick prob.
Proof.
  intros Ha Hp Hq. split; [intros x [<-|[<-|[]]]; lra|]. split; [cbn; lra|]. split.
  - intros i Hi. rewrite Hq. cbn in Hi. destruct i as [|[|i]]; [reflexivity|reflexivity|lia].
  - intros u Hu. rewrite Hp. destruct (Rlt_dec u a) as [L|L].
    + exists 0%nat. split; [cbn; lia|]. unfold rdiv. rewrite fdiv_ok by lra. cbn. unfold Rdiv. rewrite Rmult_1_l. repeat split; lra.
    + exists 1%nat. split; [cbn; lia|]. unfold rdiv. rewrite fdiv_ok by lra. cbn. unfold Rdiv. rewrite Rmult_1_l. repeat split; lra.
Qed.

Lemma weights_dist_made ws : weights_dist ws = made_of ws.
Proof. unfold weights_dist, made_of. f_equal. generalize empty_dist. induction ws as [|w ws IH]; intros d; cbn; auto. Qed.

Lemma rsum_map_div l k : rsum (map (fun w => w / k) l) = rsum l / k.
Proof. unfold rsum. induction l as [|x l IH]; cbn; [unfold Rdiv; ring|]. rewrite IH. unfold Rdiv. ring. Qed.
Lemma nth_map_div l k i : nth i (map (fun w => w / k) l) 0 = nth i l 0 / k.
Proof. replace 0 with (0 / k) at 1 by (unfold Rdiv; ring). exact (map_nth (fun w => w / k) l 0 i). Qed.

Lemma selects_dist ws : nonneg ws -> 0 < rsum ws ->
  selects (map (fun w => w / rsum ws) ws) (select (weights_dist ws)) (fun c => of_num (pmf (weights_dist ws) c)).
Proof.
  intros Hn Hp. rewrite weights_dist_made. split; [|split; [|split]].
  - intros x Hx. apply in_map_iff in Hx. destruct Hx as (w & <- & Hw). apply Rmult_le_pos; [now apply Hn|]. left. now apply Rinv_0_lt_compat.
  - rewrite rsum_map_div. field. lra.
  - intros i Hi. rewrite map_length in Hi. rewrite pmf_in by (auto; lra). cbn [of_num]. now rewrite nth_map_div.
  - intros u Hu. destruct (C31_sample ws u Hn Hp Hu) as (i & Hi & E & P). exists i. rewrite map_length, nth_map_div. split; [assumption|].
    assert (Q : 0 < nth i ws 0 / rsum ws) by (apply Rmult_lt_0_compat; [assumption|now apply Rinv_0_lt_compat]).
    split; [|split; [assumption|]].
    + unfold select. rewrite E. cbn [of_outcome fbind]. rewrite pmf_in by (auto; lra). cbn [of_num fbind]. unfold rdiv. rewrite fdiv_ok by lra. cbn. unfold Rdiv at 1. now rewrite Rmult_1_l.
    + rewrite firstn_map, rsum_map_div. apply (C31_interval ws i u Hn Hp Hi Hu). assumption.
Qed.

(** ** Groups of the marginalized mixture *)
Lemma smooth_app a b : smooth (a ++ b) = smooth a ++ smooth b.
Proof. apply filter_app. Qed.
Lemma groups_eq es : groups es = smooth es :: map (fun e => [e]) (spiky es).
Proof.
  induction es as [|e es IH] using rev_ind; [reflexivity|]. unfold groups in *. rewrite fold_left_app, IH. cbn [fold_left]. unfold add_entry, smooth, spiky.
  rewrite !filter_app. cbn [filter]. destruct (is_specular (fst e) 0); cbn [negb].
  - rewrite app_nil_r, map_app. reflexivity.
  - rewrite app_nil_r. reflexivity.
Qed.
Lemma weight_sum_acc l a : fold_left (fun s (e : entry_) => s + snd e) l a = a + rsum (map snd l).
Proof. revert a. unfold rsum. induction l as [|e l IH]; intros a; cbn; [ring|]. rewrite IH. ring. Qed.
Lemma weight_sum_eq l : weight_sum l = rsum (map snd l).
Proof. unfold weight_sum. rewrite weight_sum_acc. ring. Qed.
Lemma split_sum es : rsum (map snd (smooth es)) + rsum (map snd (spiky es)) = rsum (map snd es).
Proof. unfold rsum, smooth, spiky. induction es as [|e es IH]; cbn; [ring|]. destruct (is_specular (fst e) 0); cbn; lra. Qed.
Definition group_weights (es : list (material * R)) : list R := rsum (map snd (smooth es)) :: map snd (spiky es).
Lemma group_weights_eq es : map weight_sum (groups es) = group_weights es.
Proof.
  rewrite groups_eq. cbn [map]. unfold group_weights. f_equal; [apply weight_sum_eq|]. rewrite map_map. apply map_ext. intros e. rewrite weight_sum_eq. cbn. ring.
Qed.
Lemma filter_nonneg (f : entry_ -> bool) es : nonneg (map snd es) -> nonneg (map snd (filter f es)).
Proof. intros H x Hx. apply in_map_iff in Hx. destruct Hx as (e & <- & He). apply filter_In in He. apply H, in_map, He. Qed.
Lemma group_weights_ok es : nonneg (map snd es) -> nonneg (group_weights es) /\ rsum (group_weights es) = rsum (map snd es).
Proof.
  intros H. split; [|apply split_sum]. intros x [<-|Hx]; [apply rsum_nonneg, filter_nonneg, H|]. revert x Hx. apply (filter_nonneg _ es H).
Qed.

(** The density of a group. *)
Lemma marginal_pdf_acc d grp g wi wo delta : forall i acc ps qs,
  vals (map (fun k => of_num (pmf d (i + Z.of_nat k))) (seq 0 (length grp))) ps ->
  vals (map (fun e => pdf_direction (fst e) g wi wo 0 delta) grp) qs ->
  marginal_pdf d grp i g wi wo delta acc = Val (acc + rsum (map (fun pq => fst pq * snd pq) (combine ps qs))).
Proof.
  unfold vals. induction grp as [|[m w] grp IH]; intros i acc ps qs Hp Hq.
  - destruct ps, qs; try discriminate. cbn. f_equal. unfold rsum. cbn. ring.
  - destruct ps as [|p ps], qs as [|q qs]; try discriminate. cbn [map fst seq length] in *. injection Hp as Hp Hp'. injection Hq as Hq Hq'.
    cbn [marginal_pdf]. rewrite Z.add_0_r in Hp. rewrite Hp, Hq. cbn [fbind]. rewrite (IH (i + 1)%Z _ ps qs); auto.
    + f_equal. unfold rsum. cbn. ring.
    + rewrite <- Hp', <- seq_shift, map_map. apply map_ext. intros k. do 2 f_equal. lia.
Qed.
Lemma group_eval_acc grp g wi wo dir delta : forall acc fs, vals (map (fun e => eval (fst e) g wi wo 0 dir delta) grp) fs ->
  group_eval grp g wi wo dir delta acc = Val (vadd acc (vsum (map (fun ef => vscale (snd (fst ef)) (snd ef)) (combine grp fs)))).
Proof.
  unfold vals. induction grp as [|[m w] grp IH]; intros acc fs H.
  - destruct fs; [|discriminate]. cbn. f_equal. symmetry. apply vadd_0_r.
  - destruct fs as [|f fs]; [discriminate|]. cbn [map fst] in H. injection H as Hf H. cbn [group_eval]. rewrite Hf. cbn [fbind]. rewrite (IH _ fs H). f_equal. cbn. now rewrite vadd_assoc.
Qed.
Lemma group_eval_inv grp g wi wo dir delta : forall acc f, group_eval grp g wi wo dir delta acc = Val f ->
  exists fs, vals (map (fun e => eval (fst e) g wi wo 0 dir delta) grp) fs.
Proof.
  unfold vals. induction grp as [|[m w] grp IH]; intros acc f H; [now exists []|]. cbn [group_eval] in H. fb H. apply IH in H. destruct H as [fs H].
  exists (a :: fs). cbn [map fst]. now rewrite E, H.
Qed.

Lemma vals_at {A} l (xs : list A) i : vals l xs -> nth_error l i = option_map Val (nth_error xs i).
Proof. unfold vals. intros ->. apply nth_error_map. Qed.

(** ** Vectors *)
Lemma unit_dot a b : unit a -> unit b -> -1 <= dot a b <= 1.
Proof.
  unfold unit. intros A B. pose proof (dot_self_nonneg (vsub a b)) as H. pose proof (dot_self_nonneg (vadd a b)) as H'.
  replace (dot (vsub a b) (vsub a b)) with (dot a a + dot b b - 2 * dot a b) in H by vring.
  replace (dot (vadd a b) (vadd a b)) with (dot a a + dot b b + 2 * dot a b) in H' by vring. lra.
Qed.
Lemma dot_neg_r a b : dot a (vneg b) = - dot a b. Proof. vring. Qed.
Lemma unit_neg a : unit a -> unit (vneg a). Proof. unfold unit. intros H. rewrite <- H. vring. Qed.
Lemma dot_scale_r a k b : dot a (vscale k b) = k * dot a b. Proof. vring. Qed.
Lemma dot_scale_l a k b : dot (vscale k a) b = k * dot a b. Proof. vring. Qed.
Lemma dot_add_l a b c : dot (vadd a b) c = dot a c + dot b c. Proof. vring. Qed.
Lemma dot_add_r a b c : dot c (vadd a b) = dot c a + dot c b. Proof. vring. Qed.

Lemma fnormalize_ok v : 0 < dot v v -> exists k, 0 < k /\ fnormalize v = Val (vscale k v) /\ unit (vscale k v).
Proof.
  intros H. assert (L : 0 < vlen v) by now apply sqrt_lt_R0. exists (/ vlen v). split; [now apply Rinv_0_lt_compat|]. split.
  - unfold fnormalize, vdiv. destruct (Req_EM_T (vlen v) 0); [lra|reflexivity].
  - unfold unit. rewrite dot_scale_l, dot_scale_r, <- vlen_sq. field. lra.
Qed.
Lemma fnormalize_unit v w : fnormalize v = Val w -> unit w.
Proof.
  intros H. destruct (Rle_lt_or_eq_dec 0 (dot v v) (dot_self_nonneg v)) as [P|P].
  - destruct (fnormalize_ok v P) as (k & _ & E & U). rewrite E in H. injection H as <-. assumption.
  - unfold fnormalize, vdiv, vlen in H. rewrite <- P, sqrt_0 in H. destruct (Req_EM_T 0 0); [discriminate|lra].
Qed.

Lemma sp_normal g : surface_point g -> unit (sn (geo g)).
Proof. intros (neg0 & p & n & gn & t & U & ->). cbn [geo]. destruct (surface_frame neg0 p n gn U) as [_ E]. now rewrite E. Qed.
Lemma sp_basis g wi : surface_point g -> exists n u v, basis_twosided (geo g) wi = (n, u, v) /\ frame u v n /\ 0 <= dot wi n
  /\ (n = sn (geo g) \/ n = vneg (sn (geo g))) /\ (dot wi (sn (geo g)) <> 0 -> 0 < dot wi n).
Proof.
  intros (neg0 & p & n & gn & t & U & ->). cbn [geo]. pose proof (twosided_ok neg0 p n gn wi U) as H. destruct (surface_frame neg0 p n gn U) as [_ E]. rewrite E.
  destruct (basis_twosided _ wi) as [[m u] v]. exists m, u, v. split; [reflexivity|]. tauto.
Qed.
Lemma opposite_sym s a b : opposite s a b = opposite s b a.
Proof. unfold opposite. now rewrite Rmult_comm. Qed.
Lemma not_opposite s a b : opposite s a b = false -> 0 < dot a (sn s) * dot b (sn s).
Proof. unfold opposite. destruct (Rle_dec _ 0); [discriminate|]. lra. Qed.
Lemma same_basis s a b : opposite s a b = false -> basis_twosided s a = basis_twosided s b.
Proof.
  intros H. apply not_opposite in H. unfold basis_twosided. destruct (Rlt_dec 0 (dot a (sn s))), (Rlt_dec 0 (dot b (sn s))); auto; exfalso; nra.
Qed.

(** ** Glass *)
Lemma glass_side_eq Ni g wi : 0 < Ni -> glass_side Ni g wi = if Rlt_dec 0 (dot wi (sn (geo g))) then Val (true, sn (geo g), / Ni) else Val (false, vneg (sn (geo g)), Ni).
Proof. intros H. unfold glass_side. destruct (Rlt_dec _ _); [|reflexivity]. unfold rdiv. rewrite fdiv_ok by lra. cbn. unfold Rdiv. now rewrite Rmult_1_l. Qed.
(** The normal on the side of [wi] and the relative index. *)
Definition side_normal (g : spoint) (wi : vec3) : vec3 := if Rlt_dec 0 (dot wi (sn (geo g))) then sn (geo g) else vneg (sn (geo g)).
Definition side_eta (Ni : R) (g : spoint) (wi : vec3) : R := if Rlt_dec 0 (dot wi (sn (geo g))) then / Ni else Ni.
Lemma pow5_range c : 0 <= c <= 1 -> 0 <= (1 - c) ^ 5 <= 1.
Proof.
  intros H. split; [apply pow_le; lra|]. rewrite <- (pow1 5). apply pow_incr. lra.
Qed.
Lemma fresnel_range Ni g wi wt : 0 < Ni -> 0 <= (if Rlt_dec 0 (dot wi (sn (geo g))) then dot wi (sn (geo g)) else dot wt (sn (geo g))) <= 1 ->
  exists Fr, fresnel Ni g wi wt = Val Fr /\ 0 <= Fr <= 1.
Proof.
  intros HN Hc. unfold fresnel, rdiv. rewrite fdiv_ok by lra. cbn [fbind]. eexists. split; [reflexivity|].
  set (c := if Rlt_dec _ _ then _ else _) in *. pose proof (pow5_range c Hc) as P. set (q := (1 - c) ^ 5) in *.
  set (r := (1 - Ni) / (1 + Ni)).
  assert (Hr : -1 <= r <= 1).
  { unfold r. split; apply (Rmult_le_reg_r (1 + Ni)); try lra; unfold Rdiv; rewrite Rmult_assoc, Rinv_l by lra; lra. }
  assert (0 <= r * r <= 1) by nra. nra.
Qed.
Lemma glass_fr_ok Ni g wi : 0 < Ni -> surface_point g -> unit wi ->
  exists wt Fr, glass_fr Ni g wi = Val (wt, Fr, side_eta Ni g wi) /\ 0 <= Fr <= 1 /\ (Fr < 1 -> snell wi (side_normal g wi) (side_eta Ni g wi) wt).
Proof.
  intros HN Hg Hw. pose proof (sp_normal g Hg) as Hn. unfold glass_fr. rewrite glass_side_eq by assumption. unfold side_normal, side_eta.
  destruct (Rlt_dec 0 (dot wi (sn (geo g)))) as [L|L]; cbn [fbind].
  - destruct (refraction wi (sn (geo g)) (/ Ni)) as [wt|] eqn:E.
    + destruct (fresnel_range Ni g wi wt HN) as (Fr & -> & R).
      { destruct (Rlt_dec _ _); [|contradiction]. pose proof (unit_dot _ _ Hw Hn). lra. }
      cbn [fbind]. do 2 eexists. split; [reflexivity|]. split; [assumption|]. intros _. now apply refraction_snell.
    + do 2 eexists. split; [reflexivity|]. split; [lra|]. lra.
  - destruct (refraction wi (vneg (sn (geo g))) Ni) as [wt|] eqn:E.
    + pose proof (refraction_snell _ _ _ _ Hw (unit_neg _ Hn) E) as Sn. destruct Sn as (U & D & T).
      destruct (fresnel_range Ni g wi wt HN) as (Fr & -> & R).
      { destruct (Rlt_dec _ _); [contradiction|]. pose proof (unit_dot _ _ U Hn). rewrite dot_neg_r in D. lra. }
      cbn [fbind]. do 2 eexists. split; [reflexivity|]. split; [assumption|]. intros _. now repeat split.
    + do 2 eexists. split; [reflexivity|]. split; [lra|]. lra.
Qed.
Lemma glass_selects Ni g wi : 0 < Ni -> surface_point g -> unit wi ->
  exists Fr, 0 <= Fr <= 1 /\ selects [Fr; 1 - Fr] (fun u => sample_component (glass Ni) u g wi) (fun c => pdf_component (glass Ni) c g wi).
Proof.
  intros HN Hg Hw. destruct (glass_fr_ok Ni g wi HN Hg Hw) as (wt & Fr & E & R & _). exists Fr. split; [assumption|].
  apply selects_two; [assumption| |].
  - intros u. cbn [glass sample_component]. rewrite E. cbn [fbind]. destruct (Rlt_dec u Fr); reflexivity.
  - intros c. cbn [glass pdf_component]. now rewrite E.
Qed.

(** ** Glossy *)
Lemma G1_ok ax ay u v n w : exists r, G1 ax ay u v n w = Val r /\ 0 <= r.
Proof.
  unfold G1. set (s := Rmax Eps _). assert (0 < s) by (apply (Rlt_le_trans _ Eps); [unfold Eps; lra|apply Rmax_l]).
  unfold rdiv. rewrite !(fdiv_ok _ s) by lra. cbn [fbind]. destruct (Req_EM_T (dot w n) 0); [exists 0; split; [reflexivity|lra]|].
  rewrite fdiv_ok by assumption. cbn [fbind]. set (q := safe_sqrt _). assert (0 <= q) by apply sqrt_pos. rewrite fdiv_ok by lra. eexists. split; [reflexivity|].
  apply Rmult_le_pos; [lra|]. left. apply Rinv_0_lt_compat. lra.
Qed.
Lemma shadowG_ok ax ay wi wo u v n : exists r, shadowG ax ay wi wo u v n = Val r /\ 0 <= r.
Proof.
  unfold shadowG. destruct (G1_ok ax ay u v n wi) as (a & -> & A). destruct (G1_ok ax ay u v n wo) as (b & -> & B). cbn. eexists. split; [reflexivity|]. nra.
Qed.
Lemma shadowG_sym ax ay wi wo u v n : shadowG ax ay wi wo u v n = shadowG ax ay wo wi u v n.
Proof.
  unfold shadowG. destruct (G1_ok ax ay u v n wi) as (a & -> & A). destruct (G1_ok ax ay u v n wo) as (b & -> & B). cbn. f_equal. ring.
Qed.
(** The half vector of directions on the same side. *)
Lemma half_vector g wi wo : surface_point g -> unit wi -> unit wo -> opposite (geo g) wi wo = false ->
  exists wh n u v, fnormalize (vadd wi wo) = Val wh /\ basis_twosided (geo g) wi = (n, u, v) /\ frame u v n /\ unit wh
    /\ 0 < dot wi n /\ 0 < dot wo n /\ 0 < dot wh n /\ 0 < dot wo wh <= 1 /\ dot wi wh = dot wo wh.
Proof.
  intros Hg Hi Ho H. pose proof (same_basis _ _ _ H) as SB. pose proof (not_opposite _ _ _ H) as P.
  destruct (sp_basis g wi Hg) as (n & u & v & E & F & _ & N & Pi). specialize (Pi ltac:(intros Z; rewrite Z in P; lra)).
  assert (Po : 0 < dot wo n) by (destruct N as [-> | ->]; rewrite ?dot_neg_r in *; nra).
  assert (S0 : 0 < dot (vadd wi wo) (vadd wi wo)).
  { destruct (Rle_lt_or_eq_dec _ _ (dot_self_nonneg (vadd wi wo))) as [Q|Q]; [assumption|]. exfalso.
    assert (Z0 : vadd wi wo = v0).
    { clear - Q. revert Q. generalize (vadd wi wo). intros [x y z] Q. unfold dot in Q. cbn in Q. pose proof (Rle_0_sqr x). pose proof (Rle_0_sqr y). pose proof (Rle_0_sqr z). unfold Rsqr in *.
      unfold v0. f_equal; apply Rsqr_0_uniq; unfold Rsqr; lra. }
    assert (dot (vadd wi wo) n = 0) by (rewrite Z0; vring). rewrite dot_add_l in H0. lra. }
  destruct (fnormalize_ok _ S0) as (k & K & Ek & U). exists (vscale k (vadd wi wo)), n, u, v.
  split; [assumption|]. split; [assumption|]. split; [assumption|]. split; [assumption|]. split; [assumption|]. split; [assumption|].
  rewrite dot_scale_l, dot_add_l. unfold unit in *. split; [apply Rmult_lt_0_compat; lra|].
  pose proof (unit_dot _ _ Ho U) as B.
  assert (S1 : dot (vadd wi wo) (vadd wi wo) = dot wi wi + dot wo wo + 2 * dot wi wo) by vring. rewrite Hi, Ho in S1.
  assert (B1 : forall k, dot wo (vscale k (vadd wi wo)) = k * (dot wi wo + dot wo wo)) by (intros; vring). rewrite B1, Ho in *.
  assert (B2 : forall k, dot wi (vscale k (vadd wi wo)) = k * (dot wi wo + dot wi wi)) by (intros; vring). rewrite B2, Hi.
  split; [split; [|apply B]|reflexivity]. apply Rmult_lt_0_compat; [assumption|]. lra.
Qed.
Lemma normal_dist_ok ax ay wh u v n : 0 < ax -> 0 < ay -> 0 < dot wh n -> exists D, normal_dist ax ay wh u v n = Val D /\ 0 < D.
Proof.
  intros A B H. unfold normal_dist, rdiv. rewrite !fdiv_ok by lra. cbn [fbind].
  set (s := dot wh u / ax * (dot wh u / ax) + dot wh v / ay * (dot wh v / ay) + dot wh n * dot wh n).
  assert (0 < s) by (pose proof (Rle_0_sqr (dot wh u / ax)); pose proof (Rle_0_sqr (dot wh v / ay)); pose proof (Rmult_lt_0_compat _ _ H H); unfold s, Rsqr in *; lra).
  pose proof PI_RGT_0.
  assert (0 < PI * ax * ay * (s * s)) by (apply Rmult_lt_0_compat; [apply Rmult_lt_0_compat; [apply Rmult_lt_0_compat|]|apply Rmult_lt_0_compat]; assumption). rewrite fdiv_ok by lra. eexists. split; [reflexivity|].
  apply Rmult_lt_0_compat; [lra|]. now apply Rinv_0_lt_compat.
Qed.
Lemma glossy_pdf_ok ax ay g wi wo : 0 < ax -> 0 < ay -> surface_point g -> unit wi -> unit wo ->
  exists p, glossy_pdf ax ay g wi wo = Val p /\ 0 <= p /\ (opposite (geo g) wi wo = false -> 0 < p).
Proof.
  intros A B Hg Hi Ho. unfold glossy_pdf. destruct (opposite (geo g) wi wo) eqn:E; [exists 0; split; [reflexivity|]; split; [lra|discriminate]|].
  destruct (half_vector g wi wo Hg Hi Ho E) as (wh & n & u & v & -> & -> & F & U & Pi & Po & Ph & Pc & _). cbn [fbind].
  destruct (normal_dist_ok ax ay wh u v n A B Ph) as (D & -> & PD). cbn [fbind]. unfold rdiv.
  assert (0 < 4 * dot wo wh * dot wo n) by (repeat apply Rmult_lt_0_compat; lra). rewrite fdiv_ok by lra. eexists. split; [reflexivity|].
  assert (0 < D * dot wh n / (4 * dot wo wh * dot wo n)) by (repeat apply Rmult_lt_0_compat; try lra; now apply Rinv_0_lt_compat). lra.
Qed.
Lemma fresnel_color_ok k a q : 0 <= k -> 0 <= a <= 1 -> 0 <= q -> 0 <= k * (a * (a + q * (1 - a))).
Proof. intros. apply Rmult_le_pos; [assumption|]. apply Rmult_le_pos; [lra|]. assert (0 <= q * (1 - a)) by (apply Rmult_le_pos; lra). lra. Qed.
Lemma glossy_eval_ok Ks ax ay g wi wo : color_ok Ks -> 0 < ax -> 0 < ay -> surface_point g -> unit wi -> unit wo ->
  exists f, glossy_eval Ks ax ay g wi wo = Val f /\ vnonneg f.
Proof.
  intros HK A B Hg Hi Ho. unfold glossy_eval. destruct (opposite (geo g) wi wo) eqn:E; [eexists; split; [reflexivity|]; cbv; lra|].
  destruct (half_vector g wi wo Hg Hi Ho E) as (wh & n & u & v & -> & -> & F & U & Pi & Po & Ph & Pc & _). cbn [fbind].
  destruct (normal_dist_ok ax ay wh u v n A B Ph) as (D & -> & PD). cbn [fbind].
  destruct (shadowG_ok ax ay wi wo u v n) as (G & -> & PG). cbn [fbind]. unfold rdiv.
  assert (0 < 4 * dot wi n * dot wo n) by (repeat apply Rmult_lt_0_compat; lra). rewrite fdiv_ok by lra. cbn [fbind]. eexists. split; [reflexivity|].
  assert (0 <= D * G / (4 * dot wi n * dot wo n)) by (repeat apply Rmult_le_pos; try lra; left; now apply Rinv_0_lt_compat).
  assert (0 <= (1 - dot wo wh) ^ 5) by (apply pow_le; lra). set (k := D * G / _) in *. set (q := (1 - dot wo wh) ^ 5) in *.
  destruct HK as ((? & ? & ?) & ? & ? & ?). destruct Ks as [a b c]. cbn [vx vy vz] in *. unfold vnonneg, vscale, vmul, vadd, vsub, grey. cbn [vx vy vz].
  repeat split; apply fresnel_color_ok; lra.
Qed.
Lemma glossy_recip Ks ax ay g wi wo : surface_point g -> unit wi -> unit wo -> glossy_eval Ks ax ay g wi wo = glossy_eval Ks ax ay g wo wi.
Proof.
  intros Hg Hi Ho. unfold glossy_eval. rewrite (opposite_sym _ wo wi). destruct (opposite (geo g) wi wo) eqn:E; [reflexivity|].
  rewrite (vadd_comm wo wi), <- (same_basis _ _ _ E).
  destruct (half_vector g wi wo Hg Hi Ho E) as (wh & n & u & v & -> & -> & F & U & Pi & Po & Ph & Pc & Eh). cbn [fbind]. rewrite Eh.
  destruct (normal_dist ax ay wh u v n); cbn [fbind]; auto. rewrite (shadowG_sym ax ay wo wi). destruct (shadowG ax ay wi wo u v n); cbn [fbind]; auto.
  replace (4 * dot wi n * dot wo n) with (4 * dot wo n * dot wi n) by ring. reflexivity.
Qed.

(** ** Mixtures of reflecting materials *)
Lemma reflecting_smooth m : reflecting m -> is_specular m 0 = false.
Proof.
  revert m. fix IH 2. intros m [ | | m' H | es H | es H | ]; try reflexivity.
  - apply (IH m' H).
  - cbn [mixture_rr is_specular]. change 0%Z with (Z.of_nat 0). rewrite at_index_nat. destruct es as [|[m' w] es]; [reflexivity|]. cbn. apply IH. apply (H m' w). now left.
Qed.
Lemma reflecting_groups es : (forall m w, In (m, w) es -> reflecting m /\ 0 <= w) -> groups es = [es].
Proof.
  intros H. rewrite groups_eq. assert (smooth es = es /\ spiky es = []) as [-> ->]; [|reflexivity]. unfold smooth, spiky.
  induction es as [|[m w] es IH]; [auto|]. destruct IH as [I1 I2]; [intros; apply H; now right|]. cbn. rewrite (reflecting_smooth m) by (apply (H m w); now left).
  cbn. now rewrite I1, I2.
Qed.
Lemma at_index_one {A} (a : A) c : at_index [a] c = if (c =? 0)%Z then Val a else Undefined.
Proof.
  unfold at_index. destruct (c <? 0)%Z eqn:E1, (c =? 0)%Z eqn:E2; try lia; try reflexivity.
  - assert (c = 0)%Z by lia. now subst.
  - destruct (Z.to_nat c) as [|[|k]] eqn:Ek; try lia; reflexivity.
Qed.
Lemma group_eval_ext grp g wi wo wi' wo' dir delta : (forall m w, In (m, w) grp -> eval m g wi wo 0 dir delta = eval m g wi' wo' 0 dir delta) ->
  forall acc, group_eval grp g wi wo dir delta acc = group_eval grp g wi' wo' dir delta acc.
Proof.
  induction grp as [|[m w] grp IH]; intros H acc; [reflexivity|]. cbn [group_eval]. rewrite (H m w) by now left.
  destruct (eval m g wi' wo' 0 dir delta); cbn [fbind]; auto. apply IH. intros m' w' Hi. apply (H m' w'). now right.
Qed.
Lemma recip_all m c : reflecting m -> reciprocal m c.
Proof.
  intros H. revert c. revert m H. fix IH 2. intros m [Kd map Hk Hm|Ks ax ay Hk A B|m' H|es H|es H|Kd map Ks ax ay mk Hk Hm Hs A B] c g wi wo dir delta Hg Hi Ho.
  - cbn [diffuse eval]. now rewrite opposite_sym.
  - now apply glossy_recip.
  - cbn [proxy eval]. now apply IH.
  - cbn [mixture_rr eval]. destruct (@at_index entry_ es c) as [[m1 w]| |] eqn:E; [|reflexivity|reflexivity]. cbn [fbind]. apply at_index_in in E.
    destruct (H m1 w E) as [Hr _]. rewrite (IH m1 Hr 0%Z g wi wo) by assumption. reflexivity.
  - cbn [mixture_marginalized eval]. destruct (at_index (groups es) c) as [grp| |] eqn:E; [|reflexivity|reflexivity]. cbn [fbind]. apply at_index_in in E.
    rewrite reflecting_groups in E by assumption. destruct E as [<-|[]]. apply group_eval_ext. intros m1 w Hi'. destruct (H m1 w Hi') as [Hr _]. now apply IH.
  - unfold mixture_obj. cbn [eval]. destruct (c =? 0)%Z; [|reflexivity]. cbn [diffuse glossy eval]. rewrite (opposite_sym _ wo wi), (glossy_recip Ks ax ay g wo wi) by assumption. reflexivity.
Qed.

Lemma vadd_nonneg a b : vnonneg a -> vnonneg b -> vnonneg (vadd a b).
Proof. intros (? & ? & ?) (? & ? & ?). unfold vnonneg, vadd. cbn. lra. Qed.
Lemma vscale_nonneg k a : 0 <= k -> vnonneg a -> vnonneg (vscale k a).
Proof. intros K (? & ? & ?). unfold vnonneg, vscale. cbn. repeat split; now apply Rmult_le_pos. Qed.
Lemma v0_nonneg : vnonneg v0. Proof. unfold vnonneg. cbn. lra. Qed.
Lemma diffuse_color_ok Kd map g : color_ok Kd -> map_ok map -> color_ok (reflectance (diffuse Kd map) g).
Proof. intros K M. cbn. destruct map as [t|]; [|assumption]. apply M. Qed.
Lemma diffuse_eval_ok Kd map g wi wo c dir delta : color_ok Kd -> map_ok map -> exists f, eval (diffuse Kd map) g wi wo c dir delta = Val f /\ vnonneg f.
Proof.
  intros K M. pose proof (diffuse_color_ok Kd map g K M) as C. cbn in *. destruct (opposite _ _ _); eexists; (split; [reflexivity|]); [apply v0_nonneg|].
  apply vscale_nonneg; [left; apply Rinv_0_lt_compat, PI_RGT_0|]. apply C.
Qed.
Lemma group_eval_nonneg grp g wi wo dir delta : (forall m w, In (m, w) grp -> 0 <= w /\ forall f, eval m g wi wo 0 dir delta = Val f -> vnonneg f) ->
  forall acc f, vnonneg acc -> group_eval grp g wi wo dir delta acc = Val f -> vnonneg f.
Proof.
  induction grp as [|[m w] grp IH]; intros H acc f Ha E; [now injection E as <-|]. cbn [group_eval] in E. fb E. destruct (H m w) as [Hw Hf]; [now left|].
  apply IH in E; auto; [intros; apply H; now right|]. apply vadd_nonneg; [assumption|]. apply vscale_nonneg; auto.
Qed.
Definition alpha_of (map : option tex) (mk : bool) (g : spoint) : R := if mk then match map with Some (mk_tex _ (Some a)) => a (tc g) | _ => 1 end else 1.
Lemma alpha_range map mk g : map_ok map -> 0 <= alpha_of map mk g <= 1.
Proof. unfold alpha_of. destruct mk; [|lra]. destruct map as [[e [a|]]|]; cbn; [|lra|lra]. intros [_ H]. apply H. Qed.
Lemma nonneg_all m c : reflecting m -> value_nonneg m c.
Proof.
  intros H. revert c. revert m H. fix IH 2. intros m [Kd map Hk Hm|Ks ax ay Hk A B|m' H|es H|es H|Kd map Ks ax ay mk Hk Hm Hs A B] c g wi wo dir delta f Hg Hi Ho E.
  - destruct (diffuse_eval_ok Kd map g wi wo c dir delta Hk Hm) as (f' & E' & P). rewrite E' in E. now injection E as <-.
  - destruct (glossy_eval_ok Ks ax ay g wi wo Hk A B Hg Hi Ho) as (f' & E' & P). cbn in E. rewrite E' in E. now injection E as <-.
  - now apply (IH m' H c g wi wo dir delta).
  - cbn [mixture_rr eval] in E. fb E. destruct a as [m1 w]. fb E. injection E as <-. apply at_index_in in E0. destruct (H m1 w E0) as [Hr Hw].
    apply vscale_nonneg; [assumption|]. now apply (IH m1 Hr 0%Z g wi wo dir delta).
  - cbn [mixture_marginalized eval] in E. fb E. apply at_index_in in E0. rewrite reflecting_groups in E0 by assumption. destruct E0 as [<-|[]].
    apply group_eval_nonneg in E; [assumption| |apply v0_nonneg]. intros m1 w Hi'. destruct (H m1 w Hi') as [Hr Hw]. split; [assumption|]. intros f' E'.
    now apply (IH m1 Hr 0%Z g wi wo dir delta).
  - unfold mixture_obj in E. cbn [eval] in E. pose proof (alpha_range map mk g Hm) as Al. fold (alpha_of map mk g) in E. destruct (c =? 0)%Z.
    + destruct (diffuse_eval_ok Kd map g wi wo 0 dir delta Hk Hm) as (f1 & E1 & P1). destruct (glossy_eval_ok Ks ax ay g wi wo Hs A B Hg Hi Ho) as (f2 & E2 & P2).
      cbn [diffuse glossy eval] in *. rewrite E1, E2 in E. cbn [fbind] in E. injection E as <-. apply vscale_nonneg; [lra|]. apply vadd_nonneg; [|assumption]. apply vadd_nonneg; [apply v0_nonneg|assumption].
    + injection E as <-. destruct delta; [apply v0_nonneg|]. unfold vnonneg, grey. cbn. lra.
Qed.

(** Densities *)
Lemma weights_dist_pmf ws i p : nonneg ws -> of_num (pmf (weights_dist ws) (Z.of_nat i)) = Val p -> 0 <= p.
Proof.
  intros Hn. rewrite weights_dist_made. destruct (Nat.lt_ge_cases i (length ws)) as [L|L].
  - destruct (Req_EM_T (rsum ws) 0) as [Z|NZ].
    + unfold made_of. rewrite added. unfold norm. rewrite back_sums, Z. unfold pmf. rewrite !map_length, sums_length.
      destruct (_ || _)%bool; [intros [= <-]; lra|]. erewrite (nth_indep _ None (Some 0)). 2:{ rewrite !map_length, sums_length. lia. }
      rewrite (map_map Some), (nth_indep _ (Some 0) ((fun x => ndiv (Some x) (Some 0)) 0)) by (rewrite map_length, sums_length; lia).
      rewrite (map_nth (fun x => ndiv (Some x) (Some 0))). cbn. unfold fdiv. destruct (Req_EM_T 0 0); [discriminate|lra].
    + rewrite pmf_in by assumption. intros [= <-]. apply Rmult_le_pos; [now apply nonneg_nth|]. left. apply Rinv_0_lt_compat. pose proof (rsum_nonneg ws Hn). lra.
  - rewrite pmf_out by (right; lia). intros [= <-]. lra.
Qed.
Lemma marginal_pdf_nonneg ws grp g wi wo delta : nonneg ws -> (forall m w p, In (m, w) grp -> pdf_direction m g wi wo 0 delta = Val p -> 0 <= p) ->
  forall i acc p, 0 <= acc -> marginal_pdf (weights_dist ws) grp (Z.of_nat i) g wi wo delta acc = Val p -> 0 <= p.
Proof.
  intros Hn. induction grp as [|[m w] grp IH]; intros H i acc p Ha E; [now injection E as <-|]. cbn [marginal_pdf] in E. fb E. fb E.
  replace (Z.of_nat i + 1)%Z with (Z.of_nat (S i)) in E by lia. apply IH in E; auto.
  - intros m' w' p' Hi. apply (H m' w'). now right.
  - apply weights_dist_pmf in E0; [|assumption]. assert (0 <= a0) by (apply (H m w); [now left|assumption]). nra.
Qed.
Lemma diffuse_pdf_nonneg Kd map g wi wo c delta p : pdf_direction (diffuse Kd map) g wi wo c delta = Val p -> 0 <= p.
Proof. cbn. destruct (opposite _ _ _); intros [= <-]; [lra|]. apply Rmult_le_pos; [lra|]. left. apply Rinv_0_lt_compat, PI_RGT_0. Qed.
Lemma comp_max_nonneg v : vnonneg v -> 0 <= comp_max v.
Proof. intros (H & _). unfold comp_max. apply (Rle_trans _ (vx v)); [assumption|]. apply (Rle_trans _ (Rmax (vx v) (vy v))); apply Rmax_l. Qed.
Definition obj_prob (wd wg : R) : fl R := if Req_EM_T wd 0 then if Req_EM_T wg 0 then Val 1 else rdiv wd (wd + wg) else rdiv wd (wd + wg).
Lemma obj_prob_range wd wg : 0 <= wd -> 0 <= wg -> exists q, obj_prob wd wg = Val q /\ 0 <= q <= 1.
Proof.
  intros A B. unfold obj_prob. assert (D : wd + wg <> 0 -> exists q, rdiv wd (wd + wg) = Val q /\ 0 <= q <= 1).
  { intros N. unfold rdiv. rewrite fdiv_ok by assumption. eexists. split; [reflexivity|]. split.
    - apply Rmult_le_pos; [assumption|]. left. apply Rinv_0_lt_compat. lra.
    - apply (Rmult_le_reg_r (wd + wg)); [lra|]. unfold Rdiv. rewrite Rmult_assoc, Rinv_l by assumption. lra. }
  destruct (Req_EM_T wd 0); [destruct (Req_EM_T wg 0)|]; [exists 1; split; [reflexivity|lra]|apply D; lra|apply D; lra].
Qed.
Lemma pdf_nonneg_all m c : reflecting m -> pdf_nonneg m c.
Proof.
  intros H. revert c. revert m H. fix IH 2. intros m [Kd map Hk Hm|Ks ax ay Hk A B|m' H|es H|es H|Kd map Ks ax ay mk Hk Hm Hs A B] c g wi wo delta p Hg Hi Ho E.
  - eapply diffuse_pdf_nonneg, E.
  - destruct (glossy_pdf_ok ax ay g wi wo A B Hg Hi Ho) as (q & Eq & P & _). cbn in E. rewrite Eq in E. now injection E as <-.
  - now apply (IH m' H c g wi wo delta).
  - cbn [mixture_rr pdf_direction] in E. fb E. destruct a as [m1 w]. apply at_index_in in E0. destruct (H m1 w E0) as [Hr _]. now apply (IH m1 Hr 0%Z g wi wo delta).
  - cbn [mixture_marginalized pdf_direction] in E. fb E. apply at_index_in in E0. rewrite reflecting_groups in E0 by assumption. destruct E0 as [<-|[]].
    apply (marginal_pdf_nonneg _ es g wi wo delta) with (i := O) in E; [assumption| | |lra].
    + intros x Hx. apply in_map_iff in Hx. destruct Hx as ([m1 w] & <- & Hx). now apply (H m1 w).
    + intros m1 w q Hi' E'. destruct (H m1 w Hi') as [Hr _]. now apply (IH m1 Hr 0%Z g wi wo delta).
  - unfold mixture_obj in E. cbn [pdf_direction] in E. destruct (c =? 0)%Z; [|injection E as <-; destruct delta; lra].
    destruct (obj_prob_range (comp_max (reflectance (diffuse Kd map) g)) (comp_max (reflectance (glossy Ks ax ay) g))) as (q & Eq & Q).
    { apply comp_max_nonneg, diffuse_color_ok; assumption. }
    { apply comp_max_nonneg, Hs. }
    unfold obj_prob in Eq. cbn [reflectance diffuse glossy] in *. rewrite Eq in E. cbn [fbind] in E. fb E. fb E. injection E as <-. apply (diffuse_pdf_nonneg Kd map g wi wo 0 delta) in E0.
    destruct (glossy_pdf_ok ax ay g wi wo A B Hg Hi Ho) as (p2 & E2 & P2 & _). cbn [glossy pdf_direction] in E1. rewrite E2 in E1. injection E1 as <-. nra.
Qed.

(** Directions *)
Lemma frame_comb u v n x y z : frame u v n -> let w := vadd (vadd (vscale x u) (vscale y v)) (vscale z n) in
  dot w n = z /\ dot w w = x * x + y * y + z * z.
Proof.
  intros (Hu & Hv & Hn & Huv & Hun & Hvn & _). unfold unit in *. cbn zeta. split.
  - transitivity (x * dot u n + y * dot v n + z * dot n n); [vring|]. rewrite Hun, Hvn, Hn. ring.
  - transitivity (x * x * dot u u + y * y * dot v v + z * z * dot n n + 2 * x * y * dot u v + 2 * x * z * dot u n + 2 * y * z * dot v n); [vring|].
    rewrite Hu, Hv, Hn, Huv, Hun, Hvn. ring.
Qed.
Lemma diffuse_direction Kd map ud udc g wi c dir wo w : in_square ud -> surface_point g -> sample_direction (diffuse Kd map) ud udc g wi c dir = Val (Some (wo, w)) ->
  unit wo /\ 0 <= dot wi (sn (geo g)) * dot wo (sn (geo g)).
Proof.
  intros Hu Hg. cbn [diffuse sample_direction]. destruct (sp_basis g wi Hg) as (n & u & v & -> & F & P & N & _). intros H.
  assert (Ew : wo = vadd (vadd (vscale (vx (sample_cosine_weighted ud)) u) (vscale (vy (sample_cosine_weighted ud)) v)) (vscale (vz (sample_cosine_weighted ud)) n)) by now injection H.
  destruct (cosine_unit ud Hu) as (U & Z & _). destruct (frame_comb u v n (vx (sample_cosine_weighted ud)) (vy (sample_cosine_weighted ud)) (vz (sample_cosine_weighted ud)) F) as [E1 E2].
  rewrite <- Ew in *. split; [unfold unit in *; rewrite E2; exact U|]. destruct N as [-> | ->]; rewrite ?dot_neg_r in *; nra.
Qed.
Lemma glossy_direction Ks ax ay ud udc g wi c dir wo w : unit wi -> sample_direction (glossy Ks ax ay) ud udc g wi c dir = Val (Some (wo, w)) ->
  unit wo /\ 0 <= dot wi (sn (geo g)) * dot wo (sn (geo g)).
Proof.
  intros Hi. cbn [glossy sample_direction]. destruct (basis_twosided (geo g) wi) as [[n u] v]. intros H. fb H. fb H. destruct (opposite _ _ _) eqn:O; [discriminate|]. fb H. fb H. fb H.
  injection H as <- _. split; [|left; now apply not_opposite]. unfold unit. rewrite reflection_len; [assumption|]. eapply fnormalize_unit, E0.
Qed.
Lemma direction_all m : reflecting m -> forall c ud udc g wi dir wo w, in_square ud -> surface_point g -> unit wi ->
  sample_direction m ud udc g wi c dir = Val (Some (wo, w)) -> unit wo /\ (is_specular m c = false -> 0 <= dot wi (sn (geo g)) * dot wo (sn (geo g))).
Proof.
  revert m. fix IH 2. intros m [Kd map Hk Hm|Ks ax ay Hk A B|m' H|es H|es H|Kd map Ks ax ay mk Hk Hm Hs A B] c ud udc g wi dir wo w Hu Hg Hi E.
  - destruct (diffuse_direction _ _ _ _ _ _ _ _ _ _ Hu Hg E). auto.
  - destruct (glossy_direction _ _ _ _ _ _ _ _ _ _ _ Hi E). auto.
  - exact (IH m' H c ud udc g wi dir wo w Hu Hg Hi E).
  - cbn [mixture_rr sample_direction] in E. fb E. destruct a as [m1 w1]. fb E. destruct a as [[wo' sw]|]; [|discriminate]. injection E as -> _. apply at_index_in in E0.
    destruct (H m1 w1 E0) as [Hr _]. destruct (IH m1 Hr 0%Z ud udc g wi dir wo sw Hu Hg Hi E1) as [U S']. split; [assumption|]. intros _. apply S'. now apply reflecting_smooth.
  - cbn [mixture_marginalized sample_direction] in E. fb E. apply at_index_in in E0. rewrite reflecting_groups in E0 by assumption. destruct E0 as [<-|[]].
    fb E. fb E. destruct a0 as [m1 w1]. fb E. destruct a0 as [[wo' sw]|]; [|discriminate]. fb E. fb E. fb E. injection E as -> _. apply at_index_in in E1.
    destruct (H m1 w1 E1) as [Hr _]. destruct (IH m1 Hr 0%Z ud udc g wi dir wo sw Hu Hg Hi E2) as [U S']. split; [assumption|]. intros _. apply S'. now apply reflecting_smooth.
  - unfold mixture_obj in E. cbn [sample_direction] in E. destruct (c =? 0)%Z eqn:Ec.
    + apply fbind_val in E. destruct E as (q & Eq & E). apply fbind_val in E. destruct E as (s & Es & E). destruct s as [[wo' sw]|]; [|discriminate].
      apply fbind_val in E. destruct E as (f & Ef & E). apply fbind_val in E. destruct E as (p & Ep & E). apply fbind_val in E. destruct E as (k & Ek & E). injection E as -> _.
      destruct (Rlt_dec udc q); [destruct (diffuse_direction _ _ _ _ _ _ _ _ _ _ Hu Hg Es)|destruct (glossy_direction _ _ _ _ _ _ _ _ _ _ _ Hi Es)]; auto.
    + injection E as <- _. split; [now apply unit_neg|]. cbn. rewrite Ec. discriminate.
Qed.

(** ** Values of mixtures *)
Definition valof {A} (d : A) (x : fl A) : A := match x with Val a => a | _ => d end.
Lemma vals_map {A B} (f : A -> fl B) d l xs : vals (map f l) xs -> xs = map (fun a => valof d (f a)) l /\ forall a, In a l -> f a = Val (valof d (f a)).
Proof.
  unfold vals. revert xs. induction l as [|a l IH]; intros xs H; destruct xs as [|x xs]; try discriminate; [split; [reflexivity|intros ? []]|].
  cbn [map] in H. injection H as Ha H. apply IH in H. destruct H as [E H]. split; [cbn [map]; rewrite Ha; cbn [valof]; f_equal; exact E|]. intros a' [<-|Hi]; [now rewrite Ha|auto].
Qed.
Lemma vals_intro {A B} (f : A -> fl B) d l : (forall a, In a l -> f a = Val (valof d (f a))) -> vals (map f l) (map (fun a => valof d (f a)) l).
Proof. intros H. unfold vals. rewrite map_map. apply map_ext_in. exact H. Qed.
Lemma combine_map_r {A B} (f : A -> B) l : combine l (map f l) = map (fun a => (a, f a)) l.
Proof. induction l; cbn; congruence. Qed.
Lemma vsum_app a b : vsum (a ++ b) = vadd (vsum a) (vsum b).
Proof. unfold vsum. induction a as [|x a IH]; cbn; [symmetry; apply vadd_0_l|]. now rewrite IH, vadd_assoc. Qed.
Lemma vsum_split {A} (p : A -> bool) (f : A -> vec3) l : vadd (vsum (map f (filter (fun a => negb (p a)) l))) (vsum (map f (filter p l))) = vsum (map f l).
Proof.
  induction l as [|a l IH]; [cbn; apply vadd_0_l|]. cbn [filter map]. unfold vsum in *. cbn [fold_right]. rewrite <- IH. destruct (p a); cbn [negb map fold_right].
  - set (x := fold_right _ _ _). set (y := fold_right _ _ _). set (z := f a). clearbody x y z. vring.
  - symmetry. apply vadd_assoc.
Qed.
Lemma map_at_index {A B} (h : A -> B) (f : A -> fl B) l : (forall a, In a l -> f a = Val (h a)) ->
  map (fun c => fbind (at_index l (Z.of_nat c)) f) (seq 0 (length l)) = map Val (map h l).
Proof.
  intros H. assert (G : forall l', (forall a, In a l' -> f a = Val (h a)) -> map (fun c => match nth_error l' c with Some a => f a | None => Undefined end) (seq 0 (length l')) = map Val (map h l')).
  { clear. induction l' as [|a l IH]; intros H; [reflexivity|]. cbn [length seq map nth_error]. f_equal; [apply H; now left|]. rewrite <- seq_shift, map_map. apply IH. intros; apply H; now right. }
  rewrite <- G by assumption. apply map_ext. intros c. rewrite at_index_nat. destruct (nth_error l c); reflexivity.
Qed.
Lemma group_eval_val grp g wi wo dir delta : (forall e : entry_, In e grp -> eval (fst e) g wi wo 0 dir delta = Val (valof v0 (eval (fst e) g wi wo 0 dir delta))) ->
  group_eval grp g wi wo dir delta v0 = Val (vsum (map (fun e : entry_ => vscale (snd e) (valof v0 (eval (fst e) g wi wo 0 dir delta))) grp)).
Proof.
  intros H. rewrite (group_eval_acc grp g wi wo dir delta v0 _ (vals_intro (fun e : entry_ => eval (fst e) g wi wo 0 dir delta) v0 grp H)).
  rewrite combine_map_r, map_map, vadd_0_l. reflexivity.
Qed.
Lemma total_rr es g wi wo dir delta fs : vals (map (fun e : entry_ => eval (fst e) g wi wo 0 dir delta) es) fs ->
  exists ts, vals (map (fun c => eval (mixture_rr es) g wi wo (Z.of_nat c) dir delta) (seq 0 (length es))) ts
    /\ vsum ts = vsum (map (fun ef : entry_ * vec3 => vscale (snd (fst ef)) (snd ef)) (combine es fs)).
Proof.
  intros H. apply (vals_map (fun e : entry_ => eval (fst e) g wi wo 0 dir delta) v0) in H. destruct H as [-> H].
  exists (map (fun e : entry_ => vscale (snd e) (valof v0 (eval (fst e) g wi wo 0 dir delta))) es). split.
  - unfold vals. rewrite <- (map_at_index _ (fun e : entry_ => do f <- eval (fst e) g wi wo 0 dir delta; Val (vscale (snd e) f))).
    + apply map_ext. intros c. cbn [mixture_rr eval]. destruct (at_index es (Z.of_nat c)) as [[m w]| |]; reflexivity.
    + intros e He. now rewrite (H e He).
  - rewrite combine_map_r, map_map. reflexivity.
Qed.
Lemma total_marg es g wi wo dir delta fs : vals (map (fun e : entry_ => eval (fst e) g wi wo 0 dir delta) es) fs ->
  exists ts, vals (map (fun c => eval (mixture_marginalized es) g wi wo (Z.of_nat c) dir delta) (seq 0 (S (length (spiky es))))) ts
    /\ vsum ts = vsum (map (fun ef : entry_ * vec3 => vscale (snd (fst ef)) (snd ef)) (combine es fs)).
Proof.
  intros H. apply (vals_map (fun e : entry_ => eval (fst e) g wi wo 0 dir delta) v0) in H. destruct H as [-> H].
  set (val := fun e : entry_ => vscale (snd e) (valof v0 (eval (fst e) g wi wo 0 dir delta))).
  exists (map (fun grp => vsum (map val grp)) (groups es)). split.
  - unfold vals. rewrite <- (map_at_index _ (fun grp => group_eval grp g wi wo dir delta v0)).
    + f_equal. rewrite groups_eq. cbn [length]. now rewrite map_length.
    + intros grp Hg. apply group_eval_val. intros e He. apply H. rewrite groups_eq in Hg. destruct Hg as [<-|Hg].
      * unfold smooth in He. apply filter_In in He. apply He.
      * apply in_map_iff in Hg. destruct Hg as (e' & <- & He'). destruct He as [<-|[]]. unfold spiky in He'. apply filter_In in He'. apply He'.
  - rewrite combine_map_r, map_map. change (fun x : entry_ => vscale (snd (fst (x, valof v0 (eval (fst x) g wi wo 0 dir delta)))) (snd (x, valof v0 (eval (fst x) g wi wo 0 dir delta)))) with val.
    rewrite groups_eq. cbn [map]. rewrite map_map. unfold smooth, spiky.
    rewrite <- (vsum_split (fun e : entry_ => is_specular (fst e) 0) val es). unfold vsum at 1. cbn [fold_right]. f_equal.
    change (fold_right vadd v0) with vsum. f_equal. apply map_ext. intros e. unfold vsum. cbn. apply vadd_0_r.
Qed.

Lemma refl_acc l g a : fold_left (fun s (e : entry_) => vadd s (vscale (snd e) (reflectance (fst e) g))) l a = vadd a (vsum (map (fun e : entry_ => vscale (snd e) (reflectance (fst e) g)) l)).
Proof. revert a. induction l as [|e l IH]; intros a; cbn; [symmetry; apply vadd_0_r|]. rewrite IH. now rewrite vadd_assoc. Qed.
Lemma refl_rr es g : reflectance (mixture_rr es) g = vsum (map (fun e : entry_ => vscale (snd e) (reflectance (fst e) g)) es).
Proof. cbn [mixture_rr reflectance]. rewrite refl_acc. apply vadd_0_l. Qed.
Lemma refl_marg es g : reflectance (mixture_marginalized es) g = vsum (map (fun e : entry_ => vscale (snd e) (reflectance (fst e) g)) es).
Proof.
  cbn [mixture_marginalized reflectance]. rewrite groups_eq. cbn [fold_left]. rewrite refl_acc, vadd_0_l.
  set (h := fun e : entry_ => vscale (snd e) (reflectance (fst e) g)).
  assert (G : forall l a, fold_left (fun s grp => fold_left (fun s (e : entry_) => vadd s (h e)) grp s) (map (fun e => [e]) l) a = vadd a (vsum (map h l))).
  { induction l as [|e l IH]; intros a; cbn; [symmetry; apply vadd_0_r|]. rewrite IH. now rewrite vadd_assoc. }
  rewrite G. unfold smooth, spiky. apply (vsum_split (fun e : entry_ => is_specular (fst e) 0) h).
Qed.

Lemma marg_pdf0 es g wi wo delta qs : nonneg (map snd es) -> 0 < rsum (map snd (smooth es)) ->
  vals (map (fun e : entry_ => pdf_direction (fst e) g wi wo 0 delta) (smooth es)) qs ->
  pdf_direction (mixture_marginalized es) g wi wo 0 delta = Val (rsum (map (fun wq => fst wq / rsum (map snd (smooth es)) * snd wq) (combine (map snd (smooth es)) qs))).
Proof.
  intros Hn Hp H. cbn [mixture_marginalized pdf_direction]. rewrite groups_eq. unfold at_index. cbn [Z.ltb Z.compare Z.to_nat nth_error fbind].
  set (ws := map snd (smooth es)) in *. rewrite weights_dist_made.
  rewrite (marginal_pdf_acc _ _ _ _ _ _ 0 0 (map (fun w => w / rsum ws) ws) qs).
  - rewrite Rplus_0_l. f_equal. f_equal. clear. clearbody ws. generalize (rsum ws) as k. revert qs. unfold rsum. induction ws as [|w ws IH]; intros [|q qs] k; try reflexivity. cbn. now rewrite IH.
  - unfold vals. replace (length (smooth es)) with (length ws) by (unfold ws; now rewrite map_length).
    transitivity (map (fun k => Val (nth k ws 0 / rsum ws)) (seq 0 (length ws))).
    + apply map_ext_in. intros k Hk. apply in_seq in Hk. cbn [Z.add]. rewrite pmf_in by (lia || lra). reflexivity.
    + transitivity (map (fun w => Val (w / rsum ws)) (map (fun k => nth k ws 0) (seq 0 (length ws)))); [now rewrite map_map|]. rewrite map_nth_seq_gen. now rewrite map_map.
  - exact H.
Qed.
Lemma at_index_S {A} (a : A) l k : at_index (a :: l) (Z.of_nat (S k)) = at_index l (Z.of_nat k).
Proof. rewrite !at_index_nat. reflexivity. Qed.
Lemma marg_spec es k m w : nth_error (spiky es) k = Some (m, w) -> at_index (groups es) (Z.of_nat (S k)) = Val [(m, w)].
Proof. intros H. rewrite groups_eq, at_index_S, at_index_nat, nth_error_map, H. reflexivity. Qed.
Lemma marg_pdfS es k m w g wi wo delta : nth_error (spiky es) k = Some (m, w) -> 0 < w ->
  pdf_direction (mixture_marginalized es) g wi wo (Z.of_nat (S k)) delta = pdf_direction m g wi wo 0 delta.
Proof.
  intros H P. cbn [mixture_marginalized pdf_direction]. rewrite (marg_spec _ _ _ _ H). cbn [fbind marginal_pdf map snd]. rewrite weights_dist_made.
  change 0%Z with (Z.of_nat 0) at 1. rewrite pmf_in by (cbn; (lra || lia)). cbn [of_num fbind nth]. replace (w / rsum [w]) with 1 by (cbn; field; lra).
  destruct (pdf_direction m g wi wo 0 delta); cbn; auto. f_equal. ring.
Qed.
Lemma marg_evalS es k m w g wi wo dir delta : nth_error (spiky es) k = Some (m, w) ->
  eval (mixture_marginalized es) g wi wo (Z.of_nat (S k)) dir delta = do f <- eval m g wi wo 0 dir delta; Val (vscale w f).
Proof.
  intros H. cbn [mixture_marginalized eval]. rewrite (marg_spec _ _ _ _ H). cbn [fbind group_eval]. destruct (eval m g wi wo 0 dir delta); cbn [fbind]; auto. now rewrite vadd_0_l.
Qed.
Lemma marg_sample0 es ud udc g wi dir wo k : nonneg (map snd es) -> 0 < rsum (map snd (smooth es)) -> 0 <= udc < 1 ->
  sample_direction (mixture_marginalized es) ud udc g wi 0 dir = Val (Some (wo, k)) ->
  exists i m w sw, nth_error (smooth es) i = Some (m, w) /\ 0 < w
    /\ rsum (firstn i (map snd (smooth es))) / rsum (map snd (smooth es)) <= udc < rsum (firstn i (map snd (smooth es))) / rsum (map snd (smooth es)) + w / rsum (map snd (smooth es))
    /\ sample_direction m ud udc g wi 0 dir = Val (Some (wo, sw)).
Proof.
  intros Hn Hp Hu H. cbn [mixture_marginalized sample_direction] in H. rewrite groups_eq in H. unfold at_index at 1 in H. cbn [Z.ltb Z.compare Z.to_nat nth_error fbind] in H.
  rewrite weights_dist_made in H. assert (Hn' := filter_nonneg (fun e : entry_ => negb (is_specular (fst e) 0)) es Hn). change (filter _ es) with (smooth es) in Hn'.
  destruct (C31_sample _ udc Hn' Hp Hu) as (i & Hi & E & P). rewrite E in H. cbn [of_outcome fbind] in H. rewrite at_index_nat in H.
  destruct (proj1 (C31_interval _ i udc Hn' Hp Hi Hu)) as [I _]. specialize (I E).
  destruct (@nth_error entry_ (smooth es) i) as [[m w]|] eqn:En; [|discriminate]. cbn [fbind] in H. fb H. destruct a as [[wo' sw]|]; [|discriminate]. fb H. fb H. fb H. injection H as -> _.
  assert (nth i (map snd (smooth es)) 0 = w) as Ew by (apply nth_error_nth; rewrite nth_error_map; change (nth_error (smooth es) i) with (@nth_error entry_ (smooth es) i); rewrite En; reflexivity). rewrite Ew in *.
  exists i, m, w, sw. auto.
Qed.
