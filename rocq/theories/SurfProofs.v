(** Proofs about frames, reflection, refraction, geometry terms and warps. *)
From Coq Require Import Reals ZArith Bool Lra Lia Psatz.
From Verif Require Import Base RBase VecBase GeoModel SurfModel SurfSpec.
Open Scope R_scope.

Lemma safe_sqrt_sqrt v : safe_sqrt v = sqrt v.
Proof.
  unfold safe_sqrt. destruct (Rle_dec 0 v) as [H|H]; [rewrite Rmax_right by lra; reflexivity|].
  rewrite Rmax_left by lra. rewrite sqrt_0. symmetry. apply sqrt_neg_0. lra.
Qed.

(** ** Frames *)
Lemma copysign1_cases neg0 z : (copysign1 neg0 z = 1 /\ 0 <= z) \/ (copysign1 neg0 z = -1 /\ z <= 0).
Proof. unfold copysign1. destruct (Rlt_dec z 0); [right; lra|]. destruct (Rlt_dec 0 z); [left; lra|]. destruct neg0; [right|left]; lra. Qed.

Lemma basis_frame neg0 n : unit n -> frame (fst (orthonormal_basis neg0 n)) (snd (orthonormal_basis neg0 n)) n.
Proof.
  intros H. unfold orthonormal_basis. cbn [fst snd]. unfold unit in *. destruct n as [x y z]. unfold dot in H. cbn [vx vy vz] in *.
  assert (Hs : exists s, copysign1 neg0 z = s /\ s * s = 1 /\ s + z <> 0).
  { destruct (copysign1_cases neg0 z) as [[E L]|[E L]]; rewrite E; eexists; repeat split; lra. }
  destruct Hs as (s & -> & S1 & S2).
  remember (-1 / (s + z)) as a eqn:Ea. assert (A : a * (s + z) = -1) by (subst a; field; auto). clear Ea.
  assert (Hz : x * x + y * y = (s - z) * (s + z)) by (replace ((s - z) * (s + z)) with (s * s - z * z) by ring; lra).
  (* a (x^2+y^2) = - (s - z) *)
  assert (B : a * (x * x + y * y) = z - s) by (rewrite Hz; replace (a * ((s - z) * (s + z))) with ((s - z) * (a * (s + z))) by ring; rewrite A; ring).
  assert (B2 : a * a * (x * x + y * y) = a * z - a * s) by (replace (a * a * (x * x + y * y)) with (a * (a * (x * x + y * y))) by ring; rewrite B; ring).
  assert (As : a * z = -1 - a * s) by lra.
  unfold frame, unit, dot, cross. cbn [vx vy vz].
  repeat split.
  - transitivity (1 + 2 * s * a * x * x + (s * s) * (x * x) * (a * a * (x * x + y * y)) + (s * s) * (x * x)); [ring|].
    rewrite B2, S1, As. ring.
  - transitivity ((s * s) + 2 * s * a * y * y + (y * y) * (a * a * (x * x + y * y)) + y * y); [ring|].
    rewrite B2, S1, As. ring.
  - exact H.
  - transitivity (x * y * a + s * (x * y) * (a * a * (x * x + y * y)) + s * s * (x * y * a) + s * (x * y)); [ring|].
    rewrite B2, S1, As. transitivity (x * y * (2 * a - s - 2 * (s * s) * a + s)); [ring|]. rewrite S1. ring.
  - transitivity (x + s * x * (a * (x * x + y * y)) - s * x * z); [ring|]. rewrite B. transitivity (x - (s * s) * x); [ring|]. rewrite S1. ring.
  - transitivity (y * (a * (x * x + y * y)) + s * y - y * z); [ring|]. rewrite B. ring.
  - apply vec3_eq; cbn [vx vy vz].
    + transitivity (- s * x * y * y * a + (s * s) * x + s * x * y * y * a); [ring|]. rewrite S1. ring.
    + transitivity (y + s * (x * x) * y * a - s * (x * x) * y * a); ring.
    + transitivity (s + a * (s * s) * (x * x) + a * (y * y)+ (s * x * x * a * y * y * a - s * x * x * a * y * y * a)); [ring|]. rewrite S1.
      transitivity (s + a * (x * x + y * y)); [ring|]. rewrite B. ring.
Qed.

Lemma surface_frame neg0 p n gn : unit n -> let s := make_on_surface neg0 p n gn in frame (su s) (sv s) (sn s) /\ sn s = n.
Proof.
  intros H. pose proof (basis_frame neg0 n H) as F. unfold make_on_surface. destruct (orthonormal_basis neg0 n) as [u v]. cbn in *. auto.
Qed.

Lemma local_comp neg0 p n gn w : let s := make_on_surface neg0 p n gn in
  mmul (to_local s) w = V3 (dot (su s) w) (dot (sv s) w) (dot (sn s) w).
Proof.
  unfold make_on_surface. destruct (orthonormal_basis neg0 n) as [u v]. cbn. unfold mmul, transpose. cbn. vring.
Qed.

(** The expansion of a vector in a frame. *)
Lemma triple_product a b c : cross a (cross b c) = vsub (vscale (dot a c) b) (vscale (dot a b) c).
Proof. vring. Qed.
Lemma cross_anti a b : cross a b = vneg (cross b a). Proof. vring. Qed.
Lemma det_expand u v n w : vscale (dot u (cross v n)) w = vadd (vadd (vscale (dot u w) (cross v n)) (vscale (dot v w) (cross n u))) (vscale (dot n w) (cross u v)).
Proof. vring. Qed.

Lemma frame_cross u v n : frame u v n -> cross v n = u /\ cross n u = v.
Proof.
  intros (Hu & Hv & Hn & Huv & Hun & Hvn & Hc). unfold unit in *. split.
  - rewrite <- Hc, triple_product, Hv, (dot_comm v u), Huv. vring.
  - rewrite <- Hc, cross_anti, triple_product, Hu, Huv. vring.
Qed.

Lemma frame_expand u v n w : frame u v n -> vadd (vadd (vscale (dot u w) u) (vscale (dot v w) v)) (vscale (dot n w) n) = w.
Proof.
  intros F. destruct (frame_cross _ _ _ F) as [Vn Nu]. destruct F as (Hu & Hv & Hn & Huv & Hun & Hvn & Hc). unfold unit in *.
  pose proof (det_expand u v n w) as E. rewrite Vn, Nu, Hc, Hu in E. rewrite <- E. vring.
Qed.

Lemma to_world_local neg0 p n gn w : unit n -> let s := make_on_surface neg0 p n gn in mmul (to_world s) (mmul (to_local s) w) = w.
Proof.
  intros H. cbn zeta. rewrite local_comp. destruct (surface_frame neg0 p n gn H) as [F _].
  rewrite <- (frame_expand _ _ _ w F) at 4. unfold mmul. cbn [vx vy vz].
  unfold make_on_surface. destruct (orthonormal_basis neg0 n) as [u v]. reflexivity.
Qed.

Lemma to_local_world neg0 p n gn w : unit n -> let s := make_on_surface neg0 p n gn in mmul (to_local s) (mmul (to_world s) w) = w.
Proof.
  intros H. cbn zeta. rewrite local_comp. destruct (surface_frame neg0 p n gn H) as [F _].
  revert F. unfold make_on_surface. destruct (orthonormal_basis neg0 n) as [u v]. cbn [su sv sn to_world]. intros (Hu & Hv & Hn & Huv & Hun & Hvn & Hc). unfold unit in *.
  assert (L : forall a b c x k l m, dot x (vadd (vadd (vscale k a) (vscale l b)) (vscale m c)) = k * dot x a + l * dot x b + m * dot x c) by (intros; vring).
  unfold mmul. cbn [col0 col1 col2]. rewrite !L, Hu, Hv, Hn, (dot_comm v u), (dot_comm n u), (dot_comm n v), Huv, Hun, Hvn. destruct w. apply vec3_eq; cbn; ring.
Qed.

Lemma twosided_ok neg0 p n gn wi : unit n -> let '(m, u, v) := basis_twosided (make_on_surface neg0 p n gn) wi in
  frame u v m /\ 0 <= dot wi m /\ (m = n \/ m = vneg n) /\ (dot wi n <> 0 -> 0 < dot wi m).
Proof.
  intros H. destruct (surface_frame neg0 p n gn H) as [F E]. unfold basis_twosided. rewrite E in *.
  set (s := make_on_surface neg0 p n gn) in *. destruct F as (Hu & Hv & Hn & Huv & Hun & Hvn & Hc).
  destruct (Rlt_dec 0 (dot wi n)) as [L|L].
  - repeat split; auto; lra.
  - assert (Dn : dot wi (vneg n) = - dot wi n) by vring.
    unfold frame, unit in *.
    assert (A1 : dot (vneg (sv s)) (vneg (sv s)) = 1) by (rewrite <- Hv; vring).
    assert (A2 : dot (vneg n) (vneg n) = 1) by (rewrite <- Hn; vring).
    assert (A3 : dot (su s) (vneg (sv s)) = 0) by (transitivity (- dot (su s) (sv s)); [generalize (su s) (sv s); intros; vring|lra]).
    assert (A4 : dot (su s) (vneg n) = 0) by (transitivity (- dot (su s) n); [generalize (su s); intros; vring|lra]).
    assert (A5 : dot (vneg (sv s)) (vneg n) = 0) by (transitivity (dot (sv s) n); [generalize (sv s); intros; vring|lra]).
    assert (A6 : cross (su s) (vneg (sv s)) = vneg n) by (rewrite <- Hc; generalize (su s) (sv s); intros; vring).
    rewrite Dn. split; [auto 10|]. split; [lra|]. split; [auto|].
    intros N. apply Rnot_lt_le in L. destruct L as [L|L]; [lra|]. exfalso. apply N. lra.
Qed.

(** ** Reflection and refraction *)
Lemma dot_reflection w n : unit n -> dot (reflection w n) n = dot w n.
Proof.
  unfold unit, reflection. intros H. transitivity (2 * dot w n * dot n n - dot w n); [vring|]. rewrite H. ring.
Qed.
Lemma reflection_invol w n : unit n -> reflection (reflection w n) n = w.
Proof. intros H. unfold reflection at 1. rewrite dot_reflection by auto. unfold reflection. vring. Qed.
Lemma reflection_len w n : unit n -> dot (reflection w n) (reflection w n) = dot w w.
Proof.
  unfold unit, reflection. intros H. transitivity (4 * dot w n * dot w n * (dot n n - 1) + dot w w); [vring|]. rewrite H. ring.
Qed.
Lemma reflection_tangential w n : unit n -> tangential (reflection w n) n = vneg (tangential w n).
Proof. intros H. unfold tangential. rewrite dot_reflection by auto. unfold reflection. vring. Qed.

Lemma tangential_len w n : unit n -> dot (tangential w n) (tangential w n) = dot w w - dot w n * dot w n.
Proof. unfold unit, tangential. intros H. transitivity (dot w w - 2 * (dot w n * dot w n) + dot w n * dot w n * dot n n); [vring|]. rewrite H. ring. Qed.
Lemma tangential_n w n : unit n -> dot (tangential w n) n = 0.
Proof. unfold unit, tangential. intros H. transitivity (dot w n - dot w n * dot n n); [vring|]. rewrite H. ring. Qed.

(** The refracted direction by its two parts. *)
Lemma refraction_form wi n eta wt : refraction wi n eta = Some wt ->
  let t2 := 1 - eta * eta * (1 - dot wi n * dot wi n) in 0 < t2 /\ wt = vsub (vscale (- eta) (tangential wi n)) (vscale (sqrt t2) n).
Proof.
  unfold refraction. cbn zeta. destruct (Rle_dec _ 0) as [L|L]; [discriminate|]. intros [= <-]. split; [lra|].
  rewrite safe_sqrt_sqrt. unfold tangential. generalize (sqrt (1 - eta * eta * (1 - dot wi n * dot wi n))). intros r. vring.
Qed.

Lemma refraction_snell wi n eta wt : unit wi -> unit n -> refraction wi n eta = Some wt -> snell wi n eta wt.
Proof.
  intros Hi Hn E. apply refraction_form in E. cbn zeta in E. set (t2 := 1 - _) in *. destruct E as [P E].
  pose proof (tangential_len wi n Hn) as TL. pose proof (tangential_n wi n Hn) as TN. unfold unit in Hi. rewrite Hi in TL.
  set (q := tangential wi n) in *.
  assert (S2 : sqrt t2 * sqrt t2 = t2) by (apply sqrt_sqrt; lra). assert (S0 : 0 < sqrt t2) by (apply sqrt_lt_R0; lra).
  assert (Dn : dot wt n = - sqrt t2).
  { rewrite E. transitivity (- eta * dot q n - sqrt t2 * dot n n); [vring|]. rewrite TN. unfold unit in Hn. rewrite Hn. ring. }
  split; [|split].
  - unfold unit. rewrite E. transitivity (eta * eta * dot q q + 2 * eta * sqrt t2 * dot q n + (sqrt t2 * sqrt t2) * dot n n); [vring|].
    rewrite TL, TN, S2. unfold unit in Hn. rewrite Hn. unfold t2. ring.
  - lra.
  - change (vsub wt (vscale (dot wt n) n) = vscale (- eta) q). rewrite Dn, E. clearbody q. generalize (sqrt t2). intros r. clear. vring.
Qed.

Lemma snell_unique wi n eta wt : unit wi -> unit n -> snell wi n eta wt -> refraction wi n eta = Some wt.
Proof.
  intros Hi Hn (U & D & T).
  assert (E : wt = vadd (tangential wt n) (vscale (dot wt n) n)) by (unfold tangential; vring).
  pose proof (tangential_len wi n Hn) as TL. pose proof (tangential_len wt n Hn) as TL'. rewrite T in TL'. unfold unit in Hi, U. rewrite Hi in TL. rewrite U in TL'.
  assert (Q : dot (vscale (- eta) (tangential wi n)) (vscale (- eta) (tangential wi n)) = eta * eta * dot (tangential wi n) (tangential wi n)) by vring.
  rewrite Q, TL in TL'. clear Q.
  unfold refraction. cbn zeta. destruct (Rle_dec _ 0) as [L|L]; [exfalso; nra|]. f_equal. rewrite E, T, safe_sqrt_sqrt.
  replace (1 - eta * eta * (1 - dot wi n * dot wi n)) with ((- dot wt n) * (- dot wt n)) by (rewrite TL'; ring).
  rewrite sqrt_square by lra. unfold tangential. vring.
Qed.

(** ** Geometry term *)
Lemma cos_at_neg g d : cos_at g (vneg d) = cos_at g d.
Proof. destruct g; auto. cbn. replace (dot (sn s) (vneg d)) with (- dot (sn s) d) by vring. apply Rabs_Ropp. Qed.
Lemma vneg_neg d : vneg (vneg d) = d. Proof. vring. Qed.

Lemma geometry_term_sym s1 s2 : geometry_term s1 s2 = geometry_term s2 s1.
Proof.
  assert (Fin : forall g1 g2, (let d := vsub (pos_of g2) (pos_of g1) in let L2 := dot d d in
      match fdiv 1 (sqrt L2) with None => None | Some i => let d := vscale i d in fdiv (cos_at g1 d * cos_at g2 (vneg d)) L2 end)
    = (let d := vsub (pos_of g1) (pos_of g2) in let L2 := dot d d in
      match fdiv 1 (sqrt L2) with None => None | Some i => let d := vscale i d in fdiv (cos_at g2 d * cos_at g1 (vneg d)) L2 end)).
  { intros g1 g2. cbn zeta. set (d := vsub (pos_of g2) (pos_of g1)).
    replace (vsub (pos_of g1) (pos_of g2)) with (vneg d) by (unfold d; generalize (pos_of g1) (pos_of g2); intros; vring).
    replace (dot (vneg d) (vneg d)) with (dot d d) by vring. destruct (fdiv 1 (sqrt (dot d d))) as [i|]; auto.
    replace (vscale i (vneg d)) with (vneg (vscale i d)) by vring. rewrite !cos_at_neg. f_equal. ring. }
  destruct s1 as [x|p|w], s2 as [y|q|w']; try exact (Fin _ _); cbn [geometry_term]; auto; rewrite ?vneg_neg, ?cos_at_neg; f_equal; ring.
Qed.

Lemma cos_at_pos g d : 0 <= cos_at g d.
Proof. destruct g; cbn; try lra. apply Rabs_pos. Qed.

Lemma fdiv_nonneg a b r : 0 <= a -> 0 <= b -> fdiv a b = Some r -> 0 <= r.
Proof. unfold fdiv. destruct (Req_EM_T b 0) as [|N]; [discriminate|]. intros A B [= <-]. apply Rmult_le_pos; auto. apply Rlt_le, Rinv_0_lt_compat. lra. Qed.

Lemma geometry_term_nonneg s1 s2 g : geometry_term s1 s2 = Some g -> 0 <= g.
Proof.
  assert (Q : forall a b, 0 <= cos_at s1 a * cos_at s2 b) by (intros; apply Rmult_le_pos; apply cos_at_pos).
  unfold geometry_term. destruct s1 as [x|p|w], s2 as [y|q|w']; cbn zeta;
    try (intros [= <-]; lra); try (apply fdiv_nonneg; [apply Q|lra]);
    (destruct (fdiv 1 _) as [i|]; [|discriminate]; apply fdiv_nonneg; [apply Q|apply dot_self_nonneg]).
Qed.

Lemma geometry_term_def s1 s2 : geometry_term s1 s2 = None <-> (forall w, s1 <> Infinite w) /\ (forall w, s2 <> Infinite w) /\ pos_of s1 = pos_of s2.
Proof.
  assert (Z : forall p q, dot (vsub q p) (vsub q p) = 0 <-> p = q).
  { intros p q. split; [|intros ->; vring]. intros E.
    assert (K : forall a b c, a * a + b * b + c * c = 0 -> a = 0 /\ b = 0 /\ c = 0) by (intros; repeat split; nra).
    vec. apply K in E. destruct E as (A & B & C). apply vec3_eq; cbn; lra. }
  assert (F : forall g1 g2, (let d := vsub (pos_of g2) (pos_of g1) in let L2 := dot d d in
      match fdiv 1 (sqrt L2) with None => None | Some i => let d := vscale i d in fdiv (cos_at g1 d * cos_at g2 (vneg d)) L2 end) = None <-> pos_of g1 = pos_of g2).
  { intros g1 g2. cbn zeta. rewrite <- Z. set (d := vsub _ _). unfold fdiv. split.
    - destruct (Req_EM_T (sqrt (dot d d)) 0) as [E|E]; [intros _; apply sqrt_eq_0 in E; auto; apply dot_self_nonneg|]. destruct (Req_EM_T (dot d d) 0); [auto|discriminate].
    - intros ->. rewrite sqrt_0. destruct (Req_EM_T 0 0); [auto|lra]. }
  assert (One : forall a, fdiv a 1 <> None) by (intros a; rewrite fdiv_ok by lra; discriminate).
  destruct s1 as [x|p|w], s2 as [y|q|w']; cbn [geometry_term]; split; try (intros H; repeat split; try discriminate; apply F in H; exact H);
    try (intros (_ & _ & H); apply F; exact H); try (intros H; exfalso; apply One in H; exact H); try discriminate;
    intros (H1 & H2 & _); exfalso; (eapply H1; reflexivity) || (eapply H2; reflexivity).
Qed.

(** ** Shading normal correction *)
Lemma correction_form neg0 p n gn wi wo d : let s := make_on_surface neg0 p n gn in
  shading_normal_correction s wi wo d =
    if Rle_dec (dot wi gn * dot wi n) 0 then 0 else if Rle_dec (dot wo gn * dot wo n) 0 then 0 else
    match d with LE => dot wi n * dot wo gn / (dot wo n * dot wi gn) | EL => 1 end.
Proof.
  cbn zeta. unfold shading_normal_correction. rewrite !local_comp. unfold make_on_surface. destruct (orthonormal_basis neg0 n) as [u v].
  cbn [sgn sn vz]. rewrite !(dot_comm n). reflexivity.
Qed.
