(** Proofs about the sampling warps. *)
From Coq Require Import Reals ZArith Bool Lra Lia Psatz List.
From Verif Require Import Base RBase VecBase GeoModel SurfModel SurfSpec SurfProofs.
Open Scope R_scope.

Lemma cs1 t : cos t * cos t + sin t * sin t = 1.
Proof. pose proof (sin2_cos2 t) as H. unfold Rsqr in H. lra. Qed.

(** An angle in [0, 2 pi) for every point on the unit circle, and only one. *)
Lemma angle_exists a b : a * a + b * b = 1 -> exists t, 0 <= t < 2 * PI /\ cos t = a /\ sin t = b.
Proof.
  intros H. pose proof PI_RGT_0 as P. assert (A : -1 <= a <= 1) by nra.
  pose proof (acos_bound a) as AB.
  assert (Sa : sin (acos a) = Rabs b).
  { rewrite sin_acos by auto. rewrite <- sqrt_Rsqr_abs. f_equal. unfold Rsqr. lra. }
  destruct (Rle_dec 0 b) as [B|B].
  - exists (acos a). rewrite Sa, cos_acos, Rabs_right by lra. split; [lra|auto].
  - exists (2 * PI - acos a). rewrite cos_minus, sin_minus, cos_2PI, sin_2PI, Sa, cos_acos, Rabs_left by lra.
    split; [|split; ring]. split; [lra|]. destruct AB as [[AB|AB] _]; [lra|].
    exfalso. rewrite <- AB, sin_0, Rabs_left in Sa by lra. lra.
Qed.

Lemma angle_unique t t' : 0 <= t < 2 * PI -> 0 <= t' < 2 * PI -> cos t = cos t' -> sin t = sin t' -> t = t'.
Proof.
  intros H H' C S. pose proof PI_RGT_0 as P.
  assert (E : cos (t - t') = 1) by (rewrite cos_minus, C, S; apply cs1).
  replace (t - t') with (2 * ((t - t') / 2)) in E by field. rewrite cos_2a_sin in E.
  assert (Z : sin ((t - t') / 2) = 0) by nra.
  destruct (sin_eq_0_0 _ Z) as [k K].
  assert (- 1 < IZR k < 1) by (split; nra).
  assert (k = 0%Z) by (destruct H0; apply lt_IZR in H1; apply lt_IZR in H0; lia). subst k. lra.
Qed.

(** ** Disk *)
Lemma disk_in u : in_square u -> let p := sample_uniform_disk u in v2x p * v2x p + v2y p * v2y p = v2x u.
Proof.
  intros [[H0 H1] _]. cbn. rewrite !safe_sqrt_sqrt. set (t := 2 * PI * v2y u).
  transitivity (sqrt (v2x u) * sqrt (v2x u) * (cos t * cos t + sin t * sin t)); [ring|]. rewrite cs1, sqrt_sqrt by auto. ring.
Qed.

Lemma disk_bij : one_to_one_onto interior sample_uniform_disk open_disk.
Proof.
  pose proof PI_RGT_0 as P.
  assert (N : forall u, interior u -> let p := sample_uniform_disk u in v2x p * v2x p + v2y p * v2y p = v2x u).
  { intros u [A B]. apply disk_in. split; lra. }
  split; [|split].
  - intros u H. unfold open_disk. rewrite (N u H). destruct H; lra.
  - intros u v Hu Hv E. pose proof (N u Hu) as Nu. pose proof (N v Hv) as Nv. rewrite E in Nu. cbn zeta in *. rewrite Nv in Nu.
    destruct Hu as [A B], Hv as [A' B']. unfold sample_uniform_disk in E. rewrite !safe_sqrt_sqrt, Nu in E. injection E as E1 E2.
    assert (0 < sqrt (v2x u)) by (apply sqrt_lt_R0; lra).
    apply Rmult_eq_reg_l in E1; [|lra]. apply Rmult_eq_reg_l in E2; [|lra].
    assert (2 * PI * v2y u = 2 * PI * v2y v) by (apply angle_unique; auto; nra).
    destruct u as [a b], v as [c d]. cbn in *. f_equal; [auto|]. apply (Rmult_eq_reg_l (2 * PI)); lra.
  - intros [x y] [H0 H1]. cbn in *. set (r2 := x * x + y * y) in *.
    assert (R0 : 0 < sqrt r2) by (apply sqrt_lt_R0; auto). assert (RR : sqrt r2 * sqrt r2 = r2) by (apply sqrt_sqrt; lra).
    destruct (angle_exists (x / sqrt r2) (y / sqrt r2)) as (t & T & C & S).
    { transitivity ((x * x + y * y) / (sqrt r2 * sqrt r2)); [field; lra|]. rewrite RR. fold r2. field. lra. }
    exists (V2 r2 (t / (2 * PI))). split.
    + split; cbn; [auto|]. split; [apply Rmult_le_pos; [lra|]; apply Rlt_le, Rinv_0_lt_compat; lra|].
      apply (Rmult_lt_reg_r (2 * PI)); [lra|]. unfold Rdiv. rewrite Rmult_assoc, Rinv_l by lra. lra.
    + unfold sample_uniform_disk. cbn. rewrite safe_sqrt_sqrt. replace (2 * PI * (t / (2 * PI))) with t by (field; lra). rewrite C, S. f_equal; field; lra.
Qed.

(** Derivatives. *)
Lemma d_const c x : derivable_pt_lim (fun _ => c) x 0.
Proof. apply derivable_pt_lim_const. Qed.
Lemma d_id x : derivable_pt_lim (fun y => y) x 1.
Proof. apply derivable_pt_lim_id. Qed.
Lemma d_eq f g x l m : derivable_pt_lim f x l -> (forall y, f y = g y) -> l = m -> derivable_pt_lim g x m.
Proof. intros H E <-. eapply derivable_pt_lim_ext; eauto. Qed.
Lemma d_scal f c x l : derivable_pt_lim f x l -> derivable_pt_lim (fun y => c * f y) x (c * l).
Proof. intros H. apply (derivable_pt_lim_scal f c x l H). Qed.
Lemma d_add f g x l m : derivable_pt_lim f x l -> derivable_pt_lim g x m -> derivable_pt_lim (fun y => f y + g y) x (l + m).
Proof. intros H K. apply (derivable_pt_lim_plus f g x l m H K). Qed.
Lemma d_comp f g x l m : derivable_pt_lim f x l -> derivable_pt_lim g (f x) m -> derivable_pt_lim (fun y => g (f y)) x (m * l).
Proof. intros H K. apply (derivable_pt_lim_comp f g x l m H K). Qed.
Lemma d_sqrt x : 0 < x -> derivable_pt_lim safe_sqrt x (/ (2 * sqrt x)).
Proof. intros H. eapply d_eq; [apply derivable_pt_lim_sqrt; exact H| |reflexivity]. intros y. symmetry. apply safe_sqrt_sqrt. Qed.
Lemma d_cos k x : derivable_pt_lim (fun y => cos (k * y)) x (- sin (k * x) * k).
Proof.
  eapply d_eq; [apply (d_comp (fun y => k * y) cos x (k * 1) (- sin (k * x)))| reflexivity | ring].
  - apply d_scal, d_id.
  - apply derivable_pt_lim_cos.
Qed.
Lemma d_sin k x : derivable_pt_lim (fun y => sin (k * y)) x (cos (k * x) * k).
Proof.
  eapply d_eq; [apply (d_comp (fun y => k * y) sin x (k * 1) (cos (k * x)))| reflexivity | ring].
  - apply d_scal, d_id.
  - apply derivable_pt_lim_sin.
Qed.

Lemma disk_area u : interior u -> plane_area_element sample_uniform_disk u PI.
Proof.
  intros [[H0 H1] _]. pose proof PI_RGT_0 as P. set (t := 2 * PI * v2y u). set (r := sqrt (v2x u)). assert (0 < r) by (apply sqrt_lt_R0; auto).
  exists (cos t * / (2 * r)), (r * (- sin t * (2 * PI))), (sin t * / (2 * r)), (r * (cos t * (2 * PI))).
  unfold partial1, partial2, sample_uniform_disk. cbn. split; [|split; [|split; [|split]]].
  - eapply d_eq; [apply (d_scal safe_sqrt (cos t)), d_sqrt, H0| |reflexivity]. intros y. apply Rmult_comm.
  - eapply d_eq; [apply (d_scal (fun y => cos (2 * PI * y)) (safe_sqrt (v2x u))), d_cos|reflexivity|]. rewrite safe_sqrt_sqrt. reflexivity.
  - eapply d_eq; [apply (d_scal safe_sqrt (sin t)), d_sqrt, H0| |reflexivity]. intros y. apply Rmult_comm.
  - eapply d_eq; [apply (d_scal (fun y => sin (2 * PI * y)) (safe_sqrt (v2x u))), d_sin|reflexivity|]. rewrite safe_sqrt_sqrt. reflexivity.
  - replace (_ - _) with (PI * (cos t * cos t + sin t * sin t)) by (field; lra). rewrite cs1, Rmult_1_r, Rabs_right; lra.
Qed.

(** ** Hemisphere *)
Definition to_plane (w : vec3) : vec2 := V2 (vx w) (vy w).
Lemma cosine_proj u : to_plane (sample_cosine_weighted u) = sample_uniform_disk u.
Proof. reflexivity. Qed.

Lemma cosine_unit u : in_square u -> unit (sample_cosine_weighted u) /\ 0 <= vz (sample_cosine_weighted u) /\ vz (sample_cosine_weighted u) * vz (sample_cosine_weighted u) = 1 - v2x u.
Proof.
  intros H. pose proof (disk_in u H) as D. cbn zeta in D. rewrite <- cosine_proj in D. cbn [to_plane v2x v2y] in D. destruct H as [[H0 H1] _].
  set (w := sample_cosine_weighted u) in *.
  assert (Z : vz w = sqrt (1 - vx w * vx w - vy w * vy w)) by (unfold w; cbn; rewrite safe_sqrt_sqrt; reflexivity).
  assert (ZZ : vz w * vz w = 1 - v2x u) by (rewrite Z, sqrt_sqrt; lra).
  split; [unfold unit, dot; lra|]. split; [rewrite Z; apply sqrt_pos|auto].
Qed.

Lemma interior_square u : interior u -> in_square u. Proof. intros [A B]. split; lra. Qed.

Lemma cosine_bij : one_to_one_onto interior sample_cosine_weighted open_hemisphere.
Proof.
  destruct disk_bij as (D1 & D2 & D3). split; [|split].
  - intros u H. destruct (cosine_unit u (interior_square u H)) as (U & Z & ZZ). split; [auto|]. destruct H as [A _]. nra.
  - intros u v Hu Hv E. apply D2; auto. rewrite <- !cosine_proj, E. reflexivity.
  - intros [x y z] [U Z]. unfold unit, dot in U. cbn in *. destruct (D3 (V2 x y)) as (u & Hu & E). { unfold open_disk. cbn. nra. }
    exists u. split; auto. destruct (cosine_unit u (interior_square u Hu)) as (_ & Z0 & ZZ).
    rewrite <- cosine_proj in E. pose proof (f_equal v2x E) as E1. pose proof (f_equal v2y E) as E2.
    change (vx (sample_cosine_weighted u) = x) in E1. change (vy (sample_cosine_weighted u) = y) in E2.
    pose proof (disk_in u (interior_square u Hu)) as D. cbn zeta in D. rewrite <- cosine_proj in D. unfold to_plane in D. cbn [v2x v2y] in D. rewrite E1, E2 in D.
    apply vec3_eq; cbn [vx vy vz]; auto. apply (Rsqr_inj _ _); unfold Rsqr; lra.
Qed.

(** ** Sphere *)
Lemma sphere_unit u : in_square u -> unit (sample_uniform_sphere u).
Proof.
  intros [[H0 H1] _]. unfold unit, dot, sample_uniform_sphere. cbn. rewrite safe_sqrt_sqrt. set (z := 1 - 2 * v2x u). set (t := 2 * PI * v2y u).
  assert (0 <= 1 - z * z) by (unfold z; nra). set (r := sqrt (1 - z * z)). assert (R2 : r * r = 1 - z * z) by (apply sqrt_sqrt; auto).
  transitivity (r * r * (cos t * cos t + sin t * sin t) + z * z); [ring|]. rewrite cs1, R2. ring.
Qed.

Lemma sphere_bij : one_to_one_onto interior sample_uniform_sphere open_sphere.
Proof.
  pose proof PI_RGT_0 as P. split; [|split].
  - intros u H. split; [apply sphere_unit, interior_square, H|]. destruct H as [A _]. cbn. lra.
  - intros u v [A B] [A' B'] E. unfold sample_uniform_sphere in E. rewrite !safe_sqrt_sqrt in E. injection E as E1 E2 E3.
    assert (V : v2x u = v2x v) by lra. rewrite V in *. set (z := 1 - 2 * v2x v) in *.
    assert (0 < sqrt (1 - z * z)) by (apply sqrt_lt_R0; unfold z; nra).
    apply Rmult_eq_reg_l in E1; [|lra]. apply Rmult_eq_reg_l in E2; [|lra].
    assert (2 * PI * v2y u = 2 * PI * v2y v) by (apply angle_unique; auto; nra).
    destruct u as [a b], v as [c d]. cbn in *. f_equal; [auto|]. apply (Rmult_eq_reg_l (2 * PI)); lra.
  - intros [x y z] [U Z]. unfold unit, dot in U. cbn in *.
    assert (Q : 0 < 1 - z * z) by nra. assert (R0 : 0 < sqrt (1 - z * z)) by (apply sqrt_lt_R0; auto). assert (RR : sqrt (1 - z * z) * sqrt (1 - z * z) = 1 - z * z) by (apply sqrt_sqrt; lra).
    set (r := sqrt (1 - z * z)) in *.
    destruct (angle_exists (x / r) (y / r)) as (t & T & C & S).
    { transitivity ((1 - z * z) / (r * r)); [replace (1 - z * z) with (x * x + y * y) by lra; field; lra|]. rewrite RR. field. lra. }
    exists (V2 ((1 - z) / 2) (t / (2 * PI))). split.
    + split; cbn; [lra|]. split; [apply Rmult_le_pos; [lra|]; apply Rlt_le, Rinv_0_lt_compat; lra|].
      apply (Rmult_lt_reg_r (2 * PI)); [lra|]. unfold Rdiv. rewrite Rmult_assoc, Rinv_l by lra. lra.
    + unfold sample_uniform_sphere. cbn. rewrite safe_sqrt_sqrt. replace (2 * PI * (t / (2 * PI))) with t by (field; lra).
      replace (1 - 2 * ((1 - z) / 2)) with z by field. fold r. rewrite C, S. apply vec3_eq; cbn; try field; lra.
Qed.

Lemma sphere_area u : interior u -> area_element sample_uniform_sphere u (4 * PI).
Proof.
  intros [[H0 H1] _]. pose proof PI_RGT_0 as P. set (z := 1 - 2 * v2x u). set (t := 2 * PI * v2y u). set (r := sqrt (1 - z * z)).
  assert (Q : 0 < 1 - z * z) by (unfold z; nra). assert (R0 : 0 < r) by (apply sqrt_lt_R0; auto). assert (RR : r * r = 1 - z * z) by (apply sqrt_sqrt; lra).
  assert (Dr : derivable_pt_lim (fun x => safe_sqrt (1 - (1 - 2 * x) * (1 - 2 * x))) (v2x u) (2 * z / r)).
  { eapply d_eq; [apply (d_comp (fun x => 4 * x + -4 * (x * x)) safe_sqrt (v2x u) (4 * 1 + -4 * (1 * v2x u + v2x u * 1)) (/ (2 * sqrt (4 * v2x u + -4 * (v2x u * v2x u)))))| |].
    - apply d_add; apply d_scal; [apply d_id|]. apply (derivable_pt_lim_mult id id); apply derivable_pt_lim_id.
    - apply d_sqrt. unfold z in Q. lra.
    - intros y. cbn. f_equal. ring.
    - replace (4 * v2x u + -4 * (v2x u * v2x u)) with (1 - z * z) by (unfold z; ring). fold r. unfold z. field. lra. }
  exists (V3 (cos t * (2 * z / r)) (sin t * (2 * z / r)) (-2)), (V3 (r * (- sin t * (2 * PI))) (r * (cos t * (2 * PI))) 0).
  unfold partials1, partials2, partial1, partial2, sample_uniform_sphere. cbn [vx vy vz v2x v2y]. split; [|split].
  - split; [|split].
    + eapply d_eq; [exact (d_scal _ (cos t) _ _ Dr)| |reflexivity]. intros y. apply Rmult_comm.
    + eapply d_eq; [exact (d_scal _ (sin t) _ _ Dr)| |reflexivity]. intros y. apply Rmult_comm.
    + eapply d_eq; [apply (d_add (fun _ => 1) (fun y => -2 * y)); [apply d_const|apply d_scal, d_id]| |ring]. intros y. cbn. ring.
  - split; [|split].
    + eapply d_eq; [apply (d_scal (fun y => cos (2 * PI * y)) r), d_cos| |reflexivity]. intros y. rewrite safe_sqrt_sqrt. reflexivity.
    + eapply d_eq; [apply (d_scal (fun y => sin (2 * PI * y)) r), d_sin| |reflexivity]. intros y. rewrite safe_sqrt_sqrt. reflexivity.
    + apply d_const.
  - unfold vlen, cross, dot. cbn [vx vy vz]. symmetry. match goal with |- sqrt ?e = _ => assert (E : e = (4 * PI) * (4 * PI)) end.
    { transitivity (4 * PI * PI * (4 * (r * r) * (cos t * cos t + sin t * sin t) + (2 * z) * (2 * z) * ((cos t * cos t + sin t * sin t) * (cos t * cos t + sin t * sin t)))); [field; lra|].
      rewrite cs1, RR. ring. }
    rewrite E. apply sqrt_square. lra.
Qed.

(** ** Triangle *)
Lemma triangle_in a b c u : in_square u -> in_triangle a b c (sample_triangle a b c u).
Proof.
  intros [[H0 H1] [H2 H3]]. unfold sample_triangle. cbn zeta. rewrite safe_sqrt_sqrt.
  assert (0 <= sqrt (v2x u)) by apply sqrt_pos. assert (sqrt (v2x u) <= 1) by (rewrite <- sqrt_1; apply sqrt_le_1; lra).
  set (s := sqrt (v2x u)) in *. exists (s - v2y u * s), (1 - s), (v2y u * s).
  split; [nra|]. split; [lra|]. split; [nra|]. split; [ring|]. unfold mix_barycentric. cbn [v2x v2y]. f_equal. f_equal. f_equal. ring.
Qed.

Lemma bary_unique a b c y z y' z' : cross (vsub b a) (vsub c a) <> v0 ->
  mix_barycentric a b c (V2 y z) = mix_barycentric a b c (V2 y' z') -> y = y' /\ z = z'.
Proof.
  intros N E. set (e1 := vsub b a) in *. set (e2 := vsub c a) in *.
  assert (F : vadd (vscale (y - y') e1) (vscale (z - z') e2) = v0).
  { transitivity (vsub (mix_barycentric a b c (V2 y z)) (mix_barycentric a b c (V2 y' z'))); [unfold mix_barycentric, e1, e2; cbn [v2x v2y]; clear; vring|].
    rewrite E. generalize (mix_barycentric a b c (V2 y' z')). intros. clear. vring. }
  assert (F1 : vscale (y - y') (cross e1 e2) = v0).
  { transitivity (cross (vadd (vscale (y - y') e1) (vscale (z - z') e2)) e2); [clearbody e1 e2; clear; vring|]. rewrite F. clearbody e2. clear. vring. }
  assert (F2 : vscale (z - z') (cross e1 e2) = v0).
  { transitivity (cross e1 (vadd (vscale (y - y') e1) (vscale (z - z') e2))); [clearbody e1 e2; clear; vring|]. rewrite F. clearbody e1. clear. vring. }
  assert (K : forall k, vscale k (cross e1 e2) = v0 -> k = 0).
  { intros k Hk. destruct (Req_dec k 0) as [|Nk]; auto. exfalso. apply N. destruct (cross e1 e2) as [p q r]. unfold vscale, v0 in *. cbn in Hk. injection Hk as A B C.
    apply Rmult_integral in A, B, C. f_equal; tauto. }
  apply K in F1. apply K in F2. lra.
Qed.

Lemma triangle_bij a b c : cross (vsub b a) (vsub c a) <> v0 -> one_to_one_onto interior (sample_triangle a b c) (open_triangle a b c).
Proof.
  intros N. split; [|split].
  - intros u [[H0 H1] [H2 H3]]. unfold sample_triangle. cbn zeta. rewrite safe_sqrt_sqrt.
    assert (0 < sqrt (v2x u)) by (apply sqrt_lt_R0; auto). assert (sqrt (v2x u) < 1) by (rewrite <- sqrt_1; apply sqrt_lt_1; lra).
    set (s := sqrt (v2x u)) in *. exists (s - v2y u * s), (1 - s), (v2y u * s).
    split; [nra|]. split; [lra|]. split; [nra|]. split; [ring|]. unfold mix_barycentric. cbn [v2x v2y]. f_equal. f_equal. f_equal. ring.
  - intros u v [A B] [A' B'] E. unfold sample_triangle in E. cbn zeta in E. rewrite !safe_sqrt_sqrt in E. apply bary_unique in E; auto. destruct E as [E1 E2].
    assert (S : sqrt (v2x u) = sqrt (v2x v)) by lra. assert (0 < sqrt (v2x v)) by (apply sqrt_lt_R0; lra). rewrite S in E2. apply Rmult_eq_reg_r in E2; [|lra].
    apply sqrt_inj in S; try lra. destruct u, v. cbn in *. f_equal; auto.
  - intros p (x & y & z & X & Y & Z & Sum & ->). set (s := x + z). exists (V2 (s * s) (z / s)). assert (S0 : 0 < s) by (unfold s; lra). assert (S1 : s < 1) by (unfold s; lra). split.
    + split; cbn; [nra|]. split; [apply Rmult_le_pos; [lra|]; apply Rlt_le, Rinv_0_lt_compat; lra|].
      apply (Rmult_lt_reg_r s); [lra|]. unfold Rdiv. rewrite Rmult_assoc, Rinv_l by lra. unfold s. lra.
    + unfold sample_triangle. cbn. rewrite safe_sqrt_sqrt, sqrt_square by lra. replace (z / s * s) with z by (field; lra). unfold mix_barycentric. cbn.
      replace (1 - (1 - s) - z) with x by (unfold s; ring). replace (1 - s) with y by (unfold s; lra). reflexivity.
Qed.

Lemma vlen_scale k a : vlen (vscale k a) = Rabs k * vlen a.
Proof.
  unfold vlen. replace (dot (vscale k a) (vscale k a)) with (Rsqr k * dot a a) by (unfold Rsqr; vring).
  rewrite sqrt_mult; [|apply Rle_0_sqr|apply dot_self_nonneg]. now rewrite sqrt_Rsqr_abs.
Qed.

Lemma triangle_area_element a b c u : interior u -> area_element (sample_triangle a b c) u (triangle_area a b c).
Proof.
  intros [[H0 H1] _]. set (s := sqrt (v2x u)). assert (S0 : 0 < s) by (apply sqrt_lt_R0; auto).
  exists (vscale (/ (2 * s)) (vadd (vsub a b) (vscale (v2y u) (vsub c a)))), (vscale s (vsub c a)).
  assert (D1 : forall x y z, derivable_pt_lim (fun v => (1 - (1 - safe_sqrt v) - v2y u * safe_sqrt v) * x + (1 - safe_sqrt v) * y + v2y u * safe_sqrt v * z) (v2x u) (/ (2 * s) * (x - y + v2y u * (z - x)))).
  { intros x y z. eapply d_eq; [apply (d_add (fun _ => y) (fun v => (x - y + v2y u * (z - x)) * safe_sqrt v)); [apply d_const|apply d_scal, d_sqrt, H0]| |].
    - intros v. cbn. ring.
    - fold s. ring. }
  assert (D2 : forall x y z, derivable_pt_lim (fun v => (1 - (1 - safe_sqrt (v2x u)) - v * safe_sqrt (v2x u)) * x + (1 - safe_sqrt (v2x u)) * y + v * safe_sqrt (v2x u) * z) (v2y u) (s * (z - x))).
  { intros x y z. rewrite safe_sqrt_sqrt. fold s. eapply d_eq; [apply (d_add (fun _ => s * x + (1 - s) * y) (fun v => (s * (z - x)) * v)); [apply d_const|apply d_scal, d_id]| |].
    - intros v. cbn. ring.
    - ring. }
  split; [|split].
  - unfold partials1, partial1, sample_triangle, mix_barycentric. cbn. split; [|split]; apply D1.
  - unfold partials2, partial2, sample_triangle, mix_barycentric. cbn. split; [|split]; apply D2.
  - unfold triangle_area. rewrite safe_sqrt_sqrt. fold (vlen (cross (vsub b a) (vsub c a))).
    transitivity (vlen (vscale (- / 2) (cross (vsub b a) (vsub c a)))).
    + rewrite vlen_scale, Rabs_Ropp, Rabs_right by lra. ring.
    + f_equal. transitivity (vscale (- (s * / (2 * s))) (cross (vsub b a) (vsub c a))).
      * f_equal. field. lra.
      * generalize (v2y u) (/ (2 * s)). intros. clear. vring.
Qed.

(** ** Area lights under a transform *)
Definition rigid (m : mat3) : Prop := forall x y, dot (mmul m x) (mmul m y) = dot x y.

Lemma lagrange x y : dot (cross x y) (cross x y) = dot x x * dot y y - dot x y * dot x y.
Proof. vring. Qed.

Lemma rigid_area m t a b c : rigid m -> triangle_area (apply_point m t a) (apply_point m t b) (apply_point m t c) = triangle_area a b c.
Proof.
  intros H. unfold triangle_area. f_equal. f_equal. rewrite !lagrange.
  assert (E : forall p q, vsub (apply_point m t p) (apply_point m t q) = mmul m (vsub p q)).
  { intros p q. unfold apply_point, mmul. destruct m. cbn. clear. vring. }
  rewrite !E, !H. reflexivity.
Qed.

Lemma gram x y z : dot x (cross y z) * dot x (cross y z) =
  dot x x * (dot y y * dot z z - dot y z * dot y z) - dot x y * (dot x y * dot z z - dot y z * dot x z) + dot x z * (dot x y * dot y z - dot y y * dot x z).
Proof. vring. Qed.

Lemma rigid_jacobian m : rigid m -> jacobian m = 1.
Proof.
  intros H. unfold jacobian.
  assert (C : mmul m (V3 1 0 0) = col0 m /\ mmul m (V3 0 1 0) = col1 m /\ mmul m (V3 0 0 1) = col2 m).
  { destruct m as [p q r]. unfold mmul. cbn. repeat split; vring. }
  destruct C as (C0 & C1 & C2). pose proof (gram (col0 m) (col1 m) (col2 m)) as G. rewrite <- C0, <- C1, <- C2 in *. rewrite !H in G. rewrite C0, C1, C2 in *.
  unfold dot in G at 3 4 5 6 7 8 9 10 11 12 13 14 15 16 17. cbn [vx vy vz] in G. set (d := dot (col0 m) _) in *.
  assert (E : d * d = 1) by lra. assert (D : d = 1 \/ d = -1) by nra. destruct D as [-> | ->]; [apply Rabs_R1|]. rewrite Rabs_left; lra.
Qed.

Definition map_tri (m : mat3) (t : vec3) (x : vec3 * vec3 * vec3) : vec3 * vec3 * vec3 := let '(a, b, c) := x in (apply_point m t a, apply_point m t b, apply_point m t c).
Lemma rigid_total m t ts : rigid m -> total_area (map (map_tri m t) ts) = total_area ts.
Proof.
  intros H. unfold total_area. induction ts as [|[[a b] c] ts IH]; auto. cbn [map fold_right map_tri]. rewrite IH, rigid_area; auto.
Qed.
