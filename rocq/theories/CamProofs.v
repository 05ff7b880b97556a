From Coq Require Import Reals Lra Psatz ZArith Bool.
From Verif Require Import Base RBase VecBase GeoModel SurfModel SurfSpec SurfProofs SurfWarpProofs MatModel MatProofs CamModel CamSpec.
Open Scope R_scope.

Lemma fdiv_val a b r : fdiv a b = Some r -> b <> 0 /\ r = a / b.
Proof. unfold fdiv. destruct (Req_EM_T b 0); [discriminate|]. intros [= <-]. auto. Qed.
Lemma rdiv_ok a b : b <> 0 -> rdiv a b = Val (a / b).
Proof. intros H. unfold rdiv. now rewrite fdiv_ok. Qed.
Lemma rdiv_val a b r : rdiv a b = Val r -> b <> 0 /\ r = a / b.
Proof. unfold rdiv. destruct (fdiv a b) eqn:E; [|discriminate]. intros [= <-]. now apply fdiv_val. Qed.

Lemma eye_comp k d : to_eye k d = V3 (dot (c_u k) d) (dot (c_v k) d) (dot (c_w k) d).
Proof. unfold to_eye, mmul, transpose. cbn [col0 col1 col2]. generalize (c_u k), (c_v k), (c_w k). intros. vring. Qed.

Lemma normalize_form v : 0 < dot v v -> fnormalize v = Val (vscale (/ sqrt (dot v v)) v).
Proof.
  intros H. unfold fnormalize, vdiv, vlen. destruct (Req_EM_T (sqrt (dot v v)) 0) as [E|]; [|reflexivity]. apply sqrt_lt_R0 in H. lra.
Qed.
Lemma normalize_0 v : fnormalize v = NonFinite <-> dot v v = 0.
Proof.
  unfold fnormalize, vdiv, vlen. destruct (Req_EM_T (sqrt (dot v v)) 0) as [E|E]; split; try discriminate; try reflexivity; intros H.
  - apply sqrt_eq_0; [apply dot_self_nonneg|assumption].
  - rewrite H, sqrt_0 in E. lra.
Qed.

Section K.
  Variable k : camera.
  Hypothesis K : proper_camera k.
  Let A := c_aspect k * c_tf k.
  Let B := c_tf k.
  Lemma Apos : 0 < A. Proof. destruct K as (_ & H1 & H2). now apply Rmult_lt_0_compat. Qed.
  Lemma Bpos : 0 < B. Proof. destruct K as (_ & H1 & H2). assumption. Qed.
  Definition N (a b : R) : R := a * a + b * b + 1.
  Lemma Npos a b : 0 < N a b. Proof. unfold N. nra. Qed.
  Definition dir (a b : R) : vec3 := vscale (/ sqrt (N a b)) (vadd (vadd (vscale a (c_u k)) (vscale b (c_v k))) (vneg (c_w k))).
  Lemma primary_form rp : primary_ray k rp = Val (dir (A * (2 * v2x rp - 1)) (B * (2 * v2y rp - 1))).
  Proof.
    unfold primary_ray. set (v := V3 _ _ _). assert (E : dot v v = N (A * (2 * v2x rp - 1)) (B * (2 * v2y rp - 1))) by (unfold v, dot, N, A, B; cbn; ring).
    rewrite normalize_form by (rewrite E; apply Npos). rewrite E. cbn [fbind]. f_equal. unfold dir, v. cbn [vscale vx vy vz]. fold A B.
    set (s := / sqrt _). destruct (c_u k), (c_v k), (c_w k). apply vec3_eq; cbn; ring.
  Qed.
  Lemma spos a b : 0 < / sqrt (N a b). Proof. apply Rinv_0_lt_compat, sqrt_lt_R0, Npos. Qed.
  Lemma dir_dots a b : dot (c_u k) (dir a b) = a * / sqrt (N a b) /\ dot (c_v k) (dir a b) = b * / sqrt (N a b) /\ dot (c_w k) (dir a b) = - / sqrt (N a b).
  Proof.
    destruct K as ((Hu & Hv & Hw & Huv & Huw & Hvw & _) & _). unfold dir. rewrite !dot_scale_r, !dot_add_r, !dot_scale_r, !dot_neg_r. unfold unit in *.
    rewrite (dot_comm (c_v k) (c_u k)), (dot_comm (c_w k) (c_u k)), (dot_comm (c_w k) (c_v k)), Hu, Hv, Hw, Huv, Huw, Hvw. repeat split; ring.
  Qed.
  Lemma dir_unit a b : unit (dir a b).
  Proof.
    unfold unit, dir. destruct K as ((Hu & Hv & Hw & Huv & Huw & Hvw & _) & _). unfold unit in *. rewrite dot_scale_r, dot_scale_l.
    set (q := vadd _ _). assert (E : dot q q = N a b).
    { transitivity (a * a * dot (c_u k) (c_u k) + b * b * dot (c_v k) (c_v k) + dot (c_w k) (c_w k) + 2 * a * b * dot (c_u k) (c_v k) - 2 * a * dot (c_u k) (c_w k) - 2 * b * dot (c_v k) (c_w k)).
      - unfold q. clear. destruct (c_u k), (c_v k), (c_w k). unfold dot; cbn; ring.
      - rewrite Hu, Hv, Hw, Huv, Huw, Hvw. unfold N. ring. }
    rewrite E. assert (P := Npos a b). assert (S := sqrt_sqrt (N a b) ltac:(lra)). assert (S0 := sqrt_lt_R0 _ P). rewrite <- S at 3. field. lra.
  Qed.

  Lemma raster_dir a b : raster_position k (dir a b) =
    let x := a / A * / 2 + / 2 in let y := b / B * / 2 + / 2 in
    if Rlt_dec x 0 then Val None else if Rlt_dec 1 x then Val None else if Rlt_dec y 0 then Val None else if Rlt_dec 1 y then Val None else Val (Some (V2 x y)).
  Proof.
    unfold raster_position. rewrite eye_comp. cbn [vx vy vz]. destruct (dir_dots a b) as (-> & -> & ->). assert (S := spos a b).
    destruct (Rle_dec 0 (- / sqrt (N a b))); [lra|]. destruct K as (_ & K1 & K2). set (s := / sqrt (N a b)) in *.
    rewrite (rdiv_ok (- (a * s))) by lra. cbn [fbind]. rewrite rdiv_ok by lra. cbn [fbind]. rewrite rdiv_ok by lra. cbn [fbind].
    rewrite (rdiv_ok (- (b * s))) by lra. cbn [fbind]. rewrite rdiv_ok by lra. cbn [fbind]. cbn zeta.
    replace (- (a * s) / - s / c_tf k / c_aspect k) with (a / A) by (unfold A; field; lra).
    replace (- (b * s) / - s / c_tf k) with (b / B) by (unfold B; field; lra). reflexivity.
  Qed.
  Lemma round_trip rp : in_square rp -> exists d, primary_ray k rp = Val d /\ unit d /\ raster_position k d = Val (Some rp).
  Proof.
    intros [Hx Hy]. rewrite primary_form. eexists. split; [reflexivity|]. split; [apply dir_unit|]. rewrite raster_dir. cbn zeta.
    assert (PA := Apos). assert (PB := Bpos). destruct rp as [x y]. cbn [v2x v2y] in *.
    replace (A * (2 * x - 1) / A * / 2 + / 2) with x by (field; lra). replace (B * (2 * y - 1) / B * / 2 + / 2) with y by (field; lra).
    destruct (Rlt_dec x 0); [lra|]. destruct (Rlt_dec 1 x); [lra|]. destruct (Rlt_dec y 0); [lra|]. destruct (Rlt_dec 1 y); [lra|]. reflexivity.
  Qed.
  (** A unit vector in front of the camera is the direction of its point in the plane. *)
  Lemma dir_of d : unit d -> dot (c_w k) d < 0 -> d = dir (- dot (c_u k) d / dot (c_w k) d) (- dot (c_v k) d / dot (c_w k) d).
  Proof.
    intros Hd Hz. destruct K as (F & _). assert (E := frame_expand _ _ _ d F). unfold dir.
    set (x := dot (c_u k) d) in *. set (y := dot (c_v k) d) in *. set (z := dot (c_w k) d) in *.
    assert (Q : x * x + y * y + z * z = 1).
    { unfold unit in Hd. rewrite <- Hd. rewrite <- E at 2. rewrite !dot_add_r, !dot_scale_r, !(dot_comm d). fold x y z. ring. }
    replace (/ sqrt (N (- x / z) (- y / z))) with (- z).
    - rewrite <- E at 1. clear - Hz. destruct (c_u k), (c_v k), (c_w k). apply vec3_eq; cbn; field; lra.
    - replace (N (- x / z) (- y / z)) with (Rsqr (/ - z)). 2: { unfold N, Rsqr. transitivity ((x * x + y * y + z * z) / (z * z)); [rewrite Q|]; field; lra. }
      rewrite sqrt_Rsqr. 2: { left. apply Rinv_0_lt_compat. lra. } rewrite Rinv_inv. reflexivity.
  Qed.
  Lemma raster_val d : exists r, raster_position k d = Val r.
  Proof.
    unfold raster_position. destruct (Rle_dec 0 (vz (to_eye k d))); [eauto|]. destruct K as (_ & K1 & K2).
    rewrite (rdiv_ok (- vx _)) by lra. cbn [fbind]. rewrite rdiv_ok by lra. cbn [fbind]. rewrite rdiv_ok by lra. cbn [fbind].
    rewrite (rdiv_ok (- vy _)) by lra. cbn [fbind]. rewrite rdiv_ok by lra. cbn [fbind]. cbn zeta.
    destruct (Rlt_dec _ 0); [eauto|]. destruct (Rlt_dec 1 _); [eauto|]. destruct (Rlt_dec _ 0); [eauto|]. destruct (Rlt_dec 1 _); eauto.
  Qed.
  Lemma raster_some d rp : unit d -> raster_position k d = Val (Some rp) -> in_square rp /\ primary_ray k rp = Val d.
  Proof.
    intros Hd H. destruct (Rle_dec 0 (dot (c_w k) d)) as [Z|Z].
    { unfold raster_position in H. rewrite eye_comp in H. cbn [vz] in H. destruct (Rle_dec 0 (dot (c_w k) d)); [discriminate|contradiction]. }
    rewrite (dir_of d Hd ltac:(lra)) in H |- *. revert H. generalize (- dot (c_u k) d / dot (c_w k) d), (- dot (c_v k) d / dot (c_w k) d). intros a b.
    rewrite raster_dir. cbn zeta. destruct (Rlt_dec _ 0); [discriminate|]. destruct (Rlt_dec 1 _); [discriminate|]. destruct (Rlt_dec _ 0); [discriminate|]. destruct (Rlt_dec 1 _); [discriminate|].
    intros [= <-]. cbn. split; [split; cbn; lra|]. rewrite primary_form. cbn [v2x v2y]. assert (PA := Apos). assert (PB := Bpos). do 2 f_equal; field; lra.
  Qed.
  Lemma in_view_ray d : unit d -> (in_view k d <-> exists rp, in_square rp /\ primary_ray k rp = Val d).
  Proof.
    intros Hd. assert (PA := Apos). assert (PB := Bpos). split.
    - intros (t & x & y & Ht & Hx & Hy & E). fold A B in Hx, Hy. exists (V2 (x / A * / 2 + / 2) (y / B * / 2 + / 2)).
      assert (X : -1 <= x / A <= 1). { split; [apply Rmult_le_reg_r with A; [assumption|]|apply Rmult_le_reg_r with A; [assumption|]]; unfold Rdiv; rewrite Rmult_assoc, Rinv_l by lra; lra. }
      assert (Y : -1 <= y / B <= 1). { split; [apply Rmult_le_reg_r with B; [assumption|]|apply Rmult_le_reg_r with B; [assumption|]]; unfold Rdiv; rewrite Rmult_assoc, Rinv_l by lra; lra. }
      split; [split; cbn; lra|]. rewrite primary_form. cbn [v2x v2y]. f_equal.
      replace (A * (2 * (x / A * / 2 + / 2) - 1)) with x by (field; lra). replace (B * (2 * (y / B * / 2 + / 2) - 1)) with y by (field; lra).
      unfold dir. rewrite <- E.
      assert (Q : t * t = N x y).
      { transitivity (dot (vscale t d) (vscale t d)); [rewrite dot_scale_l, dot_scale_r; unfold unit in Hd; rewrite Hd; ring|]. rewrite E.
        assert (U := dir_unit x y). unfold unit, dir in U. rewrite dot_scale_l, dot_scale_r in U. set (q := dot _ _) in *. assert (P := Npos x y). assert (S := sqrt_sqrt (N x y) ltac:(lra)). assert (S0 := sqrt_lt_R0 _ P).
        assert (q = sqrt (N x y) * sqrt (N x y)) by (replace q with (sqrt (N x y) * sqrt (N x y) * (/ sqrt (N x y) * (/ sqrt (N x y) * q))) by (field; lra); rewrite U; ring). lra. }
      rewrite <- Q. rewrite sqrt_square by lra. clear - Ht. destruct d. apply vec3_eq; cbn; field; lra.
    - intros (rp & [Hx Hy] & E). rewrite primary_form in E. injection E as <-. set (a := A * _). set (b := B * _).
      exists (sqrt (N a b)), a, b. assert (P := Npos a b). split; [now apply sqrt_lt_R0|]. fold A B. split; [unfold a; nra|]. split; [unfold b; nra|].
      unfold dir. assert (S0 := sqrt_lt_R0 _ P). destruct (vadd _ _). apply vec3_eq; cbn; field; lra.
  Qed.
  Lemma J_form d : dot (c_w k) d <> 0 -> J k d = Val (/ ((- dot (c_w k) d) * (- dot (c_w k) d) * (- dot (c_w k) d)) / (A * B * 4)).
  Proof.
    intros H. destruct K as (_ & K1 & K2). unfold J. rewrite eye_comp. cbn [vz]. rewrite rdiv_ok by lra. cbn [fbind]. assert (0 < A * B) by (apply Rmult_lt_0_compat; [exact Apos|exact Bpos]).
    rewrite rdiv_ok. 2: { unfold A, B in *. nra. } f_equal. unfold A, B in *. field. repeat split; lra.
  Qed.
  Lemma raster_front d rp : raster_position k d = Val (Some rp) -> dot (c_w k) d < 0.
  Proof. unfold raster_position. rewrite eye_comp. cbn [vz]. destruct (Rle_dec 0 (dot (c_w k) d)); [discriminate|]. lra. Qed.
  Lemma eval_pdf d : exists a, cam_eval k d = Val (grey a) /\ cam_pdf_direction k d = Val a /\ 0 <= a /\ (a = 0 <-> raster_position k d = Val None).
  Proof.
    unfold cam_eval, cam_pdf_direction. destruct (raster_val d) as [[rp|] E]; rewrite E; cbn [fbind].
    - assert (F := raster_front d rp E). rewrite J_form by lra. cbn [fbind]. eexists. split; [reflexivity|]. split; [reflexivity|].
      match goal with |- 0 <= ?x /\ _ => assert (P : 0 < x) end.
      { assert (P1 := Apos). assert (P2 := Bpos). set (c := - dot (c_w k) d) in *. assert (Pc : 0 < c) by (unfold c; lra). apply Rdiv_lt_0_compat.
        - apply Rinv_0_lt_compat, Rmult_lt_0_compat; [now apply Rmult_lt_0_compat|assumption].
        - apply Rmult_lt_0_compat; [now apply Rmult_lt_0_compat|lra]. }
      split; [lra|]. split; [lra|discriminate].
    - exists 0. repeat split; try lra.
  Qed.
  (** ** The density *)
  Lemma d_quot c0 c1 n0 t x : 0 < n0 -> let a := t * (2 * x - 1) in let s := / sqrt (a * a + n0) in
    derivable_pt_lim (fun x => s * 0 + / sqrt ((t * (2 * x - 1)) * (t * (2 * x - 1)) + n0) * (t * (2 * x - 1) * c0 + c1)) x (2 * t * (s * c0 - a * (s * s * s) * (a * c0 + c1))).
  Proof.
    intros Hn a s. assert (P : 0 < a * a + n0) by nra. assert (S0 := sqrt_lt_R0 _ P). assert (SS := sqrt_sqrt _ (Rlt_le _ _ P)).
    assert (D1 : derivable_pt_lim (fun x => t * (2 * x - 1) * c0 + c1) x (2 * t * c0)).
    { eapply d_eq; [apply (d_add _ _ x _ _ (d_scal _ (2 * t * c0) x _ (d_id x)) (d_const (c1 - t * c0) x))| |]; [intros y; cbn beta; ring|ring]. }
    assert (D2 : derivable_pt_lim (fun x => (t * (2 * x - 1)) * (t * (2 * x - 1)) + n0) x (4 * t * a)).
    { assert (L : derivable_pt_lim (fun x => t * (2 * x - 1)) x (2 * t)).
      { eapply d_eq; [apply (d_add _ _ x _ _ (d_scal _ (2 * t) x _ (d_id x)) (d_const (- t) x))| |]; [intros y; cbn beta; ring|ring]. }
      eapply d_eq; [apply (d_add _ _ x _ _ (derivable_pt_lim_mult _ _ x _ _ L L) (d_const n0 x))| |]; [intros y; unfold mult_fct; reflexivity|unfold a; ring]. }
    assert (D3 : derivable_pt_lim (fun x => sqrt ((t * (2 * x - 1)) * (t * (2 * x - 1)) + n0)) x (/ (2 * sqrt (a * a + n0)) * (4 * t * a))).
    { apply (d_comp _ sqrt x _ _ D2). apply derivable_pt_lim_sqrt. exact P. }
    eapply d_eq; [apply (derivable_pt_lim_div _ _ x _ _ D1 D3)| |].
    - fold a. lra.
    - intros y. unfold div_fct. rewrite Rmult_0_r, Rplus_0_l. unfold Rdiv. ring.
    - cbn beta. fold a. unfold Rsqr, s. field. lra.
  Qed.
  Lemma cross_lin x y : let u := c_u k in let v := c_v k in let w := c_w k in forall a b s,
    cross (vscale x (vsub (vscale s u) (vscale (a * (s * s * s)) (vadd (vadd (vscale a u) (vscale b v)) (vneg w)))))
          (vscale y (vsub (vscale s v) (vscale (b * (s * s * s)) (vadd (vadd (vscale a u) (vscale b v)) (vneg w)))))
    = vscale (x * y * (s * s)) (vsub (vsub (cross u v) (vscale (b * (s * s)) (vsub (vscale b (cross u v)) (cross u w)))) (vscale (a * (s * s)) (vsub (vscale a (cross u v)) (cross w v)))).
  Proof. intros u v w a b s. clear. destruct u, v, w. apply vec3_eq; cbn; ring. Qed.
  Lemma area rp : area_element (fun rp => dir (A * (2 * v2x rp - 1)) (B * (2 * v2y rp - 1))) rp
    (let a := A * (2 * v2x rp - 1) in let b := B * (2 * v2y rp - 1) in 4 * A * B * (/ sqrt (N a b) * / sqrt (N a b) * / sqrt (N a b))).
  Proof.
    destruct rp as [x y]. cbn [v2x v2y]. set (a := A * (2 * x - 1)). set (b := B * (2 * y - 1)). cbn zeta. set (s := / sqrt (N a b)).
    set (q := vadd (vadd (vscale a (c_u k)) (vscale b (c_v k))) (vneg (c_w k))).
    exists (vscale (2 * A) (vsub (vscale s (c_u k)) (vscale (a * (s * s * s)) q))), (vscale (2 * B) (vsub (vscale s (c_v k)) (vscale (b * (s * s * s)) q))).
    assert (P1 : 0 < b * b + 1) by nra. assert (P2 : 0 < a * a + 1) by nra.
    assert (D1 : forall cu cv cw, derivable_pt_lim (fun x => / sqrt (N (A * (2 * x - 1)) b) * (A * (2 * x - 1) * cu + b * cv + - cw)) x (2 * A * (s * cu - a * (s * s * s) * (a * cu + b * cv + - cw)))).
    { intros cu cv cw. eapply d_eq; [apply (d_quot cu (b * cv + - cw) (b * b + 1) A x P1)| |].
      - intros z. cbn beta. rewrite Rmult_0_r, Rplus_0_l. unfold N. rewrite !Rplus_assoc. reflexivity.
      - fold a. replace (a * a + (b * b + 1)) with (N a b) by (unfold N; ring). fold s. rewrite !Rplus_assoc. reflexivity. }
    assert (D2 : forall cu cv cw, derivable_pt_lim (fun y => / sqrt (N a (B * (2 * y - 1))) * (a * cu + B * (2 * y - 1) * cv + - cw)) y (2 * B * (s * cv - b * (s * s * s) * (a * cu + b * cv + - cw)))).
    { intros cu cv cw. eapply d_eq; [apply (d_quot cv (a * cu + - cw) (a * a + 1) B y P2)| |].
      - intros z. cbn beta. rewrite Rmult_0_r, Rplus_0_l. unfold N. f_equal; [do 2 f_equal|]; ring.
      - fold b. replace (b * b + (a * a + 1)) with (N a b) by (unfold N; ring). fold s. ring. }
    split; [|split].
    - unfold partials1, partial1. cbn [v2x v2y]. unfold dir, q. cbn [vscale vadd vneg vsub vx vy vz]. fold b. repeat split; apply D1.
    - unfold partials2, partial2. cbn [v2x v2y]. unfold dir, q. cbn [vscale vadd vneg vsub vx vy vz]. fold a. repeat split; apply D2.
    - assert (P := Npos a b). assert (S0 := sqrt_lt_R0 _ P). assert (SS := sqrt_sqrt _ (Rlt_le _ _ P)). assert (Sp := spos a b). fold s in Sp. assert (PA := Apos). assert (PB := Bpos).
      unfold q. rewrite (cross_lin (2 * A) (2 * B) a b s). destruct K as (F & _). destruct (frame_cross _ _ _ F) as [F1 F2]. assert (F3 : cross (c_u k) (c_v k) = c_w k) by apply F.
      rewrite F3, (cross_anti (c_u k) (c_w k)), F2, (cross_anti (c_w k) (c_v k)), F1.
      assert (Q : s * s * (a * a + b * b) = 1 - s * s).
      { assert (s * s * N a b = 1) by (transitivity (s * s * (sqrt (N a b) * sqrt (N a b))); [now rewrite SS|unfold s; field; lra]). unfold N in H. lra. }
      match goal with |- _ = vlen (vscale ?c ?v) => assert (E : v = vscale (- (s * s)) q) end.
      { unfold q. revert Q. clear. generalize (c_u k), (c_v k), (c_w k). intros u v w Q. destruct u as [u1 u2 u3], v as [v1 v2 v3], w as [w1 w2 w3]. apply vec3_eq; cbn; apply Rminus_diag_uniq; [transitivity (w1 * (1 - s * s - s * s * (a * a + b * b)))|transitivity (w2 * (1 - s * s - s * s * (a * a + b * b)))|transitivity (w3 * (1 - s * s - s * s * (a * a + b * b)))]; try ring; rewrite Q; ring. }
      rewrite E. assert (Lq : q = vscale (sqrt (N a b)) (dir a b)).
      { unfold dir. fold q s. clear - S0. unfold s. destruct q. apply vec3_eq; cbn; field; lra. }
      rewrite Lq, !vlen_scale. unfold vlen. assert (U := dir_unit a b). unfold unit in U. rewrite U, sqrt_1.
      assert (Ss : sqrt (N a b) * s = 1) by (unfold s; field; lra).
      rewrite Rabs_Ropp. rewrite !(Rabs_right) by (try apply Rle_ge; try apply Rmult_le_pos; nra).
      transitivity (4 * A * B * (s * s * s) * (sqrt (N a b) * s)); [rewrite Ss|]; ring.
  Qed.
End K.

(** ** Construction *)
Lemma unit_cross_frame u w : unit u -> unit w -> dot u w = 0 -> frame u (cross w u) w.
Proof.
  intros Hu Hw Huw. unfold unit in *. assert (W : dot w u = 0) by now rewrite dot_comm.
  repeat split; try assumption.
  - unfold unit. rewrite lagrange, Hw, Hu, W. ring.
  - clear. vring.
  - clear. vring.
  - rewrite triple_product, Hu, Huw. clear. vring.
Qed.
Lemma normalize_val v n : fnormalize v = Val n -> 0 < dot v v /\ n = vscale (/ sqrt (dot v v)) v.
Proof.
  intros H. assert (D := dot_self_nonneg v). destruct (Req_dec (dot v v) 0) as [E|E].
  - apply normalize_0 in E. congruence.
  - assert (P : 0 < dot v v) by lra. rewrite normalize_form in H by assumption. injection H as <-. auto.
Qed.
Lemma half_height_pos vfov : 0 < vfov < 180 -> 0 < half_height vfov.
Proof. intros H. unfold half_height. assert (P := PI_RGT_0). apply tan_gt_0; nra. Qed.
Lemma look_at_form pos center up vfov aspect k : look_at pos center up vfov aspect = Val k ->
  exists w u, fnormalize (vsub pos center) = Val w /\ fnormalize (cross up w) = Val u /\ k = mk_camera pos (Some up) u (cross w u) w vfov (half_height vfov) aspect /\ frame u (cross w u) w.
Proof.
  unfold look_at. intros H. apply fbind_val in H. destruct H as (w & Hw & H). apply fbind_val in H. destruct H as (u & Hu & H). injection H as <-.
  exists w, u. split; [assumption|]. split; [assumption|]. split; [reflexivity|]. assert (U := fnormalize_unit _ _ Hu). assert (W := fnormalize_unit _ _ Hw). apply unit_cross_frame; try assumption.
  apply normalize_val in Hu. destruct Hu as [_ ->]. rewrite dot_scale_l. replace (dot (cross up w) w) with 0 by (clear; vring). ring.
Qed.
Lemma look_at_proper pos center up vfov aspect k : look_at pos center up vfov aspect = Val k -> 0 < vfov < 180 -> 0 < aspect -> proper_camera k.
Proof.
  intros H Hv Ha. apply look_at_form in H. destruct H as (w & u & _ & _ & -> & F). split; [exact F|]. cbn. split; [now apply half_height_pos|assumption].
Qed.
Lemma dot_zero v : dot v v = 0 <-> v = v0.
Proof.
  split; [|intros ->; unfold dot; cbn; ring]. destruct v as [x y z]. unfold dot. cbn. intros H. assert (X := Rle_0_sqr x). assert (Y := Rle_0_sqr y). assert (Z := Rle_0_sqr z). unfold Rsqr in *.
  apply vec3_eq; cbn; apply Rsqr_0_uniq; unfold Rsqr; lra.
Qed.
Lemma look_at_fails pos center up vfov aspect : look_at pos center up vfov aspect = NonFinite <-> cross up (vsub pos center) = v0.
Proof.
  unfold look_at. set (q := vsub pos center). destruct (Req_dec (dot q q) 0) as [E|E].
  - rewrite (proj2 (normalize_0 q) E). split; [|reflexivity]. intros _. apply dot_zero in E. rewrite E. clear. vring.
  - assert (P : 0 < dot q q) by (assert (D := dot_self_nonneg q); lra). rewrite normalize_form by assumption. cbn [fbind].
    set (c := / sqrt (dot q q)). assert (C : c <> 0) by (apply Rinv_neq_0_compat; apply sqrt_lt_R0 in P; lra).
    assert (X : cross up (vscale c q) = vscale c (cross up q)) by (clear; destruct up, q; apply vec3_eq; cbn; ring). rewrite X.
    assert (Y : dot (vscale c (cross up q)) (vscale c (cross up q)) = c * c * dot (cross up q) (cross up q)) by (rewrite dot_scale_l, dot_scale_r; ring).
    split.
    + intros H. destruct (fnormalize (vscale c (cross up q))) eqn:F; try discriminate. apply normalize_0 in F. rewrite Y in F. apply Rmult_integral in F. destruct F as [F|F]; [apply Rmult_integral in F; tauto|]. now apply dot_zero.
    + intros H. rewrite (proj2 (normalize_0 _)); [reflexivity|]. rewrite Y, H. unfold dot. cbn. ring.
Qed.
Lemma look_at_axes pos center up vfov aspect k : look_at pos center up vfov aspect = Val k ->
  c_pos k = pos /\ same_direction (vsub center pos) (vneg (c_w k)) /\ 0 < dot up (c_v k).
Proof.
  intros H. apply look_at_form in H. destruct H as (w & u & Hw & Hu & -> & F). cbn [c_pos c_w c_v]. split; [reflexivity|].
  apply normalize_val in Hw. destruct Hw as [P ->]. apply normalize_val in Hu. destruct Hu as [P2 ->].
  set (c := / sqrt (dot (vsub pos center) (vsub pos center))) in *. assert (S1 := sqrt_lt_R0 _ P). set (q := vsub pos center) in *. split.
  - exists (sqrt (dot q q)). split; [assumption|]. unfold c, q. set (t := sqrt _) in *. clear - S1. destruct pos, center. apply vec3_eq; cbn; field; lra.
  - set (x := cross up (vscale c q)) in *. rewrite <- (Rmult_1_l (dot up _)). set (s := / sqrt (dot x x)). assert (S2 : 0 < s) by (apply Rinv_0_lt_compat, sqrt_lt_R0, P2).
    assert (E : dot up (cross (vscale c q) (vscale s x)) = s * dot x x).
    { unfold x at 2 3. transitivity (s * dot up (cross (vscale c q) (cross up (vscale c q)))); [unfold x; clear; vring|]. clear. vring. }
    rewrite E. rewrite Rmult_1_l. now apply Rmult_lt_0_compat.
Qed.

(** ** The field of view *)
Lemma sqrt_tan t : 0 < t < PI / 2 -> / sqrt (tan t * tan t + 1) = cos t.
Proof.
  intros H. assert (C : 0 < cos t) by (apply cos_gt_0; lra). replace (tan t * tan t + 1) with (Rsqr (/ cos t)).
  - rewrite sqrt_Rsqr by (left; now apply Rinv_0_lt_compat). apply Rinv_inv.
  - assert (E := cs1 t). unfold tan, Rsqr. transitivity ((cos t * cos t + sin t * sin t) / (cos t * cos t)); [rewrite E; field; lra|field; lra].
Qed.
Lemma fov k : proper_camera k -> c_tf k = half_height (c_vfov k) -> 0 < c_vfov k < 180 ->
  exists d, primary_ray k (V2 (/ 2) 1) = Val d /\ dot d (vneg (c_w k)) = cos (c_vfov k / 2 * PI / 180).
Proof.
  intros K E H. rewrite primary_form by assumption. eexists. split; [reflexivity|]. cbn [v2x v2y]. rewrite dot_neg_r, dot_comm.
  destruct (dir_dots k K (c_aspect k * c_tf k * (2 * / 2 - 1)) (c_tf k * (2 * 1 - 1))) as (_ & _ & ->). rewrite Ropp_involutive.
  replace (c_aspect k * c_tf k * (2 * / 2 - 1)) with 0 by field. replace (c_tf k * (2 * 1 - 1)) with (c_tf k) by ring. rewrite E. unfold N, half_height.
  replace (c_vfov k * PI / 180 * / 2) with (c_vfov k / 2 * PI / 180) by field. rewrite Rmult_0_l, Rplus_0_l. apply sqrt_tan. assert (P := PI_RGT_0). split; nra.
Qed.

(** ** Projection *)
Lemma unit_normalize v : unit v -> fnormalize v = Val v.
Proof.
  intros H. unfold unit in H. rewrite normalize_form by lra. rewrite H, sqrt_1. f_equal. destruct v. apply vec3_eq; cbn; field.
Qed.
Lemma view_look_at pos center up vfov aspect k p : look_at pos center up vfov aspect = Val k ->
  view_point k p = Val (V3 (dot (c_u k) (vsub p pos)) (dot (c_v k) (vsub p pos)) (dot (c_w k) (vsub p pos))).
Proof.
  intros H. apply look_at_form in H. destruct H as (w & u & Hw & Hu & -> & F). unfold view_point. cbn [c_up c_pos c_w c_u c_v].
  replace (vsub (vsub pos w) pos) with (vneg w) by (clear; vring). destruct F as (Fu & _ & Fw & _ & Fuw & _).
  rewrite unit_normalize by now apply unit_neg. cbn [fbind]. replace (cross (vneg w) up) with (cross up w) by (clear; vring). rewrite Hu. cbn [fbind]. f_equal.
  clear. apply vec3_eq; cbn [vx vy vz]; vring.
Qed.
Lemma raster_scale k q d : proper_camera k -> unit d -> same_direction q d -> dot (c_w k) q < 0 ->
  d = dir k (- dot (c_u k) q / dot (c_w k) q) (- dot (c_v k) q / dot (c_w k) q).
Proof.
  intros K Hd (t & Ht & ->) Hq. rewrite !dot_scale_r in *. assert (W : dot (c_w k) d < 0) by nra. rewrite (dir_of k K d Hd W) at 1. f_equal; field; lra.
Qed.
Lemma projection pos center up vfov aspect k p d : look_at pos center up vfov aspect = Val k -> 0 < vfov < 180 -> 0 < aspect ->
  dot (c_w k) (vsub p pos) < 0 -> fnormalize (vsub p pos) = Val d ->
  exists e x y, view_point k p = Val e /\ project k e = Val (V2 x y)
    /\ forall rp, raster_position k d = Val (Some rp) <-> -1 <= x <= 1 /\ -1 <= y <= 1 /\ rp = V2 ((x + 1) / 2) ((y + 1) / 2).
Proof.
  intros H Hv Ha Hp Hd. assert (K := look_at_proper _ _ _ _ _ _ H Hv Ha). rewrite (view_look_at _ _ _ _ _ _ p H).
  assert (Ut : c_vfov k = vfov /\ c_tf k = half_height vfov /\ c_aspect k = aspect) by (apply look_at_form in H; destruct H as (w & u & _ & _ & -> & _); auto). destruct Ut as (Ef & Et & Ea).
  set (q := vsub p pos) in *. assert (T : tan (c_vfov k * PI / 180 / 2) = c_tf k) by (rewrite Ef, Et; reflexivity).
  destruct K as (F & K1 & K2). eexists. exists (- dot (c_u k) q / dot (c_w k) q / (c_aspect k * c_tf k)), (- dot (c_v k) q / dot (c_w k) q / c_tf k).
  split; [reflexivity|]. split.
  - unfold project. rewrite T. cbn [vx vy vz]. rewrite rdiv_ok by nra. cbn [fbind]. rewrite rdiv_ok by lra. cbn [fbind]. rewrite rdiv_ok by lra. cbn [fbind]. rewrite rdiv_ok by lra. cbn [fbind]. do 2 f_equal; field; lra.
  - intros rp. assert (K : proper_camera k) by (split; auto). apply normalize_val in Hd. destruct Hd as [P ->].
    assert (U : unit (vscale (/ sqrt (dot q q)) q)). { apply (fnormalize_unit q). now apply normalize_form. }
    rewrite (raster_scale k q _ K U) at 1; try assumption.
    2: { exists (sqrt (dot q q)). assert (S1 := sqrt_lt_R0 _ P). split; [assumption|]. clear - S1. set (t := sqrt _) in *. destruct q. apply vec3_eq; cbn; field; lra. }
    rewrite raster_dir by assumption. cbn zeta. set (x := _ / (c_aspect k * c_tf k)). set (y := - dot (c_v k) q / dot (c_w k) q / c_tf k).
    replace (x * / 2 + / 2) with ((x + 1) / 2) by field. replace (y * / 2 + / 2) with ((y + 1) / 2) by field.
    destruct (Rlt_dec _ 0); [split; [discriminate|lra]|]. destruct (Rlt_dec 1 _); [split; [discriminate|lra]|]. destruct (Rlt_dec _ 0); [split; [discriminate|lra]|]. destruct (Rlt_dec 1 _); [split; [discriminate|lra]|].
    split; [intros [= <-]; repeat split; try lra|intros (_ & _ & ->); reflexivity].
Qed.

(** ** Weights *)
Lemma cam_weight_direct k g r : proper_camera k -> cam_sample_direct k g = Val (Some r) -> forall rp, raster_position k (r_wo r) = Val (Some rp) ->
  exists f p, cam_eval k (r_wo r) = Val f /\ cam_pdf_direct k g (r_geom r) = Val p /\ vscale p (r_weight r) = f.
Proof.
  intros K H rp Hr. unfold cam_sample_direct in H. destruct g as [s|q|w]; [| |discriminate];
  (apply fbind_val in H; destruct H as (wo & Hw & H); apply fbind_val in H; destruct H as (j & Hj & H); apply fbind_val in H; destruct H as (p & Hp & H);
  destruct (Req_EM_T p 0); [discriminate|]; apply fbind_val in H; destruct H as (w & Hww & H); injection H as <-; cbn [r_wo r_geom r_weight] in *;
  exists (grey j), p; unfold cam_eval; rewrite Hr; cbn [fbind]; rewrite Hj; split; [reflexivity|]; split; [exact Hp|]; now apply vdiv_val in Hww).
Qed.
