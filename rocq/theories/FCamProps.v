(** C109: the pinhole camera in floating point. *)
From Coq Require Import List Reals ZArith Bool Lra Lia Psatz.
From Flocq Require Import Core.Core IEEE754.BinarySingleNaN.
From Verif Require Import Base RBase RngModel FltModel FltProofs FDistSpec FDistProofs FBoundModel FBoundSpec FBoundProofs FFilmModel FFilmProofs FBvhSpec FBvhProofs FDirModel FDirSpec FDirProofs FRasterModel FRasterSpec FRasterProofs FRasterProps FCamModel FCamSpec FCamProofs.
Local Open Scope R_scope.

(** A camera placed by position, centre and up vector, up not close to the direction of view, has an orthonormal basis up
    to rounding. *)
Theorem C109_basis position center up : usual_vec (fvsub position center) -> in_cube up -> / 16 <= cross2 up (fnormalize (fvsub position center)) ->
  let '(u, v, w) := flookat position center up in orthonormal u v w.
Proof. apply lookat_ok. Qed.
Print Assumptions C109_basis.

(** The direction of a primary ray is a unit vector up to rounding. *)
Theorem C109_direction c rx ry : orthonormal (fcu c) (fcv c) (fcw c) -> usual_screen (fctf c) (fcasp c) -> unit_number rx -> unit_number ry ->
  finite_vec (fprimary c rx ry) /\ Rabs (length2 (fprimary c rx ry) - 1) <= 1500 * eps.
Proof.
  intros O Hs [Fx Hx] [Fy Hy]. destruct (eye_ray_ok c rx ry Hs Fx Hx Fy Hy) as (x0 & y0 & k & [C L] & _). split.
  - intros i. apply (world_close c O _ C i).
  - now apply world_length.
Qed.
Print Assumptions C109_direction.

Lemma inside_ok px py : 0 <= val px <= 1 -> 0 <= val py <= 1 -> Rlt_bool (val px) 0 || Rlt_bool 1 (val px) || Rlt_bool (val py) 0 || Rlt_bool 1 (val py) = false.
Proof. intros A B. now rewrite !Rlt_bool_false by lra. Qed.
Lemma inside_inv (px py : flt) p : (if Rlt_bool (val px) 0 || Rlt_bool 1 (val px) || Rlt_bool (val py) 0 || Rlt_bool 1 (val py) then None else Some (px, py)) = Some p ->
  p = (px, py) /\ 0 <= val px <= 1 /\ 0 <= val py <= 1.
Proof. destruct (Rlt_bool_spec (val px) 0), (Rlt_bool_spec 1 (val px)), (Rlt_bool_spec (val py) 0), (Rlt_bool_spec 1 (val py)); cbn; intros E; try discriminate. injection E as <-. split; [reflexivity|lra]. Qed.
Lemma p31 : / 2 ^ 31 = / 2147483648. Proof. f_equal. simpl. ring. Qed.
Lemma p32 : / 2 ^ 32 = / 4294967296. Proof. f_equal. simpl. ring. Qed.

(** The position of the direction of the ray of a position is that position up to 2^-32, if the position keeps a distance
    of 2^-31 from the edges of the film. *)
Theorem C109_round_trip_partial c rx ry : orthonormal (fcu c) (fcv c) (fcw c) -> usual_screen (fctf c) (fcasp c) ->
  finite rx = true -> finite ry = true -> within (/ 2 ^ 31) (val rx) -> within (/ 2 ^ 31) (val ry) ->
  exists px py, fraster_position c (fprimary c rx ry) = Some (px, py) /\ unit_number px /\ unit_number py /\
    Rabs (val px - val rx) <= / 2 ^ 32 /\ Rabs (val py - val ry) <= / 2 ^ 32.
Proof.
  intros O Hs Fx Fy Wx Wy. unfold within in *. rewrite p31 in *. destruct (round_trip c rx ry O Hs Fx ltac:(lra) Fy ltac:(lra)) as (px & py & Fp & Fq & A & B & E).
  exists px, py. rewrite p32 in *. assert (A' := A). assert (B' := B). apply Rabs_le_inv in A'. apply Rabs_le_inv in B'.
  assert (Hp : 0 <= val px <= 1) by lra. assert (Hq : 0 <= val py <= 1) by lra. rewrite inside_ok in E by assumption. repeat split; try assumption; lra.
Qed.
Print Assumptions C109_round_trip_partial.

(** Whatever the position, a position that is returned is close to it. *)
Theorem C109_returned c rx ry px py : orthonormal (fcu c) (fcv c) (fcw c) -> usual_screen (fctf c) (fcasp c) -> unit_number rx -> unit_number ry ->
  fraster_position c (fprimary c rx ry) = Some (px, py) -> unit_number px /\ unit_number py /\ Rabs (val px - val rx) <= / 2 ^ 32 /\ Rabs (val py - val ry) <= / 2 ^ 32.
Proof.
  intros O Hs [Fx Hx] [Fy Hy] E. destruct (round_trip c rx ry O Hs Fx Hx Fy Hy) as (qx & qy & Fp & Fq & A & B & E'). rewrite E' in E. apply inside_inv in E as (E & Hp & Hq).
  injection E as -> ->. repeat split; assumption || tauto.
Qed.
Print Assumptions C109_returned.

(** At the edge of the film the position may be lost: the left edge, half height, seen from the origin along an axis, half
    height of the screen 3/4. The path tracer reads the position of the direction that it sampled without looking whether
    there is one (src/renderer/renderer_pt.cpp:215). *)
Definition c109_axis (tf : flt) : fcamera := mk_fcamera (FV fone fzero fzero) (FV fzero fone fzero) (FV fzero fzero fone) tf fone.
Lemma c109_ortho tf : orthonormal (fcu (c109_axis tf)) (fcv (c109_axis tf)) (fcw (c109_axis tf)).
Proof.
  assert (P := eps_pos). assert (Z : val fzero = 0) by reflexivity. assert (F := fone_finite). cbn [fcu fcv fcw c109_axis]. split; [|split].
  - split; [|split]; intros [|[|i]]; cbn [fcomp fx fy fz]; assumption || reflexivity.
  - unfold near_one, rdot3. cbn [fx fy fz]. rewrite fone_val, Z. split; [|split]; (match goal with |- Rabs ?x <= _ => replace x with 0 by ring end; rewrite Rabs_R0; lra).
  - unfold near_zero, rdot3. cbn [fx fy fz]. rewrite fone_val, Z. split; [|split]; (match goal with |- Rabs ?x <= _ => replace x with 0 by ring end; rewrite Rabs_R0; lra).
Qed.
Definition c109_tf : flt := fmake 3 (-2).
Lemma c109_tf_ok : finite c109_tf = true /\ val c109_tf = 3 / 4.
Proof.
  destruct (val_sf c109_tf (3 * 2 ^ 51) (-53) ltac:(vm_compute; reflexivity)) as [F V]. split; [assumption|]. rewrite V.
  rewrite mult_IZR. change (IZR (2 ^ 51)) with (bpow radix2 51). rewrite Rmult_assoc, <- bpow_plus. change (bpow radix2 (51 + -53)) with (/ 4). lra.
Qed.
Lemma c109_screen : usual_screen (fctf (c109_axis c109_tf)) (fcasp (c109_axis c109_tf)).
Proof. destruct c109_tf_ok as [F V]. cbn [fctf fcasp c109_axis]. unfold usual_screen, sixteen. rewrite fone_val, V. repeat split; try assumption; try apply fone_finite; lra. Qed.
Definition is_none {A} (o : option A) : bool := match o with None => true | Some _ => false end.
Lemma is_none_ok {A} (o : option A) : is_none o = true -> o = None.
Proof. now destruct o. Qed.
Theorem C109_edge_refuted : ~ forall c rx ry, orthonormal (fcu c) (fcv c) (fcw c) -> usual_screen (fctf c) (fcasp c) ->
  finite rx = true -> 0 <= val rx < 1 -> finite ry = true -> 0 <= val ry < 1 -> fraster_position c (fprimary c rx ry) <> None.
Proof.
  intros H. destruct fhalf_ok as [Fh Vh]. assert (Z : val fzero = 0) by reflexivity.
  apply (H (c109_axis c109_tf) fzero fhalf (c109_ortho _) c109_screen); [reflexivity|rewrite Z; lra|assumption|rewrite Vh; lra|].
  apply is_none_ok. vm_compute. reflexivity.
Qed.
Print Assumptions C109_edge_refuted.

(** The position of any direction in front of the camera, at most some 86 degrees off its axis, is computed up to 2^-32 of the exact one;
    a position is returned if the exact one is on the film by 2^-32, and only if it is no more than 2^-32 off. *)
Theorem C109_accuracy c wo : orthonormal (fcu c) (fcv c) (fcw c) -> usual_screen (fctf c) (fcasp c) -> in_cube wo ->
  rdot3 (fcw c) wo <= - / 24 -> Rabs (rdot3 (fcu c) wo) <= 17 * - rdot3 (fcw c) wo -> Rabs (rdot3 (fcv c) wo) <= 17 * - rdot3 (fcw c) wo ->
  let x := exact_x (fcu c) (fcw c) (fctf c) (fcasp c) wo in let y := exact_y (fcv c) (fcw c) (fctf c) wo in
  (forall px py, fraster_position c wo = Some (px, py) -> unit_number px /\ unit_number py /\ Rabs (val px - x) <= / 2 ^ 32 /\ Rabs (val py - y) <= / 2 ^ 32) /\
  (within (/ 2 ^ 32) x -> within (/ 2 ^ 32) y -> fraster_position c wo <> None).
Proof.
  intros O Hs C Hz Hx Hy x y. destruct O as ((Fu & Fv & Fw) & (Nu & Nv & Nw) & _). set (k := - rdot3 (fcw c) wo) in *. assert (K : / 24 <= k) by (unfold k; lra).
  destruct (dot_small _ wo (near_small _ Fu Nu) C) as [Ax _]. destruct (dot_small _ wo (near_small _ Fv Nv) C) as [Ay _]. destruct (dot_small _ wo (near_small _ Fw Nw) C) as [Az _].
  set (x0 := rdot3 (fcu c) wo / k). set (y0 := rdot3 (fcv c) wo / k).
  assert (B : forall z, Rabs z <= 17 * k -> Rabs (z / k) <= 17). { intros z H. apply Rle_trans with (1 := div_abs z k k ltac:(lra) ltac:(lra)). apply Rmult_le_reg_r with k; [lra|]. unfold Rdiv. rewrite Rmult_assoc, Rinv_l by lra. lra. }
  destruct (position_close c wo x0 y0 k Hs) as (px & py & [Fp Ap] & [Fq Aq] & E).
  - apply ap_le with 15; [|lra]. apply ap_eq with (1 := Ax). unfold x0. field. lra.
  - apply ap_le with 15; [|lra]. apply ap_eq with (1 := Ay). unfold y0. field. lra.
  - apply ap_le with 15; [|lra]. apply ap_eq with (1 := Az). unfold k. ring.
  - assumption.
  - now apply B.
  - now apply B.
  - change (x0 / (val (fcasp c) * val (fctf c)) / 2 + / 2) with x in Ap. change (y0 / val (fctf c) / 2 + / 2) with y in Aq.
    assert (L : 1684000 * eps <= / 2 ^ 32) by (rewrite eps_val, p32; lra). split.
    + intros qx qy Q. rewrite Q in E. symmetry in E. apply inside_inv in E as (E & Hp & Hq). injection E as -> ->. repeat split; tauto || lra.
    + intros Wx Wy. unfold within in *. apply Rabs_le_inv in Ap. apply Rabs_le_inv in Aq. rewrite E, inside_ok by lra. discriminate.
Qed.
Print Assumptions C109_accuracy.

(** No direction gives a position outside the film or one that is not a number, and no direction behind the camera gives a position. *)
Lemma div_not_nan x y : is_nan x = false -> finite y = true -> val y <> 0 -> is_nan (fdivide x y) = false.
Proof.
  intros N F V. destruct (finite x) eqn:Fx; [now apply fdivide_key|].
  destruct x as [s|s| |s m e H]; try discriminate. destruct y as [s'|s'| |s' m' e' H']; try discriminate; reflexivity.
Qed.
Lemma half_not_nan x : is_nan x = false -> is_nan (fplus (fmult x fhalf) fhalf) = false.
Proof.
  intros N. destruct fhalf_ok as [Fh Vh]. destruct (finite x) eqn:Fx.
  - destruct (of_key (fmult x fhalf) (val x * val fhalf) 1023 ltac:(lia) (fmult_key x fhalf Fx Fh)) as [[Fm _] _].
    + rewrite Vh. assert (B := val_big x Fx). rewrite Rabs_mult, (Rabs_pos_eq (/ 2)) by lra. unfold big in B. change 1024%Z with (1023 + 1)%Z in B. rewrite bpow_plus in B. change (bpow radix2 1) with 2 in B. lra.
    + now apply fplus_key.
  - destruct x as [s|s| |s m e H]; try discriminate. destruct s; vm_compute; reflexivity.
Qed.
Lemma in_unit x : is_nan x = false -> flt_ltb x fzero = false -> flt_ltb fone x = false -> unit_number x.
Proof.
  intros N A B. rewrite ltb_key in A by (assumption || reflexivity). rewrite ltb_key in B by (assumption || apply finite_not_nan, fone_finite).
  rewrite (key_finite fone fone_finite), fone_val in B. replace (key fzero) with 0 in A by reflexivity. assert (O := one_lt_big).
  assert (K : 0 <= key x <= 1) by (destruct (Rlt_bool_spec (key x) 0); [discriminate|]; destruct (Rlt_bool_spec 1 (key x)); [discriminate|]; lra).
  assert (F : finite x = true) by (apply (finite_key x N); lra). rewrite (key_finite x F) in K. now split.
Qed.
Theorem C109_range c wo px py : orthonormal (fcu c) (fcv c) (fcw c) -> finite (fctf c) = true -> finite (fcasp c) = true -> 0 < val (fctf c) -> 0 < val (fcasp c) -> in_cube wo ->
  fraster_position c wo = Some (px, py) -> unit_number px /\ unit_number py /\ rdot3 (fcw c) wo <= 15 * eps.
Proof.
  intros O Ff Fa Pf Pa C E. destruct O as ((Fu & Fv & Fw) & (Nu & Nv & Nw) & _).
  destruct (dot_small _ wo (near_small _ Fu Nu) C) as [[Fx _] _]. destruct (dot_small _ wo (near_small _ Fv Nv) C) as [[Fy _] _]. destruct (dot_small _ wo (near_small _ Fw Nw) C) as [[Fz Az] _].
  unfold fraster_position in E. change (fz (fto_eye c wo)) with (fdot (fcw c) wo) in E. rewrite (geb_zero _ Fz) in E. destruct (Rle_bool_spec 0 (val (fdot (fcw c) wo))) as [|Z]; [discriminate|].
  unfold fplane in E. cbn [fto_eye fx fy fz] in E. set (x := fplus (fmult (fdivide (fdivide (fdivide _ _) _) _) _) _) in E. set (y := fplus _ _) in E.
  destruct (opp_ok _ Fx) as [Gx _]. destruct (opp_ok _ Fy) as [Gy _].
  assert (Nx : is_nan x = false) by (apply half_not_nan, div_not_nan; [apply div_not_nan; [apply div_not_nan; [now apply finite_not_nan|assumption|lra]|assumption|lra]|assumption|lra]).
  assert (Ny : is_nan y = false) by (apply half_not_nan, div_not_nan; [apply div_not_nan; [now apply finite_not_nan|assumption|lra]|assumption|lra]).
  assert (Ux := in_unit x Nx). assert (Uy := in_unit y Ny). clearbody x y.
  destruct (flt_ltb x fzero); [discriminate|]. destruct (flt_ltb fone x); [discriminate|]. destruct (flt_ltb y fzero); [discriminate|]. destruct (flt_ltb fone y); [discriminate|]. cbn [orb] in E.
  injection E as <- <-. split; [now apply Ux|]. split; [now apply Uy|]. apply Rabs_le_inv in Az. lra.
Qed.
Print Assumptions C109_range.

(** With a half height of zero (field of view 0) the position may not be a number. *)
Theorem C109_range_refuted : ~ forall c wo px py, orthonormal (fcu c) (fcv c) (fcw c) -> finite (fctf c) = true -> 0 <= val (fctf c) -> 0 < val (fcasp c) -> in_cube wo ->
  fraster_position c wo = Some (px, py) -> finite px = true.
Proof.
  intros H. set (c := c109_axis fzero). set (wo := FV fzero fzero (Bopp fone)).
  assert (W : in_cube wo). { destruct val_neg1 as [F V]. intros [|[|i]]; cbn [fcomp fx fy fz wo]; (split; [assumption || reflexivity|]); [change (val fzero) with 0; lra..|rewrite V; lra]. }
  assert (N : match fraster_position c wo with Some (px, _) => is_nan px | None => false end = true) by (vm_compute; reflexivity).
  destruct (fraster_position c wo) as [[px py]|] eqn:E; [|discriminate].
  assert (F := H c wo px py (c109_ortho _) eq_refl ltac:(change (val (fctf c)) with 0; lra) ltac:(change (val (fcasp c)) with (val fone); rewrite fone_val; lra) W E).
  apply finite_not_nan in F. congruence.
Qed.
Print Assumptions C109_range_refuted.

(** A ray through a pixel of a film of up to 8192 pixels a side is recorded in that pixel: the position sampled in the window of
    the pixel, or in its cell, with random numbers that keep a distance of 2^-17 from 0 and 1, goes through the camera and back to
    the same pixel. *)
Lemma p17 : / 2 ^ 17 = / 131072. Proof. f_equal. simpl. ring. Qed.
Lemma p21 : / 2 ^ 21 = / 2097152. Proof. f_equal. simpl. ring. Qed.
Lemma position_within x w u p : (1 <= w <= 8192)%Z -> (0 <= x < w)%Z -> within (/ 2 ^ 17) (val u) -> Rabs (val p * IZR w - (IZR x + val u)) <= / 900000 -> within (/ 2 ^ 31) (val p).
Proof.
  intros Hw X U H. unfold within in *. rewrite p17, p31 in *. apply Rabs_le_inv in H.
  assert (W1 : 1 <= IZR w <= 8192) by (split; apply IZR_le; lia). assert (X0 : 0 <= IZR x) by (apply IZR_le; lia). assert (X1 : IZR x <= IZR w - 1) by (rewrite <- minus_IZR; apply IZR_le; lia).
  split; [|]; apply Rmult_le_reg_r with (IZR w); nra || lra.
Qed.
Lemma back_to_pixel x w u p q : (1 <= w <= 8192)%Z -> (0 <= x < w)%Z -> within (/ 2 ^ 17) (val u) -> Rabs (val p * IZR w - (IZR x + val u)) <= / 900000 ->
  unit_number q -> Rabs (val q - val p) <= / 2 ^ 32 -> fcoord q w = Ok x.
Proof.
  intros Hw X U H [Fq Bq] D. unfold within in U. rewrite p17 in U. rewrite p32 in D. apply Rabs_le_inv in H. apply Rabs_le_inv in D.
  assert (W1 : 1 <= IZR w <= 8192) by (split; apply IZR_le; lia).
  destruct (C107_pixel q w ltac:(split; lia) Fq Bq) as (i & E & I & L). rewrite p21 in L. rewrite E. f_equal.
  assert (S : - (/ 524288) <= val q * IZR w - val p * IZR w <= / 524288) by nra.
  assert (A : (x < i + 1)%Z) by (apply lt_IZR; rewrite plus_IZR; lra). assert (B : (i < x + 1)%Z) by (apply lt_IZR; rewrite plus_IZR; lra). lia.
Qed.
Theorem C109_pixel_partial c x y w h u1 u2 : orthonormal (fcu c) (fcv c) (fcw c) -> usual_screen (fctf c) (fcasp c) ->
  (1 <= w <= 8192)%Z -> (1 <= h <= 8192)%Z -> (0 <= x < w)%Z -> (0 <= y < h)%Z ->
  finite u1 = true -> finite u2 = true -> within (/ 2 ^ 17) (val u1) -> within (/ 2 ^ 17) (val u2) ->
  (exists px py, fraster_position c (fprimary c (fwindow x u1 w) (fwindow y u2 h)) = Some (px, py) /\ fraster_to_pixel px py w h = Ok (x, y)) /\
  (exists px py, fraster_position c (fprimary c (fcell x u1 w) (fcell y u2 h)) = Some (px, py) /\ fraster_to_pixel px py w h = Ok (x, y)).
Proof.
  intros O Hs Hw Hh X Y F1 F2 U1 U2.
  assert (V1 : unit_number u1) by (split; [assumption|]; unfold within in U1; rewrite p17 in U1; lra). assert (V2 : unit_number u2) by (split; [assumption|]; unfold within in U2; rewrite p17 in U2; lra).
  assert (K : forall p q, finite p = true -> finite q = true -> Rabs (val p * IZR w - (IZR x + val u1)) <= / 900000 -> Rabs (val q * IZR h - (IZR y + val u2)) <= / 900000 ->
    exists px py, fraster_position c (fprimary c p q) = Some (px, py) /\ fraster_to_pixel px py w h = Ok (x, y)).
  { intros p q Fp Fq Hp Hq. destruct (C109_round_trip_partial c p q O Hs Fp Fq) as (px & py & E & Ux & Uy & Dx & Dy); [now apply (position_within x w u1)|now apply (position_within y h u2)|].
    exists px, py. split; [assumption|]. unfold fraster_to_pixel. rewrite (back_to_pixel x w u1 p px) by assumption. cbn [obind]. rewrite (back_to_pixel y h u2 q py) by assumption. reflexivity. }
  destruct (window_position x w u1 ltac:(split; lia) X V1) as (Fa & _ & Aa). destruct (window_position y h u2 ltac:(split; lia) Y V2) as (Fb & _ & Ab).
  destruct (cell_position x w u1 ltac:(split; lia) X V1) as (Fc & _ & Ac). destruct (cell_position y h u2 ltac:(split; lia) Y V2) as (Fd & _ & Ad).
  split; apply K; try assumption; lra.
Qed.
Print Assumptions C109_pixel_partial.

(** The hypotheses hold for the camera at (0, 0, 1) that looks at the origin, and for the centres of the pixels. *)
Definition c109_pos : fvec := FV fzero fzero fone.
Definition c109_origin : fvec := FV fzero fzero fzero.
Definition c109_up : fvec := FV fzero fone fzero.
Lemma sf_same (x y : flt) : B2SF x = B2SF y -> x = y.
Proof. apply B2SF_inj. Qed.
Example C109_example :
  (usual_vec (fvsub c109_pos c109_origin) /\ in_cube c109_up /\ / 16 <= cross2 c109_up (fnormalize (fvsub c109_pos c109_origin))) /\
  orthonormal (fcu (c109_axis c109_tf)) (fcv (c109_axis c109_tf)) (fcw (c109_axis c109_tf)) /\ usual_screen c109_tf fone /\
  unit_number fhalf /\ within (/ 2 ^ 31) (val fhalf) /\ within (/ 2 ^ 17) (val fhalf) /\
  (in_cube (FV fzero fzero (Bopp fone)) /\ rdot3 (FV fzero fzero fone) (FV fzero fzero (Bopp fone)) <= - / 24).
Proof.
  assert (Z : val fzero = 0) by reflexivity. assert (F1 := fone_finite). destruct val_neg1 as [Fn Vn]. destruct fhalf_ok as [Fh Vh].
  split; [|split; [apply c109_ortho|split; [apply c109_screen|]]].
  - assert (Nz : fvsub c109_pos c109_origin = FV fzero fzero fone).
    { unfold fvsub, c109_pos, c109_origin. cbn [fx fy fz]. f_equal; apply sf_same; vm_compute; reflexivity. }
    assert (Nw : fnormalize (FV fzero fzero fone) = FV fzero fzero fone).
    { unfold fnormalize, fvmul. cbn [fx fy fz]. f_equal; apply sf_same; vm_compute; reflexivity. }
    rewrite Nz, Nw. split; [|split].
    + assert (L : 1 <= bpow radix2 500) by (change 1 with (bpow radix2 0); apply bpow_le; lia). split.
      * intros [|[|i]]; cbn [fcomp fx fy fz]; (split; [assumption || reflexivity|]); rewrite ?fone_val, ?Z, ?Rabs_R0, ?Rabs_R1; lra.
      * exists 2%nat. cbn [fcomp fz]. rewrite fone_val, Rabs_R1. change 1 with (bpow radix2 0). apply bpow_le. lia.
    + intros [|[|i]]; cbn [fcomp fx fy fz c109_up]; (split; [assumption || reflexivity|]); rewrite ?fone_val, ?Z; lra.
    + unfold cross2, rdot3, c109_up. cbn [fx fy fz]. rewrite fone_val, Z. lra.
  - unfold unit_number, within. rewrite Vh, p31, p17. split; [split; [assumption|lra]|]. split; [lra|]. split; [lra|]. split.
    + intros [|[|i]]; cbn [fcomp fx fy fz]; (split; [assumption || reflexivity|]); rewrite ?Vn, ?Z; lra.
    + unfold rdot3. cbn [fx fy fz]. rewrite fone_val, Vn, Z. lra.
Qed.
