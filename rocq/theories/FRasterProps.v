(** C107: raster positions, pixels and two-dimensional tables in floating point. *)
From Coq Require Import List Reals ZArith Bool Lra Lia Psatz Arith.
From Flocq Require Import Core.Core IEEE754.BinarySingleNaN.
From Verif Require Import Base RBase RngModel FltModel FltProofs FDistModel FDistSpec FDistProofs FDistProps FBoundModel FBoundSpec FBoundProofs FFilmProofs FBvhModel FBvhSpec FBvhProofs FRasterModel FRasterSpec FRasterProofs.
Import ListNotations.
Local Open Scope R_scope.

Lemma size_num w : size w -> 1 <= IZR w <= 2147483647.
Proof. intros [A B]. split; apply IZR_le; lia. Qed.
Lemma inv19 : / 2 ^ 19 = / 524288.
Proof. f_equal. simpl. ring. Qed.
Lemma inner_unit u : inner u -> unit_number u.
Proof. intros [F B]. rewrite inv19 in B. split; [assumption|lra]. Qed.

(** A raster position in [0,1] falls in one of the pixels, and in one where it belongs: from the left edge, up to the
    rounding of one product, to the right edge. *)
Theorem C107_pixel rp w : size w -> finite rp = true -> 0 <= val rp <= 1 ->
  exists c, fcoord rp w = Ok c /\ (0 <= c < w)%Z /\ IZR c - / 2 ^ 21 <= val rp * IZR w <= IZR c + 1.
Proof.
  intros Sw F B. assert (Wn := size_num w Sw). assert (D : (1 <= w < 2 ^ 31)%Z) by exact Sw.
  destruct (fofint_ok w) as [Fw Vw]; [lia|].
  assert (K : 0 <= val rp * IZR w <= IZR w). { split; [apply Rmult_le_pos; lra|]. rewrite <- (Rmult_1_l (IZR w)) at 2. apply Rmult_le_compat_r; lra. }
  destruct (mult_at rp (fofint w) F Fw) as [Fp Vp]; [rewrite Vw; lra|]. rewrite Vw in Vp. assert (N := rnd_pos_near _ (proj1 K)).
  assert (U : rnd (val rp * IZR w) <= IZR w). { rewrite <- (rnd_int w) at 2 by lia. apply rnd_mono. lra. }
  destruct (coord_ok rp w Sw F) as (z & E & Z & I & C); [rewrite Vp; split; [apply rnd_pos|]; lra|assumption|]. rewrite Vp in I.
  exists (Z.min z (w - 1)). split; [assumption|]. split; [lia|].
  destruct t_val as [T0 T1]. rewrite e_val in *. replace (2 ^ 21) with 2097152 by (simpl; ring).
  assert (L : IZR (Z.min z (w - 1)) <= IZR z) by (apply IZR_le; lia). split; [lra|].
  destruct (Z.le_gt_cases w z) as [G|G].
  - replace (Z.min z (w - 1)) with (w - 1)%Z by lia. rewrite minus_IZR. lra.
  - replace (Z.min z (w - 1)) with z by lia. destruct (Rle_or_lt (val rp * IZR w) (IZR z + 1)) as [|H]; [assumption|]. exfalso.
    assert (M := rnd_mono (IZR z + 1) (val rp * IZR w) ltac:(lra)). rewrite <- (plus_IZR z 1), (rnd_int (z + 1)), plus_IZR in M by lia. lra.
Qed.
Print Assumptions C107_pixel.

(** A position outside of [0,1] is moved to the nearest pixel, as long as the product fits in an int. *)
Theorem C107_outside rp w : size w -> finite rp = true -> Rabs (val rp) * IZR w <= 2147483647 ->
  (val rp <= 0 -> fcoord rp w = Ok 0%Z) /\ (1 <= val rp -> fcoord rp w = Ok (w - 1)%Z).
Proof.
  intros Sw F B. assert (Wn := size_num w Sw). assert (D : (1 <= w < 2 ^ 31)%Z) by exact Sw.
  destruct (fofint_ok w) as [Fw Vw]; [lia|].
  assert (A : Rabs (val rp * IZR w) <= 2147483647) by (rewrite Rabs_mult, (Rabs_pos_eq (IZR w)) by lra; assumption).
  assert (A' := Rabs_le_inv _ _ A).
  destruct (of_key _ _ 40 ltac:(lia) (fmult_key rp (fofint w) F Fw)) as [[Fp _] Vp].
  { rewrite Vw. change (bpow radix2 40) with (IZR 1099511627776). lra. }
  rewrite Vw in Vp.
  assert (L : -2147483647 <= rnd (val rp * IZR w) <= 2147483647).
  { rewrite <- (rnd_int 2147483647) by lia. rewrite <- (rnd_int (-2147483647)) by lia. split; apply rnd_mono; lra. }
  assert (T : (-2147483647 <= Ztrunc (rnd (val rp * IZR w)) <= 2147483647)%Z).
  { rewrite <- (Ztrunc_IZR 2147483647), <- (Ztrunc_IZR (-2147483647)). split; apply Ztrunc_le; lra. }
  assert (E : fcoord rp w = Ok (zclamp (Ztrunc (rnd (val rp * IZR w))) 0 (w - 1))).
  { unfold fcoord. rewrite (fint_ok _ (Ztrunc (rnd (val rp * IZR w))) Fp); [reflexivity|now rewrite Vp|lia]. }
  rewrite E. unfold zclamp. split; intros H; f_equal.
  - assert (M : (Ztrunc (rnd (val rp * IZR w)) <= 0)%Z); [|lia]. rewrite <- (Ztrunc_IZR 0). apply Ztrunc_le. rewrite <- rnd_0. apply rnd_mono.
    replace 0 with (0 * IZR w) by ring. apply Rmult_le_compat_r; lra.
  - assert (M : (w <= Ztrunc (rnd (val rp * IZR w)))%Z); [|lia]. rewrite <- (Ztrunc_IZR w) at 1. apply Ztrunc_le. rewrite <- (rnd_int w) at 1 by lia. apply rnd_mono.
    rewrite <- (Rmult_1_l (IZR w)) at 1. apply Rmult_le_compat_r; lra.
Qed.
Print Assumptions C107_outside.
Definition c107_far : flt := fmake 1 31.
(** Further away than that, the conversion to int is undefined. *)
Theorem C107_outside_refuted : ~ forall rp w, size w -> finite rp = true -> exists c, fcoord rp w = Ok c /\ (0 <= c < w)%Z.
Proof.
  intros H. destruct (H c107_far 1%Z) as (c & E & _); [split; lia|vm_compute; reflexivity|].
  assert (U : fcoord c107_far 1 = UB) by (vm_compute; reflexivity). rewrite U in E. discriminate.
Qed.
Print Assumptions C107_outside_refuted.

(** The positions made for pixel x: (x + u) / w, and dx * x + dx * u in a window. They are in [0,1], or a little above,
    and x + u away from the left by no more than 2^-19 of a pixel. *)
Theorem C107_position x w u : size w -> (0 <= x < w)%Z -> unit_number u ->
  (finite (fcell x u w) = true /\ 0 <= val (fcell x u w) <= 1 /\ Rabs (val (fcell x u w) * IZR w - (IZR x + val u)) <= / 2 ^ 19) /\
  (finite (fwindow x u w) = true /\ 0 <= val (fwindow x u w) <= 1 + / 2 ^ 19 /\ Rabs (val (fwindow x u w) * IZR w - (IZR x + val u)) <= / 2 ^ 19).
Proof.
  intros Sw X U. destruct (cell_position x w u Sw X U) as (A & B & C). destruct (window_position x w u Sw X U) as (A' & B' & C'). rewrite inv19.
  repeat split; try assumption; try apply B; try apply B'; try lra.
Qed.
Print Assumptions C107_position.

Lemma coord_near x w u p D : size w -> (0 <= x < w)%Z -> unit_number u -> finite p = true -> 0 <= val p <= 2 -> D <= / 900000 ->
  Rabs (val p * IZR w - (IZR x + val u)) <= D ->
  exists z, fint (fmult p (fofint w)) = Ok z /\ fcoord p w = Ok (Z.min z (w - 1)) /\ (0 <= z <= w)%Z /\ (x - 1 <= z <= x + 1)%Z /\ (inner u -> z = x).
Proof.
  intros Sw X U F B Ds H. destruct (scaled x w u Sw X U p D F B Ds H) as (Fm & P & N). apply Rabs_le_inv in N.
  assert (Wn := size_num w Sw). assert (Ub := proj2 U). assert (Xn : 0 <= IZR x <= IZR w - 1) by (rewrite <- (minus_IZR w 1); split; apply IZR_le; lia).
  destruct (coord_ok p w Sw F) as (z & E & Z & I & C); [lra|assumption|]. exists z. split; [assumption|]. split; [assumption|].
  assert (Up : (z < x + 2)%Z) by (apply lt_IZR; rewrite plus_IZR; lra). assert (Lo : (x - 2 < z)%Z) by (apply lt_IZR; rewrite minus_IZR; lra).
  split; [lia|]. split; [lia|].
  intros [_ J]. rewrite inv19 in J. assert ((z < x + 1)%Z) by (apply lt_IZR; rewrite plus_IZR; lra). assert ((x - 1 < z)%Z) by (apply lt_IZR; rewrite minus_IZR; lra). lia.
Qed.
Lemma cell_near x w u : size w -> (0 <= x < w)%Z -> unit_number u ->
  exists z, fint (fmult (fcell x u w) (fofint w)) = Ok z /\ fcoord (fcell x u w) w = Ok (Z.min z (w - 1)) /\ (0 <= z <= w)%Z /\ (x - 1 <= z <= x + 1)%Z /\ (inner u -> z = x).
Proof. intros Sw X U. destruct (cell_position x w u Sw X U) as (F & B & C). apply (coord_near x w u _ (/ 2000000)); try assumption; lra. Qed.
Lemma window_near x w u : size w -> (0 <= x < w)%Z -> unit_number u ->
  exists z, fint (fmult (fwindow x u w) (fofint w)) = Ok z /\ fcoord (fwindow x u w) w = Ok (Z.min z (w - 1)) /\ (0 <= z <= w)%Z /\ (x - 1 <= z <= x + 1)%Z /\ (inner u -> z = x).
Proof. intros Sw X U. destruct (window_position x w u Sw X U) as (F & B & C). apply (coord_near x w u _ (/ 900000)); try assumption; lra. Qed.

(** A position that keeps 2^-19 of a pixel from its edges falls in the pixel that it was made for. *)
Theorem C107_own_partial x w u : size w -> (0 <= x < w)%Z -> inner u -> fcoord (fcell x u w) w = Ok x /\ fcoord (fwindow x u w) w = Ok x.
Proof.
  intros Sw X U. destruct (cell_near x w u Sw X (inner_unit u U)) as (z & _ & E & _ & _ & Z). destruct (window_near x w u Sw X (inner_unit u U)) as (z' & _ & E' & _ & _ & Z').
  rewrite E, E', (Z U), (Z' U). replace (Z.min x (w - 1)) with x by lia. now split.
Qed.
Print Assumptions C107_own_partial.
(** All others fall in that pixel or in the one beside. *)
Theorem C107_near x w u : size w -> (0 <= x < w)%Z -> unit_number u ->
  (exists c, fcoord (fcell x u w) w = Ok c /\ (0 <= c < w)%Z /\ (x - 1 <= c <= x + 1)%Z) /\
  (exists c, fcoord (fwindow x u w) w = Ok c /\ (0 <= c < w)%Z /\ (x - 1 <= c <= x + 1)%Z).
Proof.
  intros Sw X U. assert (D : (1 <= w < 2 ^ 31)%Z) by exact Sw. split.
  - destruct (cell_near x w u Sw X U) as (z & _ & E & R & N & _). exists (Z.min z (w - 1)). split; [assumption|]. lia.
  - destruct (window_near x w u Sw X U) as (z & _ & E & R & N & _). exists (Z.min z (w - 1)). split; [assumption|]. lia.
Qed.
Print Assumptions C107_near.
(** The ray of the raycast renderer for a pixel is one through that pixel. *)
Theorem C107_centre x y w h : size w -> size h -> (0 <= x < w)%Z -> (0 <= y < h)%Z ->
  fraster_to_pixel (fst (fcentre x y w h)) (snd (fcentre x y w h)) w h = Ok (x, y).
Proof.
  intros Sw Sh X Y. assert (H : inner (fmake 1 (-1))).
  { num (fmake 1 (-1)). split; [assumption|]. rewrite V, inv19, pow2_53. lra. }
  unfold fraster_to_pixel, fcentre. cbn [fst snd]. rewrite (proj1 (C107_own_partial x w _ Sw X H)), (proj1 (C107_own_partial y h _ Sh Y H)). reflexivity.
Qed.
Print Assumptions C107_centre.
(** Positions at the edge may miss their pixel: the left edge of pixel 1 of 49 is in pixel 0, and the position for the
    largest random number in pixel 1 of 4 is in pixel 2. *)
Definition c107_last : flt := fminus fone (fmake 1 (-53)).
Theorem C107_edge_refuted :
  ~ (forall x w u, size w -> (0 <= x < w)%Z -> finite u = true -> 0 <= val u < 1 -> (exists c, fcoord (fcell x u w) w = Ok c /\ (x <= c)%Z)) /\
  ~ (forall x w u, size w -> (0 <= x < w)%Z -> finite u = true -> 0 <= val u < 1 -> (exists c, fcoord (fwindow x u w) w = Ok c /\ (x <= c)%Z)) /\
  ~ (forall x w u, size w -> (0 <= x < w)%Z -> finite u = true -> 0 <= val u < 1 -> (exists c, fcoord (fcell x u w) w = Ok c /\ (c <= x)%Z)) /\
  ~ (forall x w u, size w -> (0 <= x < w)%Z -> finite u = true -> 0 <= val u < 1 -> (exists c, fcoord (fwindow x u w) w = Ok c /\ (c <= x)%Z)).
Proof.
  assert (Z : finite fzero = true /\ 0 <= val fzero < 1) by (split; [reflexivity|cbn; lra]).
  assert (L : finite c107_last = true /\ 0 <= val c107_last < 1). { num c107_last. split; [assumption|]. rewrite V, pow2_53. lra. }
  split; [|split; [|split]]; intros H.
  - destruct (H 1 49 fzero)%Z as (c & E & C); [split; lia|lia|apply Z|apply Z|]. assert (U : fcoord (fcell 1 fzero 49) 49 = Ok 0%Z) by (vm_compute; reflexivity). rewrite U in E. injection E as E. lia.
  - destruct (H 1 49 fzero)%Z as (c & E & C); [split; lia|lia|apply Z|apply Z|]. assert (U : fcoord (fwindow 1 fzero 49) 49 = Ok 0%Z) by (vm_compute; reflexivity). rewrite U in E. injection E as E. lia.
  - destruct (H 1 4 c107_last)%Z as (c & E & C); [split; lia|lia|apply L|apply L|]. assert (U : fcoord (fcell 1 c107_last 4) 4 = Ok 2%Z) by (vm_compute; reflexivity). rewrite U in E. injection E as E. lia.
  - destruct (H 1 4 c107_last)%Z as (c & E & C); [split; lia|lia|apply L|apply L|]. assert (U : fcoord (fwindow 1 c107_last 4) 4 = Ok 2%Z) by (vm_compute; reflexivity). rewrite U in E. injection E as E. lia.
Qed.
Print Assumptions C107_edge_refuted.

(** Tables: what is sampled is a cell with a positive weight, the position is in it, and the density reported for the
    position is that of the cell. *)
Lemma total_marginal rows : (forall row, In row rows -> weights row /\ finite (ftotal row) = true) -> weights (map ftotal rows).
Proof.
  intros H w I. apply in_map_iff in I as (row & <- & I). destruct (H row I) as [W F]. split; [assumption|].
  assert (Fl : forall ws a, weights ws -> finite a = true -> 0 <= val a -> finite (fold_left fplus ws a) = true -> 0 <= val (fold_left fplus ws a)).
  { induction ws as [|v ws IH]; intros a Wv Fa Pa Ft; [assumption|]. cbn [fold_left] in *. destruct (Wv v (or_introl eq_refl)) as [Fv Pv].
    assert (Fs : finite (fplus a v) = true).
    { destruct (finite (fplus a v)) eqn:E; [reflexivity|]. exfalso.
      assert (G : forall l b, finite b = false -> finite (fold_left fplus l b) = false).
      { induction l as [|y l IHl]; intros b Hb; [assumption|]. cbn [fold_left]. apply IHl. unfold finite, fplus in *. now destruct b as [[]|[]| |[]], y as [[]|[]| |[]]. }
      rewrite G in Ft by assumption. discriminate. }
    apply IH; [intros x Hx; apply Wv; now right|assumption| |assumption].
    destruct (fplus_key a v Fa Fv) as [N K]. rewrite (finite_result _ _ N K Fs). apply rnd_pos. lra. }
  apply Fl; [assumption|reflexivity|cbn; lra|assumption].
Qed.
Lemma rnd_rel' x : / 2 ^ 1000 <= x -> x * (1 - eps) <= rnd x <= x * (1 + eps).
Proof.
  intros H. assert (B : / 2 ^ 1022 <= / 2 ^ 1000) by (apply Rinv_le; [apply pow_lt; lra|apply Rle_pow; [lra|lia]]).
  assert (P : 0 < / 2 ^ 1000) by (apply Rinv_0_lt_compat, pow_lt; lra).
  destruct (rnd_rel x) as (d & D & E); [rewrite Rabs_pos_eq by lra; lra|]. fold eps in D. apply Rabs_le_inv in D. rewrite E. split; apply Rmult_le_compat_l; lra.
Qed.
Lemma product_ok a b w h : finite a = true -> finite b = true -> 0 < val a <= 1 -> 0 < val b <= 1 -> size w -> size h ->
  let d := fmult (fmult (fmult a b) (fofint w)) (fofint h) in
  finite d = true /\ 0 <= val d /\
  (/ 2 ^ 999 <= val a * val b -> Rabs (val d - val a * val b * IZR w * IZR h) <= 4 * eps * (val a * val b * IZR w * IZR h)).
Proof.
  intros Fa Fb A B Sw Sh. cbv zeta. assert (Wn := size_num w Sw). assert (Hn := size_num h Sh).
  destruct (fofint_ok w) as [Fw Vw]; [destruct Sw; lia|]. destruct (fofint_ok h) as [Fh Vh]; [destruct Sh; lia|].
  set (p := val a * val b). assert (P : 0 < p <= 1). { split; [apply Rmult_lt_0_compat; lra|]. apply Rle_trans with (1 * val b); [apply Rmult_le_compat_r; lra|lra]. }
  destruct (mult_at a b Fa Fb) as [F1 V1]; [fold p; lra|]. fold p in V1.
  assert (R1 : 0 <= rnd p <= 1). { split; [apply rnd_pos; lra|]. rewrite <- rnd_1. apply rnd_mono. lra. }
  destruct (mult_at (fmult a b) (fofint w) F1 Fw) as [F2 V2].
  { rewrite V1, Vw. split; [apply Rmult_le_pos; lra|]. apply Rle_trans with (1 * IZR w); [apply Rmult_le_compat_r; lra|lra]. }
  rewrite V1, Vw in V2. set (q := rnd p) in *.
  assert (Q0 : 0 <= q * IZR w) by (apply Rmult_le_pos; lra).
  assert (R2 : 0 <= rnd (q * IZR w) <= 2147483647).
  { split; [now apply rnd_pos|]. rewrite <- (rnd_int 2147483647) by lia. apply rnd_mono. apply Rle_trans with (1 * IZR w); [apply Rmult_le_compat_r; lra|lra]. }
  set (r := rnd (q * IZR w)) in *.
  assert (Q1 : 0 <= r * IZR h <= 2147483648 * 2147483648) by (split; [apply Rmult_le_pos; lra|apply Rmult_le_compat; lra]).
  destruct (of_key _ _ 62 ltac:(lia) (fmult_key (fmult (fmult a b) (fofint w)) (fofint h) F2 Fh)) as [[F3 _] V3].
  { rewrite V2, Vh. rewrite Rabs_pos_eq by lra. change (bpow radix2 62) with (IZR (2147483648 * 2147483648)). rewrite mult_IZR. lra. }
  rewrite V2, Vh in V3. split; [assumption|]. rewrite V3. split; [apply rnd_pos; lra|]. intros L.
  assert (Ep := eps_pos). assert (Es := eps_small).
  assert (L2 : / 2 ^ 1000 <= / 2 * / 2 ^ 999) by (rewrite <- Rinv_mult; change (2 * 2 ^ 999) with (2 ^ 1000); lra).
  assert (TP : 0 < / 2 ^ 999) by (apply Rinv_0_lt_compat, pow_lt; lra).
  assert (E1 := rnd_rel' p ltac:(lra)). fold q in E1. set (k := / 2 ^ 999) in *. set (l := / 2 ^ 1000) in *.
  assert (lo1 : 9 / 10 * p <= p * (1 - eps)) by (rewrite Rmult_comm; apply Rmult_le_compat_l; lra).
  assert (qW : q <= q * IZR w) by (rewrite <- (Rmult_1_r q) at 1; apply Rmult_le_compat_l; lra).
  assert (E2 := rnd_rel' (q * IZR w) ltac:(fold l; lra)). fold r in E2.
  assert (lo2 : 9 / 10 * (q * IZR w) <= q * IZR w * (1 - eps)) by (rewrite Rmult_comm; apply Rmult_le_compat_l; lra).
  assert (rH : r <= r * IZR h) by (rewrite <- (Rmult_1_r r) at 1; apply Rmult_le_compat_l; lra).
  assert (E3 := rnd_rel' (r * IZR h) ltac:(fold l; lra)).
  set (W := IZR w) in *. set (H := IZR h) in *. set (s := rnd (r * H)) in *.
  assert (X1 : p * W * (1 - eps) <= q * W <= p * W * (1 + eps)).
  { replace (p * W * (1 - eps)) with (p * (1 - eps) * W) by ring. replace (p * W * (1 + eps)) with (p * (1 + eps) * W) by ring. split; apply Rmult_le_compat_r; lra. }
  assert (pW : 0 < p * W) by (apply Rmult_lt_0_compat; lra).
  assert (X2 : p * W * (1 - eps) * (1 - eps) * H <= r * H <= p * W * (1 + eps) * (1 + eps) * H).
  { split; apply Rmult_le_compat_r; try lra; [apply Rle_trans with (q * W * (1 - eps)); [apply Rmult_le_compat_r; lra|lra]|apply Rle_trans with (q * W * (1 + eps)); [lra|apply Rmult_le_compat_r; lra]]. }
  assert (X3 : p * W * (1 - eps) * (1 - eps) * H * (1 - eps) <= s <= p * W * (1 + eps) * (1 + eps) * H * (1 + eps)).
  { split; [apply Rle_trans with (r * H * (1 - eps)); [apply Rmult_le_compat_r; lra|lra]|apply Rle_trans with (r * H * (1 + eps)); [lra|apply Rmult_le_compat_r; lra]]. }
  set (v := p * W * H) in *. assert (Pv : 0 < v) by (unfold v; apply Rmult_lt_0_compat; lra).
  assert (Y1 : 1 - 4 * eps <= (1 - eps) * (1 - eps) * (1 - eps)) by (clear - Ep Es; nra).
  assert (Y2 : (1 + eps) * (1 + eps) * (1 + eps) <= 1 + 4 * eps) by (clear - Ep Es; nra).
  assert (Z1 := Rmult_le_compat_l v _ _ ltac:(lra) Y1). assert (Z2 := Rmult_le_compat_l v _ _ ltac:(lra) Y2).
  replace (v * ((1 - eps) * (1 - eps) * (1 - eps))) with (p * W * (1 - eps) * (1 - eps) * H * (1 - eps)) in Z1 by (unfold v; ring).
  replace (v * ((1 + eps) * (1 + eps) * (1 + eps))) with (p * W * (1 + eps) * (1 + eps) * H * (1 + eps)) in Z2 by (unfold v; ring).
  apply Rabs_le. lra.
Qed.
Theorem C107_table_partial rows cols u0 u1 u2 u3 : table rows cols -> size cols -> size (Z.of_nat (length rows)) ->
  finite u0 = true -> 0 <= val u0 < 1 -> finite u1 = true -> 0 <= val u1 < 1 -> inner u2 -> inner u3 ->
  exists o i j row wt px py d, finit (concat rows) cols (Z.of_nat (length rows)) = Ok o /\
    nth_error rows i = Some row /\ nth_error row j = Some wt /\ 0 < val wt /\
    fsample2 o u0 u1 u2 u3 = Ok (px, py) /\ 0 <= val px <= 1 /\ 0 <= val py <= 1 /\
    Rabs (val px * IZR cols - (IZR (Z.of_nat j) + val u2)) <= / 2 ^ 19 /\ Rabs (val py * IZR (Z.of_nat (length rows)) - (IZR (Z.of_nat i) + val u3)) <= / 2 ^ 19 /\
    fpdf2 o px py = Ok d /\ finite d = true /\ 0 <= val d /\
    let p := val (fpmf (fmade_of (map ftotal rows)) (Z.of_nat i)) * val (fpmf (fmade_of row) (Z.of_nat j)) in
    0 < p <= 1 /\ (/ 2 ^ 999 <= p -> Rabs (val d - p * IZR cols * IZR (Z.of_nat (length rows))) <= 4 * eps * (p * IZR cols * IZR (Z.of_nat (length rows)))).
Proof.
  intros [T S] Sc Sr F0 B0 F1 B1 U2 U3. assert (Dc : (1 <= cols < 2 ^ 31)%Z) by exact Sc.
  assert (M := total_marginal rows ltac:(intros r Hr; split; apply (T r Hr))).
  destruct (C97_sample (map ftotal rows) u0 M S F0 B0) as (i & tw & Ni & Si & Pi & Fi & Bi).
  rewrite nth_error_map in Ni. destruct (nth_error rows i) as [row|] eqn:Nr; [|discriminate]. injection Ni as <-.
  assert (In' := nth_error_In _ _ Nr). destruct (T row In') as (Lr & Wr & Fr).
  destruct (C97_sample row u1 Wr (conj Fr Pi) F1 B1) as (j & wt & Nj & Sj & Pj & Fj & Bj).
  assert (Li : (i < length rows)%nat) by (apply nth_error_Some; congruence). assert (Lj : (j < length row)%nat) by (apply nth_error_Some; congruence).
  assert (Ij : (0 <= Z.of_nat j < cols)%Z) by lia. assert (Ii : (0 <= Z.of_nat i < Z.of_nat (length rows))%Z) by lia.
  destruct (C107_position _ _ u2 Sc Ij (inner_unit _ U2)) as [(_ & Px & Ex) _]. destruct (C107_position _ _ u3 Sr Ii (inner_unit _ U3)) as [(_ & Py & Ey) _].
  destruct (cell_near _ _ u2 Sc Ij (inner_unit _ U2)) as (zx & Cx & _ & _ & _ & Zx). rewrite (Zx U2) in Cx.
  destruct (cell_near _ _ u3 Sr Ii (inner_unit _ U3)) as (zy & Cy & _ & _ & _ & Zy). rewrite (Zy U3) in Cy.
  set (pa := fpmf (fmade_of (map ftotal rows)) (Z.of_nat i)) in *. set (pb := fpmf (fmade_of row) (Z.of_nat j)) in *.
  destruct (product_ok pa pb cols (Z.of_nat (length rows)) Fi Fj Bi Bj Sc Sr) as (Fd & Pd & Ed).
  exists (mk_fdist2 (map fmade_of rows) (fmade_of (map ftotal rows)) cols (Z.of_nat (length rows))), i, j, row, wt,
    (fcell (Z.of_nat j) u2 cols), (fcell (Z.of_nat i) u3 (Z.of_nat (length rows))),
    (fmult (fmult (fmult pa pb) (fofint cols)) (fofint (Z.of_nat (length rows)))).
  split; [apply finit_ok; [intros r Hr; apply (T r Hr)|lia]|]. split; [assumption|]. split; [assumption|]. split; [assumption|].
  split. { unfold fsample2. cbn [fmarg fds fcols frows]. rewrite Si. cbn [obind]. rewrite Nat2Z.id, (map_nth_error fmade_of _ _ Nr), Sj. reflexivity. }
  split; [assumption|]. split; [assumption|]. split; [assumption|]. split; [assumption|].
  split.
  { unfold fpdf2. cbn [fmarg fds fcols frows]. rewrite Cy. cbn [obind]. replace (Z.min (Z.of_nat i) (Z.of_nat (length rows) - 1)) with (Z.of_nat i) by lia.
    destruct (Z.ltb_spec (Z.of_nat i) 0); [lia|]. rewrite Nat2Z.id, (map_nth_error fmade_of _ _ Nr), Cx. reflexivity. }
  split; [assumption|]. split; [assumption|]. cbv zeta. split; [|assumption].
  fold pa pb. clearbody pa pb. clear - Bi Bj. split; [apply Rmult_lt_0_compat; lra|]. apply Rle_trans with (1 * val pb); [apply Rmult_le_compat_r; lra|lra].
Qed.
Print Assumptions C107_table_partial.

(** Not so for random numbers close to 1: the position in the last of two columns is 1, whose density is 0. *)
Definition c107_rows : list (list flt) := [[fone; fone]].
Definition c107_half : flt := fmake 1 (-1).
Lemma c107_table : table c107_rows 2.
Proof.
  split.
  - intros row [<-|[]]. split; [reflexivity|]. split; [|vm_compute; reflexivity]. intros w [<-|[<-|[]]]; (split; [apply fone_finite|rewrite fone_val; lra]).
  - num (ftotal (map ftotal c107_rows)). split; [assumption|]. rewrite V. apply Rmult_lt_0_compat; [apply IZR_lt; lia|apply bpow_gt_0].
Qed.
Definition c107_density (u2 : flt) : option flt :=
  match finit (concat c107_rows) 2 1 with
  | Ok o => match fsample2 o c107_half c107_half u2 c107_half with Ok (x, y) => match fpdf2 o x y with Ok d => Some d | _ => None end | _ => None end
  | _ => None
  end.
Definition bits_one (d : flt) : bool := match B2SF d, B2SF fone with SpecFloat.S754_finite s m e, SpecFloat.S754_finite s1 m1 e1 => Bool.eqb s s1 && Pos.eqb m m1 && Z.eqb e e1 | _, _ => false end.
Definition is_zero (o : option flt) : bool := match o with Some (B754_zero _) => true | _ => false end.
Lemma is_zero_val o d : is_zero o = true -> o = Some d -> val d = 0.
Proof. intros H ->. now destruct d. Qed.
Theorem C107_table_refuted : ~ forall rows cols u0 u1 u2 u3 o px py d, table rows cols -> size cols -> size (Z.of_nat (length rows)) ->
  finite u0 = true -> 0 <= val u0 < 1 -> finite u1 = true -> 0 <= val u1 < 1 -> finite u2 = true -> 0 <= val u2 < 1 -> finite u3 = true -> 0 <= val u3 < 1 ->
  finit (concat rows) cols (Z.of_nat (length rows)) = Ok o -> fsample2 o u0 u1 u2 u3 = Ok (px, py) -> fpdf2 o px py = Ok d -> 0 < val d.
Proof.
  intros H. assert (L : finite c107_last = true /\ 0 <= val c107_last < 1). { num c107_last. split; [assumption|]. rewrite V, pow2_53. lra. }
  assert (M : finite c107_half = true /\ 0 <= val c107_half < 1). { num c107_half. split; [assumption|]. rewrite V, pow2_53. lra. }
  assert (Z : is_zero (c107_density c107_last) = true) by (vm_compute; reflexivity).
  destruct (c107_density c107_last) as [d|] eqn:E; [|discriminate Z]. assert (Vd := is_zero_val _ d Z eq_refl).
  unfold c107_density in E. destruct (finit (concat c107_rows) 2 1) as [o| | |] eqn:I; try discriminate E.
  destruct (fsample2 o c107_half c107_half c107_last c107_half) as [[px py]| | |] eqn:Sm; try discriminate E.
  destruct (fpdf2 o px py) as [d'| | |] eqn:P; try discriminate E. injection E as ->.
  assert (G := H c107_rows 2%Z c107_half c107_half c107_last c107_half o px py d c107_table ltac:(split; lia) ltac:(split; cbn; lia) (proj1 M) (proj2 M) (proj1 M) (proj2 M) (proj1 L) (proj2 L) (proj1 M) (proj2 M) I Sm P). lra.
Qed.
Print Assumptions C107_table_refuted.

(** The hypotheses hold for the middle of the last of two columns of a table; the density there is 1. *)
Example C107_example : table c107_rows 2 /\ size 2 /\ inner c107_half /\
  fcoord (fcell 1 c107_half 2) 2 = Ok 1%Z /\ fcoord (fwindow 1 c107_half 2) 2 = Ok 1%Z /\
  match c107_density c107_half with Some d => bits_one d | None => false end = true.
Proof.
  split; [apply c107_table|]. split; [split; lia|]. split; [|split; [|split]; vm_compute; reflexivity].
  num c107_half. split; [assumption|]. rewrite V, inv19, pow2_53. lra.
Qed.
