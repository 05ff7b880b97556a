From Coq Require Import List Reals ZArith Bool Lra Lia Psatz Arith.
From Flocq Require Import Core.Core IEEE754.BinarySingleNaN.
From Verif Require Import Base RBase RngModel FltModel FltProofs FDistModel FDistSpec FDistProofs FBoundModel FBoundSpec FBoundProofs FFilmProofs FBvhModel FBvhSpec FBvhProofs FRasterModel FRasterSpec FRasterProofs FRasterProps FTexModel FTexSpec.
Import ListNotations.
Local Open Scope R_scope.

(** ** floor and the fractional part *)
Lemma ffloor_ok t : finite t = true -> finite (ffloor t) = true /\ val (ffloor t) = IZR (Zfloor (val t)).
Proof.
  intros F. destruct (Bnearbyint_correct 53 1024 emax64 mode_DN t) as (V & G & _). unfold ffloor, finite, val. rewrite V, G.
  split; [exact F|]. unfold round, F2R, scaled_mantissa, cexp, FIX_exp. cbn [Fnum Fexp bpow Z.opp round_mode]. now rewrite !Rmult_1_r.
Qed.
Definition frac (t : R) : R := t - IZR (Zfloor t).
Lemma frac_range t : 0 <= frac t < 1.
Proof. unfold frac. assert (A := Zfloor_lb t). assert (B := Zfloor_ub t). lra. Qed.
Lemma frac_shift t i : frac (t + IZR i) = frac t.
Proof.
  unfold frac. rewrite (Zfloor_imp (Zfloor t + i)); [rewrite plus_IZR; ring|]. rewrite !plus_IZR.
  assert (A := Zfloor_lb t). assert (B := Zfloor_ub t). lra.
Qed.
Lemma minus_at x y : finite x = true -> finite y = true -> 0 <= val x - val y <= 1099511627776 ->
  finite (fminus x y) = true /\ val (fminus x y) = rnd (val x - val y).
Proof. intros Fx Fy B. destruct (of_key _ _ 40 ltac:(lia) (fminus_key x y Fx Fy) (bound40 _ B)) as [[F _] V]. now split. Qed.
Lemma fwrap_ok t : finite t = true -> finite (fwrap t) = true /\ val (fwrap t) = rnd (frac (val t)) /\ 0 <= val (fwrap t) <= 1.
Proof.
  intros F. destruct (ffloor_ok t F) as [Ff Vf]. assert (R := frac_range (val t)). unfold fwrap.
  destruct (minus_at t (ffloor t) F Ff) as [Fm Vm]; [rewrite Vf; fold (frac (val t)); lra|]. rewrite Vf in Vm. fold (frac (val t)) in Vm.
  split; [assumption|]. split; [assumption|]. rewrite Vm. split; [apply rnd_pos; lra|]. rewrite <- rnd_1. apply rnd_mono. lra.
Qed.
Lemma fwrap_none t : finite t = false -> fint (fmult (fwrap t) fone) = UB /\ forall w, fcoord (fwrap t) w = UB.
Proof.
  intros F. assert (N : fwrap t = B754_nan) by (destruct t as [s|[]| |s m ee H]; try discriminate F; reflexivity).
  rewrite N. split; [reflexivity|]. intros w. unfold fcoord. now rewrite (eq_refl : fmult B754_nan (fofint w) = B754_nan).
Qed.
(** The cell depends on the value only. *)
Lemma fcoord_ext p q w : size w -> finite p = true -> finite q = true -> 0 <= val p <= 1 -> val p = val q -> fcoord p w = fcoord q w.
Proof.
  intros Sw Fp Fq B E. assert (Wn := size_num w Sw). destruct (fofint_ok w) as [Fw Vw]; [destruct Sw; lia|].
  assert (K : 0 <= val p * IZR w <= IZR w). { split; [apply Rmult_le_pos; lra|]. rewrite <- (Rmult_1_l (IZR w)) at 2. apply Rmult_le_compat_r; lra. }
  destruct (mult_at p (fofint w) Fp Fw) as [F1 V1]; [rewrite Vw; lra|]. destruct (mult_at q (fofint w) Fq Fw) as [F2 V2]; [rewrite <- E, Vw; lra|].
  unfold fcoord, fint. unfold finite in F1, F2. now rewrite F1, F2, !btrunc_val, V1, V2, E.
Qed.
Lemma coord_shift s t w i : size w -> finite s = true -> finite t = true -> val s = val t + IZR i -> fcoord (fwrap s) w = fcoord (fwrap t) w.
Proof.
  intros Sw Fs Ft E. destruct (fwrap_ok s Fs) as (F1 & V1 & B1). destruct (fwrap_ok t Ft) as (F2 & V2 & B2).
  apply fcoord_ext; try assumption. now rewrite V1, V2, E, frac_shift.
Qed.
Lemma coord_falls t w : size w -> finite t = true -> exists x, fcoord (fwrap t) w = Ok x /\ (0 <= x < w)%Z /\ falls (val t) w x (/ 2 ^ 20).
Proof.
  intros Sw F. destruct (fwrap_ok t F) as (F1 & V1 & B1). destruct (C107_pixel (fwrap t) w Sw F1 B1) as (x & E & R & C).
  exists x. split; [assumption|]. split; [assumption|]. exists (Zfloor (val t)). fold (frac (val t)). assert (Fr := frac_range (val t)). split; [assumption|].
  assert (N := rnd_pos_near (frac (val t)) (proj1 Fr)). rewrite <- V1 in N. assert (Wn := size_num w Sw). destruct t_val as [T0 T1]. assert (E0 := e_val).
  set (u := val (fwrap t)) in *. set (f := frac (val t)) in *.
  assert (D : -(/ 2 ^ 52) <= u - f <= / 2 ^ 52).
  { assert (e * f <= e * 1) by (apply Rmult_le_compat_l; [rewrite E0|]; lra). replace (/ 2 ^ 52) with (2 * e) by (rewrite E0; replace (2 ^ 52) with 4503599627370496 by (simpl; ring); lra).
    assert (FRasterProofs.t * 1 <= FRasterProofs.t * 2147483648) by (apply Rmult_le_compat_l; lra). rewrite E0 in *. lra. }
  assert (D' : - / 2 ^ 20 / 2 <= (u - f) * IZR w <= / 2 ^ 20 / 2).
  { assert (G : / 2 ^ 52 * IZR w <= / 2 ^ 20 / 2). { replace (2 ^ 52) with 4503599627370496 by (simpl; ring). replace (2 ^ 20) with 1048576 by (simpl; ring). lra. }
    split; [apply Rle_trans with (- / 2 ^ 52 * IZR w); [lra|]|apply Rle_trans with (/ 2 ^ 52 * IZR w); [|lra]]; apply Rmult_le_compat_r; lra. }
  replace (2 ^ 21) with 2097152 in C by (simpl; ring). replace (2 ^ 20) with 1048576 in * by (simpl; ring).
  replace (f * IZR w) with (u * IZR w - (u - f) * IZR w) by ring. lra.
Qed.
Lemma wrap_same p : finite p = true -> 0 <= val p < 1 -> val (fwrap p) = val p.
Proof.
  intros F B. destruct (fwrap_ok p F) as (_ & V & _). rewrite V. unfold frac. rewrite (Zfloor_imp 0); [|rewrite Z.add_0_l; exact B].
  rewrite Rminus_0_r. apply rnd_val.
Qed.
Lemma coord_own x w u : size w -> (0 <= x < w)%Z -> inner u -> fcoord (fwrap (fcell x u w)) w = Ok x.
Proof.
  intros Sw X U. destruct (cell_position x w u Sw X (inner_unit u U)) as (F & B & C). rewrite <- (proj1 (C107_own_partial x w u Sw X U)).
  assert (Wn := size_num w Sw). assert (L : val (fcell x u w) < 1).
  { apply Rabs_le_inv in C. destruct U as [_ U]. rewrite inv19 in U. assert (IZR x <= IZR w - 1) by (rewrite <- (minus_IZR w 1); apply IZR_le; lia).
    apply Rmult_lt_reg_r with (IZR w); lra. }
  destruct (fwrap_ok _ F) as (Fw & _ & Bw). apply fcoord_ext; try assumption. apply wrap_same; [assumption|lra].
Qed.

(** ** Indices *)
Lemma as_int_ok z : (0 <= z < 2 ^ 31)%Z -> as_int z = Ok z.
Proof. intros H. unfold as_int. destruct (Z.leb_spec (- 2 ^ 31) z); [|lia]. destruct (Z.ltb_spec z (2 ^ 31)); [reflexivity|lia]. Qed.
Section Index.
Variables (b : fbitmap) (x y : Z).
Hypothesis I : fimage b.
Hypothesis X : (0 <= x < tw b)%Z.
Hypothesis Y : (0 <= y < th b)%Z.
Lemma cell_count : (tw b * y + x + 1 <= tw b * th b)%Z /\ (0 <= tw b * y)%Z.
Proof. destruct I as (W & H & _). split; nia. Qed.
Lemma below : ((tw b * y + x) * tc b + tc b <= tw b * th b * tc b)%Z.
Proof. destruct I as (W & H & C & _). destruct cell_count as [A _]. replace ((tw b * y + x) * tc b + tc b)%Z with ((tw b * y + x + 1) * tc b)%Z by ring. apply Z.mul_le_mono_nonneg_r; lia. Qed.
Lemma cells_int : (tw b * th b < 2 ^ 31)%Z.
Proof. destruct I as (W & H & C & L & _). assert (0 <= tw b * th b)%Z by nia. nia. Qed.
Lemma ftexel_ok : ftexel b x y = Ok (tw b * y + x)%Z.
Proof.
  destruct cell_count as [A B]. assert (C := cells_int). unfold ftexel. rewrite as_int_ok by lia. cbn [obind]. apply as_int_ok. lia.
Qed.
Lemma fat_ok k : (0 <= k < tc b)%Z -> fat b (tw b * y + x) k = Ok (part b x y k).
Proof.
  intros K. assert (U := below). destruct cell_count as [A B]. destruct I as (W & H & C & L & N).
  assert (P : (0 <= (tw b * y + x) * tc b)%Z) by (apply Z.mul_nonneg_nonneg; lia).
  unfold fat. rewrite (Z.mul_comm (tc b)). rewrite as_int_ok by lia. cbn [obind]. rewrite as_int_ok by lia. cbn [obind].
  destruct (Z.ltb_spec ((tw b * y + x) * tc b + k) 0); [lia|]. unfold part. rewrite (Z.mul_comm y).
  destruct (nth_error (tdata b) _) as [v|] eqn:E; [now rewrite (nth_error_nth _ _ _ E)|]. apply nth_error_None in E. lia.
Qed.
Lemma fcolor_ok : (3 <= tc b)%Z -> fcolor b (tw b * y + x) = Ok (color b x y).
Proof. intros C. unfold fcolor, color. rewrite !fat_ok by lia. reflexivity. Qed.
End Index.
Lemma image_sizes b : fimage b -> size (tw b) /\ size (th b).
Proof. intros I. assert (C := cells_int b I). destruct I as (W & H & _). unfold size. split; nia. Qed.
Lemma findex_pos u w : size w -> findex u w = fcoord u w.
Proof. intros [A _]. unfold findex. destruct (Z.ltb_spec (w - 1) 0); [lia|reflexivity]. Qed.
