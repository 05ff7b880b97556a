(** * C119: values in image files, in floating point *)
From Coq Require Import Reals ZArith Bool Lra Lia.
From Flocq Require Import Core.Core IEEE754.BinarySingleNaN.
From Verif Require Import Base RBase RngModel FltModel FltProofs FBoundProofs FFilmProofs FRasterModel FRasterProofs FSaveModel FSaveSpec FSaveProofs.
Local Open Scope R_scope.

(** The byte of a PNG file: the exact encoded value up to a relative error of 2^-40, quantised *)
Theorem C119_byte pow t : pow_spec pow -> finite t = true -> 0 <= val t <= 2 ^ 48 ->
  exists x, Rabs (x - encoded (val t)) <= / 2 ^ 40 * encoded (val t) /\ fbyte pow t = Ok (quantised x).
Proof. intros H F B. destruct (small_ok pow H t F B) as (Fs & E & R). exists (val (scaled pow t)). split; [exact E|]. now apply byte_of. Qed.
Print Assumptions C119_byte.
Lemma quantised_mono x y : x <= y -> (quantised x <= quantised y)%Z.
Proof. intros H. unfold quantised. assert (Z := Zfloor_le x y H). lia. Qed.
(** So it is the byte of the exact value, or next to it; and the former if the value is not just at the limit of a byte. *)
Theorem C119_nearest pow t : pow_spec pow -> finite t = true -> 0 <= val t <= 2 ^ 48 ->
  exists b, fbyte pow t = Ok b /\ (Z.abs (b - quantised (encoded (val t))) <= 1)%Z /\
    ((forall z, (0 < z < 256)%Z -> / 2 ^ 32 < Rabs (encoded (val t) - IZR z)) -> b = quantised (encoded (val t))).
Proof.
  intros H F B. destruct (C119_byte pow t H F B) as (x & E & ->). exists (quantised x). split; [reflexivity|]. set (v := encoded (val t)) in *. assert (V : 0 <= v).
  { unfold v, encoded. destruct (Req_EM_T (val t) 0); [lra|]. assert (Q := P_pos (val t)). unfold P in Q. lra. }
  apply Rabs_le_inv in E. replace (2 ^ 40) with 1099511627776 in E by (simpl; ring). replace (2 ^ 32) with 4294967296 by (simpl; ring).
  assert (Fx := Zfloor_lb x). assert (Gx := Zfloor_ub x). assert (Fv := Zfloor_lb v). assert (Gv := Zfloor_ub v).
  destruct (Rle_lt_dec 257 v) as [L|L].
  - assert (A : (255 <= Zfloor x)%Z) by (apply Zfloor_lub; lra). assert (C : (255 <= Zfloor v)%Z) by (apply Zfloor_lub; lra). unfold quantised. split; [lia|]. intros _. lia.
  - split.
    + assert (A : (Zfloor x < Zfloor v + 2)%Z) by (apply lt_IZR; rewrite plus_IZR; lra). assert (C : (Zfloor v < Zfloor x + 2)%Z) by (apply lt_IZR; rewrite plus_IZR; lra). unfold quantised. lia.
    + intros N. destruct (Z_lt_le_dec (Zfloor x) (Zfloor v)) as [D|D]; [|destruct (Z_lt_le_dec (Zfloor v) (Zfloor x)) as [D'|D']].
      * destruct (Z_lt_le_dec (Zfloor v) 256) as [M|M].
        -- assert (Z0 : (0 <= Zfloor x)%Z) by (apply Zfloor_lub; lra). exfalso. specialize (N (Zfloor v) ltac:(lia)). assert (D2 : IZR (Zfloor x) + 1 <= IZR (Zfloor v)) by (rewrite <- plus_IZR; apply IZR_le; lia). rewrite Rabs_pos_eq in N by lra. assert (M2 : IZR (Zfloor v) <= 255) by (apply IZR_le; lia). lra.
        -- unfold quantised. assert (255 <= Zfloor x)%Z; [|lia]. apply Zfloor_lub. apply IZR_le in M. lra.
      * destruct (Z_lt_le_dec (Zfloor x) 256) as [M|M].
        -- assert (Z0 : (0 <= Zfloor v)%Z) by (apply Zfloor_lub; lra). exfalso. specialize (N (Zfloor x) ltac:(lia)). assert (D2 : IZR (Zfloor v) + 1 <= IZR (Zfloor x)) by (rewrite <- plus_IZR; apply IZR_le; lia). rewrite Rabs_left in N by lra. assert (M2 : IZR (Zfloor x) <= 255) by (apply IZR_le; lia). lra.
        -- unfold quantised. assert (255 <= Zfloor v)%Z; [|lia]. apply Zfloor_lub. apply IZR_le in M. lra.
      * unfold quantised. f_equal. lia.
Qed.
Print Assumptions C119_nearest.
(** Brighter is not darker. *)
Theorem C119_monotone pow t t' : pow_spec pow -> pow_monotone pow -> finite t = true -> finite t' = true -> 0 <= val t <= val t' -> val t' <= 2 ^ 48 ->
  exists b b', fbyte pow t = Ok b /\ fbyte pow t' = Ok b' /\ (b <= b')%Z.
Proof.
  intros H M F F' B U. destruct (small_ok pow H t F ltac:(lra)) as (Fs & _ & R). destruct (small_ok pow H t' F' ltac:(lra)) as (Fs' & _ & R'). exists (quantised (val (scaled pow t))), (quantised (val (scaled pow t'))).
  split; [now apply byte_of|]. split; [now apply byte_of|]. apply quantised_mono.
  assert (G : forall s, finite (scaled pow s) = true -> finite (pow s fgamma) = true).
  { intros s. unfold scaled. destruct (pow s fgamma); try reflexivity; intros X; exfalso; revert X; [|destruct (fofint 256); discriminate]. destruct c256 as [C V]. rewrite mult_inf_r by (exact C || (rewrite V; lra)). discriminate. }
  assert (K : forall s, finite (scaled pow s) = true -> val (scaled pow s) = rnd (256 * val (pow s fgamma))).
  { intros s X. destruct c256 as [C V]. destruct (fmult_key (fofint 256) (pow s fgamma) C (G s X)) as [Nn Ky]. rewrite V in Ky. exact (finite_result _ _ Nn Ky X). }
  rewrite (K t Fs), (K t' Fs'). apply rnd_mono. assert (Mo := M t t' fgamma F F' (proj1 gamma_val) B (proj1 (proj1 gamma_near)) (G t Fs) (G t' Fs')). lra.
Qed.
Print Assumptions C119_monotone.
(** Black is 0; one and more is 255. *)
Theorem C119_black pow t : pow_spec pow -> finite t = true -> 0 <= val t <= / 2 ^ 20 -> fbyte pow t = Ok 0%Z.
Proof.
  intros H F [A B]. assert (U : val t <= 2 ^ 48). { assert (1 <= 2 ^ 48) by (apply pow_R1_Rle; lra). assert (/ 2 ^ 20 <= 1) by (rewrite <- Rinv_1; apply Rinv_le; [lra|apply pow_R1_Rle; lra]). lra. }
  destruct (C119_byte pow t H F ltac:(lra)) as (x & E & ->). f_equal. unfold quantised. assert (K : 0 <= encoded (val t) <= / 2).
  { unfold encoded. destruct (Req_EM_T (val t) 0) as [Z|N]; [lra|]. assert (Q := P_pos (val t)). assert (L : P (val t) <= / 2 ^ 9) by (apply (P_tiny t ltac:(lra) 20); [exact B|]; rewrite !INR_IZR_INZ; cbn [Z.of_nat Pos.of_succ_nat Pos.succ]; lra). unfold P in *. replace (2 ^ 9) with 512 in L by (simpl; ring). lra. }
  apply Rabs_le_inv in E. replace (2 ^ 40) with 1099511627776 in E by (simpl; ring). replace (Zfloor x) with 0%Z; [reflexivity|]. symmetry. apply Zfloor_imp. split; [|rewrite plus_IZR; lra]. simpl. destruct (Req_EM_T (encoded (val t)) 0); lra.
Qed.
Print Assumptions C119_black.
Theorem C119_white pow t : pow_spec pow -> finite t = true -> 1 <= val t <= 2 ^ 48 -> fbyte pow t = Ok 255%Z.
Proof.
  intros H F [A B]. destruct (C119_byte pow t H F ltac:(lra)) as (x & E & ->). f_equal. unfold quantised. assert (K : 256 <= encoded (val t)).
  { unfold encoded. destruct (Req_EM_T (val t) 0) as [Z|N]; [lra|]. assert (L : 2 ^ 0 <= P (val t)) by (apply (P_ge t 0); [simpl; lra|simpl; lra]). unfold P in L. simpl in L. lra. }
  apply Rabs_le_inv in E. replace (2 ^ 40) with 1099511627776 in E by (simpl; ring). assert (255 <= Zfloor x)%Z; [|lia]. apply Zfloor_lub. lra.
Qed.
Print Assumptions C119_white.
(** Outside of this range the conversion is undefined: negative values, NaN, infinities, very large values. *)
Theorem C119_undefined pow t : pow_spec pow -> finite t = false \/ val t < 0 \/ 2 ^ 53 <= val t -> fbyte pow t = UB.
Proof.
  intros H C. destruct (finite t) eqn:F; [|now apply special_ub]. destruct C as [C|[C|C]]; [discriminate|now apply negative_ub|now apply large_ub].
Qed.
Print Assumptions C119_undefined.

(** The floats of HDR and PFM files *)
Theorem C119_single t : finite t = true -> Rabs (val t) <= 2 ^ 127 ->
  is_finite (fsingle t) = true /\ Rabs (val32 (fsingle t) - val t) <= / 2 ^ 24 * Rabs (val t) + / 2 ^ 150.
Proof. intros F B. rewrite pow_bpow in B. destruct (single_val t F B) as [F' V]. split; [exact F'|]. unfold val32, fsingle. rewrite V. apply round32_near. Qed.
Print Assumptions C119_single.
(** No float is nearer. *)
Theorem C119_single_nearest t (s : f32) : finite t = true -> Rabs (val t) <= 2 ^ 127 -> is_finite s = true -> Rabs (val32 (fsingle t) - val t) <= Rabs (val32 s - val t).
Proof.
  intros F B S. rewrite pow_bpow in B. destruct (single_val t F B) as [_ V]. unfold val32, fsingle. rewrite V. destruct (round_N_pt radix2 fmt32 (valid_exp_ := fexp_correct 24 128 prec32) (fun n => negb (Z.even n)) (val t)) as [_ N]. apply N, generic_format_B2R.
Qed.
Print Assumptions C119_single_nearest.
(** Values that a float can hold are stored as they are. *)
Theorem C119_single_exact t (s : f32) : finite t = true -> Rabs (val t) <= 2 ^ 127 -> is_finite s = true -> val32 s = val t -> val32 (fsingle t) = val t.
Proof.
  intros F B S E. assert (N := C119_single_nearest t s F B S). rewrite E in N. replace (val t - val t) with 0 in N by ring. rewrite Rabs_R0 in N. assert (Q := Rabs_pos (val32 (fsingle t) - val t)). assert (Z : Rabs (val32 (fsingle t) - val t) = 0) by lra. revert Z. unfold Rabs. destruct (Rcase_abs _); lra.
Qed.
Print Assumptions C119_single_exact.
Theorem C119_single_monotone t t' : finite t = true -> finite t' = true -> Rabs (val t) <= 2 ^ 127 -> Rabs (val t') <= 2 ^ 127 -> val t <= val t' -> val32 (fsingle t) <= val32 (fsingle t').
Proof.
  intros F F' B B' L. rewrite pow_bpow in B, B'. destruct (single_val t F B) as [_ V]. destruct (single_val t' F' B') as [_ V']. unfold val32, fsingle. rewrite V, V'. apply round_le; [apply (fexp_correct 24 128 prec32)|auto with typeclass_instances|exact L].
Qed.
Print Assumptions C119_single_monotone.
(** Larger ones become infinite, although the film holds numbers. *)
Theorem C119_single_large t : finite t = true -> 2 ^ 128 <= Rabs (val t) -> is_finite (fsingle t) = false /\ is_nan (fsingle t) = false.
Proof. intros F B. rewrite pow_bpow in B. now apply single_large. Qed.
Print Assumptions C119_single_large.

(** Not every number on the film can be saved. *)
Theorem C119_defined_refuted : ~ forall pow t, pow_spec pow -> finite t = true -> exists b, fbyte pow t = Ok b.
Proof.
  intros H. destruct (fmake_int (-1) ltac:(lia)) as [F V]. destruct (H example_pow (fmake (-1) 0) example_spec F) as [b E].
  rewrite C119_undefined in E; [discriminate|exact example_spec|]. right; left. rewrite V. lra.
Qed.
Print Assumptions C119_defined_refuted.
Theorem C119_single_refuted : ~ forall t, finite t = true -> is_finite (fsingle t) = true.
Proof. intros H. specialize (H (fmake 1 200) eq_refl). vm_compute in H. discriminate. Qed.
Print Assumptions C119_single_refuted.

(** ** The hypotheses are met *)
Example C119_pow_instance : pow_spec example_pow.
Proof. exact example_spec. Qed.
Example C119_monotone_instance : exists pow, pow_spec pow /\ pow_monotone pow.
Proof.
  exists example_pow. split; [exact example_spec|]. intros x x' y F F' Fy [A B] Py G G'. unfold example_pow in *. rewrite F, F' in *.
  assert (N : forall r, finite (of_real r) = true -> val (of_real r) = rnd r).
  { intros r. unfold of_real, fmake. intros Fr. pose proof (binary_normalize_correct 53 1024 prec64 emax64 mode_NE (Ztrunc (scaled_mantissa radix2 fexp64 (rnd r))) (cexp radix2 fexp64 (rnd r)) false) as C. cbv zeta in C.
    assert (Gf : generic_format radix2 fexp64 (rnd r)) by (apply generic_format_round; auto with typeclass_instances).
    assert (E : F2R (Float radix2 (Ztrunc (scaled_mantissa radix2 fexp64 (rnd r))) (cexp radix2 fexp64 (rnd r))) = rnd r) by (symmetry; exact Gf).
    rewrite E in C. cbn [round_mode] in C. change (SpecFloat.fexp 53 1024) with fexp64 in C. rewrite round_generic in C by auto with typeclass_instances. destruct (Rlt_bool _ _); [now destruct C|]. exfalso. revert Fr C. unfold finite. destruct (binary_normalize _ _ _ _ _ _ _ _); cbn; try discriminate. }
  destruct (Rlt_dec 0 (val x)) as [P1|P1].
  - destruct (Rlt_dec 0 (val x')); [|lra]. rewrite !N by assumption. apply rnd_mono. apply Rle_Rpower_l; [lra|]. lra.
  - destruct (Req_EM_T (val x) 0); [|lra]. destruct (Rlt_dec 0 (val x')) as [P2|P2].
    + rewrite N by assumption. change (val fzero) with 0. apply rnd_pos. left. apply exp_pos.
    + destruct (Req_EM_T (val x') 0); [apply Rle_refl|lra].
Qed.
Example C119_byte_instance : finite (fmake 1 (-1)) = true /\ 0 <= val (fmake 1 (-1)) <= 2 ^ 48.
Proof. split; [reflexivity|]. destruct (val_sf (fmake 1 (-1)) 4503599627370496 (-53) eq_refl) as [_ ->]. change (bpow radix2 (-53)) with (/ 9007199254740992). simpl. lra. Qed.
