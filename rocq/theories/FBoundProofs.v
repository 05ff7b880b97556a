From Coq Require Import List Reals ZArith Bool Lra Lia Psatz.
From Flocq Require Import Core.Core IEEE754.BinarySingleNaN Plus_error Relative.
From Verif Require Import RngModel FltModel FltProofs FBoundModel FBoundSpec.
Import ListNotations.
Local Open Scope R_scope.

(** ** Minimum and maximum *)
Lemma fmax_key x y : is_nan x = false -> is_nan y = false -> is_nan (fmax x y) = false /\ key (fmax x y) = Rmax (key x) (key y).
Proof.
  intros Nx Ny. unfold fmax. rewrite ltb_key by assumption. unfold Rmax. destruct (Rlt_bool_spec (key x) (key y)), (Rle_dec (key x) (key y)); split; try assumption; lra.
Qed.
Lemma fmin_key x y : is_nan x = false -> is_nan y = false -> is_nan (fmin x y) = false /\ key (fmin x y) = Rmin (key x) (key y).
Proof.
  intros Nx Ny. unfold fmin. rewrite ltb_key by assumption. unfold Rmin. destruct (Rlt_bool_spec (key y) (key x)), (Rle_dec (key x) (key y)); split; try assumption; lra.
Qed.
Lemma fmin_ok x y : finite x = true -> finite y = true -> finite (fmin x y) = true /\ val (fmin x y) = Rmin (val x) (val y).
Proof.
  intros Fx Fy. destruct (fmin_key x y (finite_not_nan x Fx) (finite_not_nan y Fy)) as [N K].
  assert (F : finite (fmin x y) = true) by (unfold fmin; now destruct flt_ltb). split; [assumption|]. now rewrite !key_finite in K.
Qed.
Lemma fmax_ok x y : finite x = true -> finite y = true -> finite (fmax x y) = true /\ val (fmax x y) = Rmax (val x) (val y).
Proof.
  intros Fx Fy. destruct (fmax_key x y (finite_not_nan x Fx) (finite_not_nan y Fy)) as [N K].
  assert (F : finite (fmax x y) = true) by (unfold fmax; now destruct flt_ltb). split; [assumption|]. now rewrite !key_finite in K.
Qed.
Lemma fcomp_vmin a b i : fcomp (fvmin a b) i = fmin (fcomp a i) (fcomp b i).
Proof. now destruct i as [|[|i]]. Qed.
Lemma fcomp_vmax a b i : fcomp (fvmax a b) i = fmax (fcomp a i) (fcomp b i).
Proof. now destruct i as [|[|i]]. Qed.

Lemma new_fbound_ok : box_ok new_fbound.
Proof. split; intros [|[|i]]; vm_compute; reflexivity. Qed.
Lemma fmerge_ok a b : box_ok a -> box_ok b -> box_ok (fmerge a b) /\ inside a (fmerge a b) /\ inside b (fmerge a b).
Proof.
  intros [A1 A2] [B1 B2].
  assert (X : forall i, finite (fcomp (fvmin (fbmin a) (fbmin b)) i) = true /\ val (fcomp (fvmin (fbmin a) (fbmin b)) i) = Rmin (val (fcomp (fbmin a) i)) (val (fcomp (fbmin b) i)))
    by (intros i; rewrite fcomp_vmin; now apply fmin_ok).
  assert (Y : forall i, finite (fcomp (fvmax (fbmax a) (fbmax b)) i) = true /\ val (fcomp (fvmax (fbmax a) (fbmax b)) i) = Rmax (val (fcomp (fbmax a) i)) (val (fcomp (fbmax b) i)))
    by (intros i; rewrite fcomp_vmax; now apply fmax_ok).
  split; [split; intros i; [apply X|apply Y]|].
  split; intros i; cbn [fmerge fbmin fbmax]; rewrite (proj2 (X i)), (proj2 (Y i)); split;
    (apply Rmin_l || apply Rmin_r || apply Rmax_l || apply Rmax_r).
Qed.
Lemma inside_refl a : inside a a. Proof. intros i. lra. Qed.
Lemma inside_trans a b c : inside a b -> inside b c -> inside a c.
Proof. intros H G i. specialize (H i). specialize (G i). lra. Qed.
Lemma fold_merge_ok ks : forall b, box_ok b -> (forall k, In k ks -> box_ok k) ->
  box_ok (fold_left fmerge ks b) /\ inside b (fold_left fmerge ks b) /\ forall k, In k ks -> inside k (fold_left fmerge ks b).
Proof.
  induction ks as [|x ks IH]; intros b B K; cbn [fold_left]; [split; [assumption|]; split; [apply inside_refl|easy]|].
  destruct (fmerge_ok b x B (K x (or_introl eq_refl))) as [M [L N]].
  destruct (IH (fmerge b x) M (fun k H => K k (or_intror H))) as [P [Q T]]. split; [assumption|].
  split; [now apply inside_trans with (fmerge b x)|]. intros k [<-|H]; [now apply inside_trans with (fmerge b x)|now apply T].
Qed.
Lemma fmerge_point_ok b p : box_ok b -> vec_ok p -> box_ok (fmerge_point b p) /\ inside b (fmerge_point b p) /\ point_in (fmerge_point b p) p.
Proof.
  intros B P. destruct (fmerge_ok b (mk_fbound p p) B (conj P P)) as [M [L N]]. split; [exact M|]. split; [exact L|]. exact N.
Qed.

(** ** Reciprocals *)
Lemma div_zero x s : finite x = true -> val x <> 0 -> fdivide x (B754_zero s) = B754_infinity (xorb (Bsign x) s).
Proof. destruct x as [t|t| |t m e B]; try discriminate; intros _ N; [now elim N|]. reflexivity. Qed.
Lemma recip_ok d : finite d = true -> is_nan (fdivide fone d) = false /\ key (fdivide fone d) <> 0 /\
  (val d <> 0 -> key (fdivide fone d) = clamp (rnd (/ val d))).
Proof.
  intros F. destruct (Req_dec (val d) 0) as [Z|Z].
  - assert (E : exists s, fdivide fone d = B754_infinity s).
    { destruct d as [s|s| |s m e B]; try discriminate F; [exists (xorb (Bsign fone) s); apply div_zero; [apply fone_finite|rewrite fone_val; lra]|].
      exfalso. unfold val in Z. cbn [B2R] in Z. apply eq_0_F2R in Z. destruct s; discriminate Z. }
    destruct E as [s ->]. split; [reflexivity|]. split; [|congruence]. assert (B := big_pos). destruct s; cbn [key]; lra.
  - destruct (fdivide_key fone d fone_finite F Z) as [N K]. rewrite fone_val in K. unfold Rdiv in K. rewrite Rmult_1_l in K.
    split; [assumption|]. split; [|easy]. rewrite K. assert (V := val_big d F). assert (B := big_pos).
    assert (Small : forall x, 0 < x < big -> 0 < rnd (/ x)).
    { intros x X. apply Rlt_le_trans with (bpow radix2 (-1024)); [apply bpow_gt_0|].
      replace (bpow radix2 (-1024)) with (rnd (bpow radix2 (-1024))).
      - apply rnd_mono. change (bpow radix2 (-1024)) with (/ bpow radix2 1024). apply Rinv_le; [lra|]. fold big. lra.
      - apply round_generic; auto with typeclass_instances. apply generic_format_bpow. vm_compute. discriminate. }
    assert (Cp : forall y, 0 < y -> 0 < clamp y) by (intros y Y; unfold clamp, Rmax, Rmin; repeat destruct Rle_dec; lra).
    destruct (Rlt_or_le 0 (val d)) as [P|P].
    + rewrite Rabs_pos_eq in V by lra. assert (H := Cp _ (Small (val d) ltac:(lra))). lra.
    + assert (Pn : val d < 0) by lra. rewrite Rabs_left in V by assumption.
      assert (H := Small (- val d) ltac:(lra)). replace (/ - val d) with (- / val d) in H by (field; lra).
      assert (O : rnd (- / val d) = - rnd (/ val d)) by apply round_NE_opp. rewrite O in H.
      assert (Cn : forall y, y < 0 -> clamp y < 0) by (intros y Y; unfold clamp, Rmax, Rmin; repeat destruct Rle_dec; lra).
      assert (G := Cn (rnd (/ val d)) ltac:(lra)). lra.
Qed.

(** ** Products with a fixed factor keep or reverse the order *)
Lemma inf_sign x : is_nan x = false -> finite x = false -> exists s, x = B754_infinity s.
Proof. destruct x as [s|s| |s m e B]; try discriminate. now exists s. Qed.
Lemma val_neg_iff x : finite x = true -> val x <> 0 -> (if Bsign x then val x < 0 else 0 < val x).
Proof. intros F N. assert (P := sign_val x F). destruct (Bsign x); lra. Qed.
Lemma val_zero x : finite x = true -> val x = 0 -> exists s, x = B754_zero s.
Proof.
  destruct x as [s|s| |s m e B]; try discriminate; intros _ Z; [now exists s|].
  exfalso. unfold val in Z. cbn [B2R] in Z. apply eq_0_F2R in Z. destruct s; discriminate Z.
Qed.
Lemma mult_inf_l s v : finite v = true -> val v <> 0 -> fmult (B754_infinity s) v = B754_infinity (xorb s (Bsign v)).
Proof.
  destruct v as [t|t| |t m e B]; try discriminate; intros _ N; [now elim N|]. reflexivity.
Qed.
Lemma mult_inf_r x s : finite x = true -> val x <> 0 -> fmult x (B754_infinity s) = B754_infinity (xorb (Bsign x) s).
Proof.
  destruct x as [t|t| |t m e B]; try discriminate; intros _ N; [now elim N|]. reflexivity.
Qed.

(** A product in terms of keys: rounded, or infinite with the sign of the exact one *)
Definition usable (x v : flt) : Prop := is_nan x = false /\ is_nan v = false /\ key v <> 0 /\ (finite v = true \/ key x <> 0).
Lemma mult_usable x v : usable x v -> is_nan (fmult x v) = false /\
  ((finite x = true /\ finite v = true /\ key (fmult x v) = clamp (rnd (key x * key v))) \/
   ((finite x = false \/ finite v = false) /\ key (fmult x v) = if Rlt_dec 0 (key x * key v) then big else - big)).
Proof.
  intros (Nx & Nv & Kv & U). destruct (finite x) eqn:Fx, (finite v) eqn:Fv.
  - destruct (fmult_key x v Fx Fv) as [N K]. split; [assumption|]. left. split; [reflexivity|]. split; [reflexivity|]. now rewrite K, (key_finite x Fx), (key_finite v Fv).
  - destruct U as [U|U]; [discriminate|]. destruct (inf_sign v Nv Fv) as [s ->]. rewrite (key_finite x Fx) in *.
    rewrite (mult_inf_r x s Fx U). split; [reflexivity|]. right. split; [now right|].
    assert (S := val_neg_iff x Fx U). assert (B := big_pos).
    destruct (Bsign x), s; cbn [xorb key]; destruct Rlt_dec as [L|L]; try reflexivity; exfalso; nra.
  - destruct (inf_sign x Nx Fx) as [s ->]. rewrite (key_finite v Fv) in *.
    rewrite (mult_inf_l s v Fv Kv). split; [reflexivity|]. right. split; [now left|].
    assert (S := val_neg_iff v Fv Kv). assert (B := big_pos).
    destruct (Bsign v), s; cbn [xorb key]; destruct Rlt_dec as [L|L]; try reflexivity; exfalso; nra.
  - destruct (inf_sign x Nx Fx) as [s ->], (inf_sign v Nv Fv) as [t ->]. split; [reflexivity|]. right. split; [now left|].
    assert (B := big_pos). destruct s, t; cbn [key]; destruct Rlt_dec as [L|L]; try (cbn; reflexivity); exfalso; nra.
Qed.

Lemma mult_mono x y v : usable x v -> usable y v -> key x <= key y ->
  if Rlt_dec 0 (key v) then key (fmult x v) <= key (fmult y v) else key (fmult y v) <= key (fmult x v).
Proof.
  intros Ux Uy L. destruct (mult_usable x v Ux) as [_ X]. destruct (mult_usable y v Uy) as [_ Y].
  assert (Kv : key v <> 0) by apply Ux. assert (B := big_pos). assert (Bx := key_bounds (fmult x v)). assert (By := key_bounds (fmult y v)).
  destruct X as [(Fx & Fv & X)|(Fx & X)], Y as [(Fy & Fv' & Y)|(Fy & Y)].
  - rewrite X, Y. destruct (Rlt_dec 0 (key v)); apply clamp_mono, rnd_mono; nra.
  - (* y infinite *) destruct Fy as [Fy|Fy]; [|congruence]. assert (Ny : is_nan y = false) by apply Uy.
    destruct (inf_sign y Ny Fy) as [s ->]. assert (Kx := key_finite x Fx). assert (V := val_big' x).
    destruct s; cbn [key] in *; [lra|]. rewrite Y. destruct (Rlt_dec 0 (key v)); destruct (Rlt_dec 0 (big * key v)); try lra; exfalso; nra.
  - destruct Fx as [Fx|Fx]; [|congruence]. assert (Nx : is_nan x = false) by apply Ux.
    destruct (inf_sign x Nx Fx) as [s ->]. assert (Ky := key_finite y Fy). assert (V := val_big' y).
    destruct s; cbn [key] in *; [|lra]. rewrite X. destruct (Rlt_dec 0 (key v)); destruct (Rlt_dec 0 (- big * key v)); try lra; exfalso; nra.
  - rewrite X, Y. destruct (Rlt_dec 0 (key v)), (Rlt_dec 0 (key x * key v)), (Rlt_dec 0 (key y * key v)); try lra.
    + exfalso. nra.
    + exfalso. assert (key v < 0) by lra. nra.
Qed.

(** ** One axis *)
Lemma diff_usable m o d : finite m = true -> finite o = true -> finite d = true ->
  finite (fdivide fone d) = true \/ val o <> val m -> usable (fminus m o) (fdivide fone d).
Proof.
  intros Fm Fo Fd H. destruct (fminus_key m o Fm Fo) as [N K]. destruct (recip_ok d Fd) as [Nv [Kv _]].
  split; [assumption|]. split; [assumption|]. split; [assumption|]. destruct H as [H|H]; [now left|right].
  rewrite K. assert (B := big_pos). destruct (Rlt_or_le (val o) (val m)) as [L|L].
  - assert (P := rnd_minus_pos o m L). unfold clamp, Rmax, Rmin. repeat destruct Rle_dec; lra.
  - assert (P := rnd_minus_pos m o ltac:(lra)). replace (val m - val o) with (- (val o - val m)) by ring.
    assert (O : rnd (- (val o - val m)) = - rnd (val o - val m)) by apply round_NE_opp. rewrite O.
    unfold clamp, Rmax, Rmin. repeat destruct Rle_dec; lra.
Qed.
Lemma diff_mono m m' o : finite m = true -> finite m' = true -> finite o = true -> val m <= val m' -> key (fminus m o) <= key (fminus m' o).
Proof.
  intros F F' Fo L. rewrite (proj2 (fminus_key m o F Fo)), (proj2 (fminus_key m' o F' Fo)). apply clamp_mono, rnd_mono. lra.
Qed.

Lemma neg_test v : is_nan v = false -> flt_ltb v fzero = Rlt_bool (key v) 0.
Proof. intros N. rewrite ltb_key by (assumption || reflexivity). reflexivity. Qed.

(** Entry and exit along one axis *)
Definition span (b : fbound) (r : fray) (i : nat) : flt * flt :=
  let vd := fdivide fone (fcomp (fd r) i) in
  let t1 := fmult (fminus (fcomp (fbmin b) i) (fcomp (fo r) i)) vd in
  let t2 := fmult (fminus (fcomp (fbmax b) i) (fcomp (fo r) i)) vd in
  if flt_ltb vd fzero then (t2, t1) else (t1, t2).
Lemma fslab_span b r i l h : fslab b r i l h =
  (fmax (fst (span b r i)) l, fmin (snd (span b r i)) h, negb (flt_ltb (fmin (snd (span b r i)) h) (fmax (fst (span b r i)) l))).
Proof. unfold fslab, span. destruct (flt_ltb _ fzero); reflexivity. Qed.

Lemma span_ok b r i : box_ok b -> ray_ok r -> off_faces b r -> is_nan (fst (span b r i)) = false /\ is_nan (snd (span b r i)) = false.
Proof.
  intros [B1 B2] [Fo Fd] O.
  assert (U1 : usable (fminus (fcomp (fbmin b) i) (fcomp (fo r) i)) (fdivide fone (fcomp (fd r) i))).
  { apply diff_usable; try apply B1; try apply Fo; try apply Fd. destruct (O i) as [H|[H _]]; auto. }
  assert (U2 : usable (fminus (fcomp (fbmax b) i) (fcomp (fo r) i)) (fdivide fone (fcomp (fd r) i))).
  { apply diff_usable; try apply B2; try apply Fo; try apply Fd. destruct (O i) as [H|[_ H]]; auto. }
  apply mult_usable in U1. apply mult_usable in U2. unfold span. destruct (flt_ltb _ fzero); cbn [fst snd]; split; (apply U1 || apply U2).
Qed.

Lemma span_nested a b r i : box_ok a -> box_ok b -> ray_ok r -> off_faces a r -> off_faces b r -> inside a b ->
  key (fst (span b r i)) <= key (fst (span a r i)) /\ key (snd (span a r i)) <= key (snd (span b r i)).
Proof.
  intros [A1 A2] [B1 B2] [Fo Fd] Oa Ob I. specialize (I i).
  assert (U1 : usable (fminus (fcomp (fbmin a) i) (fcomp (fo r) i)) (fdivide fone (fcomp (fd r) i))).
  { apply diff_usable; try apply A1; try apply Fo; try apply Fd. destruct (Oa i) as [H|[H _]]; auto. }
  assert (U2 : usable (fminus (fcomp (fbmax a) i) (fcomp (fo r) i)) (fdivide fone (fcomp (fd r) i))).
  { apply diff_usable; try apply A2; try apply Fo; try apply Fd. destruct (Oa i) as [H|[_ H]]; auto. }
  assert (U3 : usable (fminus (fcomp (fbmin b) i) (fcomp (fo r) i)) (fdivide fone (fcomp (fd r) i))).
  { apply diff_usable; try apply B1; try apply Fo; try apply Fd. destruct (Ob i) as [H|[H _]]; auto. }
  assert (U4 : usable (fminus (fcomp (fbmax b) i) (fcomp (fo r) i)) (fdivide fone (fcomp (fd r) i))).
  { apply diff_usable; try apply B2; try apply Fo; try apply Fd. destruct (Ob i) as [H|[_ H]]; auto. }
  assert (M1 := mult_mono _ _ _ U3 U1 (diff_mono _ _ _ (B1 i) (A1 i) (Fo i) (proj1 I))).
  assert (M2 := mult_mono _ _ _ U2 U4 (diff_mono _ _ _ (A2 i) (B2 i) (Fo i) (proj2 I))).
  assert (N : is_nan (fdivide fone (fcomp (fd r) i)) = false) by apply U1. assert (Z : key (fdivide fone (fcomp (fd r) i)) <> 0) by apply U1.
  unfold span. rewrite (neg_test _ N). destruct (Rlt_bool_spec (key (fdivide fone (fcomp (fd r) i))) 0) as [L|L], (Rlt_dec 0 (key (fdivide fone (fcomp (fd r) i)))) as [P|P]; cbn [fst snd]; try lra.
Qed.

(** ** The whole test in terms of keys *)
Definition lo (b : fbound) (r : fray) (l : flt) (n : nat) : R := fold_left (fun x i => Rmax (key (fst (span b r i))) x) (seq 0 n) (key l).
Definition hi (b : fbound) (r : fray) (h : flt) (n : nat) : R := fold_left (fun x i => Rmin (key (snd (span b r i))) x) (seq 0 n) (key h).

Lemma fisect_iff b r l h : (forall i, is_nan (fst (span b r i)) = false /\ is_nan (snd (span b r i)) = false) -> is_nan l = false -> is_nan h = false ->
  fisect b r l h = true <-> forall n, (1 <= n <= 3)%nat -> lo b r l n <= hi b r h n.
Proof.
  intros S Nl Nh. unfold fisect, fisect_range.
  rewrite fslab_span. destruct (S 0%nat) as [A0 B0].
  destruct (fmax_key _ l A0 Nl) as [Nl0 Kl0]. destruct (fmin_key _ h B0 Nh) as [Nh0 Kh0].
  set (l0 := fmax (fst (span b r 0)) l) in *. set (h0 := fmin (snd (span b r 0)) h) in *.
  rewrite (ltb_key h0 l0) by assumption.
  destruct (S 1%nat) as [A1 B1]. destruct (fmax_key _ l0 A1 Nl0) as [Nl1 Kl1]. destruct (fmin_key _ h0 B1 Nh0) as [Nh1 Kh1].
  destruct (S 2%nat) as [A2 B2]. 
  assert (E1 : lo b r l 1 = key l0 /\ hi b r h 1 = key h0) by (unfold lo, hi; cbn [seq fold_left]; rewrite Kl0, Kh0; easy).
  destruct (Rlt_bool_spec (key h0) (key l0)) as [L0|L0]; cbn [negb fst].
  { split; [discriminate|]. intros H. specialize (H 1%nat ltac:(lia)). rewrite (proj1 E1), (proj2 E1) in H. lra. }
  rewrite fslab_span. set (l1 := fmax (fst (span b r 1)) l0) in *. set (h1 := fmin (snd (span b r 1)) h0) in *.
  rewrite (ltb_key h1 l1) by assumption. destruct (fmax_key _ l1 A2 Nl1) as [Nl2 Kl2]. destruct (fmin_key _ h1 B2 Nh1) as [Nh2 Kh2].
  assert (E2 : lo b r l 2 = key l1 /\ hi b r h 2 = key h1) by (unfold lo, hi; cbn [seq fold_left]; rewrite Kl1, Kh1, Kl0, Kh0; easy).
  destruct (Rlt_bool_spec (key h1) (key l1)) as [L1|L1]; cbn [negb fst].
  { split; [discriminate|]. intros H. specialize (H 2%nat ltac:(lia)). rewrite (proj1 E2), (proj2 E2) in H. lra. }
  rewrite fslab_span. set (l2 := fmax (fst (span b r 2)) l1) in *. set (h2 := fmin (snd (span b r 2)) h1) in *.
  rewrite (ltb_key h2 l2) by assumption.
  assert (E3 : lo b r l 3 = key l2 /\ hi b r h 3 = key h2) by (unfold lo, hi; cbn [seq fold_left]; rewrite Kl2, Kh2, Kl1, Kh1, Kl0, Kh0; easy).
  destruct (Rlt_bool_spec (key h2) (key l2)) as [L2|L2]; cbn [negb fst].
  { split; [discriminate|]. intros H. specialize (H 3%nat ltac:(lia)). rewrite (proj1 E3), (proj2 E3) in H. lra. }
  split; [|reflexivity]. intros _ n H. assert (C : n = 1%nat \/ n = 2%nat \/ n = 3%nat) by lia.
  destruct C as [C|C]; [|destruct C as [C|C] ]; subst n; [rewrite (proj1 E1), (proj2 E1)|rewrite (proj1 E2), (proj2 E2)|rewrite (proj1 E3), (proj2 E3)]; assumption.
Qed.

Lemma lo_mono a b r l l' : (forall i, key (fst (span b r i)) <= key (fst (span a r i))) -> key l' <= key l -> forall n, lo b r l' n <= lo a r l n.
Proof.
  intros S L n. unfold lo. generalize (seq 0 n). intros ix. revert L. generalize (key l) (key l'). induction ix as [|i ix IH]; intros x y L; cbn [fold_left]; [assumption|].
  apply IH. specialize (S i). unfold Rmax. repeat destruct Rle_dec; lra.
Qed.
Lemma hi_mono a b r h h' : (forall i, key (snd (span a r i)) <= key (snd (span b r i))) -> key h <= key h' -> forall n, hi a r h n <= hi b r h' n.
Proof.
  intros S L n. unfold hi. generalize (seq 0 n). intros ix. revert L. generalize (key h) (key h'). induction ix as [|i ix IH]; intros x y L; cbn [fold_left]; [assumption|].
  apply IH. specialize (S i). unfold Rmin. repeat destruct Rle_dec; lra.
Qed.

Lemma nested a b r l h l' h' : box_ok a -> box_ok b -> ray_ok r -> off_faces a r -> off_faces b r -> inside a b ->
  finite l = true -> finite h = true -> finite l' = true -> finite h' = true -> val l' <= val l -> val h <= val h' ->
  fisect a r l h = true -> fisect b r l' h' = true.
Proof.
  intros A B Rr Oa Ob I Fl Fh Fl' Fh' L H T.
  assert (Na : is_nan l = false /\ is_nan h = false /\ is_nan l' = false /\ is_nan h' = false) by (repeat split; now apply finite_not_nan). destruct Na as (N1 & N2 & N3 & N4).
  pose proof (proj1 (fisect_iff a r l h (fun i => span_ok a r i A Rr Oa) N1 N2) T) as T'.
  apply (fisect_iff b r l' h' (fun i => span_ok b r i B Rr Ob) N3 N4).
  intros n Hn. specialize (T' n Hn).
  assert (X := lo_mono a b r l l' (fun i => proj1 (span_nested a b r i A B Rr Oa Ob I)) ltac:(rewrite !key_finite by assumption; assumption) n).
  assert (Y := hi_mono a b r h h' (fun i => proj2 (span_nested a b r i A B Rr Oa Ob I)) ltac:(rewrite !key_finite by assumption; assumption) n). lra.
Qed.

(** ** Errors *)
Lemma pow_bpow n : 2 ^ n = bpow radix2 (Z.of_nat n).
Proof. rewrite <- (IZR_Zpower radix2) by lia. now rewrite (pow_IZR 2 n). Qed.
Lemma inv_pow_bpow n : / 2 ^ n = bpow radix2 (- Z.of_nat n).
Proof. rewrite pow_bpow. symmetry. apply bpow_opp. Qed.
Notation e53 := (/ 2 ^ 53).
Lemma e53_small : 0 < e53 <= / 1024.
Proof.
  split; [apply Rinv_0_lt_compat, pow_lt; lra|]. replace 1024 with (2 ^ 10) by ring. apply Rinv_le; [apply pow_lt; lra|]. apply Rle_pow; [lra|lia].
Qed.

Lemma rnd_rel x : / 2 ^ 1022 <= Rabs x -> exists d, Rabs d <= e53 /\ rnd x = x * (1 + d).
Proof.
  intros H. rewrite inv_pow_bpow in H.
  destruct (relative_error_N_FLT_ex radix2 (3 - 1024 - 53) 53 prec64 (fun z => negb (Z.even z)) x) as (d & D & E).
  - exact H.
  - exists d. split; [|exact E]. apply Rle_trans with (1 := D). right. rewrite (inv_pow_bpow 53). change (/ 2) with (bpow radix2 (-1)). now rewrite <- bpow_plus.
Qed.
Lemma rnd_abs x : Rabs x <= / 2 ^ 1022 -> Rabs (rnd x - x) <= / 2 ^ 1074.
Proof.
  intros H. rewrite inv_pow_bpow in *. apply Rle_trans with (1 := error_le_half_ulp radix2 fexp64 (fun z => negb (Z.even z)) x).
  assert (U : ulp radix2 fexp64 x = bpow radix2 (- Z.of_nat 1074)).
  { apply (ulp_FLT_small radix2 (3 - 1024 - 53) 53 (prec_gt_0_ := prec64)). apply Rle_lt_trans with (1 := H). apply bpow_lt. reflexivity. }
  rewrite U. assert (P := bpow_gt_0 radix2 (- Z.of_nat 1074)). lra.
Qed.
Lemma rnd_any x : Rabs (rnd x - x) <= e53 * Rabs x + / 2 ^ 1074.
Proof.
  assert (P : 0 < / 2 ^ 1074) by (rewrite inv_pow_bpow; apply bpow_gt_0). assert (E := e53_small).
  destruct (Rle_or_lt (/ 2 ^ 1022) (Rabs x)) as [L|L].
  - destruct (rnd_rel x L) as (d & D & ->). replace (x * (1 + d) - x) with (d * x) by ring. rewrite Rabs_mult.
    assert (Q := Rabs_pos x). assert (Rabs d * Rabs x <= e53 * Rabs x) by (apply Rmult_le_compat_r; lra). lra.
  - assert (A := rnd_abs x ltac:(lra)). assert (0 <= e53 * Rabs x) by (apply Rmult_le_pos; [lra|apply Rabs_pos]). lra.
Qed.

Lemma big_pow : big = 2 ^ 1024. Proof. unfold big. now rewrite pow_bpow. Qed.
Lemma moderate_diff m o : moderate m -> moderate o -> finite (fminus m o) = true /\ exists d, Rabs d <= e53 /\ val (fminus m o) = (val m - val o) * (1 + d).
Proof.
  intros [Fm Bm] [Fo Bo]. destruct (fminus_key m o Fm Fo) as [N K].
  assert (L : Rabs (rnd (val m - val o)) < big).
  { apply Rle_lt_trans with (bpow radix2 1023); [|apply bpow_lt; reflexivity].
    assert (G : rnd (bpow radix2 1023) = bpow radix2 1023) by (apply round_generic; auto with typeclass_instances; apply generic_format_bpow; vm_compute; discriminate).
    rewrite pow_bpow in Bm, Bo. change (Z.of_nat 1022) with 1022%Z in *.
    assert (T : bpow radix2 1023 = bpow radix2 1022 + bpow radix2 1022).
    { change 1023%Z with (1 + 1022)%Z. rewrite bpow_plus. change (bpow radix2 1) with 2. ring. }
    apply Rabs_le_inv in Bm, Bo. apply Rabs_le. split.
    - assert (O : rnd (- bpow radix2 1023) = - rnd (bpow radix2 1023)) by apply round_NE_opp. rewrite <- G, <- O. apply rnd_mono. rewrite T. lra.
    - rewrite <- G. apply rnd_mono. rewrite T. lra. }
  destruct (result_finite _ _ N K L) as [F E]. split; [assumption|]. rewrite E.
  (* the difference of two Floats has a relative error even where it is tiny *)
  destruct (FLT_plus_error_N_ex radix2 (3 - 1024 - 53) 53 (prec_gt_0_ := prec64) (fun z => negb (Z.even z)) (val m) (- val o)) as (d & B & X);
    [apply val_format|apply generic_format_opp, val_format|]. exists d. split; [|exact X].
  assert (U : u_ro radix2 53 = e53).
  { rewrite inv_pow_bpow. unfold u_ro. rewrite Rmult_comm. change (/ 2) with (bpow radix2 (-1)). rewrite <- bpow_plus. reflexivity. }
  rewrite U in B. apply Rle_trans with (1 := B). assert (P := e53_small).
  apply Rmult_le_reg_r with (1 + e53); [lra|]. unfold Rdiv. rewrite Rmult_assoc, Rinv_l by lra. nra.
Qed.
Lemma moderate_recip d : moderate d -> / 2 ^ 1022 <= Rabs (val d) -> finite (fdivide fone d) = true /\ exists e, Rabs e <= e53 /\ val (fdivide fone d) = / val d * (1 + e).
Proof.
  intros [F B] L. assert (P : 0 < / 2 ^ 1022) by (rewrite inv_pow_bpow; apply bpow_gt_0).
  assert (Z : val d <> 0) by (intros Z; rewrite Z, Rabs_R0 in L; lra).
  destruct (recip_ok d F) as [N [_ K]]. specialize (K Z).
  assert (Bd : / 2 ^ 1022 <= Rabs (/ val d) <= 2 ^ 1022).
  { rewrite Rabs_Rinv by assumption. assert (A := Rabs_pos_lt _ Z). split; [now apply Rinv_le|].
    rewrite <- (Rinv_involutive (2 ^ 1022)) by (apply pow_nonzero; lra). now apply Rinv_le. }
  assert (Lb : Rabs (rnd (/ val d)) < big).
  { apply Rle_lt_trans with (bpow radix2 1022); [|apply bpow_lt; reflexivity].
    assert (G : rnd (bpow radix2 1022) = bpow radix2 1022) by (apply round_generic; auto with typeclass_instances; apply generic_format_bpow; vm_compute; discriminate).
    destruct Bd as [_ Bd]. rewrite pow_bpow in Bd. change (Z.of_nat 1022) with 1022%Z in Bd. apply Rabs_le_inv in Bd. apply Rabs_le. split.
    - assert (O : rnd (- bpow radix2 1022) = - rnd (bpow radix2 1022)) by apply round_NE_opp. rewrite <- G, <- O. apply rnd_mono. lra.
    - rewrite <- G. apply rnd_mono. lra. }
  destruct (result_finite _ _ N K Lb) as [Fr E]. split; [assumption|]. rewrite E. now apply rnd_rel.
Qed.

(** The computed crossing is within the slack of the exact one, or clamped to the infinities. *)
Lemma crossing m o d : moderate m -> moderate o -> moderate d -> / 2 ^ 1022 <= Rabs (val d) ->
  is_nan (fmult (fminus m o) (fdivide fone d)) = false /\
  exists c, key (fmult (fminus m o) (fdivide fone d)) = clamp c /\ Rabs (c - (val m - val o) / val d) <= slack ((val m - val o) / val d).
Proof.
  intros Mm Mo Md L. destruct (moderate_diff m o Mm Mo) as [F1 (d1 & D1 & E1)]. destruct (moderate_recip d Md L) as [F2 (d2 & D2 & E2)].
  destruct (fmult_key _ _ F1 F2) as [N K]. split; [assumption|]. eexists. split; [exact K|]. rewrite E1, E2.
  set (x := (val m - val o) / val d). replace ((val m - val o) * (1 + d1) * (/ val d * (1 + d2))) with (x * ((1 + d1) * (1 + d2))) by (unfold x, Rdiv; ring).
  assert (A := rnd_any (x * ((1 + d1) * (1 + d2)))). assert (P := e53_small). apply Rabs_le_inv in D1, D2.
  set (y := x * ((1 + d1) * (1 + d2))) in *. unfold slack.
  set (f := (1 + d1) * (1 + d2)) in *. assert (Fb : Rabs (f - 1) <= 2 * e53 + e53 * e53) by (apply Rabs_le; unfold f; nra).
  assert (Fc : Rabs f <= 1 + 2 * e53 + e53 * e53) by (apply Rabs_le; apply Rabs_le_inv in Fb; nra).
  assert (B1 : Rabs (y - x) <= (2 * e53 + e53 * e53) * Rabs x).
  { replace (y - x) with ((f - 1) * x) by (unfold y; ring). rewrite Rabs_mult. apply Rmult_le_compat_r; [apply Rabs_pos|assumption]. }
  assert (B2 : Rabs y <= (1 + 2 * e53 + e53 * e53) * Rabs x).
  { unfold y. rewrite Rabs_mult, Rmult_comm. apply Rmult_le_compat_r; [apply Rabs_pos|assumption]. }
  assert (T := Rabs_triang (rnd y - y) (y - x)). replace (rnd y - y + (y - x)) with (rnd y - x) in T by ring.
  assert (X := Rabs_pos x). assert (B3 : e53 * Rabs y <= e53 * ((1 + 2 * e53 + e53 * e53) * Rabs x)) by (apply Rmult_le_compat_l; lra).
  assert (B4 : (2 * e53 + e53 * e53 + e53 * (1 + 2 * e53 + e53 * e53)) * Rabs x <= 4 * e53 * Rabs x) by (apply Rmult_le_compat_r; [assumption|nra]).
  lra.
Qed.

Lemma span_margin b r t i : vec_moderate (fbmin b) -> vec_moderate (fbmax b) -> vec_moderate (fo r) -> dir_moderate (fd r) ->
  clearly_between b r t i -> - big <= t <= big ->
  is_nan (fst (span b r i)) = false /\ is_nan (snd (span b r i)) = false /\ key (fst (span b r i)) <= t <= key (snd (span b r i)).
Proof.
  intros M1 M2 Mo Md C T. specialize (M1 i). specialize (M2 i). specialize (Mo i). destruct (Md i) as [Mi Di]. clear Md.
  unfold clearly_between in C. destruct (Req_EM_T (val (fcomp (fd r) i)) 0) as [Z|Z].
  - (* the reciprocal is infinite *)
    destruct (val_zero _ (proj1 Mi) Z) as [s E].
    assert (V : fdivide fone (fcomp (fd r) i) = B754_infinity s).
    { rewrite E, (div_zero fone s fone_finite) by (rewrite fone_val; lra). replace (Bsign fone) with false by (symmetry; apply Bsign_Bone). now destruct s. }
    unfold span. rewrite V.
    destruct (fminus_key (fcomp (fbmin b) i) (fcomp (fo r) i) (proj1 M1) (proj1 Mo)) as [Nl Kl].
    destruct (fminus_key (fcomp (fbmax b) i) (fcomp (fo r) i) (proj1 M2) (proj1 Mo)) as [Nh Kh].
    destruct (moderate_diff _ _ M1 Mo) as [Fl _]. destruct (moderate_diff _ _ M2 Mo) as [Fh _].
    assert (Vl : val (fminus (fcomp (fbmin b) i) (fcomp (fo r) i)) < 0).
    { rewrite (finite_result _ _ Nl Kl Fl). replace (val (fcomp (fbmin b) i) - val (fcomp (fo r) i)) with (- (val (fcomp (fo r) i) - val (fcomp (fbmin b) i))) by ring.
      assert (O : forall y, rnd (- y) = - rnd y) by (intros; apply round_NE_opp). rewrite O. assert (P := rnd_minus_pos (fcomp (fbmin b) i) (fcomp (fo r) i) ltac:(lra)). lra. }
    assert (Vh : 0 < val (fminus (fcomp (fbmax b) i) (fcomp (fo r) i))).
    { rewrite (finite_result _ _ Nh Kh Fh). apply rnd_minus_pos. lra. }
    rewrite (mult_inf_r _ s Fl), (mult_inf_r _ s Fh) by lra.
    assert (Sl := sign_val _ Fl). assert (Sh := sign_val _ Fh).
    destruct (Bsign (fminus (fcomp (fbmin b) i) (fcomp (fo r) i))); [|lra]. destruct (Bsign (fminus (fcomp (fbmax b) i) (fcomp (fo r) i))); [lra|].
    destruct s; cbn [xorb]; change (flt_ltb (B754_infinity true) fzero) with true; change (flt_ltb (B754_infinity false) fzero) with false; cbn [fst snd key is_nan]; split; try reflexivity; split; try reflexivity; lra.
  - destruct Di as [Di|Di]; [congruence|].
    destruct (crossing _ _ _ M1 Mo Mi Di) as [Nl (cl & Kl & El)]. destruct (crossing _ _ _ M2 Mo Mi Di) as [Nh (ch & Kh & Eh)].
    fold (cross_lower b r i) in El. fold (cross_upper b r i) in Eh.
    destruct (recip_ok _ (proj1 Mi)) as [Nv [Zv Kv]]. specialize (Kv Z).
    assert (Sg : flt_ltb (fdivide fone (fcomp (fd r) i)) fzero = if Rlt_dec 0 (val (fcomp (fd r) i)) then false else true).
    { rewrite (neg_test _ Nv), Kv. rewrite Kv in Zv. assert (B := big_pos). destruct (Rlt_dec 0 (val (fcomp (fd r) i))) as [P|P].
      - apply Rlt_bool_false. assert (Q : 0 <= rnd (/ val (fcomp (fd r) i))) by (apply rnd_pos; left; now apply Rinv_0_lt_compat). unfold clamp, Rmax, Rmin. repeat destruct Rle_dec; lra.
      - apply Rlt_bool_true. assert (Q : rnd (/ val (fcomp (fd r) i)) <= 0) by (rewrite <- rnd_0; apply rnd_mono; left; apply Rinv_lt_0_compat; lra).
        revert Zv. unfold clamp, Rmax, Rmin. repeat destruct Rle_dec; lra. }
    unfold span. rewrite Sg. apply Rabs_le_inv in El, Eh. assert (B := big_pos).
    assert (Cl : forall c, c <= t -> clamp c <= t) by (intros c; unfold clamp, Rmax, Rmin; repeat destruct Rle_dec; lra).
    assert (Ch : forall c, t <= c -> t <= clamp c) by (intros c; unfold clamp, Rmax, Rmin; repeat destruct Rle_dec; lra).
    destruct (Rlt_dec 0 (val (fcomp (fd r) i))); cbn [fst snd]; (split; [assumption|]); (split; [assumption|]); rewrite Kl, Kh; split; (apply Cl || apply Ch); lra.
Qed.

Lemma margin b r l h t : vec_moderate (fbmin b) -> vec_moderate (fbmax b) -> vec_moderate (fo r) -> dir_moderate (fd r) ->
  finite l = true -> finite h = true -> val l <= t <= val h -> (forall i, clearly_between b r t i) -> fisect b r l h = true.
Proof.
  intros M1 M2 Mo Md Fl Fh T C. assert (Bl := val_big' l). assert (Bh := val_big' h).
  assert (S := fun i => span_margin b r t i M1 M2 Mo Md (C i) ltac:(lra)).
  apply (fisect_iff b r l h (fun i => conj (proj1 (S i)) (proj1 (proj2 (S i)))) (finite_not_nan l Fl) (finite_not_nan h Fh)).
  intros n _. apply Rle_trans with t.
  - unfold lo. rewrite (key_finite l Fl). assert (X : val l <= t) by lra. revert X. generalize (val l). generalize (seq 0 n). intros ix. induction ix as [|i ix IH]; intros x X; cbn [fold_left]; [assumption|].
    apply IH. apply Rmax_lub; [apply (S i)|assumption].
  - unfold hi. rewrite (key_finite h Fh). assert (X : t <= val h) by lra. revert X. generalize (val h). generalize (seq 0 n). intros ix. induction ix as [|i ix IH]; intros x X; cbn [fold_left]; [assumption|].
    apply IH. apply Rmin_glb; [apply (S i)|assumption].
Qed.
