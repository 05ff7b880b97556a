From Coq Require Import List Reals ZArith Bool Lra Lia Psatz.
From Flocq Require Import Core.Core IEEE754.BinarySingleNaN.
From Verif Require Import Base RBase RngModel FltModel FltProofs FDistModel FDistSpec FDistProofs FBoundModel FBoundSpec FBoundProofs FFilmModel FFilmProofs FBvhModel FBvhSpec FBvhProofs FDirModel FDirSpec FDirProofs FRasterSpec FCamModel FCamSpec FCamProofs FTriModel FTriSpec FTriProofs FHitSpec.
Import ListNotations.
Local Open Scope R_scope.

(** ** Numbers of size 2^k known up to d * eps * 2^k *)
Definition known (k : Z) (z : flt) (x d : R) : Prop := sized k z /\ Rabs x <= bpow radix2 k /\ Rabs (val z - x) <= d * (eps * bpow radix2 k).
Lemma unit_pos k : 0 < eps * bpow radix2 k.
Proof. apply Rmult_lt_0_compat; [apply eps_pos|apply bpow_gt_0]. Qed.
Lemma known_exact k z : sized k z -> known k z (val z) 0.
Proof. intros [F B]. split; [now split|]. split; [assumption|]. rewrite Rminus_diag_eq by reflexivity. rewrite Rabs_R0. lra. Qed.
Lemma known_le k z x d e : known k z x d -> d <= e -> known k z x e.
Proof. intros (A & B & C) L. split; [assumption|]. split; [assumption|]. apply Rle_trans with (1 := C). apply Rmult_le_compat_r; [left; apply unit_pos|assumption]. Qed.
Lemma known_up k z x d : known k z x d -> known (k + 1) z x (d / 2).
Proof.
  intros (A & B & C). assert (P := bpow_gt_0 radix2 k). assert (E : bpow radix2 (k + 1) = 2 * bpow radix2 k) by (rewrite bpow_plus; change (bpow radix2 1) with 2; ring).
  split; [apply (sized_le k); [lia|assumption]|]. rewrite E. split; [lra|]. replace (d / 2 * (eps * (2 * bpow radix2 k))) with (d * (eps * bpow radix2 k)) by field. exact C.
Qed.
Lemma known_plus k a b x y d e : (-900 <= k <= 1000)%Z -> known k a x d -> known k b y e -> known (k + 1) (fplus a b) (x + y) ((d + e) / 2 + 65 / 64).
Proof.
  intros K (Sa & Bx & Ea) (Sb & By & Eb). assert (P := bpow_gt_0 radix2 k). assert (E : bpow radix2 (k + 1) = 2 * bpow radix2 k) by (rewrite bpow_plus; change (bpow radix2 1) with 2; ring).
  assert (S := sized_plus k a b ltac:(lia) Sa Sb). destruct Sa as [Fa Ba], Sb as [Fb Bb].
  assert (T : Rabs (val a + val b) <= bpow radix2 (k + 1)) by (apply Rle_trans with (1 := Rabs_triang _ _); lra).
  destruct (of_key _ _ (k + 1) ltac:(lia) (fplus_key a b Fa Fb) T) as [_ V]. split; [assumption|]. split; [apply Rle_trans with (1 := Rabs_triang _ _); lra|].
  assert (R := rnd_at (k + 1) (val a + val b) ltac:(lia)). rewrite <- V in R. assert (ep := eps_pos).
  assert (R' : Rabs (val (fplus a b) - (val a + val b)) <= 65 / 64 * (eps * bpow radix2 (k + 1))).
  { apply Rle_trans with (1 := R). assert (M := Rmult_le_compat_l eps _ _ ltac:(lra) T). lra. }
  replace (val (fplus a b) - (x + y)) with ((val (fplus a b) - (val a + val b)) + ((val a - x) + (val b - y))) by ring.
  apply Rle_trans with (1 := Rabs_triang _ _). assert (Q := Rabs_triang (val a - x) (val b - y)).
  replace (((d + e) / 2 + 65 / 64) * (eps * bpow radix2 (k + 1))) with (65 / 64 * (eps * bpow radix2 (k + 1)) + (d * (eps * bpow radix2 k) + e * (eps * bpow radix2 k))) by (rewrite E; field). lra.
Qed.
Lemma known_minus k a b x y d e : (-900 <= k <= 1000)%Z -> known k a x d -> known k b y e -> known (k + 1) (fminus a b) (x - y) ((d + e) / 2 + 65 / 64).
Proof.
  intros K (Sa & Bx & Ea) (Sb & By & Eb). assert (P := bpow_gt_0 radix2 k). assert (E : bpow radix2 (k + 1) = 2 * bpow radix2 k) by (rewrite bpow_plus; change (bpow radix2 1) with 2; ring).
  assert (S := sized_minus k a b ltac:(lia) Sa Sb). destruct Sa as [Fa Ba], Sb as [Fb Bb].
  assert (Tr : forall p q, Rabs (p - q) <= Rabs p + Rabs q) by (intros p q; unfold Rminus; rewrite <- (Rabs_Ropp q); apply Rabs_triang).
  assert (T : Rabs (val a - val b) <= bpow radix2 (k + 1)) by (apply Rle_trans with (1 := Tr _ _); lra).
  destruct (of_key _ _ (k + 1) ltac:(lia) (fminus_key a b Fa Fb) T) as [_ V]. split; [assumption|]. split; [apply Rle_trans with (1 := Tr _ _); lra|].
  assert (R := rnd_at (k + 1) (val a - val b) ltac:(lia)). rewrite <- V in R. assert (ep := eps_pos).
  assert (R' : Rabs (val (fminus a b) - (val a - val b)) <= 65 / 64 * (eps * bpow radix2 (k + 1))).
  { apply Rle_trans with (1 := R). assert (M := Rmult_le_compat_l eps _ _ ltac:(lra) T). lra. }
  replace (val (fminus a b) - (x - y)) with ((val (fminus a b) - (val a - val b)) + ((val a - x) - (val b - y))) by ring.
  apply Rle_trans with (1 := Rabs_triang _ _). assert (Q := Tr (val a - x) (val b - y)).
  replace (((d + e) / 2 + 65 / 64) * (eps * bpow radix2 (k + 1))) with (65 / 64 * (eps * bpow radix2 (k + 1)) + (d * (eps * bpow radix2 k) + e * (eps * bpow radix2 k))) by (rewrite E; field). lra.
Qed.
Lemma known_mult j k a b x y d e : (-900 <= j + k <= 1000)%Z -> known j a x d -> known k b y e -> known (j + k) (fmult a b) (x * y) (d + e + 65 / 64).
Proof.
  intros K (Sa & Bx & Ea) (Sb & By & Eb). assert (Pj := bpow_gt_0 radix2 j). assert (Pk := bpow_gt_0 radix2 k). assert (E : bpow radix2 (j + k) = bpow radix2 j * bpow radix2 k) by apply bpow_plus.
  assert (S := sized_mult j k a b ltac:(lia) Sa Sb). destruct Sa as [Fa Ba], Sb as [Fb Bb].
  assert (T : Rabs (val a * val b) <= bpow radix2 (j + k)) by (rewrite Rabs_mult, E; apply Rmult_le_compat; auto using Rabs_pos).
  destruct (of_key _ _ (j + k) ltac:(lia) (fmult_key a b Fa Fb) T) as [_ V]. split; [assumption|]. split; [rewrite Rabs_mult, E; apply Rmult_le_compat; auto using Rabs_pos|].
  assert (R := rnd_at (j + k) (val a * val b) ltac:(lia)). rewrite <- V in R. assert (ep := eps_pos).
  assert (R' : Rabs (val (fmult a b) - val a * val b) <= 65 / 64 * (eps * bpow radix2 (j + k))).
  { apply Rle_trans with (1 := R). assert (M := Rmult_le_compat_l eps _ _ ltac:(lra) T). lra. }
  replace (val (fmult a b) - x * y) with ((val (fmult a b) - val a * val b) + (val a * (val b - y) + (val a - x) * y)) by ring.
  apply Rle_trans with (1 := Rabs_triang _ _). assert (Q := Rabs_triang (val a * (val b - y)) ((val a - x) * y)). rewrite !Rabs_mult in Q.
  assert (Q1 : Rabs (val a) * Rabs (val b - y) <= bpow radix2 j * (e * (eps * bpow radix2 k))) by (apply Rmult_le_compat; auto using Rabs_pos).
  assert (Q2 : Rabs (val a - x) * Rabs y <= d * (eps * bpow radix2 j) * bpow radix2 k) by (apply Rmult_le_compat; auto using Rabs_pos).
  replace ((d + e + 65 / 64) * (eps * bpow radix2 (j + k))) with (65 / 64 * (eps * bpow radix2 (j + k)) + (bpow radix2 j * (e * (eps * bpow radix2 k)) + d * (eps * bpow radix2 j) * bpow radix2 k)) by (rewrite E; ring). lra.
Qed.

(** ** Vectors *)
Definition rc (a b : nat -> R) (i : nat) : R :=
  match i with O => a 1%nat * b 2%nat - a 2%nat * b 1%nat | 1%nat => a 2%nat * b 0%nat - a 0%nat * b 2%nat | _ => a 0%nat * b 1%nat - a 1%nat * b 0%nat end.
Definition rd (a b : nat -> R) : R := a 0%nat * b 0%nat + a 1%nat * b 1%nat + a 2%nat * b 2%nat.
Definition vknown (k : Z) (v : fvec) (a : nat -> R) (d : R) : Prop := forall i, (i < 3)%nat -> known k (fcomp v i) (a i) d.
Lemma vknown_exact k v : vsized k v -> vknown k v (fun i => val (fcomp v i)) 0.
Proof. intros H i _. apply known_exact, H. Qed.
Lemma known_vsub k a b : (-900 <= k <= 1000)%Z -> vsized k a -> vsized k b -> vknown (k + 1) (fvsub a b) (fun i => val (fcomp a i) - val (fcomp b i)) (65 / 64).
Proof.
  intros K A B i Hi. assert (G : forall x y, sized k x -> sized k y -> known (k + 1) (fminus x y) (val x - val y) (65 / 64)).
  { intros x y X Y. apply (known_le _ _ _ ((0 + 0) / 2 + 65 / 64)); [|lra]. apply known_minus; [assumption| |]; now apply known_exact. }
  destruct i as [|[|[|i]]]; [| | |lia]; cbn [fvsub fcomp fx fy fz]; [apply (G (fx a) (fx b) (A 0%nat) (B 0%nat))|apply (G (fy a) (fy b) (A 1%nat) (B 1%nat))|apply (G (fz a) (fz b) (A 2%nat) (B 2%nat))].
Qed.
Lemma known_cross j k a b x y d e : (-900 <= j + k <= 900)%Z -> vknown j a x d -> vknown k b y e -> vknown (j + k + 1) (fcross a b) (rc x y) (d + e + 65 / 64 + 65 / 64).
Proof.
  intros K A B i Hi.
  assert (G : forall p q r s, (p < 3)%nat -> (q < 3)%nat -> (r < 3)%nat -> (s < 3)%nat -> known (j + k + 1) (fminus (fmult (fcomp a p) (fcomp b q)) (fmult (fcomp b r) (fcomp a s))) (x p * y q - x s * y r) (d + e + 65 / 64 + 65 / 64)).
  { intros p q r s Hp Hq Hr Hs. apply (known_le _ _ _ (((d + e + 65 / 64) + (d + e + 65 / 64)) / 2 + 65 / 64)); [|lra]. apply known_minus; [lia| |].
    - apply known_mult; [lia|now apply A|now apply B].
    - rewrite (Rmult_comm (x s)). replace (d + e) with (e + d) by ring. rewrite (Z.add_comm j k). apply known_mult; [lia|now apply B|now apply A]. }
  destruct i as [|[|[|i]]]; [| | |lia]; cbn [rc].
  - apply (G 1%nat 2%nat 1%nat 2%nat); lia.
  - apply (G 2%nat 0%nat 2%nat 0%nat); lia.
  - apply (G 0%nat 1%nat 0%nat 1%nat); lia.
Qed.
Lemma known_dot j k a b x y d e : (-900 <= j + k <= 900)%Z -> vknown j a x d -> vknown k b y e ->
  known (j + k + 2) (fdot a b) (rd x y) (3 / 4 * (d + e + 65 / 64) + 65 / 64 + 65 / 128).
Proof.
  intros K A B. assert (M : forall i, (i < 3)%nat -> known (j + k) (fmult (fcomp a i) (fcomp b i)) (x i * y i) (d + e + 65 / 64)).
  { intros i Hi. apply known_mult; [lia|now apply A|now apply B]. }
  assert (S1 := known_plus (j + k) _ _ _ _ _ _ ltac:(lia) (M 0%nat ltac:(lia)) (M 1%nat ltac:(lia))).
  assert (S2 := known_plus (j + k + 1) _ _ _ _ _ _ ltac:(lia) S1 (known_up _ _ _ _ (M 2%nat ltac:(lia)))).
  replace (j + k + 1 + 1)%Z with (j + k + 2)%Z in S2 by lia. apply (known_le _ _ _ _ _ S2). lra.
Qed.

(** ** The quantities of the triangle test *)
Section Test.
Variables (k : Z) (t : ftriangle) (r : fray).
Hypothesis Hk : (-200 <= k <= 200)%Z.
Hypothesis Ht : tsized k t.
Hypothesis Hr : rsized k r.
Let K := bpow radix2 k.
Let e1 i := val (fcomp (tp2 t) i) - val (fcomp (tp1 t) i).
Let e2 i := val (fcomp (tp3 t) i) - val (fcomp (tp1 t) i).
Let tv i := val (fcomp (fo r) i) - val (fcomp (tp1 t) i).
Let dd i := val (fcomp (fd r) i).
Let fe1' := fe1 (held t).
Let fe2' := fe2 (held t).
Let fp' := fcross (fd r) fe2'.
Let ftv' := fvsub (fo r) (fp1 (held t)).
Let fq' := fcross ftv' fe1'.
Definition D := rd e1 (rc dd e2).
Definition U := rd tv (rc dd e2).
Definition V := rd dd (rc tv e1).
Definition T := rd e2 (rc tv e1).
Definition fD := fdot fe1' fp'.
Definition fU := fdot ftv' fp'.
Definition fV := fdot (fd r) fq'.
Definition fT := fdot fe2' fq'.
Lemma K_pos : 0 < K. Proof. apply bpow_gt_0. Qed.
Lemma pw n j : (0 <= n)%Z -> (0 <= j)%nat -> bpow radix2 (Z.of_nat j * k + n) = IZR (2 ^ n) * K ^ j.
Proof.
  intros N _. rewrite bpow_plus, Rmult_comm. f_equal; [now rewrite (IZR_Zpower radix2)|]. unfold K.
  induction j as [|j IH]; [reflexivity|]. cbn [pow]. rewrite <- IH, <- bpow_plus. f_equal. lia.
Qed.
Lemma known_e1 : vknown (k + 1) fe1' e1 (65 / 64). Proof. apply known_vsub; [lia| |]; apply Ht. Qed.
Lemma known_e2 : vknown (k + 1) fe2' e2 (65 / 64). Proof. apply known_vsub; [lia| |]; apply Ht. Qed.
Lemma known_tv : vknown (k + 1) ftv' tv (65 / 64). Proof. apply known_vsub; [lia|apply Hr|apply Ht]. Qed.
Lemma known_dd : vknown 1 (fd r) dd 0. Proof. apply vknown_exact, Hr. Qed.
Lemma known_p : vknown (k + 3) fp' (rc dd e2) 4.
Proof.
  intros i Hi. replace (k + 3)%Z with (1 + (k + 1) + 1)%Z by lia. apply (known_le _ _ _ (0 + 65 / 64 + 65 / 64 + 65 / 64)); [|lra].
  apply (known_cross 1 (k + 1) (fd r) fe2' dd e2 0 (65 / 64)); [lia|apply known_dd|apply known_e2|exact Hi].
Qed.
Lemma known_q : vknown (2 * k + 3) fq' (rc tv e1) (25 / 6).
Proof.
  intros i Hi. replace (2 * k + 3)%Z with (k + 1 + (k + 1) + 1)%Z by lia. apply (known_le _ _ _ (65 / 64 + 65 / 64 + 65 / 64 + 65 / 64)); [|lra].
  apply (known_cross (k + 1) (k + 1) ftv' fe1' tv e1 (65 / 64) (65 / 64)); [lia|apply known_tv|apply known_e1|exact Hi].
Qed.
Lemma close_of n j z x d c : (0 <= n)%Z -> known (Z.of_nat j * k + n) z x d -> d * IZR (2 ^ n) <= c ->
  finite z = true /\ Rabs (val z) <= IZR (2 ^ n) * K ^ j /\ Rabs x <= IZR (2 ^ n) * K ^ j /\ Rabs (val z - x) <= c * (eps * K ^ j).
Proof.
  intros N ((F & S) & B & C) L. rewrite pw in S, B, C by (assumption || lia). split; [assumption|]. split; [assumption|]. split; [assumption|]. apply Rle_trans with (1 := C).
  replace (d * (eps * (IZR (2 ^ n) * K ^ j))) with (d * IZR (2 ^ n) * (eps * K ^ j)) by ring. apply Rmult_le_compat_r; [|assumption].
  apply Rmult_le_pos; [left; apply eps_pos|]. apply pow_le. left. apply K_pos.
Qed.
Lemma D_close : finite fD = true /\ Rabs (val fD) <= 64 * K ^ 2 /\ Rabs D <= 64 * K ^ 2 /\ Rabs (val fD - D) <= 400 * (eps * K ^ 2).
Proof.
  apply (close_of 6 2 fD D (3 / 4 * (65 / 64 + 4 + 65 / 64) + 65 / 64 + 65 / 128)); [lia| |change (IZR (2 ^ 6)) with 64; lra].
  replace (Z.of_nat 2 * k + 6)%Z with (k + 1 + (k + 3) + 2)%Z by lia. apply known_dot; [lia|apply known_e1|apply known_p].
Qed.
Lemma U_close : finite fU = true /\ Rabs (val fU) <= 64 * K ^ 2 /\ Rabs U <= 64 * K ^ 2 /\ Rabs (val fU - U) <= 400 * (eps * K ^ 2).
Proof.
  apply (close_of 6 2 fU U (3 / 4 * (65 / 64 + 4 + 65 / 64) + 65 / 64 + 65 / 128)); [lia| |change (IZR (2 ^ 6)) with 64; lra].
  replace (Z.of_nat 2 * k + 6)%Z with (k + 1 + (k + 3) + 2)%Z by lia. apply known_dot; [lia|apply known_tv|apply known_p].
Qed.
Lemma V_close : finite fV = true /\ Rabs (val fV) <= 64 * K ^ 2 /\ Rabs V <= 64 * K ^ 2 /\ Rabs (val fV - V) <= 400 * (eps * K ^ 2).
Proof.
  apply (close_of 6 2 fV V (3 / 4 * (0 + 25 / 6 + 65 / 64) + 65 / 64 + 65 / 128)); [lia| |change (IZR (2 ^ 6)) with 64; lra].
  replace (Z.of_nat 2 * k + 6)%Z with (1 + (2 * k + 3) + 2)%Z by lia. apply known_dot; [lia|apply known_dd|apply known_q].
Qed.
Lemma T_close : finite fT = true /\ Rabs (val fT) <= 64 * K ^ 3 /\ Rabs T <= 64 * K ^ 3 /\ Rabs (val fT - T) <= 500 * (eps * K ^ 3).
Proof.
  apply (close_of 6 3 fT T (3 / 4 * (65 / 64 + 25 / 6 + 65 / 64) + 65 / 64 + 65 / 128)); [lia| |change (IZR (2 ^ 6)) with 64; lra].
  replace (Z.of_nat 3 * k + 6)%Z with (k + 1 + (2 * k + 3) + 2)%Z by lia. apply known_dot; [lia|apply known_e2|apply known_q].
Qed.
(** Sizes of the exact vectors *)
Lemma e1_size i : Rabs (e1 i) <= 2 * K.
Proof. destruct Ht as (A & B & C). unfold e1. destruct (A i) as [_ Ai], (B i) as [_ Bi]. unfold Rminus. apply Rle_trans with (1 := Rabs_triang _ _). rewrite Rabs_Ropp. fold K in Ai, Bi. lra. Qed.
Lemma e2_size i : Rabs (e2 i) <= 2 * K.
Proof. destruct Ht as (A & B & C). unfold e2. destruct (A i) as [_ Ai], (C i) as [_ Bi]. unfold Rminus. apply Rle_trans with (1 := Rabs_triang _ _). rewrite Rabs_Ropp. fold K in Ai, Bi. lra. Qed.
Lemma tv_size i : Rabs (tv i) <= 2 * K.
Proof. destruct Ht as (A & B & C). destruct Hr as [O _]. unfold tv. destruct (A i) as [_ Ai], (O i) as [_ Bi]. unfold Rminus. apply Rle_trans with (1 := Rabs_triang _ _). rewrite Rabs_Ropp. fold K in Ai, Bi. lra. Qed.
Lemma dd_size i : Rabs (dd i) <= 2.
Proof. destruct Hr as [_ O]. destruct (O i) as [_ B]. exact B. Qed.
(** Cramer's rule *)
Lemma cramer i : tv i * D + dd i * T - e1 i * U - e2 i * V = 0.
Proof.
  unfold D, T, U, V, rd, rc.
  destruct i as [|[|i]]; [ring|ring|]. unfold tv, dd, e1, e2. cbn [fcomp]. ring.
Qed.
Lemma facing_D : facing r t = Rabs D.
Proof. unfold facing, D, rd, rc, cross_exact, dd, e1, e2. rewrite <- Rabs_Ropp. f_equal. ring. Qed.
Lemma meets_parts x u v : meets r t x u v -> U = u * D /\ V = v * D /\ T = x * D.
Proof.
  intros M. assert (E : forall i, tv i = u * e1 i + v * e2 i - x * dd i).
  { intros i. specialize (M i). unfold ray_pos, tri_pos in M. unfold tv, e1, e2, dd. lra. }
  unfold U, V, T, D, rd, rc. rewrite !E. repeat split; ring.
Qed.
Lemma parts_meet : D <> 0 -> meets r t (T / D) (U / D) (V / D).
Proof.
  intros N i. assert (C := cramer i). unfold ray_pos, tri_pos. assert (G : tv i + T / D * dd i - U / D * e1 i - V / D * e2 i = 0).
  { replace (tv i + T / D * dd i - U / D * e1 i - V / D * e2 i) with ((tv i * D + dd i * T - e1 i * U - e2 i * V) / D) by (field; assumption). rewrite C. field. assumption. }
  unfold tv, dd, e1, e2 in G. lra.
Qed.

(** ** What the test does *)
Definition sgn : R := if Bsign fD then - 1 else 1.
Lemma sgn_D : sgn * val fD = Rabs (val fD).
Proof.
  destruct D_close as (F & _). unfold sgn. assert (G : forall z : flt, finite z = true -> if Bsign z then val z <= 0 else 0 <= val z).
  { intros [s|s| |s m e B] E; try discriminate; destruct s; unfold val; cbn [Bsign B2R]; try lra; [apply F2R_le_0|apply F2R_ge_0]; cbn; lia. }
  specialize (G fD F). destruct (Bsign fD); [rewrite Rabs_left1 by assumption|rewrite Rabs_pos_eq by assumption]; ring.
Qed.
Definition fs : flt := if Bsign fD then Bopp fone else fone.
Lemma fs_times z : finite z = true -> Rabs (val z) <= bpow radix2 1000 -> finite (fmult z fs) = true /\ val (fmult z fs) = sgn * val z.
Proof.
  intros F B. assert (Fs : finite fs = true /\ val fs = sgn).
  { unfold fs, sgn. destruct (Bsign fD); [exact val_neg1|split; [apply fone_finite|apply fone_val]]. }
  destruct Fs as [Fs Vs]. destruct (of_key _ _ 1000 ltac:(lia) (fmult_key z fs F Fs)) as [[G _] V].
  { rewrite Vs, Rabs_mult. unfold sgn. destruct (Bsign fD); [rewrite (Rabs_left (-1)) by lra|rewrite Rabs_R1]; lra. }
  split; [assumption|]. rewrite V, Vs, (Rmult_comm (val z)). unfold sgn. destruct (Bsign fD).
  - replace (-1 * val z) with (val (Bopp z)) by (unfold val; rewrite B2R_Bopp; ring). apply rnd_val.
  - rewrite Rmult_1_l. apply rnd_val.
Qed.
Definition fu0 := fmult fU fs.
Definition fv0 := fmult fV fs.
Definition fad := Babs fD.
Lemma test_is tl th : ftri_isect (held t) r tl th =
  if flt_ltb fad ftri_eps || flt_ltb fu0 fzero || flt_ltb fv0 fzero || flt_ltb fad (fplus fu0 fv0) then None else
  let x := fdivide fT fD in
  if flt_ltb x tl || flt_ltb th x then None else Some (x, fdivide fu0 fad, fdivide fv0 fad).
Proof. reflexivity. Qed.
Lemma K2_le n : (0 <= n <= 40)%Z -> bpow radix2 n * K ^ 2 <= bpow radix2 (400 + n) /\ bpow radix2 n * K ^ 3 <= bpow radix2 (600 + n).
Proof.
  intros N. assert (E2 := pw n 2 ltac:(lia) ltac:(lia)). assert (E3 := pw n 3 ltac:(lia) ltac:(lia)). rewrite (IZR_Zpower radix2) in E2, E3 by lia. rewrite <- E2, <- E3.
  split; apply bpow_le; lia.
Qed.
Lemma fu0_ok : finite fu0 = true /\ val fu0 = sgn * val fU.
Proof.
  destruct U_close as (F & B & _). apply fs_times; [assumption|]. apply Rle_trans with (1 := B). destruct (K2_le 6 ltac:(lia)) as [A _]. change (bpow radix2 6) with 64 in A.
  apply Rle_trans with (1 := A). apply bpow_le. lia.
Qed.
Lemma fv0_ok : finite fv0 = true /\ val fv0 = sgn * val fV.
Proof.
  destruct V_close as (F & B & _). apply fs_times; [assumption|]. apply Rle_trans with (1 := B). destruct (K2_le 6 ltac:(lia)) as [A _]. change (bpow radix2 6) with 64 in A.
  apply Rle_trans with (1 := A). apply bpow_le. lia.
Qed.
Lemma fad_ok : finite fad = true /\ val fad = Rabs (val fD).
Proof. destruct D_close as (F & _). unfold fad. split; [unfold finite; now rewrite is_finite_Babs|unfold val; now rewrite B2R_Babs]. Qed.
Lemma eps_ok : finite ftri_eps = true /\ val ftri_eps = IZR 6189700196426902 * bpow radix2 (-79).
Proof. apply val_sf. vm_compute. reflexivity. Qed.
Lemma sum_ok : finite (fplus fu0 fv0) = true /\ val (fplus fu0 fv0) = rnd (val fu0 + val fv0).
Proof.
  destruct fu0_ok as [Fu Vu], fv0_ok as [Fv Vv], U_close as (_ & Bu & _), V_close as (_ & Bv & _). destruct (K2_le 7 ltac:(lia)) as [A _]. change (bpow radix2 7) with 128 in A.
  assert (Sg : forall z, Rabs (sgn * z) = Rabs z) by (intros z; rewrite Rabs_mult; unfold sgn; destruct (Bsign fD); [rewrite (Rabs_left (-1)) by lra|rewrite Rabs_R1]; ring).
  destruct (of_key _ _ 407 ltac:(lia) (fplus_key fu0 fv0 Fu Fv)) as [[F _] V]; [|now split].
  apply Rle_trans with (1 := Rabs_triang _ _). rewrite Vu, Vv, !Sg. change (400 + 7)%Z with 407%Z in A. lra.
Qed.
(** The quotients *)
Lemma quot_ok : bpow radix2 (-27) <= Rabs (val fD) -> finite (fdivide fT fD) = true /\ val (fdivide fT fD) = rnd (val fT / val fD).
Proof.
  intros Big. destruct D_close as (Fd & _), T_close as (Fn & Bn & _). assert (Pos : 0 < bpow radix2 (-27)) by apply bpow_gt_0.
  assert (D0 : val fD <> 0) by (intros Z; rewrite Z, Rabs_R0 in Big; lra).
  destruct (of_key (fdivide fT fD) _ 633 ltac:(lia) (fdivide_key _ fD Fn Fd D0)) as [[Ft Bt] V]; [|now split].
  unfold Rdiv. rewrite Rabs_mult, Rabs_inv. change 633%Z with (606 + 27)%Z. rewrite bpow_plus.
  apply Rmult_le_compat; auto using Rabs_pos; [left; apply Rinv_0_lt_compat; lra| |].
  - apply Rle_trans with (1 := Bn). destruct (K2_le 6 ltac:(lia)) as [_ A]. exact A.
  - replace (bpow radix2 27) with (/ bpow radix2 (-27)) by (rewrite <- bpow_opp; reflexivity). apply Rinv_le; lra.
Qed.
Lemma coord_ok x w : finite x = true -> val x = sgn * w -> val fD <> 0 -> 0 <= val x <= val fad ->
  finite (fdivide x fad) = true /\ val (fdivide x fad) = rnd (w / val fD) /\ 0 <= w / val fD <= 1.
Proof.
  intros F V D0 B. destruct fad_ok as [Fa Va]. assert (Sg := sgn_D). assert (Pa := Rabs_pos_lt _ D0). rewrite <- Va in Pa.
  assert (E : val x / val fad = w / val fD).
  { rewrite V, Va, <- sgn_D. field. split; [assumption|]. unfold sgn. destruct (Bsign fD); lra. }
  assert (In : 0 <= val x / val fad <= 1).
  { split; [apply Rmult_le_pos; [lra|left; apply Rinv_0_lt_compat; lra]|]. apply Rmult_le_reg_r with (val fad); [lra|]. unfold Rdiv. rewrite Rmult_assoc, Rinv_l by lra. lra. }
  destruct (of_key (fdivide x fad) _ 0 ltac:(lia) (fdivide_key x fad F Fa ltac:(lra))) as [[G _] W].
  - cbn [bpow]. rewrite Rabs_pos_eq; lra.
  - rewrite <- E. now split.
Qed.
Lemma ltb_false x y : finite x = true -> finite y = true -> (flt_ltb x y = false <-> val y <= val x).
Proof. intros Fx Fy. rewrite ltb_key by now apply finite_not_nan. rewrite !key_finite by assumption. case Rlt_bool_spec; intros H; split; intros G; (discriminate || lra || reflexivity). Qed.
Lemma ltb_true x y : finite x = true -> finite y = true -> (flt_ltb x y = true <-> val x < val y).
Proof. intros Fx Fy. rewrite ltb_key by now apply finite_not_nan. rewrite !key_finite by assumption. case Rlt_bool_spec; intros H; split; intros G; (discriminate || lra || reflexivity). Qed.
Lemma eps_big : bpow radix2 (-27) <= val ftri_eps.
Proof.
  destruct eps_ok as [_ Ve]. rewrite Ve. replace (bpow radix2 (-27)) with (bpow radix2 52 * bpow radix2 (-79)) by (now rewrite <- bpow_plus).
  apply Rmult_le_compat_r; [apply bpow_ge_0|]. replace (bpow radix2 52) with (IZR (2 ^ 52)) by reflexivity. apply IZR_le. lia.
Qed.
(** A hit *)
Lemma hit_is tl th x u v : ftri_isect (held t) r tl th = Some (x, u, v) ->
  val ftri_eps <= Rabs (val fD) /\ val fD <> 0 /\ val x = rnd (val fT / val fD) /\
  val u = rnd (val fU / val fD) /\ val v = rnd (val fV / val fD) /\ 0 <= val fU / val fD <= 1 /\ 0 <= val fV / val fD <= 1.
Proof.
  rewrite test_is. destruct fu0_ok as [Fu Vu], fv0_ok as [Fv Vv], fad_ok as [Fa Va], eps_ok as [Fe _], sum_ok as [Fw Vw].
  destruct (flt_ltb fad ftri_eps) eqn:Ta; [discriminate|]. destruct (flt_ltb fu0 fzero) eqn:Tu; [discriminate|].
  destruct (flt_ltb fv0 fzero) eqn:Tv; [discriminate|]. destruct (flt_ltb fad (fplus fu0 fv0)) eqn:Tw; [discriminate|]. cbn [orb].
  destruct (flt_ltb (fdivide fT fD) tl || flt_ltb th (fdivide fT fD)); [discriminate|]. intros [= <- <- <-].
  apply ltb_false in Ta; auto. apply ltb_false in Tu; auto. apply ltb_false in Tv; auto. apply ltb_false in Tw; auto. replace (val fzero) with 0 in Tu, Tv by reflexivity.
  assert (Big := eps_big). assert (Pos : 0 < bpow radix2 (-27)) by apply bpow_gt_0. rewrite Va in Ta.
  assert (D0 : val fD <> 0) by (intros Z; rewrite Z, Rabs_R0 in Ta; lra).
  assert (Uw : val fu0 <= val fad) by (apply Rle_trans with (2 := Tw); rewrite Vw, <- (rnd_val fu0) at 1; apply rnd_mono; lra).
  assert (Vv' : val fv0 <= val fad) by (apply Rle_trans with (2 := Tw); rewrite Vw, <- (rnd_val fv0) at 1; apply rnd_mono; lra).
  destruct (coord_ok fu0 _ Fu Vu D0 ltac:(lra)) as (_ & Eu & Iu). destruct (coord_ok fv0 _ Fv Vv D0 ltac:(lra)) as (_ & Ev & Iv).
  destruct (quot_ok ltac:(lra)) as [_ Ex]. repeat (split; [assumption|]). assumption.
Qed.
(** ** The residual *)
Lemma residual tl th x u v i : ftri_isect (held t) r tl th = Some (x, u, v) ->
  Rabs (ray_pos r (val x) i - tri_pos t (val u) (val v) i) <= eps * (3400 * (K * K * K) / Rabs (val fD) + 3 * Rabs (val x) + 5 * K).
Proof.
  intros H. destruct (hit_is _ _ _ _ _ H) as (_ & D0 & Ex & Eu & Ev & Iu & Iv). assert (ep := eps_pos). assert (Es := eps_small). assert (Kp := K_pos).
  assert (Rx := rnd_at k (val fT / val fD) ltac:(lia)). assert (Ru := rnd_at 0 (val fU / val fD) ltac:(lia)). assert (Rv := rnd_at 0 (val fV / val fD) ltac:(lia)).
  rewrite <- Ex in Rx. rewrite <- Eu in Ru. rewrite <- Ev in Rv. cbn [bpow] in Ru, Rv. fold K in Rx.
  rewrite (Rabs_pos_eq (val fU / val fD)) in Ru by lra. rewrite (Rabs_pos_eq (val fV / val fD)) in Rv by lra.
  set (y := val fT / val fD) in *. set (yu := val fU / val fD) in *. set (yv := val fV / val fD) in *.
  assert (Ru' : Rabs (val u - yu) <= 65 / 64 * eps) by (assert (M := Rmult_le_compat_l eps yu 1 ltac:(lra) ltac:(lra)); lra).
  assert (Rv' : Rabs (val v - yv) <= 65 / 64 * eps) by (assert (M := Rmult_le_compat_l eps yv 1 ltac:(lra) ltac:(lra)); lra).
  assert (Rx' : Rabs (val x - y) <= eps * (11 / 10 * Rabs (val x) + K / 32)).
  { assert (Ty : Rabs y <= Rabs (val x) + Rabs (val x - y)) by (replace y with (val x - (val x - y)) at 1 by ring; unfold Rminus at 1; rewrite <- (Rabs_Ropp (val x - y)); apply Rabs_triang).
    assert (P1 := Rabs_pos (val x)). assert (P2 := Rabs_pos (val x - y)). set (a := Rabs (val x - y)) in *. set (b := Rabs (val x)) in *. set (c := Rabs y) in *.
    assert (M := Rmult_le_compat_l eps c (b + a) ltac:(lra) Ty). assert (M2 : eps * a <= / 100 * a) by (apply Rmult_le_compat_r; lra). assert (Q : 0 <= eps * b) by (apply Rmult_le_pos; lra). assert (Q2 : 0 < eps * K) by (apply Rmult_lt_0_compat; lra). lra. }
  assert (C := cramer i). destruct D_close as (_ & _ & _ & Dc), U_close as (_ & _ & _ & Uc), V_close as (_ & _ & _ & Vc), T_close as (_ & _ & _ & Tc).
  assert (E1 := e1_size i). assert (E2 := e2_size i). assert (Et := tv_size i). assert (Ed := dd_size i).
  assert (Sp : ray_pos r (val x) i - tri_pos t (val u) (val v) i = (tv i * (val fD - D) + dd i * (val fT - T) - e1 i * (val fU - U) - e2 i * (val fV - V)) / val fD + (dd i * (val x - y) - e1 i * (val u - yu) - e2 i * (val v - yv))).
  { assert (G : ray_pos r (val x) i - tri_pos t (val u) (val v) i = tv i + val x * dd i - val u * e1 i - val v * e2 i) by (unfold ray_pos, tri_pos, tv, dd, e1, e2; ring). rewrite G.
    replace (tv i * (val fD - D) + dd i * (val fT - T) - e1 i * (val fU - U) - e2 i * (val fV - V)) with (tv i * val fD + dd i * val fT - e1 i * val fU - e2 i * val fV - (tv i * D + dd i * T - e1 i * U - e2 i * V)) by ring.
    rewrite C. unfold y, yu, yv. field. assumption. }
  rewrite Sp. apply Rle_trans with (1 := Rabs_triang _ _).
  assert (Four : forall a b c d, Rabs (a + b - c - d) <= Rabs a + Rabs b + Rabs c + Rabs d).
  { intros a b c d. unfold Rminus. repeat (apply Rle_trans with (1 := Rabs_triang _ _); rewrite ?Rabs_Ropp; apply Rplus_le_compat_r). apply Rle_refl. }
  assert (Mu : forall a b m n, Rabs a <= m -> Rabs b <= n -> Rabs (a * b) <= m * n) by (intros a b m n A B; rewrite Rabs_mult; apply Rmult_le_compat; auto using Rabs_pos).
  assert (N1 := Four (tv i * (val fD - D)) (dd i * (val fT - T)) (e1 i * (val fU - U)) (e2 i * (val fV - V))).
  assert (N2 := Four 0 (dd i * (val x - y)) (e1 i * (val u - yu)) (e2 i * (val v - yv))). rewrite Rplus_0_l, Rabs_R0 in N2.
  assert (A1 := Mu _ _ _ _ Et Dc). assert (A2 := Mu _ _ _ _ Ed Tc). assert (A3 := Mu _ _ _ _ E1 Uc). assert (A4 := Mu _ _ _ _ E2 Vc).
  assert (B1 := Mu _ _ _ _ Ed Rx'). assert (B2 := Mu _ _ _ _ E1 Ru'). assert (B3 := Mu _ _ _ _ E2 Rv').
  assert (P : 0 < Rabs (val fD)) by now apply Rabs_pos_lt.
  assert (L1 : Rabs ((tv i * (val fD - D) + dd i * (val fT - T) - e1 i * (val fU - U) - e2 i * (val fV - V)) / val fD) <= eps * (3400 * (K * K * K) / Rabs (val fD))).
  { unfold Rdiv. rewrite Rabs_mult, Rabs_inv, <- Rmult_assoc. apply Rmult_le_compat_r; [left; now apply Rinv_0_lt_compat|]. apply Rle_trans with (1 := N1).
    replace (eps * (3400 * (K * K * K))) with (2 * K * (400 * (eps * K ^ 2)) + 2 * (500 * (eps * K ^ 3)) + 2 * K * (400 * (eps * K ^ 2)) + 2 * K * (400 * (eps * K ^ 2))) by ring. lra. }
  assert (Qx := Rabs_pos (val x)). assert (Q : 0 <= eps * Rabs (val x)) by (apply Rmult_le_pos; lra). assert (Q2 : 0 < eps * K) by (apply Rmult_lt_0_compat; lra).
  rewrite !Rmult_plus_distr_l. lra.
Qed.
(** ** Nearness of the distance and the coordinates *)
Lemma K2_pos : 0 < eps * K ^ 2.
Proof. apply Rmult_lt_0_compat; [apply eps_pos|]. apply pow_lt, K_pos. Qed.
Hypothesis Good : 6000 * (eps * K ^ 2) <= Rabs D.
Let del := 2000 * (eps * K ^ 2) / Rabs D.
Lemma D_pos : 0 < Rabs D. Proof. assert (P := K2_pos). lra. Qed.
Lemma D_not0 : D <> 0. Proof. intros Z. assert (P := D_pos). rewrite Z, Rabs_R0 in P. lra. Qed.
Lemma del_pos : 0 < del. Proof. apply Rdiv_lt_0_compat; [|apply D_pos]. assert (P := K2_pos). lra. Qed.
Lemma del_D : del * Rabs D = 2000 * (eps * K ^ 2). Proof. unfold del. field. assert (P := D_pos). lra. Qed.
Lemma del_small : del <= / 3. Proof. apply Rmult_le_reg_r with (Rabs D); [apply D_pos|]. rewrite del_D. lra. Qed.
Lemma eps_del : eps <= 4 / 125 * del.
Proof.
  destruct D_close as (_ & _ & B & _). apply Rmult_le_reg_r with (Rabs D); [apply D_pos|]. rewrite Rmult_assoc, del_D. assert (ep := eps_pos).
  assert (M := Rmult_le_compat_l eps _ _ ltac:(lra) B). lra.
Qed.
Lemma same_sign : sgn * D = Rabs D /\ 14 / 15 * Rabs D <= Rabs (val fD).
Proof.
  destruct D_close as (_ & _ & _ & C). assert (S := sgn_D). assert (P := K2_pos). apply Rabs_le_inv in C. revert S. unfold sgn.
  destruct (Bsign fD); intros S; revert S Good; unfold Rabs; repeat destruct Rcase_abs; intros; lra.
Qed.
(** A quotient by the computed determinant against the one by the exact determinant *)
Lemma quot_near a b e : Rabs (a - b) <= e -> Rabs (a / val fD - b / D) <= (e + 400 * (eps * K ^ 2) * Rabs (a / val fD)) / Rabs D.
Proof.
  intros L. destruct D_close as (_ & _ & _ & C). assert (P := D_pos). assert (N := D_not0). destruct same_sign as [_ S].
  assert (N' : val fD <> 0) by (intros Z; rewrite Z, Rabs_R0 in S; lra).
  replace (a / val fD - b / D) with (((a - b) + (D - val fD) * (a / val fD)) / D) by (field; now split).
  unfold Rdiv at 1. rewrite Rabs_mult, Rabs_inv. apply Rmult_le_compat_r; [left; now apply Rinv_0_lt_compat|]. apply Rle_trans with (1 := Rabs_triang _ _).
  apply Rplus_le_compat; [assumption|]. rewrite Rabs_mult. apply Rmult_le_compat_r; [apply Rabs_pos|]. now rewrite Rabs_minus_sym.
Qed.
Lemma coord_near a b : Rabs (a - b) <= 400 * (eps * K ^ 2) -> 0 <= a / val fD <= 1 -> Rabs (rnd (a / val fD) - b / D) <= del.
Proof.
  intros L I. assert (Q := quot_near a b _ L). assert (R := rnd_at 0 (a / val fD) ltac:(lia)). cbn [bpow] in R. rewrite (Rabs_pos_eq (a / val fD)) in Q, R by lra.
  set (y := a / val fD) in *. assert (ep := eps_pos). assert (ed := eps_del). assert (P := K2_pos).
  assert (R' : Rabs (rnd y - y) <= 65 / 64 * eps) by (assert (M := Rmult_le_compat_l eps y 1 ltac:(lra) ltac:(lra)); lra).
  assert (Q' : Rabs (y - b / D) <= 2 / 5 * del).
  { apply Rle_trans with (1 := Q). apply Rmult_le_reg_r with (Rabs D); [apply D_pos|]. rewrite (Rmult_assoc (2 / 5)), del_D. unfold Rdiv at 1. rewrite Rmult_assoc, Rinv_l by (assert (X := D_pos); lra).
    assert (M := Rmult_le_compat_l (400 * (eps * K ^ 2)) y 1 ltac:(lra) ltac:(lra)). lra. }
  replace (rnd y - b / D) with ((rnd y - y) + (y - b / D)) by ring. apply Rle_trans with (1 := Rabs_triang _ _). assert (X := del_pos). lra.
Qed.
Lemma dist_near : Rabs (rnd (val fT / val fD) - T / D) <= del * (K + Rabs (T / D)).
Proof.
  destruct T_close as (_ & _ & _ & L). assert (Q := quot_near _ _ _ L). assert (R := rnd_at k (val fT / val fD) ltac:(lia)). fold K in R.
  set (y := val fT / val fD) in *. set (z := T / D) in *. assert (ep := eps_pos). assert (ed := eps_del). assert (P := K2_pos). assert (Kp := K_pos). assert (dp := del_pos). assert (ds := del_small). assert (Dp := D_pos).
  assert (Q' : Rabs (y - z) <= del * (K / 4 + Rabs y / 5)).
  { apply Rle_trans with (1 := Q). apply Rmult_le_reg_r with (Rabs D); [assumption|]. unfold Rdiv at 1. rewrite Rmult_assoc, Rinv_l by lra.
    replace (del * (K / 4 + Rabs y / 5) * Rabs D) with (del * Rabs D * (K / 4 + Rabs y / 5)) by ring. rewrite del_D. apply Req_le. field. }
  assert (Yp := Rabs_pos y). assert (Zp := Rabs_pos z).
  assert (Ty : Rabs y <= Rabs z + Rabs (y - z)) by (replace y with (z + (y - z)) at 1 by ring; apply Rabs_triang).
  assert (M1 : del * (K / 4 + Rabs y / 5) <= / 3 * (K / 4 + Rabs y / 5)) by (apply Rmult_le_compat_r; lra).
  assert (Y : Rabs y <= 15 / 14 * (Rabs z + K / 12)) by lra.
  assert (M2 : del * (K / 4 + Rabs y / 5) <= del * (3 / 10 * K + 3 / 10 * Rabs z)) by (apply Rmult_le_compat_l; lra).
  assert (M3 : eps * Rabs y + eps * K / 64 <= 4 / 125 * del * (Rabs y + K / 64)).
  { replace (eps * Rabs y + eps * K / 64) with (eps * (Rabs y + K / 64)) by field. apply Rmult_le_compat_r; lra. }
  assert (M4 : 4 / 125 * del * (Rabs y + K / 64) <= 4 / 125 * del * (2 * Rabs z + K)) by (apply Rmult_le_compat_l; lra).
  assert (Z1 : 0 <= del * Rabs z) by (apply Rmult_le_pos; lra). assert (Z2 : 0 <= del * K) by (apply Rmult_le_pos; lra).
  replace (rnd y - z) with ((rnd y - y) + (y - z)) by ring. apply Rle_trans with (1 := Rabs_triang _ _). lra.
Qed.
End Test.
