(** C31 (discrete distribution), C32 (two-dimensional distribution). *)
From Coq Require Import List Reals ZArith Bool Lia Lra.
From Verif Require Import Base RBase DistModel DistSpec DistProofs.
Import ListNotations.
Open Scope R_scope.

(** ** C31 *)
Theorem C31_probability : forall ws i, 0 < rsum ws -> (i < length ws)%nat -> pmf (made_of ws) (Z.of_nat i) = Some (nth i ws 0 / rsum ws).
Proof. intros ws i H. apply pmf_in. lra. Qed.
Print Assumptions C31_probability.

Theorem C31_outside : forall ws i, (i < 0 \/ Z.of_nat (length ws) <= i)%Z -> pmf (made_of ws) i = Some 0.
Proof. exact pmf_out. Qed.
Print Assumptions C31_outside.

(** The probabilities sum to one. *)
Theorem C31_sums_to_one : forall ws, 0 < rsum ws ->
  exists ps, map (fun i => pmf (made_of ws) (Z.of_nat i)) (seq 0 (length ws)) = map Some ps /\ rsum ps = 1.
Proof.
  intros ws H. exists (map (fun i => nth i ws 0 / rsum ws) (seq 0 (length ws))). split.
  - rewrite map_map. apply map_ext_in. intros i Hi. apply in_seq in Hi. apply pmf_in; [lra|lia].
  - replace (map (fun i => nth i ws 0 / rsum ws) (seq 0 (length ws))) with (map (fun w => w * / rsum ws) ws).
    + assert (G : forall l k, rsum (map (fun w => w * k) l) = rsum l * k).
      { clear. intros l k. unfold rsum. induction l as [|x l IH]; cbn; [ring|]. rewrite IH. ring. }
      rewrite G. field. lra.
    + transitivity (map (fun w => w * / rsum ws) (map (fun k => nth k ws 0) (seq 0 (length ws)))); [now rewrite map_nth_seq_gen|]. rewrite map_map. reflexivity.
Qed.
Print Assumptions C31_sums_to_one.

(** Sampling: every u in [0,1) gives an index with positive probability, and the u that give index i
    are those of an interval of length w_i / total. *)
Theorem C31_sample : forall ws u, nonneg ws -> 0 < rsum ws -> 0 <= u < 1 ->
  exists i, (i < length ws)%nat /\ sample (made_of ws) (Some u) = Ok (Z.of_nat i) /\ 0 < nth i ws 0.
Proof.
  intros ws u Hn Hp Hu. destruct (sample_spec ws u Hn Hp Hu) as (i & Hi & E & H). exists i. split; [assumption|]. split; [assumption|].
  rewrite rsum_firstn_S in H by assumption. assert (rsum (firstn i ws) / rsum ws < (rsum (firstn i ws) + nth i ws 0) / rsum ws) by lra.
  assert (H2 := Rmult_lt_compat_r (rsum ws) _ _ Hp H0). unfold Rdiv in H2. rewrite !Rmult_assoc, Rinv_l in H2 by lra. lra.
Qed.
Print Assumptions C31_sample.

Theorem C31_interval : forall ws i u, nonneg ws -> 0 < rsum ws -> (i < length ws)%nat -> 0 <= u < 1 ->
  (sample (made_of ws) (Some u) = Ok (Z.of_nat i) <-> rsum (firstn i ws) / rsum ws <= u < rsum (firstn i ws) / rsum ws + nth i ws 0 / rsum ws)
  /\ 0 <= rsum (firstn i ws) / rsum ws /\ rsum (firstn i ws) / rsum ws + nth i ws 0 / rsum ws <= 1.
Proof.
  intros ws i u Hn Hp Hi Hu.
  assert (E : rsum (firstn i ws) / rsum ws + nth i ws 0 / rsum ws = rsum (firstn (S i) ws) / rsum ws) by (rewrite rsum_firstn_S by assumption; field; lra).
  rewrite E. destruct (sample_spec ws u Hn Hp Hu) as (j & Hj & Es & H). split; [split|split].
  - intros Ei. rewrite Es in Ei. injection Ei as Ei. apply Nat2Z.inj in Ei. now subst.
  - intros H'. assert (i = j) by exact (interval_unique ws u i j Hn Hp H' H). now subst.
  - apply Rmult_le_pos; [apply rsum_nonneg, nonneg_firstn, Hn|left; now apply Rinv_0_lt_compat].
  - rewrite <- (Rinv_r (rsum ws)) by lra. apply Rmult_le_compat_r; [left; now apply Rinv_0_lt_compat|].
    rewrite <- (firstn_all ws) at 2. apply rsum_firstn_mono; [assumption|lia].
Qed.
Print Assumptions C31_interval.

(** At u = 1, which the documentation allows, the last index is returned even if its weight is zero. *)
Theorem C31_one_refuted : ~ (forall ws u, nonneg ws -> 0 < rsum ws -> 0 <= u <= 1 ->
  exists i, sample (made_of ws) (Some u) = Ok (Z.of_nat i) /\ 0 < nth i ws 0).
Proof.
  intros H. destruct (H [1; 0] 1) as (i & E & P).
  - intros x [<-|[<-|[]]]; lra.
  - cbn. lra.
  - lra.
  - assert (D : made_of [1; 0] = [Some 0; Some 1; Some 1]) by (rewrite made_of_eq by (cbn; lra); cbn; repeat f_equal; field).
    rewrite D in E. assert (i = 1)%nat; [|subst; cbn in P; lra]. revert E. unfold sample. cbn [length upper_bound Nat.div2 nth Nat.add Nat.sub].
    rewrite !(proj2 (nlt_false 1 1)) by lra. cbn. intros [= E]. lia.
Qed.
Print Assumptions C31_one_refuted.

(** Sampling a distribution without entries is undefined. *)
Theorem C31_empty_refuted : ~ (forall u, exists i, sample (made_of []) u = Ok i).
Proof. intros H. destruct (H None) as (i & E). discriminate. Qed.
Print Assumptions C31_empty_refuted.

Example C31_example : nonneg [1; 0; 3] /\ 0 < rsum [1; 0; 3] /\ pmf (made_of [1; 0; 3]) 2 = Some (3 / 4).
Proof.
  split; [intros x [<-|[<-|[<-|[]]]]; lra|]. split; [cbn; lra|]. change 2%Z with (Z.of_nat 2). rewrite pmf_in by (cbn; lra || lia). cbn. f_equal. field.
Qed.

(** ** C32 *)
(** [o] is the distribution of the table [tbl] of [h] rows and [w] columns. *)
Definition table (o : dist2) (tbl : list R) (w h : nat) : Prop :=
  length tbl = (h * w)%nat /\ init new_dist2 (map Some tbl) (Z.of_nat w) (Z.of_nat h) = Ok o.

(** The sampled point is in a cell of positive weight, at the place given by the last two random
    numbers, and the density there is the weight over the mean of the weights. *)
Theorem C32_sample : forall o tbl w h u0 u1 u2 u3, table o tbl w h -> nonneg tbl -> 0 < rsum tbl ->
  0 <= u0 < 1 -> 0 <= u1 < 1 -> 0 <= u2 < 1 -> 0 <= u3 < 1 ->
  exists x y, (x < w)%nat /\ (y < h)%nat /\ 0 < entry w tbl y x
    /\ let px := (INR x + u2) / INR w in let py := (INR y + u3) / INR h in
       sample2 o u0 u1 u2 u3 = Ok (px, py) /\ 0 <= px < 1 /\ 0 <= py < 1
       /\ pdf2 o px py = Ok (Some (entry w tbl y x / (rsum tbl / (INR w * INR h)))).
Proof.
  intros o tbl w h u0 u1 u2 u3 [L E] Hn Hp H0 H1 H2 H3. rewrite (init_ok tbl w h L) in E. injection E as <-.
  assert (T := rows_total w h tbl L). unfold sample2. cbn [m ds dw dh].
  assert (Hp' : 0 < rsum (map (fun y => rsum (row w tbl y)) (seq 0 h))) by (rewrite T; assumption).
  destruct (C31_sample (map (fun y => rsum (row w tbl y)) (seq 0 h)) u0 (nonneg_rows w tbl h Hn) Hp' H0) as (y & Hy & -> & Py).
  rewrite map_length, seq_length in Hy. rewrite map_seq_nth in Py by assumption. cbn [obind].
  rewrite Nat2Z.id, nth_error_map. rewrite (nth_error_nth' (seq 0 h) 0%nat) by (rewrite seq_length; assumption). rewrite seq_nth by assumption. cbn [option_map Nat.add].
  destruct (C31_sample (row w tbl y) u1 (nonneg_row w tbl y Hn) Py H1) as (x & Hx & -> & Px).
  rewrite row_length in Hx. rewrite row_nth in Px by assumption. cbn [obind].
  exists x, y. split; [assumption|]. split; [assumption|]. split; [assumption|]. cbv zeta.
  assert (B : forall k n u, (k < n)%nat -> 0 <= u < 1 -> 0 <= (INR k + u) / INR n < 1).
  { intros k n u Hk Hu. assert (0 < INR n) by (apply lt_0_INR; lia). assert (0 <= INR k) by apply pos_INR.
    assert (INR k + 1 <= INR n) by (rewrite <- S_INR; apply le_INR; lia). split.
    - apply Rmult_le_pos; [lra|]. left. now apply Rinv_0_lt_compat.
    - apply (Rmult_lt_reg_r (INR n)); [assumption|]. unfold Rdiv. rewrite Rmult_assoc, Rinv_l by lra. lra. }
  split; [now rewrite !INR_IZR_INZ|]. split; [now apply B|]. split; [now apply B|].
  assert (P := pdf2_cell tbl w h x y u2 u3 L ltac:(lra) Hx Hy ltac:(lra) H2 H3). rewrite !INR_IZR_INZ in *. exact P.
Qed.
Print Assumptions C32_sample.

(** The density is constant on cells and integrates to one, if every row has a positive weight. *)
Theorem C32_integral_partial : forall o tbl w h, table o tbl w h -> (0 < w)%nat -> (0 < h)%nat -> 0 < rsum tbl ->
  (forall y, (y < h)%nat -> 0 < rsum (row w tbl y)) ->
  exists d : nat -> nat -> R,
    (forall x y u v, (x < w)%nat -> (y < h)%nat -> 0 <= u < 1 -> 0 <= v < 1 ->
       pdf2 o ((INR x + u) / INR w) ((INR y + v) / INR h) = Ok (Some (d y x)))
    /\ rsum (map (fun y => rsum (map (fun x => d y x * (1 / INR w) * (1 / INR h)) (seq 0 w))) (seq 0 h)) = 1.
Proof.
  intros o tbl w h [L E] Hw Hh Hp Hr. rewrite (init_ok tbl w h L) in E. injection E as <-.
  exists (fun y x => entry w tbl y x / (rsum tbl / (INR w * INR h))). split.
  - intros x y u v Hx Hy Hu Hv. specialize (Hr y Hy). assert (P := pdf2_cell tbl w h x y u v L ltac:(lra) Hx Hy ltac:(lra) Hu Hv).
    rewrite !INR_IZR_INZ in *. exact P.
  - assert (0 < INR w) by (apply lt_0_INR; lia). assert (0 < INR h) by (apply lt_0_INR; lia).
    assert (G : forall l k, rsum (map (fun w => w * k) l) = rsum l * k).
    { clear. intros l k. unfold rsum. induction l as [|x l IH]; cbn; [ring|]. rewrite IH. ring. }
    rewrite (rsum_map_ext _ (fun y => rsum (row w tbl y) * / rsum tbl)).
    + rewrite <- (map_map (fun y => rsum (row w tbl y)) (fun z => z * / rsum tbl)), G, (rows_total w h tbl L). field. lra.
    + intros y _. rewrite <- G. unfold row. rewrite map_map. apply rsum_map_ext. intros x _. field. repeat split; lra.
Qed.
Print Assumptions C32_integral_partial.

(** On the upper edge of the square the density is that of the last row, and on the right edge it is
    zero; it is never read outside the table. *)
Theorem C32_upper_edge : forall o tbl w h x u, table o tbl w h -> (x < w)%nat -> (0 < h)%nat -> 0 <= u < 1 -> 0 < rsum tbl -> 0 < rsum (row w tbl (h - 1)) ->
  pdf2 o ((INR x + u) / INR w) 1 = Ok (Some (entry w tbl (h - 1) x / (rsum tbl / (INR w * INR h)))).
Proof.
  intros o tbl w h x u [L E] Hx Hh Hu Hp Hr. rewrite (init_ok tbl w h L) in E. injection E as <-.
  assert (P := pdf2_cell tbl w h x (h - 1) u 0 L ltac:(lra) Hx ltac:(lia) ltac:(lra) Hu ltac:(lra)). rewrite <- !INR_IZR_INZ in P. rewrite <- P.
  unfold pdf2. cbn [m ds dw dh]. replace (trunc (1 * IZR (Z.of_nat h))) with (Z.of_nat h).
  2: { rewrite Rmult_1_l. symmetry. apply trunc_nonneg; [apply IZR_le; lia|lra]. }
  replace (trunc ((INR (h - 1) + 0) / INR h * IZR (Z.of_nat h))) with (Z.of_nat h - 1)%Z.
  2: { assert (0 < INR h) by (apply lt_0_INR; lia). assert (1 <= INR h) by (change 1 with (INR 1); apply le_INR; lia).
    replace ((INR (h - 1) + 0) / INR h * IZR (Z.of_nat h)) with (INR h - 1) by (rewrite <- INR_IZR_INZ, minus_INR by lia; change (INR 1) with 1; field; lra).
    symmetry. apply trunc_nonneg; [lra|]. rewrite minus_IZR, <- INR_IZR_INZ. lra. }
  rewrite Z.min_r, Z.min_id by lia. reflexivity.
Qed.
Print Assumptions C32_upper_edge.

Theorem C32_right_edge : forall o tbl w h v, table o tbl w h -> (0 < h)%nat -> 0 <= v <= 1 -> 0 < rsum tbl ->
  pdf2 o 1 v = Ok (Some 0).
Proof.
  intros o tbl w h v [L E] Hh Hv Hp. rewrite (init_ok tbl w h L) in E. injection E as <-.
  unfold pdf2. cbn [m ds dw dh]. set (y := trunc (v * IZR (Z.of_nat h))).
  assert (Hy : (0 <= y)%Z). { assert (B : 0 <= v * IZR (Z.of_nat h)) by (apply Rmult_le_pos; [lra|]; apply IZR_le; lia). apply trunc_bounds in B. fold y in B. apply Z.lt_succ_r. apply lt_IZR. unfold Z.succ. rewrite plus_IZR. assert (P0 : 0 <= v * IZR (Z.of_nat h)) by (apply Rmult_le_pos; [lra|]; apply IZR_le; lia). lra. }
  destruct (Z.ltb_spec (Z.min y (Z.of_nat h - 1)) 0); [lia|]. set (k := Z.to_nat (Z.min y (Z.of_nat h - 1))).
  assert (Hk : (k < h)%nat) by (unfold k; lia). replace (Z.min y (Z.of_nat h - 1)) with (Z.of_nat k) by (unfold k; lia).
  rewrite nth_error_map. rewrite (nth_error_nth' (seq 0 h) 0%nat) by (rewrite seq_length; assumption). rewrite seq_nth by assumption. cbn [option_map Nat.add].
  assert (T := rows_total w h tbl L). rewrite pmf_in; [|rewrite T; lra|rewrite map_length, seq_length; assumption].
  rewrite pmf_out. 2: { right. rewrite row_length. rewrite Rmult_1_l. assert (trunc (IZR (Z.of_nat w)) = Z.of_nat w) by (apply trunc_nonneg; [apply IZR_le; lia|lra]). lia. }
  cbn [nmul nbin]. do 2 f_equal. ring.
Qed.
Print Assumptions C32_right_edge.

(** In a row without weight the density is not zero but not a number (0/0). *)
Theorem C32_zero_row_refuted : ~ (forall o tbl w h u v, table o tbl w h -> nonneg tbl -> 0 < rsum tbl -> 0 <= u < 1 -> 0 <= v < 1 ->
  exists d, pdf2 o u v = Ok (Some d)).
Proof.
  intros H. destruct (H (mk_dist2 [made_of [0]; made_of [1]] (made_of [0; 1]) 1 2) [0; 1] 1%nat 2%nat 0 0) as (d & E).
  - split; [reflexivity|]. rewrite (init_ok [0; 1] 1 2 eq_refl). cbn [seq map]. unfold row, entry. cbn [seq map Nat.mul Nat.add nth].
    replace (rsum [0]) with 0 by (cbn; ring). replace (rsum [1]) with 1 by (cbn; ring). reflexivity.
  - intros x [<-|[<-|[]]]; lra.
  - cbn. lra.
  - lra.
  - lra.
  - unfold pdf2 in E. cbn [m ds dw dh] in E. assert (T0 : forall k, trunc (0 * k) = 0%Z) by (intros k; rewrite Rmult_0_l; apply trunc_nonneg; cbn; lra).
    rewrite !T0 in E. assert (M0 : made_of [0] = [None; None]).
    { unfold made_of. rewrite added. unfold norm. rewrite back_sums. cbn. unfold fdiv. destruct (Req_EM_T (0 + 0) 0); [reflexivity|lra]. }
    rewrite M0 in E. change (Z.min 0 (2 - 1)) with 0%Z in E. change (pmf [None; None] 0) with (@None R) in E. cbn [Z.ltb Z.compare nth_error Z.to_nat] in E.
    unfold nmul, nbin in E. destruct (pmf (made_of [0; 1]) 0); discriminate.
Qed.
Print Assumptions C32_zero_row_refuted.

(** Initialising an object a second time keeps the old marginal weights: an index beyond the new rows
    can be drawn. *)
Theorem C32_reinit_refuted : ~ (forall o o' tbl w h u0 u1 u2 u3, init new_dist2 (map Some tbl) (Z.of_nat w) (Z.of_nat h) = Ok o ->
  init o (map Some tbl) (Z.of_nat w) (Z.of_nat h) = Ok o' -> length tbl = (h * w)%nat -> nonneg tbl -> 0 < rsum tbl ->
  0 <= u0 < 1 -> 0 <= u1 < 1 -> 0 <= u2 < 1 -> 0 <= u3 < 1 -> exists p, sample2 o' u0 u1 u2 u3 = Ok p).
Proof.
  intros H.
  assert (D : norm (fold_left add [Some 1] empty_dist) = [Some 0; Some 1]).
  { assert (M := made_of_eq [1]). unfold made_of in M. cbn [map] in M. rewrite M by (cbn; lra). cbn. repeat f_equal; field. }
  destruct (H (mk_dist2 [made_of [1]] [Some 0; Some 1] 1 1) (mk_dist2 [made_of [1]] [Some 0; Some (1 / 2); Some 1] 1 1) [1] 1%nat 1%nat (3 / 4) 0 0 0) as (p & E); try lra.
  - rewrite (init_ok [1] 1 1 eq_refl). cbn [seq map]. unfold row, entry. cbn [seq map Nat.mul Nat.add nth]. replace (rsum [1]) with 1 by (cbn; ring). unfold made_of at 2. cbn [map]. rewrite D. reflexivity.
  - unfold init. cbn [m]. change (Z.of_nat 1) with 1%Z. cbn [Z.ltb Z.compare Z.to_nat Pos.to_nat Pos.iter_op].
    rewrite (add_rows_ok [1] 1 1 0) by (cbn; lia). cbn [obind seq map app fold_left]. unfold row, entry. cbn [seq map Nat.mul Nat.add nth].
    replace (rsum [1]) with 1 by (cbn; ring). repeat f_equal. unfold norm, add, back, nadd. cbn. unfold fdiv.
    destruct (Req_EM_T (1 + 1) 0); [lra|]. repeat f_equal; field.
  - reflexivity.
  - intros x [<-|[]]; lra.
  - cbn. lra.
  - unfold sample2 in E. cbn [m ds dw dh] in E. unfold sample at 1 in E. cbn [length upper_bound Nat.div2 nth Nat.add Nat.sub] in E.
    rewrite (proj2 (nlt_false (3 / 4) (1 / 2))) in E by lra. rewrite (proj2 (nlt_true (3 / 4) 1)) in E by lra. cbn in E. discriminate.
Qed.
Print Assumptions C32_reinit_refuted.

Example C32_example : exists o, table o [1; 2; 0; 5] 2 2 /\ nonneg [1; 2; 0; 5] /\ 0 < rsum [1; 2; 0; 5] /\ (forall y, (y < 2)%nat -> 0 < rsum (row 2 [1; 2; 0; 5] y)).
Proof.
  eexists. split; [split; [reflexivity|apply (init_ok [1; 2; 0; 5] 2 2); reflexivity]|]. split; [intros x [<-|[<-|[<-|[<-|[]]]]]; lra|].
  split; [cbn; lra|]. intros [|[|y]] Hy; cbn; lra || lia.
Qed.
