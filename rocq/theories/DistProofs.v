(** Proofs about the discrete distributions. *)
From Coq Require Import List Reals ZArith Bool Lia Lra.
From Verif Require Import Base RBase DistModel DistSpec.
Import ListNotations.
Open Scope R_scope.

Lemma rsum_app a b : rsum (a ++ b) = rsum a + rsum b.
Proof. unfold rsum. induction a as [|x a IH]; cbn; [ring|]. rewrite IH. ring. Qed.
Lemma rsum_nonneg l : nonneg l -> 0 <= rsum l.
Proof. induction l as [|x l IH]; intros H; cbn; [lra|]. assert (0 <= x) by (apply H; now left). assert (0 <= rsum l) by (apply IH; intros y Hy; apply H; now right). unfold rsum in *. lra. Qed.
Lemma nonneg_firstn l n : nonneg l -> nonneg (firstn n l).
Proof. intros H x Hx. apply H. rewrite <- (firstn_skipn n l). apply in_app_iff. now left. Qed.
Lemma rsum_firstn_S l i : (i < length l)%nat -> rsum (firstn (S i) l) = rsum (firstn i l) + nth i l 0.
Proof.
  revert i. induction l as [|x l IH]; intros i H; [cbn in H; lia|]. destruct i as [|i]; [cbn; ring|].
  cbn [length] in H. change (firstn (S (S i)) (x :: l)) with (x :: firstn (S i) l). change (firstn (S i) (x :: l)) with (x :: firstn i l).
  cbn [nth]. unfold rsum in *. cbn [fold_right]. rewrite IH by lia. ring.
Qed.
Lemma rsum_firstn_mono l i j : nonneg l -> (i <= j)%nat -> rsum (firstn i l) <= rsum (firstn j l).
Proof.
  intros H Hij. replace (firstn i l) with (firstn i (firstn j l)) by (rewrite firstn_firstn; f_equal; lia).
  rewrite <- (firstn_skipn i (firstn j l)) at 2. rewrite rsum_app. assert (0 <= rsum (skipn i (firstn j l))); [|lra].
  apply rsum_nonneg. intros x Hx. apply (nonneg_firstn l j H). rewrite <- (firstn_skipn i (firstn j l)). apply in_app_iff. now right.
Qed.

(** ** The cumulative sums *)
Definition sums (ws : list R) : list R := map (fun k => rsum (firstn k ws)) (seq 0 (S (length ws))).

Lemma sums_snoc ws w : sums (ws ++ [w]) = sums ws ++ [rsum ws + w].
Proof.
  unfold sums. rewrite app_length. cbn [length]. rewrite Nat.add_1_r, (seq_S (S (length ws))), map_app. f_equal.
  - apply map_ext_in. intros k Hk. apply in_seq in Hk. rewrite firstn_app. replace (k - length ws)%nat with 0%nat by lia. cbn. now rewrite app_nil_r.
  - cbn [map]. f_equal. rewrite firstn_all2 by (rewrite app_length; cbn; lia). rewrite rsum_app. cbn. ring.
Qed.
Lemma sums_length ws : length (sums ws) = S (length ws).
Proof. unfold sums. now rewrite map_length, seq_length. Qed.
Lemma sums_last ws : last (sums ws) 0 = rsum ws.
Proof. unfold sums. rewrite seq_S, map_app. cbn [map]. rewrite last_last. cbn [Nat.add]. now rewrite firstn_all. Qed.

Lemma last_map {A B} (f : A -> B) l d e : l <> [] -> last (map f l) e = f (last l d).
Proof. induction l as [|x l IH]; [congruence|]. intros _. destruct l as [|y l]; [reflexivity|]. change (last (map f (x :: y :: l)) e) with (last (map f (y :: l)) e). rewrite IH by discriminate. reflexivity. Qed.

Lemma added ws : fold_left add (map Some ws) empty_dist = map Some (sums ws).
Proof.
  induction ws as [|w ws IH] using rev_ind; [reflexivity|]. rewrite map_app, fold_left_app, IH. cbn [map fold_left].
  unfold add. rewrite sums_snoc, map_app. cbn [map]. do 2 f_equal. unfold back.
  rewrite (last_map Some (sums ws) 0) by (unfold sums; discriminate). rewrite sums_last. reflexivity.
Qed.

Lemma back_sums ws : back (map Some (sums ws)) = Some (rsum ws).
Proof. unfold back. rewrite (last_map Some (sums ws) 0) by (unfold sums; discriminate). now rewrite sums_last. Qed.

Lemma norm_sums ws : rsum ws <> 0 -> norm (map Some (sums ws)) = map (fun s => Some (s / rsum ws)) (sums ws).
Proof. intros H. unfold norm. rewrite back_sums, map_map. apply map_ext. intros s. cbn. now apply fdiv_ok. Qed.

Lemma made_of_eq ws : rsum ws <> 0 -> made_of ws = map (fun s => Some (s / rsum ws)) (sums ws).
Proof. intros H. unfold made_of. rewrite added. now apply norm_sums. Qed.

Lemma made_of_length ws : length (made_of ws) = S (length ws).
Proof. unfold made_of, norm. now rewrite added, !map_length, sums_length. Qed.

Lemma made_of_nth ws k : rsum ws <> 0 -> (k <= length ws)%nat -> nth k (made_of ws) None = Some (rsum (firstn k ws) / rsum ws).
Proof.
  intros H Hk. rewrite made_of_eq by assumption. unfold sums. rewrite map_map.
  rewrite (nth_indep _ None (Some (rsum (firstn 0 ws) / rsum ws))) by (rewrite map_length, seq_length; lia).
  rewrite (map_nth (fun x => Some (rsum (firstn x ws) / rsum ws)) _ 0%nat). rewrite seq_nth by lia. reflexivity.
Qed.

Lemma pmf_in ws i : rsum ws <> 0 -> (i < length ws)%nat -> pmf (made_of ws) (Z.of_nat i) = Some (nth i ws 0 / rsum ws).
Proof.
  intros H Hi. unfold pmf. rewrite made_of_length. destruct (Z.ltb_spec (Z.of_nat i) 0); [lia|].
  destruct (Z.leb_spec (Z.of_nat (S (length ws))) (Z.of_nat i + 1)); [lia|]. cbn [orb].
  replace (Z.to_nat (Z.of_nat i + 1)) with (S i) by lia. rewrite Nat2Z.id. rewrite !made_of_nth by (assumption || lia). unfold nsub, nbin.
  rewrite rsum_firstn_S by assumption. f_equal. field. assumption.
Qed.
Lemma pmf_out ws i : (i < 0 \/ Z.of_nat (length ws) <= i)%Z -> pmf (made_of ws) i = Some 0.
Proof.
  intros H. unfold pmf. rewrite made_of_length. destruct (Z.ltb_spec i 0); [reflexivity|].
  destruct (Z.leb_spec (Z.of_nat (S (length ws))) (i + 1)); [reflexivity|lia].
Qed.

(** ** Upper bound *)
Lemma upper_bound_spec c u : forall fuel first len, (len <= fuel)%nat ->
  (forall i, (i < first)%nat -> nlt u (nth i c None) = false) ->
  (forall i j, (i <= j < first + len)%nat -> nlt u (nth i c None) = true -> nlt u (nth j c None) = true) ->
  let k := upper_bound fuel c u first len in
  (first <= k <= first + len)%nat /\ (forall i, (i < k)%nat -> nlt u (nth i c None) = false)
  /\ (k < first + len -> nlt u (nth k c None) = true)%nat.
Proof.
  induction fuel as [|fuel IH]; intros first len Hl Lo Mono; cbn zeta.
  - replace len with 0%nat by lia. cbn. split; [lia|]. split; [assumption|lia].
  - cbn [upper_bound]. destruct len as [|len']; [split; [lia|]; split; [assumption|lia]|]. remember (S len') as len.
    assert (Hh : (Nat.div2 len < len)%nat) by (apply Nat.lt_div2; lia). set (half := Nat.div2 len) in *.
    destruct (nlt u (nth (first + half) c None)) eqn:E.
    + destruct (IH first half) as (A & B & C); [lia|assumption|intros i j Hij; apply Mono; lia|]. split; [lia|]. split; [assumption|].
      intros _. set (k := upper_bound fuel c u first half) in *. destruct (Nat.eq_dec k (first + half)) as [->|]; [assumption|]. apply C. lia.
    + destruct (IH (first + half + 1)%nat (len - half - 1)%nat) as (A & B & C); [lia| |intros i j Hij; apply Mono; lia|].
      * intros i Hi. destruct (Nat.le_gt_cases i (first + half)) as [Hle|]; [|lia].
        destruct (nlt u (nth i c None)) eqn:E2; [|reflexivity]. rewrite <- E. symmetry. apply (Mono i); [lia|assumption].
      * split; [lia|]. split; [assumption|]. intros H. apply C. lia.
Qed.

Lemma nlt_true u x : nlt (Some u) (Some x) = true <-> u < x.
Proof. cbn. destruct (Rlt_dec u x); split; auto; discriminate. Qed.
Lemma nlt_false u x : nlt (Some u) (Some x) = false <-> x <= u.
Proof. cbn. destruct (Rlt_dec u x); split; try discriminate; intros; lra || reflexivity. Qed.

Lemma sample_spec ws u : nonneg ws -> 0 < rsum ws -> 0 <= u < 1 ->
  exists i, (i < length ws)%nat /\ sample (made_of ws) (Some u) = Ok (Z.of_nat i)
    /\ rsum (firstn i ws) / rsum ws <= u < rsum (firstn (S i) ws) / rsum ws.
Proof.
  intros Hn Hp Hu. assert (Hs : rsum ws <> 0) by lra. unfold sample. rewrite made_of_length.
  destruct (upper_bound_spec (made_of ws) (Some u) (S (length ws)) 0 (S (length ws))) as (A & B & C); [lia|intros; lia| |].
  { intros i j Hij. rewrite !made_of_nth by (assumption || lia). rewrite !nlt_true. intros H. apply Rlt_le_trans with (1 := H).
    apply Rmult_le_compat_r; [left; now apply Rinv_0_lt_compat|]. apply rsum_firstn_mono; [assumption|lia]. }
  set (k := upper_bound (S (length ws)) (made_of ws) (Some u) 0 (S (length ws))) in *. cbn [Nat.add] in *.
  assert (K0 : (0 < k)%nat).
  { destruct (Nat.eq_dec k 0) as [E|]; [|lia]. specialize (C ltac:(lia)). rewrite E, made_of_nth, nlt_true in C by (assumption || lia). cbn in C. unfold Rdiv in C. rewrite Rmult_0_l in C. lra. }
  assert (K1 : (k <= length ws)%nat).
  { destruct (Nat.le_gt_cases k (length ws)) as [|E]; [assumption|]. specialize (B (length ws) E). rewrite made_of_nth, nlt_false in B by (assumption || lia).
    rewrite firstn_all in B. unfold Rdiv in B. rewrite Rinv_r in B by assumption. lra. }
  exists (k - 1)%nat. split; [lia|]. split.
  - destruct (Z.ltb_spec (Z.of_nat (S (length ws)) - 2) 0); [lia|]. rewrite zclamp_id by lia. f_equal. lia.
  - split.
    + specialize (B (k - 1)%nat ltac:(lia)). rewrite made_of_nth, nlt_false in B by (assumption || lia). assumption.
    + specialize (C ltac:(lia)). rewrite made_of_nth, nlt_true in C by (assumption || lia). replace (S (k - 1)) with k by lia. assumption.
Qed.

(** Two indices whose intervals contain the same point are equal. *)
Lemma interval_unique ws u i j : nonneg ws -> 0 < rsum ws ->
  rsum (firstn i ws) / rsum ws <= u < rsum (firstn (S i) ws) / rsum ws ->
  rsum (firstn j ws) / rsum ws <= u < rsum (firstn (S j) ws) / rsum ws -> i = j.
Proof.
  intros Hn Hp Hi Hj. assert (M : forall a b, (a <= b)%nat -> rsum (firstn a ws) / rsum ws <= rsum (firstn b ws) / rsum ws).
  { intros a b Hab. apply Rmult_le_compat_r; [left; now apply Rinv_0_lt_compat|]. now apply rsum_firstn_mono. }
  destruct (Nat.lt_trichotomy i j) as [H|[H|H]]; [|assumption|].
  - specialize (M (S i) j H). lra.
  - specialize (M (S j) i H). lra.
Qed.

(** ** Two dimensions *)
Lemma add_row_ok tbl : forall n base d, (base + n <= length tbl)%nat ->
  add_row (map Some tbl) (Z.of_nat base) n d = Ok (fold_left add (map (fun x => Some (nth (base + x) tbl 0)) (seq 0 n)) d).
Proof.
  induction n as [|n IH]; intros base d H; [reflexivity|]. cbn [add_row seq map fold_left]. rewrite Nat2Z.id.
  rewrite nth_error_map. rewrite (nth_error_nth' tbl 0) by lia. cbn [option_map]. rewrite Nat.add_0_r.
  replace (Z.of_nat base + 1)%Z with (Z.of_nat (S base)) by lia. rewrite IH by lia. f_equal. rewrite <- seq_shift, map_map.
  f_equal. apply map_ext. intros k. do 2 f_equal. lia.
Qed.

Lemma add_rows_ok tbl w : forall n i rows mm, ((i + n) * w <= length tbl)%nat ->
  add_rows (map Some tbl) (Z.of_nat w) (Z.of_nat i) n rows mm
  = Ok (rows ++ map (fun y => made_of (row w tbl y)) (seq i n), fold_left add (map (fun y => Some (rsum (row w tbl y))) (seq i n)) mm).
Proof.
  induction n as [|n IH]; intros i rows mm H; [cbn; now rewrite app_nil_r|]. cbn [add_rows].
  replace (Z.of_nat i * Z.of_nat w)%Z with (Z.of_nat (i * w)) by lia. rewrite Nat2Z.id. rewrite add_row_ok by nia. cbn [obind].
  replace (map (fun x => Some (nth (i * w + x) tbl 0)) (seq 0 w)) with (map Some (row w tbl i)) by (unfold row; rewrite map_map; reflexivity).
  replace (Z.of_nat i + 1)%Z with (Z.of_nat (S i)) by lia. rewrite IH by nia. cbn [seq map fold_left]. rewrite <- app_assoc. cbn [app].
  repeat f_equal. rewrite added. apply back_sums.
Qed.

Lemma init_ok tbl w h : length tbl = (h * w)%nat ->
  init new_dist2 (map Some tbl) (Z.of_nat w) (Z.of_nat h)
  = Ok (mk_dist2 (map (fun y => made_of (row w tbl y)) (seq 0 h)) (made_of (map (fun y => rsum (row w tbl y)) (seq 0 h))) (Z.of_nat w) (Z.of_nat h)).
Proof.
  intros H. unfold init. destruct (Z.ltb_spec (Z.of_nat h) 0); [lia|]. rewrite Nat2Z.id. cbn [m new_dist2].
  rewrite (add_rows_ok tbl w h 0) by lia. cbn [obind app]. unfold made_of. rewrite map_map. reflexivity.
Qed.

Lemma row_length w tbl y : length (row w tbl y) = w.
Proof. unfold row. now rewrite map_length, seq_length. Qed.
Lemma row_nth w tbl y x : (x < w)%nat -> nth x (row w tbl y) 0 = entry w tbl y x.
Proof.
  intros H. unfold row. rewrite (nth_indep _ 0 (entry w tbl y 0)) by (rewrite map_length, seq_length; lia).
  rewrite map_nth. now rewrite seq_nth.
Qed.
Lemma rsum_map_ext {A} (f g : A -> R) l : (forall x, In x l -> f x = g x) -> rsum (map f l) = rsum (map g l).
Proof. intros H. f_equal. now apply map_ext_in. Qed.

Lemma map_nth_seq_gen (l : list R) : map (fun k => nth k l 0) (seq 0 (length l)) = l.
Proof.
  induction l as [|x l IH]; [reflexivity|]. cbn [length seq map nth]. f_equal. rewrite <- seq_shift, map_map. exact IH.
Qed.

Lemma nth_skipn_local (l : list R) n k : nth k (skipn n l) 0 = nth (n + k) l 0.
Proof. revert l. induction n as [|n IH]; intros l; [reflexivity|]. destruct l as [|x l]; [destruct k; reflexivity|]. cbn. apply IH. Qed.

(** The rows add up to the table. *)
Lemma rows_total w : forall h tbl, length tbl = (h * w)%nat -> rsum (map (fun y => rsum (row w tbl y)) (seq 0 h)) = rsum tbl.
Proof.
  induction h as [|h IH]; intros tbl H; [destruct tbl; [reflexivity|discriminate]|].
  cbn [seq map]. change (rsum (?a :: ?l)) with (a + rsum l). rewrite <- seq_shift, map_map.
  replace (rsum tbl) with (rsum (firstn w tbl) + rsum (skipn w tbl)) by (rewrite <- rsum_app, firstn_skipn; reflexivity).
  assert (Hf : length (firstn w tbl) = w) by (rewrite firstn_length; nia). f_equal.
  - f_equal. unfold row, entry. rewrite <- (map_nth_seq_gen (firstn w tbl)), Hf. apply map_ext_in. intros k Hk. apply in_seq in Hk.
    cbn [Nat.mul Nat.add]. rewrite <- (firstn_skipn w tbl) at 1. rewrite app_nth1 by lia. reflexivity.
  - rewrite <- (IH (skipn w tbl)) by (rewrite skipn_length; nia). apply rsum_map_ext. intros y Hy. f_equal. unfold row. apply map_ext. intros x.
    unfold entry. rewrite nth_skipn_local. f_equal. nia.
Qed.

Lemma nonneg_nth l k : nonneg l -> 0 <= nth k l 0.
Proof. intros H. destruct (Nat.lt_ge_cases k (length l)) as [Hl|Hl]; [apply H, nth_In, Hl|]. rewrite nth_overflow by assumption. lra. Qed.
Lemma nonneg_row w tbl y : nonneg tbl -> nonneg (row w tbl y).
Proof. intros H x Hx. unfold row in Hx. apply in_map_iff in Hx. destruct Hx as (k & <- & _). now apply nonneg_nth. Qed.
Lemma nonneg_rows w tbl h : nonneg tbl -> nonneg (map (fun y => rsum (row w tbl y)) (seq 0 h)).
Proof. intros H x Hx. apply in_map_iff in Hx. destruct Hx as (y & <- & _). apply rsum_nonneg, nonneg_row, H. Qed.

Lemma map_seq_nth {A} (f : nat -> A) n y d : (y < n)%nat -> nth y (map f (seq 0 n)) d = f y.
Proof. intros H. rewrite (nth_indep _ d (f 0%nat)) by (rewrite map_length, seq_length; lia). rewrite map_nth. now rewrite seq_nth. Qed.

Lemma trunc_cell k n (u : R) : (k < n)%nat -> 0 <= u < 1 -> trunc ((IZR (Z.of_nat k) + u) / IZR (Z.of_nat n) * IZR (Z.of_nat n)) = Z.of_nat k.
Proof.
  intros Hk Hu. assert (0 < IZR (Z.of_nat n)) by (apply IZR_lt; lia). assert (0 <= IZR (Z.of_nat k)) by (apply IZR_le; lia).
  replace ((IZR (Z.of_nat k) + u) / IZR (Z.of_nat n) * IZR (Z.of_nat n)) with (IZR (Z.of_nat k) + u) by (field; lra).
  apply trunc_nonneg; lra.
Qed.

(** The density in cell (x,y) of a table whose row [y] has positive total. *)
Lemma pdf2_cell tbl w h x y u v : length tbl = (h * w)%nat -> rsum tbl <> 0 -> (x < w)%nat -> (y < h)%nat -> rsum (row w tbl y) <> 0 ->
  0 <= u < 1 -> 0 <= v < 1 ->
  pdf2 (mk_dist2 (map (fun y => made_of (row w tbl y)) (seq 0 h)) (made_of (map (fun y => rsum (row w tbl y)) (seq 0 h))) (Z.of_nat w) (Z.of_nat h))
    ((IZR (Z.of_nat x) + u) / IZR (Z.of_nat w)) ((IZR (Z.of_nat y) + v) / IZR (Z.of_nat h))
  = Ok (Some (entry w tbl y x / (rsum tbl / (INR w * INR h)))).
Proof.
  intros L Hs Hx Hy Hr Hu Hv. unfold pdf2. cbn [m ds dw dh]. rewrite !trunc_cell by assumption.
  replace (Z.min (Z.of_nat y) (Z.of_nat h - 1)) with (Z.of_nat y) by lia. destruct (Z.ltb_spec (Z.of_nat y) 0); [lia|].
  rewrite Nat2Z.id, nth_error_map. rewrite (nth_error_nth' (seq 0 h) 0%nat) by (rewrite seq_length; assumption). rewrite seq_nth by assumption. cbn [option_map Nat.add].
  assert (T := rows_total w h tbl L). rewrite pmf_in; [|congruence|rewrite map_length, seq_length; assumption].
  rewrite pmf_in by (rewrite ?row_length; assumption). rewrite T, map_seq_nth, row_nth by assumption. cbn [nmul nbin].
  do 2 f_equal. rewrite !INR_IZR_INZ. field. assert (0 < IZR (Z.of_nat w)) by (apply IZR_lt; lia). assert (0 < IZR (Z.of_nat h)) by (apply IZR_lt; lia).
  repeat split; lra.
Qed.
