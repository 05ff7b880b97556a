(** Proofs about films. *)
From Coq Require Import List Reals ZArith Bool Lia Lra Permutation.
From Verif Require Import Base RBase VecBase ParSpec ParProofs FilmModel FilmSpec.
Import ListNotations.
Open Scope Z_scope.

Lemma upd_nth_length {A} (l : list A) n x : List.length (upd_nth l n x) = List.length l.
Proof. revert n. induction l as [|y r IH]; intros [|n]; cbn; auto. Qed.
Lemma upd_nth_nth {A} (l : list A) n x k : nth_error (upd_nth l n x) k
  = if Nat.eqb k n then option_map (fun _ => x) (nth_error l n) else nth_error l k.
Proof.
  revert n k. induction l as [|y r IH]; intros n k.
  - cbn. destruct (Nat.eqb k n); destruct n, k; reflexivity.
  - destruct n as [|n], k as [|k]; cbn; auto.
Qed.

Lemma upto_length n : List.length (upto n) = Z.to_nat n.
Proof. unfold upto. now rewrite map_length, seq_length. Qed.

Lemma nth_in {A} (l : list A) i : 0 <= i < Z.of_nat (List.length l) -> exists v, nth_error l (Z.to_nat i) = Some v.
Proof.
  intros H. destruct (nth_error l (Z.to_nat i)) eqn:E; [eauto|]. apply nth_error_None in E. lia.
Qed.

Lemma at_index_ok f i g : 0 <= i < Z.of_nat (List.length (data f)) -> exists v, nth_error (data f) (Z.to_nat i) = Some v
  /\ at_index f i g = Ok (mk_film (fw f) (fh f) (upd_nth (data f) (Z.to_nat i) (g v))).
Proof.
  intros H. destruct (nth_in _ _ H) as (v & E). exists v. split; [assumption|]. unfold at_index.
  destruct (Z.ltb_spec i 0); [lia|]. now rewrite E.
Qed.

(** Folding updates over distinct indices. *)
Lemma fold_at g : forall order f, NoDup order -> (forall i, In i order -> 0 <= i < Z.of_nat (List.length (data f))) ->
  exists f', fold_left (fun acc i => obind acc (fun f => at_index f i (g i))) order (Ok f) = Ok f'
    /\ fw f' = fw f /\ fh f' = fh f /\ List.length (data f') = List.length (data f)
    /\ forall k, 0 <= k -> nth_error (data f') (Z.to_nat k)
         = if in_dec Z.eq_dec k order then option_map (g k) (nth_error (data f) (Z.to_nat k)) else nth_error (data f) (Z.to_nat k).
Proof.
  induction order as [|i r IH]; intros f Nd Hin; [exists f; cbn; auto|]. inversion Nd; subst.
  destruct (at_index_ok f i (g i)) as (v & Ev & E); [apply Hin; now left|]. cbn [fold_left obind]. rewrite E.
  destruct (IH (mk_film (fw f) (fh f) (upd_nth (data f) (Z.to_nat i) (g i v)))) as (f' & F & W & H & L & N); [assumption| |].
  { cbn. rewrite upd_nth_length. intros j Hj. apply Hin. now right. }
  exists f'. split; [exact F|]. cbn in W, H, L. rewrite upd_nth_length in L. repeat split; auto.
  intros k Hk. rewrite (N k Hk). cbn [data]. rewrite upd_nth_nth.
  destruct (in_dec Z.eq_dec k r) as [Hr|Hr], (in_dec Z.eq_dec k (i :: r)) as [Hi|Hi]; try reflexivity.
  - destruct (Nat.eqb_spec (Z.to_nat k) (Z.to_nat i)) as [e|e]; [|reflexivity].
    exfalso. assert (0 <= i) by (apply Hin; now left). assert (k = i) by lia. subst. contradiction.
  - exfalso. apply Hi. now right.
  - destruct Hi as [->|]; [|contradiction]. rewrite Nat.eqb_refl, Ev. reflexivity.
  - destruct (Nat.eqb_spec (Z.to_nat k) (Z.to_nat i)) as [e|e]; [|reflexivity].
    exfalso. assert (0 <= i) by (apply Hin; now left). apply Hi. left. lia.
Qed.

Lemma inside_index w h x y : inside w h x y -> 0 <= y * w + x < w * h.
Proof. unfold inside. nia. Qed.
Lemma inside_inj w h x y x' y' : inside w h x y -> inside w h x' y' -> y * w + x = y' * w + x' -> x = x' /\ y = y'.
Proof.
  unfold inside. intros [H1 H2] [H3 H4] E. assert (y = y'). { destruct (Z.lt_trichotomy y y') as [|[|]]; [nia|assumption|nia]. }
  subst. lia.
Qed.

Lemma construct_shows w h : 0 <= w -> 0 <= h -> exists f, construct w h = Ok f /\ shows f w h (fun _ _ => v0).
Proof.
  intros Hw Hh. unfold construct. destruct (Z.ltb_spec (w * h) 0); [nia|]. eexists. split; [reflexivity|].
  split; [reflexivity|]. split; [reflexivity|]. cbn [data]. rewrite repeat_length. split; [lia|].
  intros x y Hi. apply inside_index in Hi. apply nth_error_repeat. lia.
Qed.

Lemma clear_shows f w h c : 0 <= w -> 0 <= h -> shows f w h c -> exists f', clear f = Ok f' /\ shows f' w h (fun _ _ => v0).
Proof. intros Hw Hh (E1 & E2 & _). unfold clear. rewrite E1, E2. exact (construct_shows w h Hw Hh). Qed.

Lemma update_shows f w h c x y g : shows f w h c -> inside w h x y ->
  exists f', update_pixel f x y g = Ok f' /\ shows f' w h (with_pixel c x y (g (c x y))).
Proof.
  intros (E1 & E2 & L & N) Hi. unfold update_pixel. rewrite E1. assert (B := inside_index _ _ _ _ Hi).
  destruct (at_index_ok f (y * w + x) g) as (v & Ev & E); [lia|]. rewrite E. eexists. split; [reflexivity|].
  rewrite (N x y Hi) in Ev. injection Ev as <-. split; [assumption|]. split; [assumption|]. cbn [data]. rewrite upd_nth_length. split; [assumption|].
  intros x' y' Hi'. rewrite upd_nth_nth. assert (B' := inside_index _ _ _ _ Hi'). unfold with_pixel.
  destruct (Nat.eqb_spec (Z.to_nat (y' * w + x')) (Z.to_nat (y * w + x))) as [e|e].
  - destruct (inside_inj w h x' y' x y Hi' Hi ltac:(lia)) as [-> ->]. rewrite !Z.eqb_refl. cbn. now rewrite (N x y Hi).
  - destruct (Z.eqb_spec x' x), (Z.eqb_spec y' y); cbn; try (now apply N). subst. contradiction.
Qed.

Lemma rescale_shows f w h c s order : shows f w h c -> Permutation order (upto (w * h)) ->
  exists f', rescale f s order = Ok f' /\ shows f' w h (fun x y => vscale s (c x y)).
Proof.
  intros (E1 & E2 & L & N) P. unfold rescale.
  destruct (fold_at (fun _ c => vscale s c) order f) as (f' & F & W & H & L' & N').
  - apply (Permutation_NoDup (Permutation_sym P)), upto_nodup.
  - intros i Hi. apply (Permutation_in _ P), upto_in in Hi. lia.
  - exists f'. split; [exact F|]. split; [congruence|]. split; [congruence|]. split; [congruence|].
    intros x y Hi. assert (B := inside_index _ _ _ _ Hi). rewrite N' by lia.
    destruct (in_dec Z.eq_dec (y * w + x) order) as [_|n]; [now rewrite (N x y Hi)|].
    exfalso. apply n. apply (Permutation_in _ (Permutation_sym P)), upto_in. lia.
Qed.

Lemma fold_left_ext_in {A B} (f g : A -> B -> A) : forall l a, (forall a b, In b l -> f a b = g a b) -> fold_left f l a = fold_left g l a.
Proof.
  induction l as [|b l IH]; intros a H; [reflexivity|]. cbn. rewrite H by now left. apply IH. intros a' b' Hb. apply H. now right.
Qed.

Lemma accum_shows f s w h c d : shows f w h c -> shows s w h d ->
  exists f', accum f (Bitmap s) = Ok f' /\ shows f' w h (fun x y => vadd (c x y) (d x y)).
Proof.
  intros (E1 & E2 & L & N) (E1' & E2' & L' & N'). unfold accum. rewrite E1, E2, E1', E2', !Z.eqb_refl. cbn [negb orb].
  rewrite (fold_left_ext_in _ (fun acc i => obind acc (fun f => at_index f i (fun c => vadd c (nth (Z.to_nat i) (data s) v0))))).
  2:{ intros a i Hi. apply upto_in in Hi. destruct (nth_in (data s) i) as (v & Ev); [lia|]. rewrite Ev, (nth_error_nth _ _ _ Ev). reflexivity. }
  destruct (fold_at (fun i c => vadd c (nth (Z.to_nat i) (data s) v0)) (upto (w * h)) f) as (f' & F & W & H & L2 & N2).
  - apply upto_nodup.
  - intros i Hi. apply upto_in in Hi. lia.
  - exists f'. split; [exact F|]. split; [congruence|]. split; [congruence|]. split; [congruence|].
    intros x y Hi. assert (B := inside_index _ _ _ _ Hi). rewrite N2 by lia.
    destruct (in_dec Z.eq_dec (y * w + x) (upto (w * h))) as [_|n].
    + rewrite (N x y Hi), (nth_error_nth _ _ _ (N' x y Hi)). reflexivity.
    + exfalso. apply n, upto_in. lia.
Qed.

Lemma accum_other f s w h c w' h' d : shows f w h c -> shows s w' h' d -> (w, h) <> (w', h') -> accum f (Bitmap s) = Ok f.
Proof.
  intros (E1 & E2 & _) (E1' & E2' & _) Hne. unfold accum. rewrite E1, E2, E1', E2'.
  destruct (Z.eqb_spec w w'), (Z.eqb_spec h h'); try reflexivity. congruence.
Qed.

Lemma buffer_shows f w h c : shows f w h c -> 0 < w * h -> exists d, buffer f = Ok (w, h, d) /\ Z.of_nat (List.length d) = w * h
  /\ forall x y, inside w h x y -> nth_error d (Z.to_nat (y * w + x)) = Some (c x y).
Proof.
  intros (E1 & E2 & L & N) Hp. unfold buffer. destruct (data f) eqn:E; [cbn in L; lia|]. rewrite <- E in *. exists (data f). rewrite E1, E2. auto.
Qed.

Section Copy.
  Context {T : Type}.
  Variable zero : T.
  Variable conv : R -> outcome T.

  Lemma fold_write {E} (key : E -> Z) (val : E -> T) (step : list T -> E -> outcome (list T)) : forall es v,
    (forall v e, In e es -> step v e = write v (key e) (val e)) -> NoDup (map key es) ->
    (forall e, In e es -> 0 <= key e < Z.of_nat (List.length v)) ->
    exists v', fold_left (fun acc e => obind acc (fun v => step v e)) es (Ok v) = Ok v' /\ List.length v' = List.length v
      /\ (forall e, In e es -> nth_error v' (Z.to_nat (key e)) = Some (val e))
      /\ forall k, 0 <= k -> ~ In k (map key es) -> nth_error v' (Z.to_nat k) = nth_error v (Z.to_nat k).
  Proof.
    induction es as [|e es IH]; intros v Hs Nd Hk; [exists v; cbn; intuition|]. cbn [map] in Nd. inversion Nd; subst.
    cbn [fold_left obind]. rewrite Hs by now left. assert (K := Hk e (or_introl eq_refl)).
    assert (W : write v (key e) (val e) = Ok (upd_nth v (Z.to_nat (key e)) (val e))).
    { unfold write. destruct (Z.ltb_spec (key e) 0); [lia|]. destruct (Z.leb_spec (Z.of_nat (List.length v)) (key e)); [lia|reflexivity]. }
    rewrite W. destruct (IH (upd_nth v (Z.to_nat (key e)) (val e))) as (v' & F & L & A & B); auto.
    { intros v1 e1 He. apply Hs. now right. }
    { rewrite upd_nth_length. intros e1 He. apply Hk. now right. }
    exists v'. split; [exact F|]. rewrite upd_nth_length in L. split; [assumption|]. split.
    - intros e1 [->|He]; [|now apply A]. rewrite B by (lia || assumption). rewrite upd_nth_nth, Nat.eqb_refl.
      destruct (nth_in v (key e1)) as (x & ->); [lia|reflexivity].
    - intros k Hk0 Hn. cbn in Hn. rewrite B by tauto. rewrite upd_nth_nth. destruct (Nat.eqb_spec (Z.to_nat k) (Z.to_nat (key e))) as [e'|]; [|reflexivity].
      exfalso. apply Hn. left. lia.
  Qed.

  Lemma copy_iters_in w h y x i : In (y, x, i) (copy_iters w h) <-> inside w h x y /\ (i < 3)%nat.
  Proof.
    unfold copy_iters. rewrite in_flat_map. split.
    - intros (y' & Hy & H). apply in_flat_map in H. destruct H as (x' & Hx & H). apply in_map_iff in H. destruct H as (i' & [= <- <- <-] & Hi).
      apply upto_in in Hx, Hy. unfold inside. cbn in Hi. lia.
    - intros [[Hx Hy] Hi]. exists y. split; [now apply upto_in|]. apply in_flat_map. exists x. split; [now apply upto_in|].
      apply in_map_iff. exists i. split; [reflexivity|]. cbn. lia.
  Qed.

  Lemma nodup_app {A} (a b : list A) : NoDup a -> NoDup b -> (forall x, In x a -> ~ In x b) -> NoDup (a ++ b).
  Proof.
    induction a as [|x a IH]; intros Ha Hb Hd; [assumption|]. inversion Ha; subst. cbn. constructor.
    - rewrite in_app_iff. intros [|]; [contradiction|]. now apply (Hd x (or_introl eq_refl)).
    - apply IH; auto. intros y Hy. apply Hd. now right.
  Qed.

  Lemma nodup_flat_map {A B} (f : A -> list B) l : NoDup l -> (forall a, In a l -> NoDup (f a)) ->
    (forall a b x, In a l -> In b l -> In x (f a) -> In x (f b) -> a = b) -> NoDup (flat_map f l).
  Proof.
    induction l as [|a l IH]; intros Nd Hf Hd; [constructor|]. inversion Nd; subst. cbn. apply nodup_app.
    - apply Hf. now left.
    - apply IH; auto. { intros; apply Hf; now right. } intros b c x Hb Hc. apply Hd; now right.
    - intros x Hx Hx'. apply in_flat_map in Hx'. destruct Hx' as (b & Hb & Hx'). assert (a = b) by (apply (Hd a b x); auto; [now left|now right]). subst. contradiction.
  Qed.

  Lemma copy_iters_nodup w h : NoDup (copy_iters w h).
  Proof.
    unfold copy_iters. apply nodup_flat_map; [apply upto_nodup| |].
    - intros y _. apply nodup_flat_map; [apply upto_nodup| |].
      + intros x _. apply FinFun.Injective_map_NoDup; [now intros a b [= ->]|]. repeat constructor; cbn; lia.
      + intros a b e _ _ Ha Hb. apply in_map_iff in Ha, Hb. destruct Ha as (? & <- & _), Hb as (? & [=] & _). congruence.
    - intros a b e _ _ Ha Hb. apply in_flat_map in Ha, Hb. destruct Ha as (? & _ & Ha), Hb as (? & _ & Hb).
      apply in_map_iff in Ha, Hb. destruct Ha as (? & <- & _), Hb as (? & [=] & _). congruence.
  Qed.

  Lemma copy_shows f w h c flip val : 0 <= w -> 0 <= h -> shows f w h c ->
    (forall x y i, inside w h x y -> (i < 3)%nat -> conv (comp (c x y) i) = Ok (val x y i)) ->
    exists out, copy zero conv f flip = Ok out /\ Z.of_nat (List.length out) = 3 * w * h
      /\ forall row x i, inside w h x row -> (i < 3)%nat ->
           channel w out row x i = Some (val x (if flip then h - 1 - row else row) i).
  Proof.
    intros Hw Hh (E1 & E2 & L & N) Hc. unfold copy. rewrite E1, E2. destruct (Z.ltb_spec (w * h * 3) 0); [nia|].
    set (key := fun e : Z * Z * nat => let '(y, x, i) := e in 3 * ((if flip then h - y - 1 else y) * w + x) + Z.of_nat i).
    set (vl := fun e : Z * Z * nat => let '(y, x, i) := e in val x y i).
    assert (K : forall y x i, In (y, x, i) (copy_iters w h) -> inside w h x (if flip then h - y - 1 else y) /\ (i < 3)%nat).
    { intros y x i Hin. apply copy_iters_in in Hin. destruct Hin as [Hi Hlt]. split; [|assumption]. unfold inside in *. destruct flip; lia. }
    destruct (fold_write key vl (copy_step conv f flip) (copy_iters w h) (repeat zero (Z.to_nat (w * h * 3)))) as (v' & F & Ln & A & _).
    - intros v [[y x] i] Hin. unfold copy_step. rewrite E1, E2. apply copy_iters_in in Hin. destruct Hin as [Hi Hlt].
      assert (B := inside_index _ _ _ _ Hi). destruct (Z.ltb_spec (y * w + x) 0); [lia|]. rewrite (N x y Hi), (Hc x y i Hi Hlt). reflexivity.
    - assert (NM : forall (g : Z * Z * nat -> Z) l, (forall a b, In a l -> In b l -> g a = g b -> a = b) -> NoDup l -> NoDup (map g l)).
      { intros g l. induction l as [|a l IH]; intros Hg Nd; [constructor|]. inversion Nd; subst. cbn. constructor.
        - intros Hin. apply in_map_iff in Hin. destruct Hin as (b & Eb & Hb). assert (b = a) by (apply Hg; [now right|now left|assumption]). congruence.
        - apply IH; [|assumption]. intros x y Hx Hy. apply Hg; now right. }
      apply NM; [|apply copy_iters_nodup]. intros [[y x] i] [[y' x'] i'] Ha Hb. unfold key. intros E.
      destruct (K _ _ _ Ha) as [Hi Hl], (K _ _ _ Hb) as [Hi' Hl'].
      destruct (inside_inj w h x _ x' _ Hi Hi') as [-> Ey]; [lia|].
      assert (i = i') by lia. subst i'. assert (y = y') by (destruct flip; lia). now subst.
    - intros [[y x] i] Hin. destruct (K _ _ _ Hin) as [Hi Hl]. rewrite repeat_length. unfold key.
      assert (B := inside_index _ _ _ _ Hi). lia.
    - exists v'. split; [exact F|]. rewrite Ln, repeat_length. split; [lia|]. intros row x i Hi Hl. unfold channel.
      assert (Hin : In ((if flip then h - 1 - row else row), x, i) (copy_iters w h)).
      { apply copy_iters_in. split; [|assumption]. unfold inside in *. destruct flip; lia. }
      specialize (A _ Hin). unfold key, vl in A. rewrite <- A. f_equal. f_equal. destruct flip; [|reflexivity].
      replace (h - (h - 1 - row) - 1) with row by ring. reflexivity.
  Qed.
End Copy.

(** ** Conversion to int, raster positions *)
Lemma to_int_ok r : (-2147483649 < r < 2147483648)%R -> to_int r = Ok (trunc r).
Proof. intros H. unfold to_int. destruct (Rle_dec r (-2147483649)); [lra|]. destruct (Rlt_dec r 2147483648); [reflexivity|lra]. Qed.
Lemma to_int_inv r z : to_int r = Ok z -> (-2147483649 < r < 2147483648)%R /\ z = trunc r.
Proof.
  unfold to_int. destruct (Rle_dec r (-2147483649)); [discriminate|]. destruct (Rlt_dec r 2147483648); [|discriminate].
  intros [= <-]. split; [lra|reflexivity].
Qed.

Lemma trunc_mono a b : (a <= b)%R -> trunc a <= trunc b.
Proof.
  intros H. unfold trunc. destruct (Rlt_dec a 0), (Rlt_dec b 0); try lra.
  - apply Z.opp_le_mono. rewrite !Z.opp_involutive. destruct (Int_part_bounds (-a)), (Int_part_bounds (-b)).
    apply Z.lt_succ_r, lt_IZR. rewrite succ_IZR. lra.
  - destruct (Int_part_bounds (-a)), (Int_part_bounds b). assert (-1 < Int_part b) by (apply lt_IZR; lra).
    assert (-1 < Int_part (-a)) by (apply lt_IZR; lra). lia.
  - destruct (Int_part_bounds a), (Int_part_bounds b). apply Z.lt_succ_r, lt_IZR. rewrite succ_IZR. lra.
Qed.

Lemma raster_in w h rp p : 0 < w -> 0 < h -> raster_to_pixel w h rp = Ok p -> inside w h (fst p) (snd p).
Proof.
  intros Hw Hh. unfold raster_to_pixel. destruct (to_int (v2x rp * IZR w)) as [x| | |]; try discriminate. cbn [obind].
  destruct (to_int (v2y rp * IZR h)) as [y| | |]; try discriminate. cbn [obind]. intros [= <-]. cbn. unfold inside.
  assert (A := zclamp_range x 0 (w - 1)). assert (B := zclamp_range y 0 (h - 1)). lia.
Qed.

Lemma raster_contains w h rp : 0 < w <= 2147483647 -> 0 < h <= 2147483647 -> (0 <= v2x rp < 1)%R -> (0 <= v2y rp < 1)%R ->
  exists x y, raster_to_pixel w h rp = Ok (x, y) /\ (IZR x <= v2x rp * IZR w < IZR x + 1)%R /\ (IZR y <= v2y rp * IZR h < IZR y + 1)%R.
Proof.
  intros Hw Hh Hx Hy. unfold raster_to_pixel.
  assert (Aux : forall r n, 0 < n <= 2147483647 -> (0 <= r < 1)%R ->
    exists z, to_int (r * IZR n) = Ok z /\ zclamp z 0 (n - 1) = z /\ (IZR z <= r * IZR n < IZR z + 1)%R).
  { intros r n [Hn Hm] Hr. apply IZR_lt in Hn. apply IZR_le in Hm. assert (0 <= r * IZR n < IZR n)%R by nra.
    rewrite to_int_ok by lra. eexists. split; [reflexivity|]. destruct (trunc_range (r * IZR n) n) as [T1 T2]; try lra.
    split; [apply zclamp_id; lia|]. apply trunc_bounds. lra. }
  destruct (Aux _ _ Hw Hx) as (x & -> & Ex & Bx). destruct (Aux _ _ Hh Hy) as (y & -> & Ey & By). cbn [obind]. rewrite Ex, Ey. eauto 6.
Qed.

(** ** Averages *)
Lemma mean_app l v : mean (l ++ [v]) = ave_step (Z.of_nat (List.length l)) v (mean l).
Proof.
  unfold mean, ave_step. rewrite app_length, plus_INR. cbn [List.length INR].
  assert (S : forall l, fold_right vadd v0 (l ++ [v]) = vadd (fold_right vadd v0 l) v).
  { clear. induction l as [|a l IH]; cbn; [vring|]. rewrite IH. vring. }
  rewrite S, plus_IZR, <- INR_IZR_INZ. destruct l as [|a l].
  - cbn [List.length INR fold_right]. replace (0 + 1)%R with 1%R by ring. rewrite Rinv_1. vring.
  - assert (0 < INR (List.length (a :: l)))%R by (apply lt_0_INR; cbn; lia).
    generalize dependent (INR (List.length (a :: l))). intros k Hk. generalize (fold_right vadd v0 (a :: l)). intros q.
    vcomp; field; lra.
Qed.

Lemma ave_first v c : ave_step 0 v c = v.
Proof. unfold ave_step. change (0 + 1) with 1. rewrite Rinv_1. vring. Qed.

Lemma ave_all : forall vs c, vs <> [] ->
  fold_left (fun cur e => ave_step (fst e) (snd e) cur) (combine (upto (Z.of_nat (List.length vs))) vs) c = mean vs.
Proof.
  induction vs as [|v vs IH] using rev_ind; [congruence|]. intros c _.
  assert (U : upto (Z.of_nat (List.length (vs ++ [v]))) = upto (Z.of_nat (List.length vs)) ++ [Z.of_nat (List.length vs)]).
  { unfold upto. rewrite app_length, !Nat2Z.id, Nat.add_1_r, seq_S, map_app. reflexivity. }
  assert (C : forall (A B : Type) (a : list A) (b : list B) x y, List.length a = List.length b -> combine (a ++ [x]) (b ++ [y]) = combine a b ++ [(x, y)]).
  { clear. induction a as [|z a IH]; intros [|w b] x y H; try discriminate; [reflexivity|]. cbn. f_equal. apply IH. cbn in H. lia. }
  rewrite U, C by (rewrite upto_length; lia). rewrite fold_left_app. cbn [fold_left fst snd].
  destruct vs as [|w vs]; [|rewrite IH by discriminate; now rewrite <- mean_app].
  cbn [List.length combine upto Z.of_nat fold_left]. change (upto 0) with (@nil Z). cbn [combine fold_left]. rewrite ave_first.
  unfold mean. cbn [app List.length fold_right INR]. rewrite Rinv_1. vring.
Qed.

(** ** Bytes *)
Lemma rpower_pos t e : (0 < Rpower t e)%R.
Proof. apply exp_pos. Qed.

Lemma pow22_some t : (0 <= t)%R -> exists p, pow22 t = Some p /\ (0 <= p)%R.
Proof.
  intros H. unfold pow22. destruct (Rlt_dec t 0); [lra|]. destruct (Req_EM_T t 0); [exists 0%R; split; [reflexivity|lra]|].
  eexists. split; [reflexivity|]. left. apply rpower_pos.
Qed.

Lemma pow22_mono a b p q : (0 <= a <= b)%R -> pow22 a = Some p -> pow22 b = Some q -> (p <= q)%R.
Proof.
  intros [H1 H2]. unfold pow22. destruct (Rlt_dec a 0); [lra|]. destruct (Rlt_dec b 0); [lra|].
  destruct (Req_EM_T a 0), (Req_EM_T b 0); intros [= <-] [= <-].
  - lra.
  - left. apply rpower_pos.
  - assert (a = 0)%R by lra. contradiction.
  - apply Rle_Rpower_l; lra.
Qed.

Lemma pow22_one : pow22 1 = Some 1%R.
Proof.
  unfold pow22. destruct (Rlt_dec 1 0); [lra|]. destruct (Req_EM_T 1 0); [lra|]. f_equal.
  unfold Rpower. rewrite ln_1, Rmult_0_r, exp_0. reflexivity.
Qed.

Lemma pow22_big t p : (0 <= t <= 2 ^ 50)%R -> pow22 t = Some p -> (p < 2 ^ 23)%R.
Proof.
  intros [H0 H]. assert (P : (0 < 2 ^ 50)%R) by (apply pow_lt; lra).
  assert (E : pow22 (2 ^ 50) = Some (Rpower (2 ^ 50) (1 / (22 / 10)))).
  { unfold pow22. destruct (Rlt_dec (2 ^ 50) 0); [lra|]. destruct (Req_EM_T (2 ^ 50) 0); [lra|reflexivity]. }
  intros Ep. apply Rle_lt_trans with (Rpower (2 ^ 50) (1 / (22 / 10))); [apply (pow22_mono t (2 ^ 50)); auto|].
  rewrite <- (Rpower_pow 50 2), <- (Rpower_pow 23 2) by lra. rewrite Rpower_mult. apply Rpower_lt; [lra|]. 
  replace (INR 50) with 50%R by (cbn; ring). replace (INR 23) with 23%R by (cbn; ring). lra.
Qed.

Lemma to_byte_ok t : (0 <= t <= 2 ^ 50)%R -> exists p, pow22 t = Some p /\ (0 <= p)%R /\ to_byte t = Ok (zclamp (trunc (256 * p)) 0 255).
Proof.
  intros H. destruct (pow22_some t) as (p & E & Hp); [lra|]. exists p. split; [assumption|]. split; [assumption|].
  unfold to_byte. rewrite E. assert (B := pow22_big t p H E). rewrite to_int_ok; [reflexivity|]. cbn in B. lra.
Qed.

Lemma to_byte_negative t : (t < 0)%R -> to_byte t = UB.
Proof. intros H. unfold to_byte, pow22. destruct (Rlt_dec t 0); [reflexivity|lra]. Qed.

Lemma to_byte_huge t : (2 ^ 51 <= t)%R -> to_byte t = UB.
Proof.
  intros H. assert (P : (0 < 2 ^ 51)%R) by (apply pow_lt; lra). unfold to_byte.
  destruct (pow22_some t) as (p & E & Hp); [lra|]. rewrite E.
  assert (B : (2 ^ 23 <= p)%R).
  { assert (E1 : pow22 (2 ^ 51) = Some (Rpower (2 ^ 51) (1 / (22 / 10)))).
    { unfold pow22. destruct (Rlt_dec (2 ^ 51) 0); [lra|]. destruct (Req_EM_T (2 ^ 51) 0); [lra|reflexivity]. }
    apply Rle_trans with (Rpower (2 ^ 51) (1 / (22 / 10))); [|apply (pow22_mono (2 ^ 51) t); auto; lra].
    rewrite <- (Rpower_pow 51 2), <- (Rpower_pow 23 2) by lra. rewrite Rpower_mult. apply Rle_Rpower; [lra|].
    replace (INR 51) with 51%R by (cbn; ring). replace (INR 23) with 23%R by (cbn; ring). lra. }
  cbn in B. unfold to_int. destruct (Rle_dec (256 * p) (-2147483649)); [reflexivity|]. destruct (Rlt_dec (256 * p) 2147483648); [lra|reflexivity].
Qed.

(** ** Sanity check *)
Lemma sanity_loop_spec d : forall is n ws, (forall i, In i is -> 0 <= i < Z.of_nat (List.length d)) -> 0 <= n < 10 ->
  exists n' ws', sanity_loop d is n ws = Ok (n', ws') /\ n <= n'
    /\ (n' = n <-> forall i, In i is -> nth_error d (Z.to_nat i) = Some Finite)
    /\ (forall i, In i ws' -> In i ws \/ In i is /\ nth_error d (Z.to_nat i) <> Some Finite).
Proof.
  induction is as [|i r IH]; intros n ws Hin Hn; [exists n, ws; cbn; intuition|].
  cbn [sanity_loop]. destruct (nth_in d i) as (v & Ev); [apply Hin; now left|]. rewrite Ev.
  destruct (IH n ws) as (n1 & ws1 & E1 & L1 & Q1 & W1); [intros j Hj; apply Hin; now right|assumption|].
  assert (Bad : v <> Finite -> exists n' ws', (if 10 <=? n + 1 then Ok (n + 1, ws ++ [i]) else sanity_loop d r (n + 1) (ws ++ [i])) = Ok (n', ws')
    /\ n < n' /\ (forall j, In j ws' -> In j ws \/ In j (i :: r) /\ nth_error d (Z.to_nat j) <> Some Finite)).
  { intros Hv. assert (Wi : In i (i :: r) /\ nth_error d (Z.to_nat i) <> Some Finite) by (split; [now left|congruence]).
    destruct (Z.leb_spec 10 (n + 1)).
    - exists (n + 1), (ws ++ [i]). split; [reflexivity|]. split; [lia|]. intros j Hj. apply in_app_iff in Hj. destruct Hj as [|[<-|[]]]; auto.
    - destruct (IH (n + 1) (ws ++ [i])) as (n2 & ws2 & E2 & L2 & _ & W2); [intros j Hj; apply Hin; now right|lia|].
      exists n2, ws2. split; [assumption|]. split; [lia|]. intros j Hj. destruct (W2 j Hj) as [Hj'|[Hj' Hf]].
      + apply in_app_iff in Hj'. destruct Hj' as [|[<-|[]]]; auto.
      + right. split; [now right|assumption]. }
  destruct v.
  - destruct (Z.leb_spec 10 n); [lia|]. exists n1, ws1. split; [assumption|]. split; [assumption|]. split.
    + rewrite Q1. split; [intros Q j [<-|Hj]; auto|]. intros Q j Hj. apply Q. now right.
    + intros j Hj. destruct (W1 j Hj) as [|[Hj' Hf]]; [auto|]. right. split; [now right|assumption].
  - destruct Bad as (n' & ws' & E & L & W); [discriminate|]. exists n', ws'. split; [assumption|]. split; [lia|]. split; [|assumption].
    split; [lia|]. intros Q. specialize (Q i (or_introl eq_refl)). congruence.
  - destruct Bad as (n' & ws' & E & L & W); [discriminate|]. exists n', ws'. split; [assumption|]. split; [lia|]. split; [|assumption].
    split; [lia|]. intros Q. specialize (Q i (or_introl eq_refl)). congruence.
Qed.
