(** C27 (film operations), C28 (pixel coordinates), C29 (incremental averages), C30 (image export). *)
From Coq Require Import List Reals ZArith Bool Lia Lra Permutation.
From Verif Require Import Base RBase VecBase ParModel ParSpec ParProofs ParProps SchedModel SchedSpec SchedProofs FilmModel FilmSpec FilmProofs.
Import ListNotations.
Open Scope Z_scope.

(** ** C27 *)
(** A new film is black. *)
Theorem C27_construct : forall w h, 0 <= w -> 0 <= h -> exists f, construct w h = Ok f /\ shows f w h (fun _ _ => v0).
Proof. exact construct_shows. Qed.
Print Assumptions C27_construct.

Theorem C27_set_pixel : forall f w h c x y v, shows f w h c -> inside w h x y ->
  exists f', set_pixel f x y v = Ok f' /\ shows f' w h (with_pixel c x y v).
Proof. intros f w h c x y v Hs Hi. exact (update_shows f w h c x y (fun _ => v) Hs Hi). Qed.
Print Assumptions C27_set_pixel.

Theorem C27_splat_pixel : forall f w h c x y v, shows f w h c -> inside w h x y ->
  exists f', splat_pixel f x y v = Ok f' /\ shows f' w h (with_pixel c x y (vadd (c x y) v)).
Proof. intros f w h c x y v Hs Hi. exact (update_shows f w h c x y (fun c => vadd c v) Hs Hi). Qed.
Print Assumptions C27_splat_pixel.

Theorem C27_update_pixel : forall f w h c x y g, shows f w h c -> inside w h x y ->
  exists f', update_pixel f x y g = Ok f' /\ shows f' w h (with_pixel c x y (g (c x y))).
Proof. exact update_shows. Qed.
Print Assumptions C27_update_pixel.

Theorem C27_clear : forall f w h c, 0 <= w -> 0 <= h -> shows f w h c -> exists f', clear f = Ok f' /\ shows f' w h (fun _ _ => v0).
Proof. exact clear_shows. Qed.
Print Assumptions C27_clear.

(** rescale runs its iterations in the order in which some complete run of the parallel loop starts
    them, for any number of threads and any schedule. *)
Theorem C27_rescale : forall f w h c s interval T k k' tr, (0 < T)%nat -> shows f w h c ->
  loop interval T (w * h) k tr k' (Ok tt) ->
  exists f', rescale f s (map fst (started tr)) = Ok f' /\ shows f' w h (fun x y => vscale s (c x y)).
Proof.
  intros f w h c s interval T k k' tr HT Hs Hl. apply rescale_shows; [assumption|]. now apply (loop_ok interval T _ k tr k').
Qed.
Print Assumptions C27_rescale.

Theorem C27_accum : forall f s w h c d, shows f w h c -> shows s w h d ->
  exists f', accum f (Bitmap s) = Ok f' /\ shows f' w h (fun x y => vadd (c x y) (d x y)).
Proof. exact accum_shows. Qed.
Print Assumptions C27_accum.

Theorem C27_accum_mismatch : forall f w h c s, shows f w h c ->
  (s = OtherFilm \/ exists g w' h' d, s = Bitmap g /\ shows g w' h' d /\ (w, h) <> (w', h')) -> accum f s = Ok f.
Proof. intros f w h c s Hs [->|(g & w' & h' & d & -> & Hg & Hne)]; [reflexivity|]. exact (accum_other f g w h c w' h' d Hs Hg Hne). Qed.
Print Assumptions C27_accum_mismatch.

(** Reading the buffer of a non-empty film. *)
Theorem C27_buffer : forall f w h c, shows f w h c -> 0 < w * h -> exists d, buffer f = Ok (w, h, d) /\ Z.of_nat (List.length d) = w * h
  /\ forall x y, inside w h x y -> nth_error d (Z.to_nat (y * w + x)) = Some (c x y).
Proof. exact buffer_shows. Qed.
Print Assumptions C27_buffer.

(** The buffer of a film without pixels has undefined behaviour. *)
Theorem C27_buffer_empty_refuted : ~ (forall w h f, 0 <= w -> 0 <= h -> construct w h = Ok f -> exists d, buffer f = Ok d).
Proof. intros H. destruct (H 0 0 (mk_film 0 0 []) ltac:(lia) ltac:(lia) eq_refl) as (d & E). discriminate. Qed.
Print Assumptions C27_buffer_empty_refuted.

(** The exported floats: row by row from the bottom row of the film without flip, from the top with. *)
Theorem C27_export : forall f w h c flip, 0 <= w -> 0 <= h -> shows f w h c ->
  exists out, copy 0%R to_float f flip = Ok out /\ Z.of_nat (List.length out) = 3 * w * h
    /\ forall row x i, inside w h x row -> (i < 3)%nat -> channel w out row x i = Some (comp (c x (if flip then h - 1 - row else row)) i).
Proof.
  intros f w h c flip Hw Hh Hs. apply (copy_shows 0%R to_float f w h c flip (fun x y i => comp (c x y) i) Hw Hh Hs). reflexivity.
Qed.
Print Assumptions C27_export.

(** The flipped export is the other one with the rows in reverse order, so that reversing the rows
    again gives it back. *)
Theorem C27_flip : forall f w h c, 0 <= w -> 0 <= h -> shows f w h c ->
  exists a b, copy 0%R to_float f false = Ok a /\ copy 0%R to_float f true = Ok b /\ List.length a = List.length b
    /\ forall row x i, inside w h x row -> (i < 3)%nat ->
         channel w b row x i = channel w a (h - 1 - row) x i /\ channel w a row x i = channel w b (h - 1 - row) x i.
Proof.
  intros f w h c Hw Hh Hs. destruct (C27_export f w h c false Hw Hh Hs) as (a & Ea & La & Ca). destruct (C27_export f w h c true Hw Hh Hs) as (b & Eb & Lb & Cb).
  exists a, b. split; [assumption|]. split; [assumption|]. split; [lia|]. intros row x i Hi Hl.
  assert (Hi' : inside w h x (h - 1 - row)) by (unfold inside in *; lia). rewrite (Ca _ _ _ Hi Hl), (Cb _ _ _ Hi Hl), (Ca _ _ _ Hi' Hl), (Cb _ _ _ Hi' Hl).
  replace (h - 1 - (h - 1 - row)) with row by ring. auto.
Qed.
Print Assumptions C27_flip.

(** Outside the film nothing is checked: x = w writes to the first pixel of the next row, and beyond
    the last pixel the access is undefined. *)
Theorem C27_unchecked_refuted : ~ (forall w h f x y v f', construct w h = Ok f -> set_pixel f x y v = Ok f' -> inside w h x y).
Proof.
  intros H. destruct (H 2 2 (mk_film 2 2 [v0; v0; v0; v0]) 2 0 v0 (mk_film 2 2 [v0; v0; v0; v0]) eq_refl eq_refl). lia.
Qed.
Print Assumptions C27_unchecked_refuted.

Example C27_example : exists f, construct 2 3 = Ok f /\ inside 2 3 1 2 /\ shows f 2 3 (fun _ _ => v0)
  /\ exists f', set_pixel f 1 2 (V3 1 2 3) = Ok f' /\ data f' = [v0; v0; v0; v0; v0; V3 1 2 3].
Proof.
  destruct (construct_shows 2 3) as (f & E & Hs); [lia..|]. exists f. split; [assumption|]. split; [unfold inside; lia|]. split; [assumption|].
  injection E as <-. eexists. split; reflexivity.
Qed.
(** A finished run of the parallel loop over the three pixels of a 1 x 3 film. *)
Example C27_rescale_example : exists tr k', loop 5 2 (1 * 3) (fun _ => 0) tr k' (Ok tt).
Proof. destruct C23_example_ok as (s & Hr & Hf & Ht & _). exists (trace s), (count s), x_ok, s. repeat (split; [assumption || reflexivity|]).
  symmetry. apply (finished_ok _ _ _ _ _ _ (Nat.lt_0_succ 1) Hr Hf Ht). Qed.

(** ** C28 *)
(** Every raster position that can be converted at all maps into the film... *)
Theorem C28_in_film : forall w h rp p, 0 < w -> 0 < h -> raster_to_pixel w h rp = Ok p -> inside w h (fst p) (snd p).
Proof. exact raster_in. Qed.
Print Assumptions C28_in_film.

(** ...and that is every position whose scaled coordinates fit into an int... *)
Theorem C28_defined : forall w h rp, (-2147483649 < v2x rp * IZR w < 2147483648)%R -> (-2147483649 < v2y rp * IZR h < 2147483648)%R ->
  exists p, raster_to_pixel w h rp = Ok p.
Proof. intros w h rp Hx Hy. unfold raster_to_pixel. rewrite (to_int_ok _ Hx), (to_int_ok _ Hy). cbn [obind]. eauto. Qed.
Print Assumptions C28_defined.

(** ...but not all positions: the conversion of a far-off position is undefined. *)
Theorem C28_defined_refuted : ~ (forall w h rp, 0 < w -> 0 < h -> exists p, raster_to_pixel w h rp = Ok p).
Proof.
  intros H. destruct (H 1 1 (V2 3000000000 0)) as (p & E); [lia..|]. unfold raster_to_pixel in E. cbn [v2x] in E.
  unfold to_int at 1 in E. destruct (Rle_dec (3000000000 * 1) (-2147483649)); [lra|]. destruct (Rlt_dec (3000000000 * 1) 2147483648); [lra|]. discriminate.
Qed.
Print Assumptions C28_defined_refuted.

(** Positions in the unit square map to the pixel that contains them. *)
Theorem C28_contains : forall w h rp, 0 < w <= 2147483647 -> 0 < h <= 2147483647 -> (0 <= v2x rp < 1)%R -> (0 <= v2y rp < 1)%R ->
  exists x y, raster_to_pixel w h rp = Ok (x, y)
    /\ (IZR x / IZR w <= v2x rp < (IZR x + 1) / IZR w)%R /\ (IZR y / IZR h <= v2y rp < (IZR y + 1) / IZR h)%R.
Proof.
  intros w h rp Hw Hh Hx Hy. destruct (raster_contains w h rp Hw Hh Hx Hy) as (x & y & E & Bx & By). exists x, y. split; [assumption|].
  assert (0 < IZR w)%R by (apply IZR_lt; lia). assert (0 < IZR h)%R by (apply IZR_lt; lia).
  assert (D : forall a b n, (0 < n)%R -> (a <= b * n)%R -> (a / n <= b)%R) by (intros a b n Hn Hab; apply (Rmult_le_reg_r n); [assumption|]; unfold Rdiv; rewrite Rmult_assoc, Rinv_l, Rmult_1_r; lra).
  assert (D' : forall a b n, (0 < n)%R -> (b * n < a)%R -> (b < a / n)%R) by (intros a b n Hn Hab; apply (Rmult_lt_reg_r n); [assumption|]; unfold Rdiv; rewrite Rmult_assoc, Rinv_l, Rmult_1_r; lra).
  split; split; (apply D || apply D'); lra.
Qed.
Print Assumptions C28_contains.

(** Positions outside the square go to the nearest border, coordinate by coordinate. *)
Theorem C28_clamped : forall w h rp p, 0 < w -> 0 < h -> raster_to_pixel w h rp = Ok p ->
  ((v2x rp <= 0)%R -> fst p = 0) /\ ((1 <= v2x rp)%R -> fst p = w - 1) /\ ((v2y rp <= 0)%R -> snd p = 0) /\ ((1 <= v2y rp)%R -> snd p = h - 1).
Proof.
  intros w h rp p Hw Hh. unfold raster_to_pixel. destruct (to_int (v2x rp * IZR w)) as [x| | |] eqn:Ex; try discriminate. cbn [obind].
  destruct (to_int (v2y rp * IZR h)) as [y| | |] eqn:Ey; try discriminate. cbn [obind]. intros [= <-]. cbn [fst snd].
  apply to_int_inv in Ex, Ey. destruct Ex as [_ ->], Ey as [_ ->].
  assert (Lo : forall r n, 0 < n -> (r <= 0)%R -> zclamp (trunc (r * IZR n)) 0 (n - 1) = 0).
  { intros r n Hn Hr. apply IZR_lt in Hn as Hn'. assert (r * IZR n <= 0)%R by nra. assert (trunc (r * IZR n) <= trunc 0) by now apply trunc_mono.
    assert (T0 : trunc 0 = 0) by (apply trunc_nonneg; cbn; lra). unfold zclamp. lia. }
  assert (Hi : forall r n, 0 < n -> (1 <= r)%R -> zclamp (trunc (r * IZR n)) 0 (n - 1) = n - 1).
  { intros r n Hn Hr. apply IZR_lt in Hn as Hn'. assert (IZR n <= r * IZR n)%R by nra. assert (trunc (IZR n) <= trunc (r * IZR n)) by now apply trunc_mono.
    assert (T0 : trunc (IZR n) = n) by (apply trunc_nonneg; lra). unfold zclamp. lia. }
  auto.
Qed.
Print Assumptions C28_clamped.

(** The pixel indices 0 .. w*h-1 are the pixels of the film, each once, and the film stores the pixel
    of index [k] at [k]. *)
Theorem C28_bijective : forall w h, 0 <= w -> 0 <= h ->
  NoDup (map (pixel_of_index w) (upto (w * h)))
  /\ (forall x y, In (x, y) (map (pixel_of_index w) (upto (w * h))) <-> inside w h x y)
  /\ forall k, 0 <= k < w * h -> index_of_pixel w (pixel_of_index w k) = k.
Proof.
  intros w h Hw Hh. destruct (quot_rem_pairs h w Hh) as [Nd In_]. rewrite (Z.mul_comm h w) in Nd, In_.
  assert (E : map (fun i => (Z.quot i w, Z.rem i w)) (upto (w * h)) = map (fun p => (snd p, fst p)) (map (pixel_of_index w) (upto (w * h)))).
  { rewrite map_map. reflexivity. }
  split; [|split].
  - rewrite E in Nd. now apply NoDup_map_inv in Nd.
  - intros x y. specialize (In_ y x). rewrite E in In_. unfold inside. rewrite and_comm, <- In_. rewrite (in_map_iff (fun p => (snd p, fst p))). split.
    + intros Hin. exists (x, y). auto.
    + intros ([a b] & [= -> ->] & Hin). exact Hin.
  - intros k Hk. unfold index_of_pixel, pixel_of_index. cbn [fst snd]. rewrite (Z.quot_rem' k w) at 3. ring.
Qed.
Print Assumptions C28_bijective.

(** A splat at a raster position adds to that pixel only. *)
Theorem C28_splat : forall f w h c rp v p, 0 < w -> 0 < h -> shows f w h c -> raster_to_pixel w h rp = Ok p ->
  exists f', splat f rp v = Ok f' /\ shows f' w h (with_pixel c (fst p) (snd p) (vadd (c (fst p) (snd p)) v)).
Proof.
  intros f w h c rp v p Hw Hh Hs E. assert (Hi := raster_in w h rp p Hw Hh E). assert (Hs' := Hs). destruct Hs as (E1 & E2 & _).
  unfold splat. rewrite E1, E2, E. cbn [obind]. destruct p as [x y]. now apply C27_splat_pixel.
Qed.
Print Assumptions C28_splat.

Example C28_example : raster_to_pixel 4 2 (V2 (1 / 2) (3 / 2)) = Ok (2, 1).
Proof.
  unfold raster_to_pixel. cbn [v2x v2y]. rewrite !to_int_ok by lra. cbn [obind].
  rewrite (proj2 (trunc_nonneg (1 / 2 * 4) 2 ltac:(lra))) by lra. rewrite (proj2 (trunc_nonneg (3 / 2 * 2) 3 ltac:(lra))) by lra. reflexivity.
Qed.

(** ** C29 *)
(** Feeding [vs] with indices 0, 1, ... to a pixel. *)
Definition feed (f : film) (x y : Z) (l : list (Z * vec3)) : outcome film :=
  fold_left (fun acc e => obind acc (fun f => inc_ave f x y (fst e) (snd e))) l (Ok f).

Theorem C29_mean : forall f w h c x y vs, shows f w h c -> inside w h x y -> vs <> [] ->
  exists f', feed f x y (combine (upto (Z.of_nat (List.length vs))) vs) = Ok f' /\ shows f' w h (with_pixel c x y (mean vs)).
Proof.
  intros f w h c x y vs Hs Hi Hv. unfold feed. rewrite <- (ave_all vs (c x y) Hv).
  generalize (combine (upto (Z.of_nat (List.length vs))) vs). intros l. clear Hv vs. revert f c Hs.
  induction l as [|e l IH]; intros f c Hs.
  - exists f. split; [reflexivity|]. destruct Hs as (E1 & E2 & L & N). repeat (split; [assumption|]). intros x' y' Hi'. rewrite (N x' y' Hi').
    unfold with_pixel. cbn [fold_left]. destruct (Z.eqb_spec x' x), (Z.eqb_spec y' y); cbn; try reflexivity. subst. reflexivity.
  - cbn [fold_left obind]. destruct (update_shows f w h c x y (ave_step (fst e) (snd e)) Hs Hi) as (f1 & E & H1).
    unfold inc_ave at 2. rewrite E. destruct (IH f1 _ H1) as (f2 & E2 & H2). exists f2. split; [exact E2|].
    destruct H2 as (W & H & L & N). repeat (split; [assumption|]). intros x' y' Hi'. rewrite (N x' y' Hi'). unfold with_pixel.
    rewrite !Z.eqb_refl. cbn [andb]. destruct (Z.eqb x' x && Z.eqb y' y)%bool; reflexivity.
Qed.
Print Assumptions C29_mean.

(** The indices must arrive in order: a scheduler that runs the samples of a pixel in parallel may
    deliver index 1 before index 0, and then the second sample is lost. *)
Theorem C29_any_order_refuted : ~ (forall f w h c x y vs l, shows f w h c -> inside w h x y -> vs <> [] ->
  Permutation l (combine (upto (Z.of_nat (List.length vs))) vs) ->
  exists f', feed f x y l = Ok f' /\ shows f' w h (with_pixel c x y (mean vs))).
Proof.
  intros H. destruct (construct_shows 1 1) as (f & E & Hs); [lia..|]. injection E as <-.
  destruct (H _ 1 1 _ 0 0 [V3 0 0 0; V3 2 0 0] [(1, V3 2 0 0); (0, V3 0 0 0)] Hs) as (f' & F & S).
  - unfold inside. lia.
  - discriminate.
  - cbn. apply perm_swap.
  - cbv [feed fold_left obind inc_ave update_pixel at_index data fw fh] in F. cbn -[ave_step] in F. rewrite ave_first in F. injection F as <-.
    destruct S as (_ & _ & _ & N). specialize (N 0 0 ltac:(unfold inside; lia)). cbn in N. injection N as N. lra.
Qed.
Print Assumptions C29_any_order_refuted.

Example C29_example : exists f, construct 1 1 = Ok f /\ exists f', feed f 0 0 (combine (upto 3) [V3 1 2 3; V3 5 6 7; V3 0 1 2]) = Ok f'
  /\ shows f' 1 1 (fun _ _ => V3 2 3 4).
Proof.
  destruct (construct_shows 1 1) as (f & E & Hs); [lia..|]. exists f. split; [assumption|].
  destruct (C29_mean f 1 1 _ 0 0 [V3 1 2 3; V3 5 6 7; V3 0 1 2] Hs) as (f' & F & S); [unfold inside; lia|discriminate|].
  exists f'. split; [exact F|]. destruct S as (W & H & L & N). repeat (split; [assumption|]). intros x y Hi. rewrite (N x y Hi).
  assert (x = 0 /\ y = 0) as [-> ->] by (unfold inside in Hi; lia). cbn [with_pixel Z.eqb andb]. f_equal. unfold mean. cbn [List.length INR fold_right]. vcomp; field.
Qed.

(** ** C30 *)
(** Exporting a film whose channel values are between 0 and 2^50 gives bytes between 0 and 255,... *)
Theorem C30_bytes : forall f w h c flip, 0 <= w -> 0 <= h -> shows f w h c ->
  (forall x y i, inside w h x y -> (i < 3)%nat -> (0 <= comp (c x y) i <= 2 ^ 50)%R) ->
  exists out, copy 0 to_byte f flip = Ok out /\ Z.of_nat (List.length out) = 3 * w * h /\ (forall b, In b out -> 0 <= b <= 255)
    /\ forall row x i, inside w h x row -> (i < 3)%nat ->
         exists b, channel w out row x i = Some b /\ to_byte (comp (c x (if flip then h - 1 - row else row)) i) = Ok b.
Proof.
  intros f w h c flip Hw Hh Hs Hr.
  destruct (copy_shows 0 to_byte f w h c flip (fun x y i => match to_byte (comp (c x y) i) with Ok b => b | _ => 0 end) Hw Hh Hs) as (out & E & L & C).
  { intros x y i Hi Hl. destruct (to_byte_ok _ (Hr x y i Hi Hl)) as (p & _ & _ & ->). reflexivity. }
  exists out. split; [assumption|]. split; [assumption|]. split.
  - intros b Hb. apply In_nth_error in Hb. destruct Hb as (k & Hk).
    assert (Kl : (k < List.length out)%nat) by (apply nth_error_Some; congruence).
    set (q := Z.of_nat k). assert (Hq : 0 <= q < 3 * w * h) by (unfold q; lia).
    assert (0 < w) by nia. set (p := q / 3). set (i := Z.to_nat (q mod 3)).
    assert (B1 := Z.mod_pos_bound q 3 ltac:(lia)). assert (D1 := Z.div_mod q 3 ltac:(lia)). assert (B2 := Z.mod_pos_bound p w ltac:(lia)). assert (D2 := Z.div_mod p w ltac:(lia)).
    assert (Hp : 0 <= p < w * h) by (unfold p in *; lia).
    assert (Hi : inside w h (p mod w) (p / w)). { unfold inside. split; [lia|]. split; [apply Z.div_pos; lia|]. apply Z.div_lt_upper_bound; lia. }
    specialize (C (p / w) (p mod w) i Hi ltac:(unfold i; lia)). unfold channel in C.
    replace (Z.to_nat (3 * (p / w * w + p mod w) + Z.of_nat i)) with k in C.
    2:{ unfold i. rewrite Z2Nat.id by lia. replace (p / w * w + p mod w) with p by lia. unfold p. lia. }
    rewrite Hk in C. injection C as ->.
    assert (Hi' : inside w h (p mod w) (if flip then h - 1 - p / w else p / w)) by (unfold inside in *; destruct flip; lia).
    destruct (to_byte_ok _ (Hr _ _ i Hi' ltac:(unfold i; lia))) as (v & _ & _ & ->). apply zclamp_range. lia.
  - intros row x i Hi Hl. rewrite (C row x i Hi Hl). eexists. split; [reflexivity|].
    assert (Hi' : inside w h x (if flip then h - 1 - row else row)) by (unfold inside in *; destruct flip; lia).
    destruct (to_byte_ok _ (Hr _ _ i Hi' Hl)) as (v & _ & _ & ->). reflexivity.
Qed.
Print Assumptions C30_bytes.

(** ...monotone in the value, with 0 for 0 and 255 for values of at least 1. *)
Theorem C30_monotone : forall a b p q, (0 <= a <= b)%R -> (b <= 2 ^ 50)%R -> to_byte a = Ok p -> to_byte b = Ok q -> p <= q.
Proof.
  intros a b p q Hab Hb Ha Hq. destruct (to_byte_ok a) as (u & Eu & _ & Eu'); [lra|]. destruct (to_byte_ok b) as (v & Ev & _ & Ev'); [lra|].
  rewrite Eu' in Ha. rewrite Ev' in Hq. injection Ha as <-. injection Hq as <-.
  assert (u <= v)%R by exact (pow22_mono a b u v Hab Eu Ev). assert (trunc (256 * u) <= trunc (256 * v)) by (apply trunc_mono; lra). unfold zclamp. lia.
Qed.
Print Assumptions C30_monotone.

Theorem C30_zero : to_byte 0 = Ok 0.
Proof.
  destruct (to_byte_ok 0) as (p & E & _ & ->); [split; [lra|left; apply pow_lt; lra]|]. unfold pow22 in E. destruct (Rlt_dec 0 0); [lra|].
  destruct (Req_EM_T 0 0); [|lra]. injection E as <-. rewrite (proj2 (trunc_nonneg (256 * 0) 0 ltac:(lra))); [reflexivity|lra].
Qed.
Print Assumptions C30_zero.

Theorem C30_one : forall t, (1 <= t <= 2 ^ 50)%R -> to_byte t = Ok 255.
Proof.
  intros t H. destruct (to_byte_ok t) as (p & E & _ & ->); [lra|]. assert (1 <= p)%R by (apply (pow22_mono 1 t 1 p); [lra|apply pow22_one|assumption]).
  assert (trunc 256 <= trunc (256 * p)) by (apply trunc_mono; lra). assert (T : trunc 256 = 256) by (apply trunc_nonneg; lra). f_equal. unfold zclamp. lia.
Qed.
Print Assumptions C30_one.

(** The exact encoding: the byte is the integer part of 256 times the 2.2th root, capped at 255. *)
Theorem C30_value : forall t b, (0 < t <= 2 ^ 50)%R -> to_byte t = Ok b ->
  exists r, (0 < r)%R /\ Rpower r (22 / 10) = t /\ ((256 * r < 256)%R -> (IZR b <= 256 * r < IZR b + 1)%R) /\ ((256 <= 256 * r)%R -> b = 255).
Proof.
  intros t b H. destruct (to_byte_ok t) as (p & E & Hp & ->); [lra|]. intros [= <-]. exists p.
  unfold pow22 in E. destruct (Rlt_dec t 0); [lra|]. destruct (Req_EM_T t 0); [lra|]. injection E as <-. split; [apply rpower_pos|]. split.
  { rewrite Rpower_mult. replace (1 / (22 / 10) * (22 / 10))%R with 1%R by field. apply Rpower_1. lra. }
  destruct (trunc_bounds (256 * Rpower t (1 / (22 / 10))) ltac:(lra)) as [T1 T2]. split.
  - intros Hlt. destruct (trunc_range (256 * Rpower t (1 / (22 / 10))) 256) as [A B]; [lra|lra|]. rewrite zclamp_id by lia. auto.
  - intros Hge. assert (255 < trunc (256 * Rpower t (1 / (22 / 10)))) by (apply lt_IZR; lra). unfold zclamp. lia.
Qed.
Print Assumptions C30_value.

(** Negative values and values above about 2^50.6 are not clamped but converted with undefined
    behaviour. *)
Theorem C30_range_refuted : ~ (forall t, exists b, to_byte t = Ok b) /\ (forall t, (t < 0)%R -> to_byte t = UB) /\ (forall t, (2 ^ 51 <= t)%R -> to_byte t = UB).
Proof.
  split; [|split; [exact to_byte_negative|exact to_byte_huge]]. intros H. destruct (H (-1)%R) as (b & E). rewrite to_byte_negative in E by lra. discriminate.
Qed.
Print Assumptions C30_range_refuted.

(** The sanity check reports (true) whether one of the first w*h floats is invalid, and warns only
    about invalid ones. The full claim would be about all 3*w*h floats and is refuted below. *)
Theorem C30_sanity_partial : forall w h d, 0 <= w -> 0 <= h -> Z.of_nat (List.length d) = 3 * w * h ->
  exists r ws, sanity_check w h d = Ok (r, ws)
    /\ (r = false <-> forall i, 0 <= i < w * h -> nth_error d (Z.to_nat i) = Some Finite)
    /\ forall i, In i ws -> nth_error d (Z.to_nat i) <> Some Finite.
Proof.
  intros w h d Hw Hh L. unfold sanity_check. destruct (sanity_loop_spec d (upto (w * h)) 0 []) as (n & ws & E & Ln & Q & W); [|lia|].
  { intros i Hi. apply upto_in in Hi. nia. }
  rewrite E. cbn [obind]. exists (0 <? n), ws. split; [reflexivity|]. split.
  - transitivity (n = 0); [destruct (Z.ltb_spec 0 n); split; (lia || congruence)|]. rewrite Q. split; intros G i Hi; apply G; now apply upto_in.
  - intros i Hi. destruct (W i Hi) as [[]|[_ H]]. assumption.
Qed.
Print Assumptions C30_sanity_partial.

(** A NaN in the last float of a one-pixel image is not reported. *)
Theorem C30_sanity_refuted : ~ (forall w h d r ws, 0 < w -> 0 < h -> Z.of_nat (List.length d) = 3 * w * h ->
  sanity_check w h d = Ok (r, ws) -> (exists i, nth_error d i = Some NaN) -> r = true).
Proof.
  intros H. assert (false = true); [|discriminate]. apply (H 1 1 [Finite; Finite; NaN] false []); try lia; try reflexivity. exists 2%nat. reflexivity.
Qed.
Print Assumptions C30_sanity_refuted.

(** What is written: png and hdr files start with the top row of the film, pfm files with the bottom
    row; other extensions write nothing. *)
Theorem C30_save : forall f w h c, 0 <= w -> 0 <= h -> shows f w h c ->
  (exists d, save f ExtHdr = Ok (SavedHdr d) /\ Z.of_nat (List.length d) = 3 * w * h
     /\ forall row x i, inside w h x row -> (i < 3)%nat -> channel w d row x i = Some (comp (c x (h - 1 - row)) i))
  /\ (exists d, save f ExtPfm = Ok (SavedPfm w h d) /\ Z.of_nat (List.length d) = 3 * w * h
     /\ forall row x i, inside w h x row -> (i < 3)%nat -> channel w d row x i = Some (comp (c x row) i))
  /\ save f ExtOther = Ok NotSaved.
Proof.
  intros f w h c Hw Hh Hs. destruct (C27_export f w h c true Hw Hh Hs) as (a & Ea & La & Ca). destruct (C27_export f w h c false Hw Hh Hs) as (b & Eb & Lb & Cb).
  split; [|split; [|reflexivity]].
  - exists a. cbn [save]. rewrite Ea. auto.
  - exists b. cbn [save]. rewrite Eb. destruct Hs as (-> & -> & _). auto.
Qed.
Print Assumptions C30_save.

Example C30_example : to_byte 1 = Ok 255 /\ to_byte 0 = Ok 0 /\ sanity_check 1 1 [NaN; Finite; Finite] = Ok (true, [0]).
Proof. split; [apply C30_one; split; [lra|]|split; [exact C30_zero|reflexivity]]. apply Rle_trans with (2 ^ 0)%R; [cbn; lra|]. apply Rle_pow; [lra|lia]. Qed.
