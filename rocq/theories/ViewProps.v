(** C95: arrays over films. *)
From Coq Require Import List Reals ZArith Bool Lia Lra.
From Verif Require Import Base RBase VecBase.
From Verif Require FilmModel FilmSpec FilmProofs.
From Verif Require Import ParSpec PyModel ViewModel ViewSpec.
Import ListNotations.
Local Open Scope nat_scope.

Definition flat (d : list vec3) : list R := flat_map (fun v => [vx v; vy v; vz v]) d.
Definition sized (f : FilmModel.film) (w h : Z) : Prop :=
  FilmModel.fw f = w /\ FilmModel.fh f = h /\ Z.of_nat (List.length (FilmModel.data f)) = (w * h)%Z.

Lemma flat_length d : List.length (flat d) = 3 * List.length d.
Proof. induction d as [|v d IH]; [reflexivity|]. cbn [flat flat_map]. fold (flat d). rewrite app_length, IH. cbn. lia. Qed.
Lemma flat_nth d : forall i v k, nth_error d i = Some v -> k < 3 -> nth_error (flat d) (3 * i + k) = Some (comp v k).
Proof.
  induction d as [|u d IH]; intros i v k H Hk; [destruct i; discriminate|]. cbn [flat flat_map]. fold (flat d). destruct i as [|i].
  - injection H as ->. destruct k as [|[|[|k]]]; [reflexivity..|lia].
  - replace (3 * S i + k) with (S (S (S (3 * i + k)))) by lia. cbn [app nth_error]. exact (IH i v k H Hk).
Qed.

Lemma upd_nth_len {A} (l : list A) : forall n x, List.length (FilmModel.upd_nth l n x) = List.length l.
Proof. induction l as [|y l IH]; intros [|n] x; cbn; auto. Qed.
Lemma at_index_sized f i g f' w h : sized f w h -> FilmModel.at_index f i g = Ok f' -> sized f' w h.
Proof.
  unfold FilmModel.at_index. intros (A & B & C) H. destruct (i <? 0)%Z; [discriminate|]. destruct (nth_error _ _) as [v|]; [|discriminate].
  injection H as <-. unfold sized. cbn [FilmModel.fw FilmModel.fh FilmModel.data]. rewrite upd_nth_len. auto.
Qed.
Lemma fold_err {A B} (g : B -> A -> outcome A) l : forall e : outcome A, (forall x, e <> Ok x) -> forall x, fold_left (fun acc i => obind acc (g i)) l e <> Ok x.
Proof. induction l as [|b l IH]; intros e He x; [apply He|]. cbn [fold_left]. apply IH. intros y. destruct e; cbn; try congruence. Qed.
Lemma fold_keeps {A B} (g : B -> A -> outcome A) (P : A -> Prop) l : (forall b x y, P x -> g b x = Ok y -> P y) ->
  forall a x, P a -> fold_left (fun acc i => obind acc (g i)) l (Ok a) = Ok x -> P x.
Proof.
  intros Hg. induction l as [|b l IH]; intros a x Ha H; [injection H as <-; exact Ha|]. cbn [fold_left obind] in H.
  destruct (g b a) as [y| | |] eqn:Eg; [exact (IH _ _ (Hg _ _ _ Ha Eg) H)|..]; exfalso; revert H; apply fold_err; discriminate.
Qed.
Lemma op_sized o f f' w h : resizes o = false -> (0 <= w * h)%Z -> sized f w h -> film_op o f = Ok f' -> sized f' w h.
Proof.
  destruct o as [x y v|x y v|x y g|k order|src| |w' h'|]; cbn [resizes film_op]; intros Hr Hp Hs H; try discriminate Hr.
  - exact (at_index_sized _ _ _ _ _ _ Hs H).
  - exact (at_index_sized _ _ _ _ _ _ Hs H).
  - exact (at_index_sized _ _ _ _ _ _ Hs H).
  - unfold FilmModel.rescale in H. refine (fold_keeps (fun i f => FilmModel.at_index f i _) (fun f => sized f w h) _ _ _ _ Hs H).
    intros b x y Hx Hy. exact (at_index_sized _ _ _ _ _ _ Hx Hy).
  - destruct src as [s|]; [|injection H as <-; exact Hs]. unfold FilmModel.accum in H. destruct (_ || _)%bool; [injection H as <-; exact Hs|].
    refine (fold_keeps (fun i f => match nth_error (FilmModel.data s) (Z.to_nat i) with None => UB | Some v => FilmModel.at_index f i (fun c => vadd c v) end) (fun f => sized f w h) _ _ _ _ Hs H).
    intros b x y Hx Hy. destruct (nth_error _ _); [|discriminate]. exact (at_index_sized _ _ _ _ _ _ Hx Hy).
  - destruct Hs as (A & B & C). unfold FilmModel.clear in H. rewrite A, B in H. destruct (w * h <? 0)%Z eqn:Ew; [discriminate|]. injection H as <-.
    unfold sized. cbn [FilmModel.fw FilmModel.fh FilmModel.data]. rewrite repeat_length. rewrite Z2Nat.id by lia. auto.
  - injection H as <-. exact Hs.
Qed.

Section Views.
  Variable grow : nat -> nat.
  Hypothesis grows : forall n, n < grow n.

  Definition fresh_ok (s : store) : Prop := match block s with None => True | Some b => b < fresh s end.
  (** storage with room for N elements *)
  Definition room (N : nat) (s : store) : Prop := match block s with None => False | Some b => b < fresh s /\ heap s b <> None /\ N <= capacity s end.

  Lemma put_same h b x : put h b x b = x.
  Proof. unfold put. rewrite Nat.eqb_refl. reflexivity. Qed.

  (** pushing onto storage with room *)
  Lemma push_room d : forall s b l N, block s = Some b -> heap s b = Some l -> b < fresh s -> N <= capacity s -> List.length l + 3 * List.length d <= 3 * N ->
    let s' := fold_left (push grow) d s in block s' = Some b /\ heap s' b = Some (l ++ flat d) /\ b < fresh s' /\ N <= capacity s'.
  Proof.
    induction d as [|v d IH]; intros s b l N Hb Hh Hf Hc Hl; cbn zeta.
    - cbn. rewrite app_nil_r. auto.
    - cbn [fold_left]. cbn [List.length] in Hl.
      assert (E : push grow s v = mk_store (Some b) (capacity s) (put (heap s) b (Some (l ++ [vx v; vy v; vz v]))) (fresh s)).
      { unfold push, elements. rewrite Hb, Hh.
        destruct (Nat.leb_spec (List.length (l ++ [vx v; vy v; vz v])) (3 * capacity s)) as [_|Hlt]; [reflexivity|rewrite app_length in Hlt; cbn [List.length] in Hlt; lia]. }
      rewrite E.
      destruct (IH (mk_store (Some b) (capacity s) (put (heap s) b (Some (l ++ [vx v; vy v; vz v]))) (fresh s)) b (l ++ [vx v; vy v; vz v]) N) as (A & B & C & D);
        cbn [block heap fresh capacity]; auto.
      + apply put_same.
      + rewrite app_length. cbn [List.length]. lia.
      + rewrite A, B. rewrite <- app_assoc. auto.
  Qed.

  (** pushing onto any storage *)
  Lemma push_any d : forall s l k, elements s = l -> List.length l = 3 * k -> (block s = None -> l = []) -> (forall b, block s = Some b -> heap s b = Some l /\ b < fresh s /\ k <= capacity s) -> 
    let s' := fold_left (push grow) d s in (d = [] /\ s' = s) \/
    exists b, block s' = Some b /\ heap s' b = Some (l ++ flat d) /\ b < fresh s' /\ k + List.length d <= capacity s'.
  Proof.
    induction d as [|v d IH]; intros s l k He Hk Hn Hb; cbn zeta; [left; auto|right]. cbn [fold_left].
    destruct (IH (push grow s v) (l ++ [vx v; vy v; vz v]) (S k)) as [[-> Q]|(b & A & B & C & D)].
    - unfold push. rewrite He. destruct (block s) as [b|] eqn:Eb.
      + destruct (Nat.leb _ _); unfold elements; cbn [block heap]; rewrite put_same; reflexivity.
      + unfold elements; cbn [block heap]. rewrite put_same. reflexivity.
    - rewrite app_length. cbn [List.length]. lia.
    - unfold push. destruct (block s); [destruct (Nat.leb _ _)|]; cbn [block]; discriminate.
    - unfold push. rewrite He. intros b. destruct (block s) as [b0|] eqn:Eb.
      + destruct (Hb b0 eq_refl) as (H1 & H2 & H3).
        destruct (Nat.leb_spec (List.length (l ++ [vx v; vy v; vz v])) (3 * capacity s)) as [Hle|Hlt]; cbn [block heap fresh capacity]; intros Q; injection Q as <-.
        * rewrite put_same. rewrite app_length in Hle. cbn [List.length] in Hle. repeat split; auto; lia.
        * rewrite put_same. pose proof (grows (capacity s)). repeat split; auto; lia.
      + cbn [block heap fresh capacity]; intros Q; injection Q as <-. rewrite put_same. pose proof (grows (capacity s)).
        rewrite (Hn eq_refl) in Hk. cbn in Hk. repeat split; auto; lia.
    - cbn [fold_left] in *. unfold push in *. rewrite He in *. destruct (block s) as [b0|] eqn:Eb.
      + destruct (Hb b0 eq_refl) as (H1 & H2 & H3).
        destruct (Nat.leb_spec (List.length (l ++ [vx v; vy v; vz v])) (3 * capacity s)) as [Hle|Hlt]; cbn [block heap fresh capacity]; eexists; split; try reflexivity;
        rewrite put_same; pose proof (grows (capacity s)); rewrite app_length in *; cbn [List.length flat flat_map app] in *; repeat split; try lia.
      + cbn [block heap fresh capacity]; eexists; split; try reflexivity; rewrite put_same; pose proof (grows (capacity s)).
        rewrite (Hn eq_refl) in Hk. cbn [List.length flat flat_map app] in *. repeat split; try lia.
    - exists b. rewrite A, B. rewrite <- app_assoc. split; [reflexivity|]. split; [reflexivity|]. split; [exact C|]. cbn [List.length]. lia.
  Qed.

  Definition sinv (N : nat) (s : store) : Prop := block s = None \/ exists b l, block s = Some b /\ heap s b = Some l /\ b < fresh s /\ N <= capacity s.

  Lemma buffer_step s w h : sized (flm s) w h -> (0 < w * h)%Z -> sinv (List.length (FilmModel.data (flm s))) (st s) ->
    exists s1 b, buffer grow s = Ok (mk_state (flm s) s1, mk_view w h b) /\ block s1 = Some b /\ heap s1 b = Some (flat (FilmModel.data (flm s))) /\
      sinv (List.length (FilmModel.data (flm s))) s1 /\ (forall b0, block (st s) = Some b0 -> b = b0).
  Proof.
    intros (A & B & C) Hp Hs. unfold buffer. rewrite A, B. set (d := FilmModel.data (flm s)) in *.
    assert (Q : exists b, block (fold_left (push grow) d (vclear (st s))) = Some b /\ heap (fold_left (push grow) d (vclear (st s))) b = Some (flat d) /\
       b < fresh (fold_left (push grow) d (vclear (st s))) /\ List.length d <= capacity (fold_left (push grow) d (vclear (st s))) /\ (forall b0, block (st s) = Some b0 -> b = b0)).
    { destruct Hs as [Hn|(b & l & Hb & Hh & Hf & Hc)].
      - unfold vclear. rewrite Hn. destruct (push_any d (st s) [] 0) as [[Q _]|(b & H1 & H2 & H3 & H4)]; auto.
        + unfold elements. rewrite Hn. reflexivity.
        + intros b Hb. congruence.
        + rewrite Q in C. cbn in C. lia.
        + exists b. cbn [app Nat.add] in *. repeat split; auto. intros b0 Hb0. congruence.
      - unfold vclear. rewrite Hb.
        destruct (push_room d (mk_store (Some b) (capacity (st s)) (put (heap (st s)) b (Some [])) (fresh (st s))) b [] (List.length d)) as (H1 & H2 & H3 & H4);
          cbn [block heap fresh capacity]; auto.
        + apply put_same.
        + exists b. cbn [app] in H2. repeat split; auto. intros b0 Hb0. congruence. }
    destruct Q as (b & H1 & H2 & H3 & H4 & H5). set (s1 := fold_left (push grow) d (vclear (st s))) in *.
    exists s1, b. unfold elements. rewrite H1, H2. destruct (flat d) as [|r l] eqn:Ed.
    - exfalso. pose proof (flat_length d) as L. rewrite Ed in L. cbn in L. lia.
    - repeat split; auto. right. exists b, (r :: l). auto.
  Qed.

  Lemma not_buffer o s : takes o = false -> step grow o s = obind (film_op o (flm s)) (fun f => Ok (mk_state f (st s), [])).
  Proof. destruct o; try reflexivity. discriminate. Qed.

  Lemma run_quiet r : forall s s' vs, forallb (fun o => negb (takes o)) r = true -> run grow r s = Ok (s', vs) -> st s' = st s /\ vs = [].
  Proof.
    induction r as [|o r IH]; intros s s' vs Hq H; cbn [run] in H; [injection H as <- <-; auto|].
    cbn [forallb] in Hq. apply andb_prop in Hq as [Ho Hq]. apply negb_true_iff in Ho. rewrite (not_buffer _ _ Ho) in H.
    destruct (film_op o (flm s)) as [f| | |]; cbn [obind] in H; try discriminate H.
    destruct (run grow r (mk_state f (st s))) as [[s2 ws]| | |] eqn:Er; cbn [obind] in H; try discriminate H. injection H as <- <-.
    destruct (IH _ _ _ Hq Er) as [E ->]. split; [exact E|reflexivity].
  Qed.

  Lemma run_inv l w h : (0 < w * h)%Z -> forall s s' vs, forallb (fun o => negb (resizes o)) l = true -> sized (flm s) w h -> sinv (Z.to_nat (w * h)) (st s) ->
    run grow l s = Ok (s', vs) ->
    film_after l (flm s) = Ok (flm s') /\ sized (flm s') w h /\ sinv (Z.to_nat (w * h)) (st s') /\
    (forall b, block (st s) = Some b -> block (st s') = Some b) /\
    (forall v, In v vs -> vw v = w /\ vh v = h /\ block (st s') = Some (vdata v)).
  Proof.
    intros Hp. induction l as [|o r IH]; intros s s' vs Hq Hs Hi H; cbn [run] in H.
    - injection H as <- <-. cbn [film_after]. split; [reflexivity|]. split; [exact Hs|]. split; [exact Hi|]. split; [auto|]. intros v [].
    - cbn [forallb] in Hq. apply andb_prop in Hq as [Ho Hq]. apply negb_true_iff in Ho. cbn [film_after].
      assert (Len : List.length (FilmModel.data (flm s)) = Z.to_nat (w * h)) by (destruct Hs as (_ & _ & C); rewrite <- C; rewrite Nat2Z.id; reflexivity).
      destruct (takes o) eqn:Et.
      + destruct o; try discriminate Et. cbn [step film_op obind] in *.
        destruct (buffer_step s w h Hs Hp ltac:(rewrite Len; exact Hi)) as (s1 & b & E & Hb & Hh & Hs1 & Hk). rewrite E in H. cbn [obind] in H.
        destruct (run grow r (mk_state (flm s) s1)) as [[s2 ws]| | |] eqn:Er; cbn [obind] in H; try discriminate H. injection H as <- <-.
        rewrite Len in Hs1. destruct (IH (mk_state (flm s) s1) _ _ Hq Hs Hs1 Er) as (I1 & I2 & I3 & I4 & I5). cbn [flm st] in *.
        split; [exact I1|]. split; [exact I2|]. split; [exact I3|]. split.
        * intros b0 Hb0. apply I4. rewrite Hb. f_equal. apply Hk. exact Hb0.
        * intros v [<-|Hv]; [cbn [vw vh vdata]; auto|]. apply I5. exact Hv.
      + rewrite (not_buffer _ _ Et) in H. destruct (film_op o (flm s)) as [f| | |] eqn:Ef; cbn [obind] in H; try discriminate H.
        destruct (run grow r (mk_state f (st s))) as [[s2 ws]| | |] eqn:Er; cbn [obind] in H; try discriminate H. injection H as <- <-.
        cbn [obind]. apply (IH (mk_state f (st s))); auto. exact (op_sized o (flm s) f w h Ho (Z.lt_le_incl _ _ Hp) Hs Ef).
  Qed.

  Lemma run_app a r : forall s s' vs, run grow (a ++ r) s = Ok (s', vs) ->
    exists s1 v1 v2, run grow a s = Ok (s1, v1) /\ run grow r s1 = Ok (s', v2) /\ vs = v1 ++ v2.
  Proof.
    induction a as [|o a IH]; intros s s' vs H; cbn [app run] in *; [exists s, [], vs; auto|].
    destruct (step grow o s) as [[s1 v1]| | |]; cbn [obind] in *; try discriminate H.
    destruct (run grow (a ++ r) s1) as [[s2 v2]| | |] eqn:Er; cbn [obind] in H; try discriminate H. injection H as <- <-.
    destruct (IH _ _ _ Er) as (s3 & v3 & v4 & E1 & E2 & ->). rewrite E1. cbn [obind]. exists s3, (v1 ++ v3), v4. rewrite app_assoc. auto.
  Qed.

  Lemma read_view g w h c hp b x y k : FilmSpec.shows g w h c -> hp b = Some (flat (FilmModel.data g)) -> FilmSpec.inside w h x y -> k < 3 ->
    item3 (as_array hp (mk_view w h b)) (Z.to_nat y) (Z.to_nat x) k = Some (comp (c x y) k).
  Proof.
    intros (A & B & C & D) Hb [Hx Hy] Hk. unfold item3, as_array. cbn [shape strides memory vw vh vdata].
    destruct (Nat.ltb_spec (Z.to_nat y) (Z.to_nat h)); [|lia]. destruct (Nat.ltb_spec (Z.to_nat x) (Z.to_nat w)); [|lia].
    destruct (Nat.ltb_spec k 3); [|lia]. cbn [andb]. rewrite Hb.
    assert (Hn : (0 <= y * w + x)%Z) by nia.
    destruct (Z.ltb_spec (Z.of_nat (Z.to_nat y) * (3 * w) + Z.of_nat (Z.to_nat x) * 3 + Z.of_nat k * 1) 0); [rewrite !Z2Nat.id in * by lia; lia|].
    replace (Z.to_nat (Z.of_nat (Z.to_nat y) * (3 * w) + Z.of_nat (Z.to_nat x) * 3 + Z.of_nat k * 1)) with (3 * Z.to_nat (y * w + x) + k) by (rewrite !Z2Nat.id by lia; lia).
    apply flat_nth; [|exact Hk]. apply D. split; assumption.
  Qed.

  (** ** C95 *)
  (** Every array over the film shows the film as it was when buffer() was last called: element [y,x,k] is channel k of pixel (x,y).
      a: the operations before that call, r: those after it. *)
  Theorem C95_latest_partial : forall f w h c0 a r s vs g c,
    FilmSpec.shows f w h c0 -> (0 < w)%Z -> (0 < h)%Z ->
    forallb (fun o => negb (resizes o)) (a ++ Buffer :: r) = true -> forallb (fun o => negb (takes o)) r = true ->
    run grow (a ++ Buffer :: r) (created f) = Ok (s, vs) ->
    film_after a f = Ok g -> FilmSpec.shows g w h c ->
    (exists v, In v vs) /\
    forall v x y k, In v vs -> FilmSpec.inside w h x y -> k < 3 ->
      shape (as_array (heap (st s)) v) = [Z.to_nat h; Z.to_nat w; 3] /\
      item3 (as_array (heap (st s)) v) (Z.to_nat y) (Z.to_nat x) k = Some (comp (c x y) k).
  Proof.
    intros f w h c0 a r s vs g c Hf Hw Hh Hq Hr H Hg Hs. assert (Hp : (0 < w * h)%Z) by nia.
    assert (Hsz : sized (flm (created f)) w h) by (destruct Hf as (A & B & C & _); split; [|split]; assumption).
    destruct (run_inv _ w h Hp _ _ _ Hq Hsz (or_introl eq_refl) H) as (_ & _ & _ & _ & Hv).
    destruct (run_app _ _ _ _ _ H) as (s1 & v1 & v2 & E1 & E2 & ->).
    rewrite forallb_app in Hq. apply andb_prop in Hq as [Hqa _].
    destruct (run_inv _ w h Hp _ _ _ Hqa Hsz (or_introl eq_refl) E1) as (Ha & Hsz1 & Hi1 & _).
    cbn [created flm] in Ha. assert (g = flm s1) by congruence. subst g.
    cbn [run step] in E2.
    destruct (buffer_step s1 w h Hsz1 Hp) as (s2 & b & E & Hb & Hhp & _ & _).
    { destruct Hsz1 as (_ & _ & C). rewrite <- (Nat2Z.id (List.length _)). rewrite C. exact Hi1. }
    rewrite E in E2. cbn [obind] in E2. destruct (run grow r (mk_state (flm s1) s2)) as [[s3 ws]| | |] eqn:Er; cbn [obind] in E2; try discriminate E2.
    injection E2 as <- <-. destruct (run_quiet _ _ _ _ Hr Er) as [Es _]. cbn [st] in Es.
    split; [exists (mk_view w h b); apply in_or_app; right; left; reflexivity|].
    intros v x y k Hin Hxy Hk. destruct (Hv v Hin) as (V1 & V2 & V3). rewrite Es in *. assert (vdata v = b) by congruence.
    destruct v as [v1' v2' v3']; cbn [vw vh vdata] in *; subst. split; [reflexivity|]. apply (read_view (flm s1)); auto.
  Qed.

  (** buffer() always succeeds on a film with pixels. *)
  Theorem C95_buffer : forall l f w h c s vs, FilmSpec.shows f w h c -> (0 < w)%Z -> (0 < h)%Z ->
    forallb (fun o => negb (resizes o)) l = true -> run grow l (created f) = Ok (s, vs) -> exists s' v, step grow Buffer s = Ok (s', [v]).
  Proof.
    intros l f w h c s vs Hf Hw Hh Hq H. assert (Hp : (0 < w * h)%Z) by nia.
    assert (Hsz : sized (flm (created f)) w h) by (destruct Hf as (A & B & C & _); split; [|split]; assumption).
    destruct (run_inv _ w h Hp _ _ _ Hq Hsz (or_introl eq_refl) H) as (_ & Hsz1 & Hi1 & _).
    destruct (buffer_step s w h Hsz1 Hp) as (s2 & b & E & _).
    { destruct Hsz1 as (_ & _ & C). rewrite <- (Nat2Z.id (List.length _)). rewrite C. exact Hi1. }
    cbn [step]. rewrite E. cbn [obind]. eauto.
  Qed.
End Views.
Print Assumptions C95_latest_partial. Print Assumptions C95_buffer.

(** An array does not keep the pixels it had when it was obtained: the next buffer() overwrites it. *)
Theorem C95_snapshot_refuted : exists f c s1 v s2 w, FilmSpec.shows f 1 1 c /\
  run S [Buffer] (created f) = Ok (s1, [v]) /\ item3 (as_array (heap (st s1)) v) 0 0 0 = Some 0%R /\
  run S [Buffer; SetPixel 0 0 (V3 1 1 1); Buffer] (created f) = Ok (s2, [v; w]) /\ item3 (as_array (heap (st s2)) v) 0 0 0 = Some 1%R.
Proof.
  exists (FilmModel.mk_film 1 1 [v0]), (fun _ _ => v0). do 4 eexists. split; [|repeat split; reflexivity].
  repeat split; try reflexivity. intros x y [Hx Hy]. replace x with 0%Z by lia. replace y with 0%Z by lia. reflexivity.
Qed.
Print Assumptions C95_snapshot_refuted.

(** Nor does it follow the film: after set_pixel it still shows the old pixel. *)
Theorem C95_live_refuted : exists f c s v, FilmSpec.shows f 1 1 c /\
  run S [Buffer; SetPixel 0 0 (V3 1 1 1)] (created f) = Ok (s, [v]) /\
  FilmSpec.shows (flm s) 1 1 (fun _ _ => V3 1 1 1) /\ item3 (as_array (heap (st s)) v) 0 0 0 = Some 0%R.
Proof.
  exists (FilmModel.mk_film 1 1 [v0]), (fun _ _ => v0). do 2 eexists. split; [|split; [|split]]; try reflexivity;
  (split; [reflexivity|]; split; [reflexivity|]; split; [reflexivity|]; intros x y [Hx Hy]; replace x with 0%Z by lia; replace y with 0%Z by lia; reflexivity).
Qed.
Print Assumptions C95_live_refuted.

(** When the film is constructed anew with more pixels, or is destroyed (as when an asset of the same name is loaded), the memory of an
    array is gone: reading an element inside its shape is undefined. *)
Theorem C95_dangling_refuted :
  (exists f c s v w, FilmSpec.shows f 1 1 c /\ run S [Buffer; Construct 1 2; Buffer] (created f) = Ok (s, [v; w]) /\
     shape (as_array (heap (st s)) v) = [1; 1; 3] /\ item3 (as_array (heap (st s)) v) 0 0 0 = None) /\
  (exists f c s v, FilmSpec.shows f 1 1 c /\ run S [Buffer] (created f) = Ok (s, [v]) /\ item3 (as_array (destroy s) v) 0 0 0 = None).
Proof.
  split; exists (FilmModel.mk_film 1 1 [v0]), (fun _ _ => v0); do 2 eexists; [eexists|]; (split; [|repeat split; reflexivity]);
  (split; [reflexivity|]; split; [reflexivity|]; split; [reflexivity|]; intros x y [Hx Hy]; replace x with 0%Z by lia; replace y with 0%Z by lia; reflexivity).
Qed.
Print Assumptions C95_dangling_refuted.

(** A film of two pixels, with a change between and after two calls of buffer(). *)
Example C95_example : forall c : R,
  let f := FilmModel.mk_film 2 1 [v0; v0] in
  let ops := [Buffer; SetPixel 1 0 (V3 c 2 3); Buffer; Clear] in
  FilmSpec.shows f 2 1 (fun _ _ => v0) /\ forallb (fun o => negb (resizes o)) ops = true /\
  exists s v w, run S ops (created f) = Ok (s, [v; w]) /\ film_after [Buffer; SetPixel 1 0 (V3 c 2 3)] f = Ok (FilmModel.mk_film 2 1 [v0; V3 c 2 3]) /\
    item3 (as_array (heap (st s)) v) 0 1 0 = Some c /\ item3 (as_array (heap (st s)) w) 0 1 2 = Some 3%R.
Proof.
  intros c f ops. split; [|split; [reflexivity|]].
  - split; [reflexivity|]. split; [reflexivity|]. split; [reflexivity|]. intros x y [Hx Hy]. replace y with 0%Z by lia. assert (x = 0 \/ x = 1)%Z as [->| ->] by lia; reflexivity.
  - do 3 eexists. repeat split; reflexivity.
Qed.
