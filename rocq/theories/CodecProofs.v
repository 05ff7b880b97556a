From Coq Require Import List String Ascii ZArith Bool Lia.
From Verif Require Import Base CodecModel CodecSpec.
Import ListNotations.
Open Scope list_scope. Open Scope Z_scope. Open Scope bool_scope.
Ltac Zify.zify_post_hook ::= Z.div_mod_to_equations.

(** ** Integers *)

Lemma pow256_S k : pow256 (S k) = 256 * pow256 k.
Proof. unfold pow256. rewrite Nat2Z.inj_succ, Z.pow_succ_r; lia. Qed.
Lemma pow256_pos k : 0 < pow256 k.
Proof. unfold pow256. apply Z.pow_pos_nonneg; lia. Qed.
Lemma pow256_2 k : pow256 k = 2 ^ (8 * Z.of_nat k).
Proof. unfold pow256. change 256 with (2 ^ 8). rewrite <- Z.pow_mul_r; lia. Qed.

Lemma le_bytes_length k z : List.length (le_bytes k z) = k.
Proof. revert z. induction k as [|k IH]; intros z; cbn; [reflexivity|]. now rewrite IH. Qed.

Lemma byte_value z : Z.of_N (N_of_ascii (ascii_of_N (Z.to_N (z mod 256)))) = z mod 256.
Proof. rewrite N_ascii_embedding; [lia|]. assert (0 <= z mod 256 < 256) by lia. lia. Qed.

Lemma le_value_bytes k z : 0 <= z < pow256 k -> le_value (le_bytes k z) = z.
Proof.
  revert z. induction k as [|k IH]; intros z Hz.
  - unfold pow256 in Hz. cbn in *. lia.
  - rewrite pow256_S in Hz. cbn [le_bytes le_value]. rewrite byte_value, IH; lia.
Qed.

Lemma le_value_range l : 0 <= le_value l < pow256 (List.length l).
Proof.
  induction l as [|b l IH]; cbn [le_value List.length]; [unfold pow256; cbn; lia|].
  rewrite pow256_S. assert (Hb := N_ascii_bounded b). lia.
Qed.

Lemma le_bytes_value l : le_bytes (List.length l) (le_value l) = l.
Proof.
  induction l as [|b l IH]; [reflexivity|]. cbn [le_value List.length le_bytes].
  assert (Hb := N_ascii_bounded b).
  replace ((Z.of_N (N_of_ascii b) + 256 * le_value l) mod 256) with (Z.of_N (N_of_ascii b)) by lia.
  replace ((Z.of_N (N_of_ascii b) + 256 * le_value l) / 256) with (le_value l) by lia.
  rewrite IH. f_equal. rewrite N2Z.id. apply ascii_N_embedding.
Qed.

Lemma take_app l rest : take (List.length l) (l ++ rest) = Ok (l, rest).
Proof. induction l as [|b l IH]; cbn; [reflexivity|]. now rewrite IH. Qed.

Lemma int_mod_range k z : 0 <= z mod pow256 k < pow256 k.
Proof. apply Z.mod_pos_bound, pow256_pos. Qed.

Lemma dec_enc_int k sg z rest : (1 <= k)%nat -> int_range k sg z -> dec_int k sg (enc_int k z ++ rest) = Ok (z, rest).
Proof.
  intros Hk Hr. unfold dec_int, enc_int.
  rewrite <- (le_bytes_length k (z mod pow256 k)) at 1. rewrite take_app. cbn [obind fst snd].
  rewrite le_value_bytes by apply int_mod_range. f_equal. f_equal.
  unfold int_range in Hr. assert (Hp := pow256_pos k).
  assert (H2 : pow256 k = 2 * 2 ^ (8 * Z.of_nat k - 1)).
  { rewrite pow256_2. rewrite <- (Z.pow_succ_r 2) by lia. f_equal. lia. }
  destruct sg; cbn [andb].
  - destruct (Z.leb_spec (pow256 k) (2 * (z mod pow256 k))) as [H|H].
    + destruct (Z.lt_ge_cases z 0) as [Hn|Hn].
      * rewrite <- (Z.mod_add z 1 (pow256 k)) by lia. rewrite Z.mod_small; lia.
      * rewrite Z.mod_small in H by lia. lia.
    + destruct (Z.lt_ge_cases z 0) as [Hn|Hn].
      * rewrite <- (Z.mod_add z 1 (pow256 k)) in H by lia. rewrite Z.mod_small in H by lia. lia.
      * rewrite Z.mod_small; lia.
  - rewrite Z.mod_small; [reflexivity|]. now rewrite pow256_2.
Qed.

Lemma dec_enc_size {A} (l : list A) rest : few l -> dec_size (enc_size l ++ rest) = Ok (Z.of_nat (List.length l), rest).
Proof. intros Hf. apply dec_enc_int; [lia|]. unfold int_range, few in *. cbn. lia. Qed.

Lemma dec_enc_bool b rest : dec_bool (enc_bool b ++ rest) = Ok (b, rest).
Proof.
  unfold dec_bool, enc_bool. rewrite dec_enc_int; [|lia|unfold int_range; destruct b; cbn; lia].
  destruct b; reflexivity.
Qed.

(** ** Loops *)

Fixpoint iter {S} (n : nat) (step : S -> outcome S) (x : S) : outcome S :=
  match n with O => Ok x | Datatypes.S n' => obind (step x) (iter n' step) end.

Lemma obind_assoc {A B C} (m : outcome A) (f : A -> outcome B) (g : B -> outcome C) :
  obind (obind m f) g = obind m (fun x => obind (f x) g).
Proof. now destruct m. Qed.
Lemma obind_ext {A B} (m : outcome A) (f g : A -> outcome B) : (forall x, f x = g x) -> obind m f = obind m g.
Proof. intros H. destruct m; cbn; auto. Qed.
Lemma obind_ok {A} (m : outcome A) : obind m (@Ok A) = m.
Proof. now destruct m. Qed.

Lemma iter_add {S} (step : S -> outcome S) m n x : iter (m + n) step x = obind (iter m step x) (iter n step).
Proof.
  revert x. induction m as [|m IH]; intros x; cbn [iter Nat.add]; [reflexivity|].
  rewrite obind_assoc. apply obind_ext, IH.
Qed.

Lemma repeat_pos_iter {S} p (step : S -> outcome S) x : repeat_pos p step x = iter (Pos.to_nat p) step x.
Proof.
  revert x. induction p as [p IH|p IH|]; intros x; cbn [repeat_pos].
  - rewrite Pos2Nat.inj_xI. replace (2 * Pos.to_nat p)%nat with (Pos.to_nat p + Pos.to_nat p)%nat by lia.
    cbn [iter]. apply obind_ext. intros y. rewrite iter_add, IH. apply obind_ext, IH.
  - rewrite Pos2Nat.inj_xO. replace (2 * Pos.to_nat p)%nat with (Pos.to_nat p + Pos.to_nat p)%nat by lia.
    rewrite iter_add, IH. apply obind_ext, IH.
  - cbn [Pos.to_nat Pos.iter_op iter]. unfold Pos.to_nat. cbn. now rewrite obind_ok.
Qed.

Lemma repeat_z_iter {S} n (step : S -> outcome S) x : repeat_z (Z.of_nat n) step x = iter n step x.
Proof.
  destruct n as [|n]; [reflexivity|]. cbn [Z.of_nat repeat_z]. rewrite repeat_pos_iter. now rewrite SuccNat2Pos.id_succ.
Qed.

Definition elem_step {A} (dec : stream -> outcome (A * stream)) (st : list A * stream) :=
  obind (dec (snd st)) (fun r => Ok (fst r :: fst st, snd r)).

Lemma elems_loop {A} (dec : stream -> outcome (A * stream)) (enc : A -> stream) (l : list A) :
  (forall x rest, In x l -> dec (enc x ++ rest) = Ok (x, rest)) ->
  forall acc rest, iter (List.length l) (elem_step dec) (acc, flat_map enc l ++ rest) = Ok (rev l ++ acc, rest).
Proof.
  induction l as [|x l IH]; intros Hd acc rest; [reflexivity|].
  cbn [List.length iter flat_map rev]. rewrite <- app_assoc. unfold elem_step at 1. cbn [snd fst].
  rewrite Hd by now left. cbn [obind fst snd]. rewrite IH by (intros; apply Hd; now right).
  now rewrite <- app_assoc.
Qed.

Lemma dec_elems_flat {A} (dec : stream -> outcome (A * stream)) (enc : A -> stream) (l : list A) rest :
  (forall x rest, In x l -> dec (enc x ++ rest) = Ok (x, rest)) ->
  dec_elems dec (Z.of_nat (List.length l)) (flat_map enc l ++ rest) = Ok (l, rest).
Proof.
  intros Hd. unfold dec_elems. fold (@elem_step A dec). rewrite repeat_z_iter, (elems_loop dec enc) by exact Hd.
  cbn [obind fst snd]. rewrite app_nil_r, rev_involutive. reflexivity.
Qed.

Lemma chars_flat (l : list ascii) : flat_map (fun c => [c]) l = l.
Proof. induction l as [|c l IH]; cbn; [reflexivity|]. now rewrite IH. Qed.

Lemma list_ascii_length s : List.length (list_ascii_of_string s) = String.length s.
Proof. induction s as [|c s IH]; cbn; [reflexivity|]. now rewrite IH. Qed.

Lemma dec_enc_str v rest : Z.of_nat (String.length v) < 2 ^ 64 -> dec_str (enc_str v ++ rest) = Ok (v, rest).
Proof.
  intros Hv. unfold dec_str, enc_str. rewrite <- app_assoc, dec_enc_size by (unfold few; now rewrite list_ascii_length).
  cbn [obind fst snd].
  assert (E := dec_elems_flat dec_char (fun c => [c]) (list_ascii_of_string v) rest ltac:(reflexivity)).
  rewrite chars_flat in E. rewrite E. cbn [obind fst snd]. now rewrite string_of_list_ascii_of_string.
Qed.

(** ** Maps *)

Lemma build_map_nodup {K V} (eqb : K -> K -> bool) (l : list (K * V)) :
  (forall x y, eqb x y = true <-> x = y) -> NoDup (map fst l) -> build_map eqb l = l.
Proof.
  intros Heq Hnd. unfold build_map.
  assert (H : forall m, NoDup (map fst (m ++ l)) -> fold_left (emplace eqb) l m = m ++ l).
  { clear Hnd. induction l as [|[k v] l IH]; intros m Hm; cbn [fold_left]; [now rewrite app_nil_r|].
    unfold emplace at 2.
    assert (Hx : existsb (fun e => eqb (fst e) (fst (k, v))) m = false).
    { apply Bool.not_true_is_false. intros Hx. apply existsb_exists in Hx. destruct Hx as ([k' v'] & Hin & E).
      apply Heq in E. cbn in E. subst k'. rewrite map_app in Hm. cbn [map fst] in Hm.
      apply NoDup_remove_2 in Hm. apply Hm. apply in_or_app. left. now apply (in_map fst) in Hin. }
    rewrite Hx, IH by now rewrite <- app_assoc. now rewrite <- app_assoc. }
  exact (H [] Hnd).
Qed.

(** ** Round trip *)

Lemma decode_encode t : forall v rest, valid t v -> decode t (encode t v ++ rest) = Ok (v, rest).
Proof.
  induction t as [|k sg| | | |a IHa b IHb|t IH|n t IH|t IH|t IH|t IH]; cbn [decode encode valid den]; intros v rest Hv.
  - apply dec_enc_bool.
  - now apply dec_enc_int.
  - apply dec_enc_int; [lia|exact Hv].
  - now apply dec_enc_str.
  - now destruct v.
  - destruct Hv as [Ha Hb]. rewrite <- app_assoc, IHa by exact Ha. cbn [obind fst snd].
    rewrite IHb by exact Hb. now destruct v.
  - destruct Hv as [Hf Hv]. rewrite <- app_assoc, dec_enc_size by exact Hf. cbn [obind fst snd].
    apply dec_elems_flat. intros x r Hx. apply IH. rewrite Forall_forall in Hv. auto.
  - destruct Hv as [<- Hv]. apply dec_elems_flat. intros x r Hx. apply IH. rewrite Forall_forall in Hv. auto.
  - destruct v as [x|].
    + rewrite <- app_assoc, dec_enc_bool. cbn [obind fst snd]. now rewrite IH.
    + rewrite dec_enc_bool. reflexivity.
  - destruct Hv as (Hf & Hnd & Hv). rewrite <- app_assoc, dec_enc_size by exact Hf. cbn [obind fst snd].
    rewrite (dec_elems_flat _ (fun e => enc_str (fst e) ++ encode t (snd e))).
    + cbn [obind fst snd]. rewrite build_map_nodup; [reflexivity|intros; apply String.eqb_eq|exact Hnd].
    + intros [k x] r Hx. rewrite Forall_forall in Hv. destruct (Hv _ Hx) as [Hk Hvx]. cbn [fst snd] in *.
      rewrite <- app_assoc, dec_enc_str by exact Hk. cbn [obind fst snd]. now rewrite IH.
  - destruct Hv as (Hf & Hnd & Hv). rewrite <- app_assoc, dec_enc_size by exact Hf. cbn [obind fst snd].
    rewrite (dec_elems_flat _ (fun e => enc_int 4 (fst e) ++ encode t (snd e))).
    + cbn [obind fst snd]. rewrite build_map_nodup; [reflexivity|intros; apply Z.eqb_eq|exact Hnd].
    + intros [k x] r Hx. rewrite Forall_forall in Hv. destruct (Hv _ Hx) as [Hk Hvx]. cbn [fst snd] in *.
      rewrite <- app_assoc, dec_enc_int by (assumption || lia). cbn [obind fst snd]. now rewrite IH.
Qed.

Lemma encode_prefix_free t v1 v2 r1 r2 : valid t v1 -> valid t v2 ->
  encode t v1 ++ r1 = encode t v2 ++ r2 -> v1 = v2 /\ r1 = r2.
Proof.
  intros H1 H2 E. assert (E1 := decode_encode t v1 r1 H1). rewrite E, decode_encode in E1 by exact H2.
  injection E1 as -> ->. auto.
Qed.

(** ** Truncated streams are detected *)

(** A reader is strict for an encoding if every proper prefix makes it raise. *)
Definition detects {A} (dec : stream -> outcome (A * stream)) (e : stream) : Prop :=
  forall p q, e = p ++ q -> q <> [] -> dec p = Throw ErrArchive.

Lemma take_short k p : (List.length p < k)%nat -> take k p = Throw ErrArchive.
Proof.
  revert p. induction k as [|k IH]; intros p Hp; [lia|]. destruct p as [|b p]; cbn; [reflexivity|].
  cbn in Hp. now rewrite IH by lia.
Qed.

Lemma dec_int_short k sg z : detects (dec_int k sg) (enc_int k z).
Proof.
  intros p q E Hq. unfold dec_int. rewrite take_short; [reflexivity|].
  assert (H : List.length (enc_int k z) = k) by apply le_bytes_length.
  rewrite E, app_length in H. destruct q; [contradiction|]. cbn in H. lia.
Qed.

(** Sequencing: a proper prefix of e1 ++ e2 either cuts e1 or is e1 followed by a proper prefix of e2. *)
Lemma cut_app (e1 e2 p q : stream) : e1 ++ e2 = p ++ q -> q <> [] ->
  (exists q', e1 = p ++ q' /\ q' <> []) \/ (exists p', p = e1 ++ p' /\ e2 = p' ++ q).
Proof.
  revert p. induction e1 as [|c e1 IH]; intros p E Hq.
  - right. exists p. auto.
  - destruct p as [|d p].
    + left. exists (c :: e1). split; [reflexivity|discriminate].
    + cbn in E. injection E as <- E. destruct (IH p E Hq) as [(q' & -> & Hq')|(p' & -> & ->)].
      * left. exists q'. auto.
      * right. exists p'. auto.
Qed.

Lemma detects_bool b : detects dec_bool (enc_bool b).
Proof. intros p q E Hq. unfold dec_bool. erewrite dec_int_short; eauto. Qed.

Lemma detects_elems {A} (dec : stream -> outcome (A * stream)) (enc : A -> stream) (l : list A) :
  (forall x rest, In x l -> dec (enc x ++ rest) = Ok (x, rest)) ->
  (forall x, In x l -> detects dec (enc x)) ->
  detects (dec_elems dec (Z.of_nat (List.length l))) (flat_map enc l).
Proof.
  intros Hd Hs p q E Hq. unfold dec_elems. fold (@elem_step A dec). rewrite repeat_z_iter.
  assert (H : forall acc, iter (List.length l) (elem_step dec) (acc, p) = Throw ErrArchive).
  { revert p q E Hq. induction l as [|x l IH]; intros p q E Hq acc.
    - cbn in E. symmetry in E. apply app_eq_nil in E. tauto.
    - cbn [flat_map] in E. destruct (cut_app _ _ _ _ E Hq) as [(q' & E' & Hq')|(p' & -> & E')].
      + cbn [List.length iter]. unfold elem_step at 1. cbn [snd]. rewrite (Hs x (or_introl eq_refl) _ _ E' Hq'). reflexivity.
      + cbn [List.length iter]. unfold elem_step at 1. cbn [snd]. rewrite Hd by now left. cbn [obind fst snd].
        eapply IH; [intros; apply Hd; now right|intros; apply Hs; now right|exact E'|exact Hq]. }
  rewrite H. reflexivity.
Qed.

Lemma detects_counted {A B} (dec : stream -> outcome (A * stream)) (enc : A -> stream) (l : list A) (k : list A * stream -> outcome (B * stream)) :
  few l -> (forall x rest, In x l -> dec (enc x ++ rest) = Ok (x, rest)) ->
  (forall x, In x l -> detects dec (enc x)) ->
  detects (fun s => obind (dec_size s) (fun n => obind (dec_elems dec (fst n) (snd n)) k)) (enc_size l ++ flat_map enc l).
Proof.
  intros Hf Hd Hs p q E Hq. destruct (cut_app _ _ _ _ E Hq) as [(q' & E' & Hq')|(p' & -> & E')].
  - unfold dec_size. erewrite (dec_int_short 8 false (Z.of_nat (List.length l))); eauto.
  - rewrite dec_enc_size by exact Hf. cbn [obind fst snd]. erewrite (detects_elems dec enc l Hd Hs _ _ E' Hq). reflexivity.
Qed.

Lemma detects_str v : Z.of_nat (String.length v) < 2 ^ 64 -> detects dec_str (enc_str v).
Proof.
  intros Hv. unfold dec_str, enc_str. rewrite <- (chars_flat (list_ascii_of_string v)) at 2.
  apply detects_counted.
  - unfold few. now rewrite list_ascii_length.
  - reflexivity.
  - intros x _ p q E Hq. destruct p as [|b p]; [reflexivity|]. cbn in E. injection E as <- E.
    symmetry in E. apply app_eq_nil in E. tauto.
Qed.

Lemma detects_seq {A B C} (d1 : stream -> outcome (A * stream)) (d2 : A -> stream -> outcome (B * stream)) (k : A -> B * stream -> outcome (C * stream)) e1 e2 x :
  (forall rest, d1 (e1 ++ rest) = Ok (x, rest)) -> detects d1 e1 -> detects (d2 x) e2 ->
  detects (fun s => obind (d1 s) (fun r => obind (d2 (fst r) (snd r)) (k (fst r)))) (e1 ++ e2).
Proof.
  intros Hr H1 H2 p q E Hq. destruct (cut_app _ _ _ _ E Hq) as [(q' & E' & Hq')|(p' & -> & E')].
  - rewrite (H1 _ _ E' Hq'). reflexivity.
  - rewrite Hr. cbn [obind fst snd]. rewrite (H2 _ _ E' Hq). reflexivity.
Qed.

Lemma decode_detects t : forall v, valid t v -> detects (decode t) (encode t v).
Proof.
  induction t as [|k sg| | | |a IHa b IHb|t IH|n t IH|t IH|t IH|t IH]; cbn [decode encode valid den]; intros v Hv.
  - apply detects_bool.
  - apply dec_int_short.
  - apply dec_int_short.
  - now apply detects_str.
  - intros p q E Hq. symmetry in E. apply app_eq_nil in E. tauto.
  - destruct Hv as [Ha Hb].
    apply (detects_seq (decode a) (fun _ => decode b) (fun x q => Ok ((x, fst q), snd q)) _ _ (fst v)); auto.
    intros rest. now apply decode_encode.
  - destruct Hv as [Hf Hv]. rewrite Forall_forall in Hv.
    intros p q E Hq.
    assert (D := detects_counted (decode t) (encode t) v (@Ok _) Hf
      (fun x r Hx => decode_encode t x r (Hv x Hx)) (fun x Hx => IH x (Hv x Hx)) p q E Hq).
    cbv beta in D. rewrite <- D. apply obind_ext. intros. now rewrite obind_ok.
  - destruct Hv as [<- Hv]. rewrite Forall_forall in Hv. apply detects_elems; auto.
    intros x r Hx. apply decode_encode. auto.
  - destruct v as [x|].
    + intros p q E Hq. destruct (cut_app _ _ _ _ E Hq) as [(q' & E' & Hq')|(p' & -> & E')].
      * rewrite (detects_bool false _ _ E' Hq'). reflexivity.
      * rewrite dec_enc_bool. cbn [obind fst snd]. rewrite (IH x Hv _ _ E' Hq). reflexivity.
    + intros p q E Hq. rewrite (detects_bool true _ _ E Hq). reflexivity.
  - destruct Hv as (Hf & Hnd & Hv). rewrite Forall_forall in Hv.
    apply (detects_counted _ (fun e => enc_str (fst e) ++ encode t (snd e)) v (fun r => Ok (build_map String.eqb (fst r), snd r))); [exact Hf| |].
    + intros [k x] r Hx. destruct (Hv _ Hx) as [Hk Hvx]. cbn [fst snd] in *.
      rewrite <- app_assoc, dec_enc_str by exact Hk. cbn [obind fst snd]. now rewrite decode_encode.
    + intros [k x] Hx. destruct (Hv _ Hx) as [Hk Hvx]. cbn [fst snd] in *.
      apply (detects_seq dec_str (fun _ => decode t) (fun y r => Ok ((y, fst r), snd r)) _ _ k).
      * intros rest. now apply dec_enc_str.
      * now apply detects_str.
      * now apply IH.
  - destruct Hv as (Hf & Hnd & Hv). rewrite Forall_forall in Hv.
    apply (detects_counted _ (fun e => enc_int 4 (fst e) ++ encode t (snd e)) v (fun r => Ok (build_map Z.eqb (fst r), snd r))); [exact Hf| |].
    + intros [k x] r Hx. destruct (Hv _ Hx) as [Hk Hvx]. cbn [fst snd] in *.
      rewrite <- app_assoc, dec_enc_int by (assumption || lia). cbn [obind fst snd]. now rewrite decode_encode.
    + intros [k x] Hx. destruct (Hv _ Hx) as [Hk Hvx]. cbn [fst snd] in *.
      apply (detects_seq (dec_int 4 true) (fun _ => decode t) (fun y r => Ok ((y, fst r), snd r)) _ _ k).
      * intros rest. apply dec_enc_int; [lia|exact Hk].
      * apply dec_int_short.
      * now apply IH.
Qed.
