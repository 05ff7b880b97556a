(** C12: every configuration parameter of a component survives save and load. *)
From Coq Require Import List String ZArith Bool Lia Eqdep_dec.
From Verif Require Import Base CodecModel CodecSpec CodecProofs ClassModel ClassSpec.
Import ListNotations.
Open Scope string_scope. Open Scope list_scope.

Lemma type_of_in : forall ms n t, type_of ms n = Some t -> In (n, t) ms.
Proof.
  induction ms as [|[k u] ms IH]; cbn; intros n t H; [discriminate|].
  destruct (String.eqb_spec k n) as [->|E]; [injection H as ->; auto|right; auto].
Qed.

(** Loading restores exactly the listed members. *)
Lemma load_saved : forall ms ns o fresh rest,
  (forall n, In n ns -> exists t v, type_of ms n = Some t /\ o n = existT den t v /\ valid t v) ->
  exists o', load_members ms ns fresh (flat_map (fun n => save_value (o n)) ns ++ rest) = Ok (o', rest)
    /\ forall n, o' n = if existsb (String.eqb n) ns then o n else fresh n.
Proof.
  intros ms ns. induction ns as [|m ns IH]; intros o fresh rest H; cbn [load_members flat_map].
  - exists fresh. split; [reflexivity|]. reflexivity.
  - destruct (H m (or_introl eq_refl)) as (t & v & Ht & Ho & Hv). rewrite Ht, Ho. cbn [save_value projT1 projT2].
    unfold save_value at 1. cbn [projT1 projT2]. rewrite <- app_assoc, decode_encode by exact Hv. cbn [obind fst snd].
    destruct (IH o (set fresh m (existT den t v)) rest) as (o' & HL & HE).
    { intros n Hn. apply H. right. exact Hn. }
    exists o'. split; [exact HL|]. intros n. rewrite HE. cbn [existsb].
    destruct (existsb (String.eqb n) ns) eqn:E; [rewrite Bool.orb_true_r; reflexivity|].
    rewrite Bool.orb_false_r. unfold set. destruct (String.eqb_spec n m) as [->|]; [congruence|reflexivity].
Qed.

(** A class is complete if its archive lists every member in use and only members. *)
Definition listed (c : class) : bool :=
  forallb (fun n => match type_of (members c) n with Some _ => true | None => false end) (archive c).
Definition complete (c : class) : bool :=
  listed c && forallb (fun n => existsb (String.eqb n) (archive c) || existsb (String.eqb n) (scratch c)) (map fst (members c)).

Lemma load_listed : forall c o fresh rest, listed c = true -> holds c o ->
  exists o', load c fresh (save c o ++ rest) = Ok (o', rest)
    /\ forall n, o' n = if existsb (String.eqb n) (archive c) then o n else fresh n.
Proof.
  intros c o fresh rest HL Ho. apply load_saved. intros n Hn.
  unfold listed in HL. rewrite forallb_forall in HL. specialize (HL n Hn).
  destruct (type_of (members c) n) as [t|] eqn:E; [|discriminate].
  destruct (Ho n t (type_of_in _ _ _ E)) as (v & Hv1 & Hv2). eauto.
Qed.

Lemma in_existsb : forall n l, existsb (String.eqb n) l = true <-> In n l.
Proof.
  intros n l. rewrite existsb_exists. split; [intros (x & Hx & E); apply String.eqb_eq in E; subst; exact Hx|].
  intros H. exists n. split; [exact H|apply String.eqb_refl].
Qed.

Lemma complete_survives : forall c, complete c = true -> survives c.
Proof.
  intros c H o fresh rest Ho. apply andb_prop in H as (HL & HC).
  destruct (load_listed c o fresh rest HL Ho) as (o' & HE & Hn). exists o'. split; [exact HE|].
  intros A f Hf. apply Hf. intros n (Hm & Hs). rewrite Hn.
  rewrite forallb_forall in HC. specialize (HC n Hm). apply orb_prop in HC as [E|E]; [rewrite E; reflexivity|].
  apply in_existsb in E. contradiction.
Qed.

(** Every structure keeps all of its members. *)
Theorem C12_structures : forall c, In c structures -> survives c.
Proof.
  assert (H : forallb complete structures = true) by (vm_compute; reflexivity).
  rewrite forallb_forall in H. intros c Hc. apply complete_survives, H, Hc.
Qed.
Print Assumptions C12_structures.

(** Every component class behaves as before after loading, except the ones listed as incomplete. *)
Theorem C12_survives_partial : forall c, In c components -> ~ In (key c) incomplete -> survives c.
Proof.
  assert (H : forallb (fun c => complete c || existsb (String.eqb (key c)) incomplete) components = true)
    by (vm_compute; reflexivity).
  rewrite forallb_forall in H. intros c Hc Hi. specialize (H c Hc). apply orb_prop in H as [E|E].
  - apply complete_survives, E.
  - apply in_existsb in E. contradiction.
Qed.
Print Assumptions C12_survives_partial.

(** Non-trivial: the pinhole camera and the film are among them, and a camera can hold values. *)
Definition zeros : state := fun n => if existsb (String.eqb n) ["vfov_"; "tf_"; "aspect_"]
  then existT den TF64 4607182418800017408%Z (* 1.0 *) else existT den vec3_t [0%Z; 4607182418800017408%Z; 0%Z].
Example C12_survives_example :
  In k_pinhole components /\ ~ In (key k_pinhole) incomplete /\ holds k_pinhole zeros
  /\ In k_film components /\ ~ In (key k_film) incomplete /\ used k_film "quality_" /\ ~ used k_film "data_temp_".
Proof.
  assert (A : forall c l, existsb (String.eqb (key c)) l = false -> ~ In (key c) l).
  { intros c l H Hi. apply in_existsb in Hi. congruence. }
  repeat split; try (apply A; vm_compute; reflexivity); try (cbn; tauto).
  - intros n t H. cbn in H.
    repeat (destruct H as [H|H]; [injection H as <- <-; eexists; split; [reflexivity|cbn; unfold int_range; cbn; repeat constructor; lia]|]).
    contradiction.
  - cbn. intuition discriminate.
  - intros (_ & H). apply H. cbn. auto.
Qed.

(** ** What is lost *)

(** Values of the members after loading into a new instance. *)
Lemma loaded : forall c o fresh o' s, listed c = true -> holds c o -> load c fresh (save c o) = Ok (o', s) ->
  forall n, o' n = if existsb (String.eqb n) (archive c) then o n else fresh n.
Proof.
  intros c o fresh o' s HL Ho H. destruct (load_listed c o fresh [] HL Ho) as (o1 & H1 & Hn).
  rewrite app_nil_r in H1. rewrite H1 in H. injection H as <- _. exact Hn.
Qed.

Lemma uip_ty : forall (t : ty) (e : t = t), e = eq_refl.
Proof. intros t e. apply (UIP_dec ty_dec). Qed.
Lemma read_value : forall t o n v, o n = existT den t v -> @read t o n = Ok v.
Proof.
  intros t o n v H. unfold read, as_type. rewrite H. cbn [projT1 projT2].
  destruct (ty_dec t t) as [e|e]; [|congruence]. rewrite (uip_ty t e). reflexivity.
Qed.

(** An optional member that is not listed has no value in the loaded instance. *)
Lemma lost_option : forall c o fresh o' s n t, listed c = true -> holds c o -> created c fresh ->
  load c fresh (save c o) = Ok (o', s) -> In (n, TOpt t) (members c) -> existsb (String.eqb n) (archive c) = false ->
  @read (TOpt t) o' n = Ok None.
Proof.
  intros c o fresh o' s n t HL Ho (Hf & He) H Hin Hn.
  destruct (Hf n (TOpt t) Hin) as (v & Hv & _). specialize (He n (TOpt t) Hin). rewrite Hv in He. cbn in He. subst v.
  apply read_value. rewrite (loaded _ _ _ _ _ HL Ho H), Hn. exact Hv.
Qed.

(** A constant texture comes back without its alpha: whatever its alpha was, the texture no longer has
    one, and evaluating it is undefined. Its color is kept. *)
Theorem C12_alpha_refuted : forall o fresh o' s,
  holds k_constant_texture o -> created k_constant_texture fresh ->
  load k_constant_texture fresh (save k_constant_texture o) = Ok (o', s) ->
  texture_has_alpha o' = Ok false /\ texture_eval_alpha o' = UB /\ texture_eval o' = texture_eval o.
Proof.
  intros o fresh o' s Ho Hf H. pose proof (loaded k_constant_texture _ _ _ _ eq_refl Ho H) as HN.
  unfold texture_has_alpha, texture_eval_alpha.
  rewrite (lost_option k_constant_texture _ _ _ _ "alpha_" TF64 eq_refl Ho Hf H) by (cbn; auto).
  repeat split. unfold texture_eval, read. rewrite (HN "color_"). reflexivity.
Qed.
Print Assumptions C12_alpha_refuted.

(** A constant volume comes back without density and color: a medium using it has undefined behaviour. *)
Theorem C12_volume_refuted : forall o fresh o' s,
  holds k_constant_volume o -> created k_constant_volume fresh ->
  load k_constant_volume fresh (save k_constant_volume o) = Ok (o', s) ->
  volume_has_scalar o' = Ok false /\ volume_max_scalar o' = UB
  /\ volume_has_color o' = Ok false /\ volume_eval_color o' = UB.
Proof.
  intros o fresh o' s Ho Hf H.
  pose proof (lost_option k_constant_volume _ _ _ _ "scalar_" TF64 eq_refl Ho Hf H) as A.
  pose proof (lost_option k_constant_volume _ _ _ _ "color_" vec3_t eq_refl Ho Hf H) as B.
  unfold volume_has_scalar, volume_max_scalar, volume_has_color, volume_eval_color.
  rewrite A, B by (cbn; auto). repeat split.
Qed.
Print Assumptions C12_volume_refuted.

(** A scene comes back without its medium. *)
Theorem C12_medium_refuted : forall o fresh o' s,
  holds k_scene o -> created k_scene fresh ->
  load k_scene fresh (save k_scene o) = Ok (o', s) -> medium_node o' = Ok (-1)%Z.
Proof.
  intros o fresh o' s Ho Hf H. unfold medium_node.
  rewrite (lost_option k_scene _ _ _ _ "medium_" int_t eq_refl Ho Hf H) by (cbn; tauto). reflexivity.
Qed.
Print Assumptions C12_medium_refuted.

(** The ray caster forgets its constant color. *)
Theorem C12_color_refuted : forall o fresh o' s r,
  holds k_raycast o -> created k_raycast fresh ->
  load k_raycast fresh (save k_raycast o) = Ok (o', s) -> raycast_color o' r = Ok r.
Proof.
  intros o fresh o' s r Ho Hf H. unfold raycast_color.
  rewrite (lost_option k_raycast _ _ _ _ "color_" vec3_t eq_refl Ho Hf H) by (cbn; tauto). reflexivity.
Qed.
Print Assumptions C12_color_refuted.

(** The path tracers forget their seed: every thread draws one from the device. *)
Theorem C12_seed_refuted : forall c o fresh o' s thread, In c [k_pt; k_volpt; k_volpt_naive] ->
  holds c o -> created c fresh -> load c fresh (save c o) = Ok (o', s) -> thread_seed o' thread = Ok None.
Proof.
  intros c o fresh o' s thread Hc Ho Hf H. unfold thread_seed.
  assert (HL : listed c = true) by (cbn in Hc; destruct Hc as [<-|[<-|[<-|[]]]]; reflexivity).
  rewrite (lost_option c _ _ _ _ "seed_" uint_t HL Ho Hf H); [reflexivity| |];
    cbn in Hc; destruct Hc as [<-|[<-|[<-|[]]]]; cbn; tauto.
Qed.
Print Assumptions C12_seed_refuted.

(** The scale of an environment map, the albedo of a homogeneous medium and the sampling mode of the
    path tracer are whatever the memory of the new instance held: not initialised. *)
Theorem C12_uninitialised_refuted : forall o fresh o' s,
  (holds k_env o -> load k_env fresh (save k_env o) = Ok (o', s) -> env_scale o' = env_scale fresh)
  /\ (holds k_homogeneous o -> load k_homogeneous fresh (save k_homogeneous o) = Ok (o', s) ->
      event_weight o' = event_weight fresh)
  /\ (holds k_pt o -> load k_pt fresh (save k_pt o) = Ok (o', s) -> per_pixel o' = per_pixel fresh).
Proof.
  intros o fresh o' s. split; [|split]; intros Ho H.
  - pose proof (loaded k_env _ _ _ _ eq_refl Ho H) as HN. unfold env_scale, read. rewrite (HN "scale_"). reflexivity.
  - pose proof (loaded k_homogeneous _ _ _ _ eq_refl Ho H) as HN. unfold event_weight, read. rewrite (HN "albedo_"). reflexivity.
  - pose proof (loaded k_pt _ _ _ _ eq_refl Ho H) as HN. unfold per_pixel, read. rewrite (HN "primary_ray_sampling_mode_"). reflexivity.
Qed.
Print Assumptions C12_uninitialised_refuted.

(** The bidirectional renderers keep nothing at all. *)
Theorem C12_bidirectional_refuted : forall c o fresh,
  In c [k_pt_naive_path; k_pt_nee_path; k_lt_nee_path; k_bdpt; k_bdptopt] ->
  save c o = [] /\ forall s, load c fresh s = Ok (fresh, s).
Proof.
  intros c o fresh Hc. cbn in Hc. repeat (destruct Hc as [<-|Hc]; [split; reflexivity|]). contradiction.
Qed.
Print Assumptions C12_bidirectional_refuted.

(** A value of every type, and another one of the types of the lost members. *)
Fixpoint plain (t : ty) : den t :=
  match t with
  | TBool => false | TInt _ _ => 0%Z | TF64 => 0%Z | TStr => "" | TUnit => tt
  | TPair a b => (plain a, plain b) | TVec _ => [] | TFixed n u => repeat (plain u) n | TOpt _ => None
  | TMapS _ => [] | TMapI _ => []
  end.
Fixpoint sized (t : ty) : bool :=
  match t with
  | TInt k _ => Nat.leb 1 k
  | TPair a b => sized a && sized b
  | TFixed _ u => sized u
  | _ => true
  end.
Lemma plain_valid : forall t, sized t = true -> valid t (plain t).
Proof.
  induction t; cbn; intros H; auto; try (unfold few; cbn; repeat (split || constructor || lia || reflexivity)).
  - destruct bytes; [discriminate|lia].
  - unfold int_range. assert (1 <= bytes)%nat by (destruct bytes; [discriminate|lia]).
    assert (0 < 2 ^ (8 * Z.of_nat bytes))%Z by (apply Z.pow_pos_nonneg; lia).
    assert (0 < 2 ^ (8 * Z.of_nat bytes - 1))%Z by (apply Z.pow_pos_nonneg; lia).
    destruct signed; lia.
  - apply andb_prop in H as (H1 & H2). auto.
  - apply andb_prop in H as (H1 & H2). auto.
  - apply repeat_length.
  - apply Forall_forall. intros x Hx. apply repeat_spec in Hx. subst x. auto.
Qed.
Definition another (t : ty) : option { v : den t | v <> plain t }.
Proof.
  refine (match t return option { v : den t | v <> plain t } with
          | TF64 => Some (exist _ 1%Z _)
          | TOpt u => Some (exist _ (Some (plain u)) _)
          | TFixed (S n) TF64 => Some (exist _ (repeat 1%Z (S n)) _)
          | _ => None
          end); cbn; discriminate.
Defined.
Definition replaceable (t : ty) : bool := match another t with Some _ => true | None => false end.

(** Members in use that are neither listed nor rewritten. *)
Definition lost (c : class) : list (string * ty) :=
  filter (fun m => negb (existsb (String.eqb (fst m)) (archive c)) && negb (existsb (String.eqb (fst m)) (scratch c))
                   && replaceable (snd m)) (members c).
Definition sane (c : class) : bool :=
  listed c && forallb (fun m => sized (snd m)
    && match type_of (members c) (fst m) with Some t => if ty_dec t (snd m) then true else false | None => false end) (members c).

Lemma not_in : forall n l, negb (existsb (String.eqb n) l) = true -> ~ In n l.
Proof. intros n l H Hi. apply in_existsb in Hi. rewrite Hi in H. discriminate. Qed.

Lemma lost_not_survive : forall c, sane c = true -> lost c <> [] -> ~ survives c.
Proof.
  intros c HW Hl HS. apply andb_prop in HW as (HL & HM). rewrite forallb_forall in HM.
  destruct (lost c) as [|(n, t) r] eqn:E; [congruence|]. clear Hl.
  assert (Hin : In (n, t) (lost c)) by (rewrite E; left; reflexivity). unfold lost in Hin.
  apply filter_In in Hin as (Hin & Hb). cbn [fst snd] in Hb.
  apply andb_prop in Hb as (Hb & Hr). apply andb_prop in Hb as (Ha & Hs).
  set (o := fun n => match type_of (members c) n with Some t => existT den t (plain t) | None => nothing end).
  assert (HT : forall n t, In (n, t) (members c) -> type_of (members c) n = Some t /\ sized t = true).
  { intros k u Hk. specialize (HM (k, u) Hk). cbn [fst snd] in HM. apply andb_prop in HM as (H1 & H2).
    destruct (type_of (members c) k) as [t'|]; [|discriminate]. destruct (ty_dec t' u) as [->|]; [auto|discriminate]. }
  assert (HH : holds c o).
  { intros k u Hk. destruct (HT k u Hk) as (H1 & H2). exists (plain u). unfold o. rewrite H1.
    split; [reflexivity|]. apply plain_valid, H2. }
  unfold replaceable in Hr. destruct (another t) as [(v & Hv)|]; [|discriminate].
  destruct (HS o (set o n (existT den t v)) [] HH) as (o' & H1 & Hb).
  destruct (load_listed c o (set o n (existT den t v)) [] HL HH) as (o1 & H2 & HN).
  rewrite H2 in H1. injection H1 as <-.
  specialize (Hb value (fun x => x n)). cbv beta in Hb.
  apply Bool.negb_true_iff in Ha. pose proof (HN n) as Hn. rewrite Ha in Hn. unfold set in Hn. rewrite String.eqb_refl in Hn.
  apply Hv. apply (inj_pair2_eq_dec _ ty_dec). rewrite <- Hn, Hb.
  - unfold o. destruct (HT n t Hin) as (-> & _). reflexivity.
  - intros o1' o2' Hu. apply Hu. split; [apply (in_map fst) in Hin; exact Hin|apply not_in, Hs].
Qed.

(** Each incomplete class fails to survive. *)
Theorem C12_incomplete_refuted : forall c, In c components -> In (key c) incomplete -> ~ survives c.
Proof.
  assert (H : forallb (fun c => negb (existsb (String.eqb (key c)) incomplete)
                || (sane c && match lost c with [] => false | _ => true end)) components = true) by (vm_compute; reflexivity).
  rewrite forallb_forall in H. intros c Hc Hi. specialize (H c Hc). apply orb_prop in H as [E|E].
  - apply not_in in E. contradiction.
  - apply andb_prop in E as (E1 & E2). apply lost_not_survive; [exact E1|]. intros E3. rewrite E3 in E2. discriminate.
Qed.
Print Assumptions C12_incomplete_refuted.

(** The hypotheses of the refutations are met: a texture with an alpha of one is saved and loaded. *)
Definition tex_state (alpha : option Z) : state := fun n =>
  if String.eqb n "color_" then existT den vec3_t [0; 1; 2]%Z else existT den (TOpt TF64) alpha.
Example C12_alpha_example :
  holds k_constant_texture (tex_state (Some 4607182418800017408%Z)) /\ created k_constant_texture (tex_state None)
  /\ texture_has_alpha (tex_state (Some 4607182418800017408%Z)) = Ok true
  /\ exists o', load k_constant_texture (tex_state None) (save k_constant_texture (tex_state (Some 4607182418800017408%Z))) = Ok (o', []).
Proof.
  assert (HH : forall a, match a with Some z => (0 <= z < 2 ^ 64)%Z | None => True end -> holds k_constant_texture (tex_state a)).
  { intros a Ha n t H. cbn in H. destruct H as [H|[H|[]]]; injection H as <- <-; eexists; split; try reflexivity.
    - cbn. unfold int_range. cbn. repeat constructor; lia.
    - cbn. destruct a; [unfold int_range; cbn in *; lia|exact I]. }
  split; [apply HH; cbn; lia|]. split; [split; [apply HH; exact I|]|].
  - intros n t H. cbn in H. destruct H as [H|[H|[]]]; injection H as <- <-; cbn; auto.
  - split; [reflexivity|]. eexists. vm_compute. reflexivity.
Qed.
