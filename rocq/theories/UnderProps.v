(** C88: components report every reference they keep. *)
From Coq Require Import List String ZArith Bool Permutation Lia Eqdep_dec.
From Verif Require Import Base CodecModel CodecSpec ClassModel ClassSpec UnderModel UnderSpec.
Import ListNotations.
Open Scope string_scope. Open Scope list_scope.

Lemma as_same : forall t (x : den t), as_type t (existT den t x) = Some x.
Proof.
  intros t x. unfold as_type. cbn [projT1 projT2]. destruct (ty_dec t t) as [e|n]; [|congruence].
  rewrite (UIP_dec ty_dec e eq_refl). reflexivity.
Qed.
Lemma exist_inj : forall t (x y : den t), existT den t x = existT den t y -> x = y.
Proof. intros t x y H. now apply inj_pair2_eq_dec in H; [|apply ty_dec]. Qed.

Lemma each_spec {A} (g : A -> A * calls) l : each g l = (map (fun a => fst (g a)) l, flat_map (fun a => snd (g a)) l).
Proof. induction l as [|a l IH]; [reflexivity|]. cbn. rewrite IH. destruct (g a). reflexivity. Qed.
Lemma flat_map_map {A B C} (f : A -> list B) (g : B -> C) l : map g (flat_map f l) = flat_map (fun a => map g (f a)) l.
Proof. induction l as [|a l IH]; [reflexivity|]. cbn. now rewrite map_app, IH. Qed.
Lemma flat_single {A B} (f : A -> B) l : flat_map (fun a => [f a]) l = map f l.
Proof. induction l as [|a l IH]; [reflexivity|]. cbn. now rewrite IH. Qed.

(** Types without pointers *)
Fixpoint plain_ty (t : ty) : bool :=
  match t with
  | TOpt TStr => false
  | TOpt u | TVec u | TFixed _ u | TMapS u | TMapI u => plain_ty u
  | TPair a b => plain_ty a && plain_ty b
  | _ => true
  end.
Lemma flat_nil {A B} (f : A -> list B) l : (forall a, f a = []) -> flat_map f l = [].
Proof. intros H. induction l as [|a l IH]; [reflexivity|]. cbn. now rewrite H, IH. Qed.
Lemma map_same {A} (f : A -> A) l : (forall a, f a = a) -> map f l = l.
Proof. intros H. induction l as [|a l IH]; [reflexivity|]. cbn. now rewrite H, IH. Qed.
Lemma plain_none : forall g t (x : den t), plain_ty t = true -> pointers t x = [] /\ replaced g t x = x.
Proof.
  intros g. induction t; intros x H; try (split; reflexivity).
  - cbn in H. apply andb_prop in H. destruct H as [H1 H2]. destruct x as [x y]. cbn.
    destruct (IHt1 x H1) as [-> ->], (IHt2 y H2) as [-> ->]. split; reflexivity.
  - cbn. split; [apply flat_nil|apply map_same]; intros a; apply IHt, H.
  - cbn. split; [apply flat_nil|apply map_same]; intros a; apply IHt, H.
  - destruct t; try discriminate; destruct x as [x|]; try (split; reflexivity);
      cbn [plain_ty] in H; destruct (IHt x H) as [E1 E2]; (split; [exact E1|exact (f_equal Some E2)]).
  - cbn. split; [apply flat_nil; intros [a b]; apply IHt, H|apply map_same; intros [a b]; cbn; f_equal; apply IHt, H].
  - cbn. split; [apply flat_nil; intros [a b]; apply IHt, H|apply map_same; intros [a b]; cbn; f_equal; apply IHt, H].
Qed.

(** ** A sequence of visited members *)
Definition act := { nt : string * ty & den (snd nt) -> den (snd nt) * calls }.
Definition mk_act (n : string) (t : ty) (g : den t -> den t * calls) : act := existT (fun nt => den (snd nt) -> den (snd nt) * calls) (n, t) g.
Definition perform (a : act) : action := at_member (fst (projT1 a)) (snd (projT1 a)) (projT2 a).
Fixpoint chain (l : list act) : action := match l with [] => skip | a :: l' => both (perform a) (chain l') end.

(** One member is visited as it should be. *)
Definition visited (c : class) (f : visitor) (o : state) (a : act) : Prop :=
  exists x, o (fst (projT1 a)) = existT den (snd (projT1 a)) x
    /\ fst (projT2 a x) = (if owns c (fst (projT1 a)) then x else replaced (fun p => f p true) _ x)
    /\ Permutation (present (snd (projT2 a x))) (present (map (fun p => (p, negb (owns c (fst (projT1 a))))) (pointers _ x))).

Lemma present_app a b : present (a ++ b) = present a ++ present b.
Proof. apply filter_app. Qed.
Lemma set_same o n v : set o n v n = v.
Proof. unfold set. now rewrite String.eqb_refl. Qed.
Lemma set_other o n v k : k <> n -> set o n v k = o k.
Proof. intros H. unfold set. destruct (String.eqb_spec k n); [contradiction|reflexivity]. Qed.

Definition pointers_of (c : class) (o : state) (n : string) : list (option string * bool) :=
  map (fun p => (p, negb (owns c n))) (pointers (projT1 (o n)) (projT2 (o n))).

Lemma chain_visits c f : forall l o, NoDup (map (fun a => fst (projT1 a)) l) -> (forall a, In a l -> visited c f o a) ->
  Permutation (present (snd (chain l o))) (present (flat_map (fun a => pointers_of c o (fst (projT1 a))) l))
  /\ (forall a x, In a l -> o (fst (projT1 a)) = existT den (snd (projT1 a)) x ->
       fst (chain l o) (fst (projT1 a)) = existT den (snd (projT1 a)) (if owns c (fst (projT1 a)) then x else replaced (fun p => f p true) _ x))
  /\ (forall n, ~ In n (map (fun a => fst (projT1 a)) l) -> fst (chain l o) n = o n).
Proof.
  induction l as [|a l IH]; intros o HN HV.
  - cbn. split; [constructor|]. split; [intros _ _ []|reflexivity].
  - cbn [map] in HN. inversion HN as [|? ? Hni HN']; subst. destruct (HV a (or_introl eq_refl)) as (x & Ex & E1 & E2).
    cbn [chain]. unfold both, perform, at_member. rewrite Ex, as_same. destruct (projT2 a x) as [y ca] eqn:Eg. cbn [fst snd] in E1, E2.
    set (n := fst (projT1 a)) in *. set (o1 := set o n (existT den (snd (projT1 a)) y)).
    assert (Ho : forall b, In b l -> o1 (fst (projT1 b)) = o (fst (projT1 b))).
    { intros b Hb. apply set_other. intros E. apply Hni. rewrite <- E. apply in_map_iff. exists b. auto. }
    destruct (IH o1 HN') as (P1 & P2 & P3).
    { intros b Hb. destruct (HV b (or_intror Hb)) as (z & Ez & F). exists z. rewrite Ho by assumption. split; assumption. }
    destruct (chain l o1) as [o2 cl] eqn:El. cbn [fst snd] in *. split; [|split].
    + rewrite present_app. cbn [flat_map]. rewrite present_app. apply Permutation_app.
      * unfold pointers_of. fold n. rewrite Ex. cbn [projT1 projT2]. exact E2.
      * rewrite P1. replace (flat_map (fun a0 => pointers_of c o1 (fst (projT1 a0))) l) with (flat_map (fun a0 => pointers_of c o (fst (projT1 a0))) l); [reflexivity|].
        clear - Ho. induction l as [|b l IH]; [reflexivity|]. cbn [flat_map]. unfold pointers_of at 1 3. rewrite (Ho b (or_introl eq_refl)), IH; [reflexivity|]. intros; apply Ho; now right.
    + intros b z [<-|Hb] Ez.
      * fold n in Ez. rewrite Ex in Ez. apply exist_inj in Ez. subst z. rewrite P3 by exact Hni. unfold o1. fold n. rewrite set_same, E1. reflexivity.
      * apply P2; [exact Hb|]. rewrite Ho by assumption. exact Ez.
    + cbn [map]. intros k Hk. rewrite P3 by (intros H; apply Hk; now right). apply set_other. intros ->. apply Hk. now left.
Qed.

Lemma flat_map_perm {A B} (f : A -> list B) l l' : Permutation l l' -> Permutation (flat_map f l) (flat_map f l').
Proof.
  induction 1; cbn; [constructor|now apply Permutation_app_head| |etransitivity; eassumption].
  rewrite !app_assoc. apply Permutation_app_tail, Permutation_app_comm.
Qed.
Lemma present_perm l l' : Permutation l l' -> Permutation (present l) (present l').
Proof.
  induction 1; cbn.
  - constructor.
  - destruct (fst x); [now constructor|assumption].
  - destruct (fst x), (fst y); try reflexivity. constructor.
  - etransitivity; eassumption.
Qed.

Lemma chain_reports c f o l rest : holds c o -> NoDup (map fst (members c)) ->
  Permutation (members c) (map (fun a => projT1 a) l ++ rest) -> forallb (fun m => plain_ty (snd m)) rest = true ->
  (forall a, In a l -> visited c f o a) -> reports c f o (chain l o).
Proof.
  intros Ho HN HP HR HV. rewrite forallb_forall in HR.
  assert (HN2 : NoDup (map fst (map (fun a : act => projT1 a) l ++ rest))) by (eapply Permutation_NoDup; [apply Permutation_map, HP|exact HN]).
  rewrite map_app, map_map in HN2.
  assert (HNl : NoDup (map (fun a : act => fst (projT1 a)) l)). { clear - HN2. revert HN2. generalize (map fst rest). induction l as [|a l IH]; intros r H; [constructor|]. cbn in H. inversion H; subst. constructor; [|eapply IH; eassumption]. intros Hi. apply H2. apply in_or_app. now left. }
  destruct (chain_visits c f l o HNl HV) as (P1 & P2 & P3). split.
  - rewrite P1. unfold kept. apply Permutation_sym. etransitivity; [apply present_perm, flat_map_perm, HP|].
    rewrite flat_map_app, present_app. replace (present (flat_map _ rest)) with (@nil (option string * bool)).
    + rewrite app_nil_r. clear. induction l as [|a l IH]; [reflexivity|]. cbn [map flat_map]. rewrite !present_app. apply Permutation_app; [reflexivity|exact IH].
    + symmetry. replace (flat_map _ rest) with (@nil (option string * bool)); [reflexivity|]. symmetry.
      assert (Hin : forall m, In m rest -> In m (members c)) by (intros m Hm; eapply Permutation_in; [apply Permutation_sym, HP|]; apply in_or_app; now right).
      clear - HR Hin Ho. induction rest as [|[n t] rest IH]; [reflexivity|]. cbn [flat_map fst]. rewrite IH.
      * destruct (Ho n t (Hin _ (or_introl eq_refl))) as (v & -> & _). cbn [projT1 projT2]. rewrite (proj1 (plain_none (fun p => p) t v (HR _ (or_introl eq_refl)))). reflexivity.
      * intros m Hm. apply HR. now right.
      * intros m Hm. apply Hin. now right.
  - intros n t x Hm Ex. assert (Hm' := Permutation_in _ HP Hm). apply in_app_or in Hm'. destruct Hm' as [Hl|Hr].
    + apply in_map_iff in Hl. destruct Hl as (a & Ea & Ha). assert (E := P2 a). rewrite Ea in E. cbn [fst snd] in E. apply E; [exact Ha|exact Ex].
    + rewrite P3.
      * rewrite Ex. f_equal. destruct (owns c n); [reflexivity|]. symmetry. apply (plain_none _ t x). exact (HR _ Hr).
      * intros Hi. assert (Hr' : In n (map fst rest)) by (apply in_map_iff; exists (n, t); auto).
        clear - HN2 Hi Hr'. induction l as [|a l IH]; [destruct Hi|]. cbn in HN2. inversion HN2; subst. destruct Hi as [<-|Hi]; [|now apply IH]. apply H1. apply in_or_app. now right.
Qed.

Lemma both_skip a o : both a skip o = a o.
Proof. unfold both, skip. destruct (a o) as [o1 l]. now rewrite app_nil_r. Qed.
Lemma both_ext a b b' o : (forall o, b o = b' o) -> both a b o = both a b' o.
Proof. intros H. unfold both. destruct (a o) as [o1 l]. now rewrite H. Qed.

Definition distinct (l : list string) : bool := (fix go l := match l with [] => true | n :: r => negb (existsb (String.eqb n) r) && go r end) l.
Lemma distinct_ok l : distinct l = true -> NoDup l.
Proof.
  induction l as [|n l IH]; [constructor|]. cbn. intros H. apply andb_prop in H. destruct H as [H1 H2]. constructor; [|now apply IH].
  intros Hi. apply Bool.negb_true_iff in H1. assert (E : existsb (String.eqb n) l = true) by (apply existsb_exists; exists n; split; [exact Hi|apply String.eqb_refl]). congruence.
Qed.
Fixpoint without (n : string) (ms : list (string * ty)) : list (string * ty) :=
  match ms with [] => [] | m :: r => if String.eqb (fst m) n then r else m :: without n r end.
Lemma take_member n t : forall ms, type_of ms n = Some t -> Permutation ms ((n, t) :: without n ms).
Proof.
  induction ms as [|[k u] ms IH]; [discriminate|]. cbn. destruct (String.eqb_spec k n) as [->|]; [intros [= ->]; reflexivity|].
  intros H. etransitivity; [apply perm_skip, IH, H|]. apply perm_swap.
Qed.
Fixpoint remaining (l : list act) (ms : list (string * ty)) : list (string * ty) :=
  match l with [] => ms | a :: l' => remaining l' (without (fst (projT1 a)) ms) end.
Fixpoint found (l : list act) (ms : list (string * ty)) : Prop :=
  match l with [] => True | a :: l' => type_of ms (fst (projT1 a)) = Some (snd (projT1 a)) /\ found l' (without (fst (projT1 a)) ms) end.
Lemma take_members : forall l ms, found l ms -> Permutation ms (map (fun a => projT1 a) l ++ remaining l ms).
Proof.
  induction l as [|a l IH]; intros ms H; [reflexivity|]. destruct H as [H1 H2]. cbn [map app remaining].
  etransitivity; [apply (take_member _ _ _ H1)|]. rewrite <- (surjective_pairing (projT1 a)). apply perm_skip, IH, H2.
Qed.
Lemma found_in : forall l ms, found l ms -> forall a, In a l -> In (projT1 a) ms.
Proof. intros l ms H a Ha. eapply Permutation_in; [apply Permutation_sym, take_members, H|]. apply in_or_app. left. apply in_map_iff. eauto. Qed.

Lemma reports_by c f o l : holds c o -> distinct (map fst (members c)) = true -> found l (members c) ->
  forallb (fun m => plain_ty (snd m)) (remaining l (members c)) = true ->
  (forall a, In a l -> forall x, o (fst (projT1 a)) = existT den (snd (projT1 a)) x -> visited c f o a) -> reports c f o (chain l o).
Proof.
  intros Ho HD HF HR HV. apply chain_reports with (rest := remaining l (members c)); try assumption.
  - now apply distinct_ok.
  - now apply take_members.
  - intros a Ha. assert (Hi := found_in _ _ HF a Ha). rewrite (surjective_pairing (projT1 a)) in Hi. destruct (Ho _ _ Hi) as (v & Ev & _). eapply HV; eassumption.
Qed.

(** The ways members are visited *)
Lemma visited_weak c f o n : owns c n = false -> forall x : den ref_t, o n = existT den ref_t x -> visited c f o (mk_act n ref_t (visit_weak f)).
Proof. intros Hw x Ex. exists x. cbn [mk_act projT1 projT2 fst snd]. rewrite Hw. split; [exact Ex|]. split; reflexivity. Qed.
Lemma visited_owned c f o n : owns c n = true -> forall x : den own_t, o n = existT den own_t x -> visited c f o (mk_act n own_t (visit_owned f)).
Proof. intros Hw x Ex. exists x. cbn [mk_act projT1 projT2 fst snd]. rewrite Hw. split; [exact Ex|]. split; reflexivity. Qed.
Lemma visited_assets c f o n : owns c n = true -> forall x : den (TVec own_t), o n = existT den (TVec own_t) x -> visited c f o (mk_act n (TVec own_t) (each (visit_owned f))).
Proof.
  intros Hw x Ex. exists x. cbn [mk_act projT1 projT2 fst snd]. rewrite Hw. split; [exact Ex|]. rewrite each_spec. cbn [fst snd visit_owned]. split; [apply map_id|].
  unfold visit_owned. cbn [snd]. cbn [pointers own_t]. rewrite flat_map_map. reflexivity.
Qed.
(** A vector of structures, each visited completely *)
Lemma visited_each c f o n t (g : den t -> den t * calls) : owns c n = false ->
  (forall e, fst (g e) = replaced (fun p => f p true) t e /\ snd (g e) = map (fun p => (p, true)) (pointers t e)) ->
  forall x : den (TVec t), o n = existT den (TVec t) x -> visited c f o (mk_act n (TVec t) (each g)).
Proof.
  intros Hw Hg x Ex. exists x. cbn [mk_act projT1 projT2 fst snd]. rewrite Hw. split; [exact Ex|]. rewrite each_spec. cbn [fst snd negb]. split.
  - cbn [replaced]. apply map_ext. intros e. apply Hg.
  - cbn [pointers]. rewrite flat_map_map. rewrite (flat_map_ext (fun e => snd (g e)) (fun e => map (fun p => (p, true)) (pointers t e))); [reflexivity|]. intros e. apply Hg.
Qed.
Lemma dist_plain : plain_ty dist_t = true. Proof. reflexivity. Qed.
Lemma entry_ok f (e : den entry_t) : fst (visit_entry f e) = replaced (fun p => f p true) entry_t e /\ snd (visit_entry f e) = map (fun p => (p, true)) (pointers entry_t e).
Proof. destruct e as [m [w u]]. split; reflexivity. Qed.
Lemma mix_group_ok f (g : den mix_group_t) : fst (visit_group f g) = replaced (fun p => f p true) mix_group_t g /\ snd (visit_group f g) = map (fun p => (p, true)) (pointers mix_group_t g).
Proof.
  destruct g as [es [d u]]. unfold visit_group. rewrite each_spec. cbn [fst snd].
  change (replaced (fun p => f p true) mix_group_t (es, (d, u))) with (map (replaced (fun p => f p true) entry_t) es, (replaced (fun p => f p true) dist_t d, u)).
  change (pointers mix_group_t (es, (d, u))) with (flat_map (pointers entry_t) es ++ (pointers dist_t d ++ [])).
  destruct (plain_none (fun p => f p true) dist_t d dist_plain) as [-> ->]. cbn [app]. rewrite app_nil_r. split.
  - f_equal. apply map_ext. intros e. apply entry_ok.
  - rewrite flat_map_map. apply flat_map_ext. intros e. apply entry_ok.
Qed.

Ltac by_acts l :=
  match goal with |- reports ?c ?f ?o (foreach_underlying _ _ _) =>
    let H := fresh in assert (H : foreach_underlying c f o = chain l o);
    [|rewrite H; apply reports_by; [assumption|reflexivity|cbn; repeat split; reflexivity|reflexivity|]] end.
Ltac acts1 := cbn [chain]; rewrite both_skip; reflexivity.
Ltac acts3 := cbn [chain]; unfold foreach_underlying; cbn [key String.eqb Ascii.eqb Bool.eqb orb]; apply both_ext; intros; apply both_ext; intros; rewrite both_skip; reflexivity.
Ltac each_act := intros a Ha; cbn [In] in Ha; repeat (destruct Ha as [<-|Ha]); [..|destruct Ha]; intros x Ex;
  first [eapply visited_weak; [reflexivity|exact Ex]|eapply visited_owned; [reflexivity|exact Ex]|eapply visited_assets; [reflexivity|exact Ex]
        |eapply visited_each; [reflexivity|apply entry_ok|exact Ex]|eapply visited_each; [reflexivity|apply mix_group_ok|exact Ex]].
Ltac nothing_kept := match goal with |- reports ?c ?f ?o _ => change (reports c f o (chain [] o)); apply reports_by; [assumption|reflexivity|exact I|reflexivity|intros a []] end.

(** Outside the list, every component reports every pointer, once, with the right flag, and accepts every replacement of a weak one. *)
Theorem C88_reported_partial : forall c f o, In c components -> ~ In (key c) unreported -> holds c o -> reports c f o (foreach_underlying c f o).
Proof.
  intros c f o Hc Hu Ho. unfold components in Hc. cbn [In] in Hc.
  repeat match type of Hc with _ \/ _ => destruct Hc as [<-|Hc] end; try (destruct Hc);
    try (exfalso; apply Hu; cbn; tauto); try nothing_kept.
  - by_acts [mk_act "assets_" (TVec own_t) (each (visit_owned f))]; [acts1|each_act].
  - by_acts [mk_act "assets_" (TVec own_t) (each (visit_owned f))]; [acts1|each_act].
  - by_acts [mk_act "model_" ref_t (visit_weak f)]; [acts1|each_act].
  - by_acts [mk_act "diffuse_" own_t (visit_owned f); mk_act "glossy_" own_t (visit_owned f); mk_act "mask_tex_" ref_t (visit_weak f)]; [acts3|each_act].
  - by_acts [mk_act "film_" ref_t (visit_weak f)]; [acts1|each_act].
  - by_acts [mk_act "scene_" ref_t (visit_weak f); mk_act "film_" ref_t (visit_weak f); mk_act "sched_" own_t (visit_owned f)]; [acts3|each_act].
  - by_acts [mk_act "scene_" ref_t (visit_weak f); mk_act "film_" ref_t (visit_weak f); mk_act "sched_" own_t (visit_owned f)]; [acts3|each_act].
  - by_acts [mk_act "scene_" ref_t (visit_weak f); mk_act "film_" ref_t (visit_weak f); mk_act "sched_" own_t (visit_owned f)]; [acts3|each_act].
  - by_acts [mk_act "scene_" ref_t (visit_weak f); mk_act "film_" ref_t (visit_weak f); mk_act "sched_" own_t (visit_owned f)]; [acts3|each_act].
  - by_acts [mk_act "scene_" ref_t (visit_weak f); mk_act "film_" ref_t (visit_weak f); mk_act "sched_" own_t (visit_owned f)]; [acts3|each_act].
  - by_acts [mk_act "mapKd_" ref_t (visit_weak f)]; [acts1|each_act].
  - by_acts [mk_act "ref_" ref_t (visit_weak f)]; [acts1|each_act].
  - by_acts [mk_act "materials_" (TVec entry_t) (each (visit_entry f))]; [acts1|each_act].
  - by_acts [mk_act "material_groups_" (TVec mix_group_t) (each (visit_group f))]; [acts1|each_act].
  - by_acts [mk_act "envmap_" own_t (visit_owned f)]; [acts1|each_act].
  - by_acts [mk_act "mesh_" ref_t (visit_weak f)]; [acts1|each_act].
  - by_acts [mk_act "film_" ref_t (visit_weak f)]; [acts1|each_act].
  - by_acts [mk_act "film_" ref_t (visit_weak f)]; [acts1|each_act].
Qed.
Print Assumptions C88_reported_partial.

Definition group_plain : plain_ty (TPair group_t TUnit) = true := eq_refl.
Definition five (n : Z * (Z * ((option string * (option string * (option string * (option string * (option string * unit))))) * den (TPair group_t TUnit)))) : list (option string) :=
  match n with (_, (_, ((mesh, (material, (light, (camera, (medium, _))))), _))) => [mesh; material; light; camera; medium] end.
Definition five_new (g : option string -> option string) (n : Z * (Z * ((option string * (option string * (option string * (option string * (option string * unit))))) * den (TPair group_t TUnit)))) : den node_t :=
  match n with (ty, (ix, ((mesh, (material, (light, (camera, (medium, u))))), rest))) => (ty, (ix, ((g mesh, (g material, (g light, (g camera, (g medium, u))))), rest))) end.
Lemma node_pointers n : pointers node_t n = five n.
Proof.
  destruct n as [ty [ix [[mesh [material [light [camera [medium u]]]]] rest]]]. cbn [five].
  transitivity ([mesh; material; light; camera; medium] ++ pointers (TPair group_t TUnit) rest); [reflexivity|].
  rewrite (proj1 (plain_none (fun p => p) (TPair group_t TUnit) rest group_plain)). reflexivity.
Qed.
Lemma node_replaced g n : replaced g node_t n = five_new g n.
Proof.
  destruct n as [ty [ix [[mesh [material [light [camera [medium u]]]]] rest]]]. cbn [five_new].
  transitivity (ty, (ix, ((g mesh, (g material, (g light, (g camera, (g medium, u))))), replaced g (TPair group_t TUnit) rest))); [reflexivity|].
  now rewrite (proj2 (plain_none g (TPair group_t TUnit) rest group_plain)).
Qed.
Lemma node_ok f (n : den node_t) : leaves_null f -> bare_group n -> node_medium n = None ->
  fst (visit_node f n) = replaced (fun p => f p true) node_t n
  /\ present (snd (visit_node f n)) = present (map (fun p => (p, true)) (pointers node_t n)).
Proof.
  unfold node_medium, bare_group, node_type. rewrite node_replaced, node_pointers. intros Hf Hb Hm.
  destruct n as [ty [ix [[mesh [material [light [camera [medium u]]]]] rest]]]. cbn [fst five five_new] in *.
  cbn [nth] in Hm. subst medium. rewrite Hf. unfold visit_node. destruct (Z.eqb_spec ty 0) as [E|E].
  - split; [reflexivity|]. cbn [snd visit_weak]. destruct mesh, material, light, camera; reflexivity.
  - assert (H := Hb E). rewrite (H mesh), (H material), (H light), (H camera) by (cbn; tauto). rewrite !Hf. split; reflexivity.
Qed.

(** So does a scene without media. *)
Theorem C88_scene_partial : forall f o (nodes : list (den node_t)), holds k_scene o -> leaves_null f ->
  o "nodes_" = existT den (TVec node_t) nodes -> (forall n, In n nodes -> bare_group n /\ node_medium n = None) ->
  reports k_scene f o (foreach_underlying k_scene f o).
Proof.
  intros f o nodes Ho Hf En Hn.
  by_acts [mk_act "accel_" ref_t (visit_weak f); mk_act "nodes_" (TVec node_t) (each (visit_node f))].
  - cbn [chain]. unfold foreach_underlying. cbn [key String.eqb Ascii.eqb Bool.eqb orb]. unfold scene_under. apply both_ext. intros. rewrite both_skip. reflexivity.
  - intros a Ha. cbn [In] in Ha. destruct Ha as [<-|[<-|[]]]; intros x Ex; [eapply visited_weak; [reflexivity|exact Ex]|].
    cbn [mk_act projT1 fst snd] in Ex. rewrite En in Ex. apply exist_inj in Ex. subst x. exists nodes. cbn [mk_act projT1 projT2 fst snd]. split; [exact En|].
    change (owns k_scene "nodes_") with false. cbv iota. rewrite each_spec. cbn [fst snd negb]. clear En. split.
    + cbn [replaced]. apply map_ext_in. intros n Hi. destruct (Hn n Hi). now apply node_ok.
    + cbn [pointers]. rewrite flat_map_map. match goal with |- Permutation ?a ?b => assert (E : a = b); [|rewrite E; reflexivity] end. induction nodes as [|n nodes IH]; [reflexivity|]. cbn [flat_map]. rewrite !present_app. f_equal.
      * destruct (Hn n (or_introl eq_refl)). now apply node_ok.
      * apply IH. intros; apply Hn; now right.
Qed.
Print Assumptions C88_scene_partial.

(** The medium of a node is never reported and never updated. *)
Theorem C88_medium_refuted : forall f o (nodes : list (den node_t)), o "nodes_" = existT den (TVec node_t) nodes ->
  exists nodes', fst (foreach_underlying k_scene f o) "nodes_" = existT den (TVec node_t) nodes'
    /\ map node_medium nodes' = map node_medium nodes.
Proof.
  intros f o nodes En. unfold foreach_underlying. cbn [key k_scene String.eqb Ascii.eqb Bool.eqb orb]. unfold scene_under, both, weak, at_member.
  assert (A : forall o1, o1 "nodes_" = o "nodes_" -> forall l1, exists nodes', fst (let (o2, l2) := match as_type (TVec node_t) (o1 "nodes_") with Some x => let (y, l) := each (visit_node f) x in (set o1 "nodes_" (existT den (TVec node_t) y), l) | None => (o1, []) end in (o2, l1 ++ l2) : state * calls) "nodes_" = existT den (TVec node_t) nodes' /\ map node_medium nodes' = map node_medium nodes).
  { intros o1 E1 l1. rewrite E1, En, as_same, each_spec. cbn [fst]. eexists. split; [apply set_same|]. rewrite map_map. apply map_ext.
    intros [ty [ix [[mesh [material [light [camera [medium u]]]]] rest]]]. unfold visit_node. destruct (ty =? 0)%Z; [|reflexivity]. reflexivity. }
  destruct (as_type ref_t (o "accel_")) as [x|]; [|apply A; reflexivity]. destruct (visit_weak f x) as [y l]. apply A. apply set_other. discriminate.
Qed.
Print Assumptions C88_medium_refuted.

(** An instance with a pointer everywhere *)
Fixpoint some_value (t : ty) : den t :=
  match t with
  | TBool => true | TInt _ _ => 0%Z | TF64 => 0%Z | TStr => "$.assets.x" | TUnit => tt
  | TPair a b => (some_value a, some_value b)
  | TVec u => [some_value u]
  | TFixed n u => repeat (some_value u) n
  | TOpt u => Some (some_value u)
  | TMapS u => [("x", some_value u)]
  | TMapI u => [(0%Z, some_value u)]
  end.
Definition some_state (c : class) : state := fun n => match type_of (members c) n with Some t => existT den t (some_value t) | None => nothing end.
Lemma some_holds c : (forall n t, In (n, t) (members c) -> valid t (some_value t)) -> distinct (map fst (members c)) = true -> holds c (some_state c).
Proof.
  intros Hv Hd n t Hi. exists (some_value t). split; [|now apply (Hv n)]. unfold some_state.
  assert (E : type_of (members c) n = Some t); [|now rewrite E]. apply distinct_ok in Hd. clear Hv. revert Hi Hd. induction (members c) as [|[k u] ms IH]; [intros []|].
  cbn. intros [[= -> ->]|Hi] Hd; [now rewrite String.eqb_refl|]. inversion Hd as [|? ? H1 H2]; subst. destruct (String.eqb_spec k n) as [->|]; [|now apply IH].
  exfalso. apply H1. apply in_map_iff. exists (n, t). auto.
Qed.
Ltac some_holds := apply some_holds; [|reflexivity]; cbn [members In]; intros n t H; repeat (destruct H as [[= <- <-]|H]); try destruct H; cbn; repeat split; repeat constructor; cbn; try lia.

(** The other listed components report nothing, although they keep pointers: what they refer to can be replaced
    without their reference being updated, and an asset with references to the outside is saved without complaint. *)
Theorem C88_unreported_refuted : forall c f, In c components -> In (key c) unreported -> key c <> "scene::default" ->
  (forall o, foreach_underlying c f o = (o, [])) /\ exists o, holds c o /\ present (kept c o) <> [].
Proof.
  intros c f Hc Hu Hs. unfold components in Hc. cbn [In] in Hc.
  repeat match type of Hc with _ \/ _ => destruct Hc as [<-|Hc] end; try (destruct Hc);
    try (exfalso; cbn in Hu; intuition discriminate); try (exfalso; apply Hs; reflexivity);
    (split; [reflexivity|]; match goal with |- exists o, holds ?c o /\ _ => exists (some_state c) end; split; [some_holds|discriminate]).
Qed.
Print Assumptions C88_unreported_refuted.

(** A scene with a group, and a mixture of two materials, meet the hypotheses; a visitor that renames *)
Definition g1 : den group_t := ([1%Z; 2%Z], (false, (None, tt))).
Definition n1 : den node_t := (0%Z, (1%Z, ((Some "$.assets.mesh", (Some "$.assets.material", (None, (None, (None, tt))))), (g1, tt)))).
Definition n0 : den node_t := (1%Z, (0%Z, ((None, (None, (None, (None, (None, tt))))), (g1, tt)))).
Definition o1 : state := set (some_state k_scene) "nodes_" (existT den (TVec node_t) [n0; n1]).
Definition rename : visitor := fun p _ => match p with Some _ => Some "$.assets.new" | None => None end.
Example C88_example : leaves_null rename /\ (forall n, In n [n0; n1] -> bare_group n /\ node_medium n = None)
  /\ snd (foreach_underlying k_scene rename o1) = [(Some "$.assets.x", true); (Some "$.assets.mesh", true); (Some "$.assets.material", true); (None, true); (None, true)]
  /\ holds k_mix_rr (some_state k_mix_rr) /\ kept k_mix_rr (some_state k_mix_rr) = [(Some "$.assets.x", true)]
  /\ In k_mix_rr components /\ ~ In (key k_mix_rr) unreported.
Proof.
  split; [intros []; reflexivity|]. split.
  - intros n [<-|[<-|[]]]; (split; [|reflexivity]); intros H p Hp; cbn in Hp; [|exfalso; now apply H]. decompose [or] Hp; subst; easy.
  - split; [reflexivity|]. split; [some_holds|]. split; [reflexivity|]. split; [cbn; tauto|]. cbn. intuition discriminate.
Qed.
