(** Expected values of the samples of the light tracer. *)
From Coq Require Import List Reals ZArith Bool Lra Lia ZifyBool.
From Coquelicot Require Import Coquelicot.
From Verif Require Import Base RBase VecBase SurfModel MatModel LightModel PathModel BidirModel BidirProofs CamProofs RenderModel ExpSpec ExpProofs PtProofs VolPtSpec VolPtProofs.
Import ListNotations.
Open Scope R_scope.

Section LT.
  Variable A : rapi.
  Notation api := (r_api A).
  Variables (good : round -> Prop) (P : interaction -> vec3 -> Z -> Prop).
  Hypothesis HS : lsafe A good P.
  Variables (i : nat) (phi : vec2 -> R).
  Definition lstate : Type := (interaction * vec3 * Z)%type.
  Definition l_inv (nv : Z) (st : lstate) : Prop := let '(sp, wi, c) := st in P sp wi c.
  Definition l_now (nv : Z) (r : round) (st : lstate) : R := let '(sp, wi, c) := st in received A i phi r sp wi c.
  Definition l_next (nv : Z) (r : round) (st : lstate) : option (vec3 * R * lstate) :=
    let '(sp, wi, c) := st in
    match got (a_sample_direction api (rn_draw r) sp wi c LE) with
    | None => None
    | Some (wo, w) => match hit_from A sp wo with
                      | None => None
                      | Some y => if infinite (igeom y) then None else
                                  let '(c', wc) := value (0%Z, 0) (a_sample_component api (rn_draw r) y (vneg wo)) in Some (w, wc, (y, vneg wo, c'))
                      end
    end.
  Lemma connect_fine r sp wi c thr : lwalkable A sp wi c (rn_draw r) P -> exists l, lt_connect A sp wi c thr (rn_draw r) = ret l /\ total_of phi i l = comp thr i * received A i phi r sp wi c.
  Proof.
    intros [[sE E1] Hc _ _ _]. unfold lt_connect, received. rewrite E1, pbind_val, got_ret. destruct sE as [[[spE woE] wE]|]; [|exists []; split; [reflexivity|cbn; ring]].
    destruct (Hc spE woE wE E1) as ((vis & E2) & (rp & E3) & (fs & E4)). rewrite E2, pbind_val. cbn [value ret]. destruct vis; cbn [negb]; [|exists []; split; [reflexivity|cbn; ring]].
    unfold of_raster. rewrite E3, pbind_val, got_ret. destruct rp as [rp|]; [|exists []; split; [reflexivity|cbn; ring]]. rewrite E4, pbind_val. eexists. split; [reflexivity|]. cbn [total_of value ret]. rewrite !comp_vmul. ring.
  Qed.
  Lemma l_round k nv r v rng sp wi c thr : P sp wi c -> good r -> exists l, total_of phi i l = comp thr i * l_now nv r (sp, wi, c)
    /\ lt_walk A (S k) nv (first (set_rr r v) rng) sp wi c thr =
       match l_next nv r (sp, wi, c) with
       | None => ret l
       | Some (w, wc, (sp', wi', c')) =>
           let! t := Ok (roulette nv (2 / 10) v (vmul thr w)) in
           match t with
           | None => ret l
           | Some t => let! rest := lt_walk A k (nv + 1) rng sp' wi' c' (vscale wc t) in ret (l ++ rest)
           end
       end.
  Proof using HS.
    intros Hp Hr. assert (Hw := HS sp wi c r Hp Hr). cbn [lt_walk first]. change (rn_draw (set_rr r v)) with (rn_draw r). change (rn_rr (set_rr r v)) with v.
    destruct (connect_fine r sp wi c thr Hw) as (l & El & Tl). exists l. split; [exact Tl|]. rewrite El, pbind_val. destruct Hw as [_ _ [s Edir] [o Eo] Hh]. unfold l_next. rewrite Edir, pbind_val, got_ret. destruct s as [[wo w]|]; [|reflexivity].
    destruct (Hh wo w o Edir Eo) as (_ & (hit & Eh) & Hy). unfold hit_from. rewrite Eo, pbind_okval, Eh, pbind_val, got_ret. destruct hit as [y|]; [|reflexivity]. destruct (infinite (igeom y)) eqn:Ei; [reflexivity|].
    destruct (Hy y Eh Ei) as (c' & wc & Ec & _ & _). rewrite Ec. cbn [value ret]. cbv zeta. destruct (roulette nv (2 / 10) v (vmul thr w)) as [[t|]| |]; cbn [pbind]; reflexivity.
  Qed.
  Lemma l_next_inv nv r st w wc st' : l_inv nv st -> good r -> l_next nv r st = Some (w, wc, st') -> (forall j, 0 <= comp w j) /\ 0 <= wc /\ l_inv (nv + 1) st'.
  Proof using HS.
    destruct st as [[sp wi] c]. intros Hp Hr. destruct (HS sp wi c r Hp Hr) as [_ _ [s Edir] [o Eo] Hh]. unfold l_next, hit_from. rewrite Edir, got_ret, Eo. destruct s as [[wo w']|]; [|discriminate].
    destruct (Hh wo w' o Edir Eo) as (Hw & (hit & Eh) & Hy). rewrite Eh, got_ret. destruct hit as [y|]; [|discriminate]. destruct (infinite (igeom y)) eqn:Ei; [discriminate|].
    destruct (Hy y Eh Ei) as (c' & wc' & Ec & Hc' & HP'). rewrite Ec. cbn [value ret]. intros [= <- <- <-]. auto.
  Qed.
  Lemma l_walk_gives k : forall nv rng sp wi c thr, P sp wi c -> stream good rng -> (forall j, 0 <= comp thr j) -> gives (lt_walk A k nv rng sp wi c thr).
  Proof using HS i phi.
    induction k as [|k IH]; intros nv rng sp wi c thr Hi Hs T; [now exists []|].
    destruct (Hs O) as (r & v & Hr & Hv & E0).
    assert (Ew : lt_walk A (S k) nv rng sp wi c thr = lt_walk A (S k) nv (first (set_rr r v) (fun j => rng (S j))) sp wi c thr) by (cbn [lt_walk first]; rewrite <- E0; reflexivity).
    rewrite Ew. destruct (l_round k nv r v (fun j => rng (S j)) sp wi c thr Hi Hr) as (l & _ & ->).
    destruct (l_next nv r (sp, wi, c)) as [[[w wc] [[sp' wi'] c']]|] eqn:En; [|now exists l].
    destruct (l_next_inv _ _ _ _ _ _ (Hi : l_inv nv (sp, wi, c)) Hr En) as (Hw & Hwc & Hi').
    destruct (roulette_some (2 / 10) nv v (vmul thr w) ltac:(lra) Hv) as (t & Et & Ht); [intros j; rewrite comp_vmul; apply Rmult_le_pos; auto|]. rewrite Et, pbind_okval. destruct t as [t|]; [|now exists l].
    destruct (IH (nv + 1)%Z (fun j => rng (S j)) sp' wi' c' (vscale wc t) Hi') as (rest & Er); [intros j; apply (Hs (S j))|intros j; rewrite comp_vscale; apply Rmult_le_pos; [exact Hwc|eauto]|]. rewrite Er, pbind_val. eexists. reflexivity.
  Qed.
  Variables (E : (round -> R) -> R) (r0 : round).
  Hypothesis HE : average good E.
  Hypothesis H0 : exists r v, good r /\ 0 < v < 1 /\ r0 = set_rr r v.
  Notation reach := (reaches E i l_now l_next).
  Lemma l_expect k nv sp wi c thr : P sp wi c -> (forall j, 0 <= comp thr j) ->
    expect E r0 k (fun rng => total phi i (lt_walk A k nv rng sp wi c thr)) = comp thr i * reach k nv (sp, wi, c).
  Proof using HS HE H0.
    intros Hi T. destruct (walk_expect good E r0 HE H0 i (2 / 10) (fun k nv rng (st : lstate) thr => let '(sp, wi, c) := st in total phi i (lt_walk A k nv rng sp wi c thr)) l_now l_next l_inv) with (k := k) (nv := nv) (st := (sp, wi, c)) (thr := thr) as [_ X]; [lra|..].
    - intros nv' rng [[? ?] ?] thr'. reflexivity.
    - intros k' nv' r v rng [[sp' wi'] c'] thr' Hi' Hr Hv Hs' T'. destruct (l_round k' nv' r v rng sp' wi' c' thr' Hi' Hr) as (l & Tl & ->). rewrite <- Tl.
      destruct (l_next nv' r (sp', wi', c')) as [[[w wc] [[sp2 wi2] c2]]|] eqn:En; [|unfold total; cbn [value ret]; ring].
      destruct (l_next_inv _ _ _ _ _ _ Hi' Hr En) as (Hw & Hwc & Hi2).
      destruct (roulette_some (2 / 10) nv' v (vmul thr' w) ltac:(lra) Hv) as (t & Et & Ht); [intros j; rewrite comp_vmul; apply Rmult_le_pos; auto|]. rewrite Et, pbind_okval. destruct t as [t|]; [|unfold total; cbn [value ret]; ring].
      destruct (l_walk_gives k' (nv' + 1)%Z rng sp2 wi2 c2 (vscale wc t) Hi2 Hs') as (rest & Er); [intros j; rewrite comp_vscale; apply Rmult_le_pos; [exact Hwc|eauto]|]. rewrite Er, pbind_val. unfold total. cbn [value ret]. apply total_app.
    - intros. eapply l_next_inv; eauto.
    - exact Hi.
    - exact T.
    - exact X.
  Qed.
  Lemma l_reach k : forall nv sp wi c, P sp wi c -> reach k nv (sp, wi, c) = importance A E i phi k sp wi c.
  Proof using HS HE.
    induction k as [|k IH]; intros nv sp wi c Hp; [reflexivity|]. cbn [reaches importance]. rewrite <- (av_add _ _ HE). apply (av_ext _ _ HE). intros r Hr. unfold l_now. f_equal.
    destruct (HS sp wi c r Hp Hr) as [_ _ [s Edir] [o Eo] Hh]. unfold l_next, reflected_along. rewrite Edir, got_ret. destruct s as [[wo w]|]; [|reflexivity]. destruct (Hh wo w o Edir Eo) as (_ & (hit & Ehit) & Hy).
    destruct (hit_from A sp wo) as [y|] eqn:Ey; [|ring]. assert (Eint : a_intersect api o wo = ret (Some y)) by (unfold hit_from in Ey; rewrite Eo, Ehit, got_ret in Ey; now rewrite Ehit, Ey).
    destruct (infinite (igeom y)) eqn:Ei; [ring|]. destruct (Hy y Eint Ei) as (c' & wc & Ec & _ & Hn). rewrite Ec. cbn [value ret]. rewrite (IH _ _ _ _ Hn). ring.
  Qed.
End LT.
