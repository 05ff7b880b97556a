(** Expected values of the samples of the volumetric path tracers and the light tracer. *)
From Coq Require Import List Reals ZArith Bool Lra Lia ZifyBool.
From Coquelicot Require Import Coquelicot.
From Verif Require Import Base RBase VecBase SurfModel MatModel LightModel PathModel BidirModel BidirProofs CamProofs RenderModel ExpSpec ExpProofs PtProofs VolPtSpec.
Import ListNotations.
Open Scope R_scope.

Lemma roulette_some fl nv v thr : 0 <= fl < 1 -> 0 < v < 1 -> (forall j, 0 <= comp thr j) -> exists t, roulette nv fl v thr = Val t /\ forall t', t = Some t' -> forall j, 0 <= comp t' j.
Proof.
  intros Hf Hv T. assert (M : 0 <= comp_max thr) by (eapply Rle_trans; [apply (T O)|apply comp_max_bound]).
  unfold roulette. destruct (5 <? nv)%Z; [|exists (Some thr); split; [reflexivity|intros t' [= <-]; exact T]].
  set (q := Rmax fl (1 - comp_max thr)). destruct (Rlt_dec v q) as [L|L]; [exists None; split; [reflexivity|discriminate]|].
  assert (Q : q < 1) by lra. unfold vdiv. destruct (Req_EM_T (1 - q) 0); [lra|]. eexists. split; [reflexivity|]. intros t' [= <-] j. rewrite comp_vscale. apply Rmult_le_pos; [left; apply Rinv_0_lt_compat; lra|apply T].
Qed.

Section Vol.
  Variables (A : rapi) (rr : R) (direct : bool) (win : R * R * R * R).
  Notation api := (r_api A).
  Hypothesis Hrr : 0 <= rr < 1.
  Variables (good : round -> Prop) (P : interaction -> vec3 -> Z -> Prop).
  Hypothesis HS : vsafe A good P.
  Variables (i : nat) (phi : vec2 -> R).
  Definition vstate : Type := (interaction * vec3 * Z * vec2)%type.
  Definition vstarts (sp : interaction) (wi : vec3) (c : Z) : Prop := forall r, good r ->
    vwalkable A sp wi c (windowed win (rn_draw r)) r P
    /\ forall wo w, a_sample_direction api (windowed win (rn_draw r)) sp wi c EL = ret (Some (wo, w)) -> exists rp, a_raster api wo = ret (Some rp).
  Definition v_inv (nv : Z) (st : vstate) : Prop := let '(sp, wi, c, rp) := st in ((2 <= nv)%Z /\ P sp wi c) \/ (nv = 1%Z /\ gives (a_specular api sp c) /\ vstarts sp wi c).
  Definition v_draw (nv : Z) (r : round) : draw := if (nv =? 1)%Z then windowed win (rn_draw r) else rn_draw r.
  Definition v_ras (nv : Z) (rp : vec2) (wo : vec3) : option vec2 := if (nv =? 1)%Z then got (a_raster api wo) else Some rp.
  Definition v_phi (nv : Z) (rp : vec2) (wo : vec3) : R := match v_ras nv rp wo with Some rp => phi rp | None => 0 end.
  Definition v_on (nv : Z) (sp : interaction) (c : Z) : bool := direct && ((1 <? nv)%Z && smooth A sp c).
  Definition v_now (nv : Z) (r : round) (st : vstate) : R :=
    let '(sp, wi, c, rp) := st in
    (if v_on nv sp c then phi rp * connected_through A i (fun _ => true) r sp wi c else 0)
    + match got (a_sample_direction api (v_draw nv r) sp wi c EL) with
      | None => 0
      | Some (wo, w) => if v_on nv sp c then 0 else v_phi nv rp wo * (comp w i * emitted_next A i r sp wo c)
      end.
  Definition v_next (nv : Z) (r : round) (st : vstate) : option (vec3 * R * vstate) :=
    let '(sp, wi, c, rp) := st in
    match got (a_sample_direction api (v_draw nv r) sp wi c EL) with
    | None => None
    | Some (wo, w) => match next_along A r sp wo with
                      | None => None
                      | Some (y, wd) => if infinite (igeom y) then None else
                                  let '(c', wc) := value (0%Z, 0) (a_sample_component api (rn_draw r) y (vneg wo)) in
                                  Some (vmul w wd, wc, (y, vneg wo, c', match v_ras nv rp wo with Some rp => rp | None => V2 0 0 end))
                      end
    end.
  Lemma vnee_fine nv r sp wi c rp thr : (1 < nv)%Z -> good r -> P sp wi c -> exists l, vol_nee A nv sp wi c thr rp r = ret l
    /\ total_of phi i l = comp thr i * (phi rp * connected_through A i (fun _ => true) r sp wi c).
  Proof using HS.
    intros Hn Hr Hp. destruct (HS sp wi c r Hp Hr) as (_ & [[sL E1] Hc] & _). unfold vol_nee, connected_through. rewrite E1, pbind_val, got_ret. replace (nv =? 1)%Z with false by lia.
    destruct sL as [[[spL woL] wL]|]; [|exists []; split; [reflexivity|cbn; ring]].
    destruct (Hc spL woL wL E1) as ((Tr & E2) & (fs & E4)). rewrite pbind_val, E2, E4, pbind_val. cbn [value ret].
    destruct (is_zero Tr) eqn:Ez; [exists []; split; [reflexivity|]; rewrite (zero_comp Tr i Ez); cbn; ring|]. rewrite pbind_val.
    destruct (is_zero fs) eqn:Ef; [exists []; split; [reflexivity|]; rewrite (zero_comp fs i Ef); cbn; ring|].
    eexists. split; [reflexivity|]. cbn [total_of]. rewrite !comp_vmul. ring.
  Qed.
  Lemma v_safe nv r sp wi c rp : v_inv nv (sp, wi, c, rp) -> good r ->
    gives (a_specular api sp c) /\ vwalkable A sp wi c (v_draw nv r) r P /\
    (forall wo w, a_sample_direction api (v_draw nv r) sp wi c EL = ret (Some (wo, w)) -> exists rp', v_ras nv rp wo = Some rp' /\
      (if (nv =? 1)%Z then let! r := a_raster api wo in match r with Some r => ret r | None => UB end else ret rp) = ret rp').
  Proof using HS.
    intros [[Hnv Hp]|(-> & Hg & Hs)] Hr.
    - destruct (HS sp wi c r Hp Hr) as (Es & _ & Hw). unfold v_draw, v_ras. replace (nv =? 1)%Z with false by lia. eauto.
    - destruct (Hs r Hr) as [Hw Hras]. split; [exact Hg|]. split; [exact Hw|]. intros wo w E. destruct (Hras wo w E) as (rp' & E'). exists rp'. unfold v_ras. change (1 =? 1)%Z with true. cbv iota. rewrite E', got_ret, pbind_val. auto.
  Qed.
  Lemma v_round k nv r v rng sp wi c rp thr : v_inv nv (sp, wi, c, rp) -> good r -> exists l, total_of phi i l = comp thr i * v_now nv r (sp, wi, c, rp)
    /\ vol_walk A rr direct win (S k) nv (first (set_rr r v) rng) sp wi c thr rp =
       match v_next nv r (sp, wi, c, rp) with
       | None => ret l
       | Some (w, wc, (sp', wi', c', rp')) =>
           let! t := Ok (roulette nv rr v (vmul thr w)) in
           match t with
           | None => ret l
           | Some t => let! rest := vol_walk A rr direct win k (nv + 1) rng sp' wi' c' (vscale wc t) rp' in ret (l ++ rest)
           end
       end.
  Proof using HS.
    intros Hi Hr. destruct (v_safe nv r sp wi c rp Hi Hr) as ((sc & Es) & Hw & Hras).
    cbn [vol_walk first]. change (rn_draw (set_rr r v)) with (rn_draw r). change (rn_dist (set_rr r v)) with (rn_dist r). change (rn_rr (set_rr r v)) with v. unfold v_now, v_next.
    assert (En : (if direct then (if (1 <? nv)%Z then let! b := a_specular api sp c in ret (negb b) else ret false) else ret false) = ret (v_on nv sp c)).
    { unfold v_on, smooth. rewrite Es. cbn [value ret]. destruct direct; [|reflexivity]. destruct (1 <? nv)%Z; [now rewrite pbind_val|reflexivity]. }
    rewrite En, pbind_val. set (nee := v_on nv sp c) in *.
    assert (exists ld, (if nee then vol_nee A nv sp wi c thr rp (set_rr r v) else ret []) = ret ld
      /\ total_of phi i ld = comp thr i * (if nee then phi rp * connected_through A i (fun _ => true) r sp wi c else 0)) as (ld & Ed & Td).
    { destruct nee eqn:Hn; [|exists []; split; [reflexivity|cbn; ring]]. unfold nee, v_on in Hn. destruct Hi as [[Hnv Hp]|(-> & _)]; [|rewrite andb_false_l, andb_false_r in Hn; discriminate].
      change (vol_nee A nv sp wi c thr rp (set_rr r v)) with (vol_nee A nv sp wi c thr rp r). apply vnee_fine; [lia|exact Hr|exact Hp]. }
    rewrite Ed, pbind_val. unfold pt_direction. fold (windowed win (rn_draw r)). fold (v_draw nv r).
    pose proof Hw as [[s Edir] Hh]. rewrite Edir, pbind_val, got_ret. destruct s as [[wo w]|]; [|exists ld; split; [rewrite Td; ring|reflexivity]].
    destruct (Hras wo w Edir) as (rp' & Er & Er'). rewrite Er', pbind_val. destruct (Hh wo w Edir) as (_ & (hit & Eh) & Hy).
    unfold emitted_next, next_along. rewrite Eh, pbind_val, got_ret. destruct hit as [[y wd]|]; [|exists ld; split; [rewrite Td; destruct nee; ring|reflexivity]].
    destruct (Hy y wd Eh) as (_ & (b & Eb) & (Le & El) & Hc).
    assert (exists le, (if nee then ret [] else get! l := a_is_light api y in if l then let! Le := a_contrb api (as_type y LightEndpoint) v0 (vneg wo) c LE true in ret [(rp', vmul (vmul thr (vmul w wd)) Le)] else ret []) = ret le
      /\ total_of phi i le = comp thr i * (if nee then 0 else v_phi nv rp wo * (comp w i * (comp wd i * emitted A i y wo c)))) as (le & Ee & Te).
    { destruct nee; [exists []; split; [reflexivity|cbn; ring]|]. unfold emitted, v_phi. rewrite Er, Eb, obind_ok, El. destruct b; [|exists []; split; [reflexivity|cbn; ring]]. rewrite pbind_val. eexists. split; [reflexivity|]. cbn [total_of value ret]. rewrite !comp_vmul. ring. }
    cbv zeta. rewrite Ee, pbind_val. exists (ld ++ le). split. { rewrite total_app, Td, Te. ring. }
    destruct (infinite (igeom y)) eqn:Ei; [reflexivity|].
    destruct (Hc eq_refl) as (c' & wc & Ec & _ & _). rewrite Ec. cbn [value ret]. rewrite Er.
    destruct (roulette nv rr v (vmul thr (vmul w wd))) as [[t|]| |]; cbn [pbind]; try reflexivity.
    unfold ret at 1. cbn [pbind]. destruct (vol_walk A rr direct win k (nv + 1) _ y (vneg wo) c' (vscale wc t) rp') as [[rest| |]| | |]; cbn [pbind]; try reflexivity. now rewrite app_assoc.
  Qed.
  Lemma v_next_inv nv r st w wc st' : v_inv nv st -> good r -> v_next nv r st = Some (w, wc, st') -> (forall j, 0 <= comp w j) /\ 0 <= wc /\ v_inv (nv + 1) st'.
  Proof using HS.
    destruct st as [[[sp wi] c] rp]. intros Hi Hr. destruct (v_safe nv r sp wi c rp Hi Hr) as (_ & [[s Edir] Hh] & _). unfold v_next, next_along. rewrite Edir, got_ret. destruct s as [[wo w']|]; [|discriminate].
    destruct (Hh wo w' Edir) as (Hw & (hit & Eh) & Hy). rewrite Eh, got_ret. destruct hit as [[y wd]|]; [|discriminate]. destruct (infinite (igeom y)) eqn:Ei; [discriminate|].
    destruct (Hy y wd Eh) as (Hd & _ & _ & Hc). destruct (Hc Ei) as (c' & wc' & Ec & Hc' & HP'). rewrite Ec. cbn [value ret]. intros [= <- <- <-].
    split; [intros j; rewrite comp_vmul; apply Rmult_le_pos; auto|]. split; [exact Hc'|]. left. split; [|exact HP']. destruct Hi as [[? _]|[-> _]]; lia.
  Qed.
  Lemma v_walk_gives k : forall nv rng sp wi c rp thr, v_inv nv (sp, wi, c, rp) -> stream good rng -> (forall j, 0 <= comp thr j) -> gives (vol_walk A rr direct win k nv rng sp wi c thr rp).
  Proof using HS Hrr i phi.
    induction k as [|k IH]; intros nv rng sp wi c rp thr Hi Hs T; [now exists []|].
    destruct (Hs O) as (r & v & Hr & Hv & E0).
    assert (Ew : vol_walk A rr direct win (S k) nv rng sp wi c thr rp = vol_walk A rr direct win (S k) nv (first (set_rr r v) (fun j => rng (S j))) sp wi c thr rp) by (cbn [vol_walk first]; rewrite <- E0; reflexivity).
    rewrite Ew. destruct (v_round k nv r v (fun j => rng (S j)) sp wi c rp thr Hi Hr) as (l & _ & ->).
    destruct (v_next nv r (sp, wi, c, rp)) as [[[w wc] [[[sp' wi'] c'] rp']]|] eqn:En; [|now exists l].
    destruct (v_next_inv _ _ _ _ _ _ Hi Hr En) as (Hw & Hwc & Hi').
    destruct (roulette_some rr nv v (vmul thr w) Hrr Hv) as (t & Et & Ht); [intros j; rewrite comp_vmul; apply Rmult_le_pos; auto|]. rewrite Et, pbind_okval. destruct t as [t|]; [|now exists l].
    destruct (IH (nv + 1)%Z (fun j => rng (S j)) sp' wi' c' rp' (vscale wc t) Hi') as (rest & Er); [intros j; apply (Hs (S j))|intros j; rewrite comp_vscale; apply Rmult_le_pos; [exact Hwc|eauto]|]. rewrite Er, pbind_val. eexists. reflexivity.
  Qed.
  Variables (E : (round -> R) -> R) (r0 : round).
  Hypothesis HE : average good E.
  Hypothesis H0 : exists r v, good r /\ 0 < v < 1 /\ r0 = set_rr r v.
  Notation reach := (reaches E i v_now v_next).
  Lemma v_expect k nv sp wi c rp thr : v_inv nv (sp, wi, c, rp) -> (forall j, 0 <= comp thr j) ->
    expect E r0 k (fun rng => total phi i (vol_walk A rr direct win k nv rng sp wi c thr rp)) = comp thr i * reach k nv (sp, wi, c, rp).
  Proof using HS HE H0 Hrr.
    intros Hi T. destruct (walk_expect good E r0 HE H0 i rr (fun k nv rng (st : vstate) thr => let '(sp, wi, c, rp) := st in total phi i (vol_walk A rr direct win k nv rng sp wi c thr rp)) v_now v_next v_inv) with (k := k) (nv := nv) (st := (sp, wi, c, rp)) (thr := thr) as [_ X]; [exact Hrr|..].
    - intros nv' rng [[[? ?] ?] ?] thr'. reflexivity.
    - intros k' nv' r v rng [[[sp' wi'] c'] rp'] thr' Hi' Hr Hv Hs' T'. destruct (v_round k' nv' r v rng sp' wi' c' rp' thr' Hi' Hr) as (l & Tl & ->). rewrite <- Tl.
      destruct (v_next nv' r (sp', wi', c', rp')) as [[[w wc] [[[sp2 wi2] c2] rp2]]|] eqn:En; [|unfold total; cbn [value ret]; ring].
      destruct (v_next_inv _ _ _ _ _ _ Hi' Hr En) as (Hw & Hwc & Hi2).
      destruct (roulette_some rr nv' v (vmul thr' w) Hrr Hv) as (t & Et & Ht); [intros j; rewrite comp_vmul; apply Rmult_le_pos; auto|]. rewrite Et, pbind_okval. destruct t as [t|]; [|unfold total; cbn [value ret]; ring].
      destruct (v_walk_gives k' (nv' + 1)%Z rng sp2 wi2 c2 rp2 (vscale wc t) Hi2 Hs') as (rest & Er); [intros j; rewrite comp_vscale; apply Rmult_le_pos; [exact Hwc|eauto]|]. rewrite Er, pbind_val. unfold total. cbn [value ret]. apply total_app.
    - intros. eapply v_next_inv; eauto.
    - exact Hi.
    - exact T.
    - exact X.
  Qed.
  Hypothesis HU : direct = true -> forall sp wi c, P sp wi c -> smooth A sp c = true -> balanced A E i sp wi c.
  Lemma split_lights sp wi c : E (fun r => connected_through A i (fun _ => true) r sp wi c) = E (fun r => connected_through A i (hidden_light A) r sp wi c) + E (fun r => connected_through A i (hittable A) r sp wi c).
  Proof using HE.
    rewrite <- (av_add _ _ HE). apply (av_ext _ _ HE). intros r _. unfold connected_through, hidden_light. destruct (got _) as [[[spL woL] wL]|]; [|ring]. destruct (hittable A spL); cbn [negb]; ring.
  Qed.
  Lemma v_reach_later k : forall nv sp wi c rp, (2 <= nv)%Z -> P sp wi c -> reach k nv (sp, wi, c, rp) = phi rp * scattered A E i direct k sp wi c.
  Proof using HS HE HU.
    induction k as [|k IH]; intros nv sp wi c rp Hnv Hp; [cbn; ring|]. cbn [reaches scattered].
    transitivity (E (fun r => v_now nv r (sp, wi, c, rp)) + E (fun r => phi rp * continued A i (fun _ => 1) r sp wi c (fun wo => scattered_next A i (scattered A E i direct k) r sp wo))).
    { rewrite <- (av_add _ _ HE). apply (av_ext _ _ HE). intros r Hr. f_equal. destruct (HS sp wi c r Hp Hr) as (_ & _ & [[s Edir] Hh]).
      unfold v_next, v_draw, v_ras, continued, scattered_next, next_along. replace (nv =? 1)%Z with false by lia. rewrite Edir, got_ret. destruct s as [[wo w]|]; [|ring]. destruct (Hh wo w Edir) as (_ & (hit & Ehit) & Hy).
      rewrite Ehit, got_ret. destruct hit as [[y wd]|]; [|ring]. destruct (infinite (igeom y)) eqn:Ei; [ring|]. destruct (Hy y wd Ehit) as (_ & _ & _ & Hc). destruct (Hc Ei) as (c' & wc & Ec & _ & Hn). rewrite Ec. cbn [value ret]. rewrite (IH (nv + 1)%Z _ _ _ _ ltac:(lia) Hn), comp_vmul. ring. }
    transitivity (phi rp * ((if direct && smooth A sp c then E (fun r => connected_through A i (hidden_light A) r sp wi c) else 0) + E (fun r => continued A i (fun _ => 1) r sp wi c (fun wo => emitted_next A i r sp wo c)))
      + phi rp * E (fun r => continued A i (fun _ => 1) r sp wi c (fun wo => scattered_next A i (scattered A E i direct k) r sp wo))).
    - f_equal; [|apply (av_scale _ _ HE)].
      assert (Hon : v_on nv sp c = direct && smooth A sp c) by (unfold v_on; replace (1 <? nv)%Z with true by lia; reflexivity). unfold v_now. rewrite Hon.
      assert (Hd : forall r, v_draw nv r = rn_draw r) by (intros r; unfold v_draw; replace (nv =? 1)%Z with false by lia; reflexivity).
      assert (Hf : forall wo, v_phi nv rp wo = phi rp) by (intros wo; unfold v_phi, v_ras; replace (nv =? 1)%Z with false by lia; reflexivity).
      destruct (direct && smooth A sp c) eqn:El.
      + apply andb_prop in El. destruct El as [El Es]. rewrite <- (HU El sp wi c Hp Es), <- split_lights, <- (av_scale _ _ HE). apply (av_ext _ _ HE). intros r _. destruct (got _) as [[wo w]|]; ring.
      + rewrite Rplus_0_l, <- (av_scale _ _ HE). apply (av_ext _ _ HE). intros r _. unfold continued. rewrite Hd. destruct (got _) as [[wo w]|]; [rewrite Hf|]; ring.
    - match goal with |- _ = phi rp * (?x + E ?y) => replace (E y) with (E (fun r => continued A i (fun _ => 1) r sp wi c (fun wo => emitted_next A i r sp wo c)) + E (fun r => continued A i (fun _ => 1) r sp wi c (fun wo => scattered_next A i (scattered A E i direct k) r sp wo))); [ring|] end.
      rewrite <- (av_add _ _ HE). apply (av_ext _ _ HE). intros r _. unfold continued. destruct (got _) as [[wo w]|]; ring.
  Qed.
  Lemma v_reach_first k sp c : gives (a_specular api sp c) -> vstarts sp v0 c -> reach k 1 (sp, v0, c, V2 0 0) = seen A E i direct win k sp c phi.
  Proof using HS HE HU.
    intros Hg Hst. destruct k as [|k]; [reflexivity|]. unfold seen. cbn [reaches]. apply (av_ext _ _ HE). intros r Hr.
    assert (IH : forall sp' wi' c' rp', P sp' wi' c' -> reach k (1 + 1)%Z (sp', wi', c', rp') = phi rp' * scattered A E i direct k sp' wi' c') by (intros; apply v_reach_later; [lia|assumption]). set (Rk := reaches E i v_now v_next k (1 + 1)%Z) in *. clearbody Rk.
    unfold v_now, v_next, v_on, v_draw, v_phi, v_ras. change (1 =? 1)%Z with true. change (1 <? 1)%Z with false. cbv iota. rewrite andb_false_l, andb_false_r, Rplus_0_l.
    destruct (Hst r Hr) as ([[s Edir] Hh] & Hras). rewrite Edir, got_ret. destruct s as [[wo w]|]; [|ring]. destruct (Hras wo w Edir) as (rp' & Er). destruct (Hh wo w Edir) as (_ & (hit & Ehit) & Hy).
    unfold of_raster, emitted_next, scattered_next, next_along. rewrite Er, Ehit, !got_ret. destruct hit as [[y wd]|]; [|ring]. destruct (infinite (igeom y)) eqn:Ei; [ring|]. destruct (Hy y wd Ehit) as (_ & _ & _ & Hc). destruct (Hc Ei) as (c' & wc & Ec & _ & Hn). rewrite Ec. cbn [value ret]. rewrite (IH _ _ _ _ Hn), comp_vmul. ring.
  Qed.
End Vol.
