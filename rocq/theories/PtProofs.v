(** Expected values of the path tracer's samples. *)
From Coq Require Import List Reals ZArith Bool Lra Lia ZifyBool.
From Coquelicot Require Import Coquelicot.
From Verif Require Import Base RBase VecBase SurfModel MatModel LightModel PathModel BidirModel BidirProofs CamProofs RenderModel ExpSpec ExpProofs.
Import ListNotations.
Open Scope R_scope.

Lemma total_app phi i a b : total_of phi i (a ++ b) = total_of phi i a + total_of phi i b.
Proof. induction a as [|[rp v] a IH]; cbn; [ring|]. rewrite IH. ring. Qed.
Lemma got_ret {X} (x : option X) : got (ret x) = x. Proof. reflexivity. Qed.
Lemma zero_comp v i : is_zero v = true -> comp v i = 0.
Proof. intros H. apply is_zero_true in H. subst. destruct i as [|[|i]]; reflexivity. Qed.
Lemma balance_val p q : 0 <= p -> 0 <= q -> exists w, balance_heuristic p q = Val w /\ (0 < p \/ 0 < q -> w = p / (p + q)).
Proof.
  intros Hp Hq. unfold balance_heuristic. destruct (Req_EM_T p 0) as [->|P]; [destruct (Req_EM_T q 0) as [->|Q]|].
  - exists 0. split; [reflexivity|]. intros [?|?]; lra.
  - exists (0 / (0 + q)). split; [|reflexivity]. apply rdiv_ok. lra.
  - exists (p / (p + q)). split; [|reflexivity]. apply rdiv_ok. lra.
Qed.

Section PT.
  Variables (A : rapi) (sm : smode) (pmd : pmode) (win : R * R * R * R).
  Notation api := (r_api A).
  Variables (good : round -> Prop) (P : interaction -> vec3 -> Z -> Prop).
  Hypothesis HS : safe A good P.
  Variables (i : nat) (phi : vec2 -> R).
  Definition pstate : Type := (interaction * vec3 * Z * vec2)%type.
  (** The first round: with directions in the window *)
  Definition starts (sp : interaction) (wi : vec3) (c : Z) : Prop := forall r, good r ->
    walkable A sp wi c (windowed win (rn_draw r)) (rn_draw r) P
    /\ forall wo w, a_sample_direction api (windowed win (rn_draw r)) sp wi c EL = ret (Some (wo, w)) -> exists rp, a_raster api wo = ret (Some rp).
  Definition pt_inv (nv : Z) (st : pstate) : Prop := let '(sp, wi, c, rp) := st in (1 <= nv)%Z /\ P sp wi c /\ (nv = 1%Z -> starts sp wi c).
  Definition dir_draw (nv : Z) (r : round) : draw := if (nv =? 1)%Z then windowed win (rn_draw r) else rn_draw r.
  Definition ras (nv : Z) (rp : vec2) (wo : vec3) : option vec2 := if (nv =? 1)%Z then got (a_raster api wo) else Some rp.
  Definition phi_at (nv : Z) (rp : vec2) (wo : vec3) : R := match ras nv rp wo with Some rp => phi rp | None => 0 end.
  Definition nee_on (nv : Z) (sp : interaction) (c : Z) : bool :=
    match sm with Naive => false | _ => match pmd with PixelMode => (1 <? nv)%Z && smooth A sp c | ImageMode => smooth A sp c end end.
  Definition counted (nee : bool) : R := match sm with NEE => if nee then 0 else 1 | _ => 1 end.
  Definition pt_now (nv : Z) (r : round) (st : pstate) : R :=
    let '(sp, wi, c, rp) := st in
    (if nee_on nv sp c then connected A i (fun spL woL => phi_at nv rp (vneg woL) * value 0 (nee_weight A sm sp wi c spL woL)) r sp wi c else 0)
    + match got (a_sample_direction api (dir_draw nv r) sp wi c EL) with
      | None => 0
      | Some (wo, w) => match hit_from A sp wo with
                        | None => 0
                        | Some y => phi_at nv rp wo * (counted (nee_on nv sp c) * value 0 (hit_weight A sm (nee_on nv sp c) sp wi wo c (as_type y LightEndpoint))) * (comp w i * emitted A i y wo c)
                        end
      end.
  Definition pt_next (nv : Z) (r : round) (st : pstate) : option (vec3 * R * pstate) :=
    let '(sp, wi, c, rp) := st in
    match got (a_sample_direction api (dir_draw nv r) sp wi c EL) with
    | None => None
    | Some (wo, w) => match hit_from A sp wo with
                      | None => None
                      | Some y => if infinite (igeom y) then None else
                                  let '(c', wc) := value (0%Z, 0) (a_sample_component api (rn_draw r) y (vneg wo)) in
                                  Some (w, wc, (y, vneg wo, c', match ras nv rp wo with Some rp => rp | None => V2 0 0 end))
                      end
    end.

  Lemma nee_fine nv r sp wi c rp thr : good r -> P sp wi c -> nee_on nv sp c = true -> exists l, pt_nee A sm nv sp wi c thr rp (rn_draw r) = ret l
    /\ total_of phi i l = comp thr i * connected A i (fun spL woL => phi_at nv rp (vneg woL) * value 0 (nee_weight A sm sp wi c spL woL)) r sp wi c.
  Proof using HS.
    intros Hr Hp Hn. destruct (HS sp wi c r Hp Hr) as (_ & [[sL E1] Hc] & _). unfold pt_nee, connected. rewrite E1, pbind_val, got_ret.
    destruct sL as [[[spL woL] wL]|]; [|exists []; split; [reflexivity|cbn; ring]].
    destruct (Hc spL woL wL E1) as ((vis & E2) & (rr & E3) & (fs & E4) & (sL & E5) & (pL & E6 & P6) & pB & E7 & P7). rewrite E2, pbind_val, E4. cbn [value ret].
    destruct vis; cbn [negb]; [|exists []; split; [reflexivity|cbn; ring]].
    assert (Er : (if (nv =? 1)%Z then a_raster api (vneg woL) else ret (Some rp)) = ret (ras nv rp (vneg woL))) by (unfold ras; destruct (nv =? 1)%Z; [rewrite E3|]; reflexivity).
    rewrite Er, pbind_val. unfold phi_at. destruct (ras nv rp (vneg woL)) as [rp'|]; [|exists []; split; [reflexivity|cbn; ring]].
    rewrite pbind_val. destruct (is_zero fs) eqn:Ez; [exists []; split; [reflexivity|]; rewrite (zero_comp fs i Ez); cbn; ring|].
    assert (exists w, nee_weight A sm sp wi c spL woL = ret w) as [w Ew].
    { unfold nee_weight. destruct sm; [|now exists 1|]; rewrite E5, pbind_val; (destruct (sL || degenerated (igeom spL)); [now exists 1|]; rewrite E6, pbind_val, E7, pbind_val; destruct (balance_val pL pB P6 P7) as (w & Ew & _); exists w; now rewrite Ew). }
    rewrite Ew, pbind_val. eexists. split; [reflexivity|]. cbn [total_of value ret]. rewrite comp_vscale, !comp_vmul. ring.
  Qed.
  Lemma hit_fine nee r sp wi c wo w o y thr rp u : walkable A sp wi c u (rn_draw r) P -> a_sample_direction api u sp wi c EL = ret (Some (wo, w)) -> position (igeom sp) = Val o -> a_intersect api o wo = ret (Some y) ->
    exists l, pt_hit A sm nee sp wi wo c thr rp y = ret l
    /\ total_of phi i l = comp thr i * (phi rp * (counted nee * value 0 (hit_weight A sm nee sp wi wo c (as_type y LightEndpoint))) * emitted A i y wo c).
  Proof.
    intros [_ _ Hw] E1 E2 E3. destruct (Hw wo w o E1 E2) as (_ & _ & H). destruct (H y E3) as ((b & E4) & (fs & E5) & (pB & E6 & P6 & _) & (pL & E7 & P7) & _). unfold pt_hit, emitted. rewrite E4.
    assert (exists x, hit_weight A sm nee sp wi wo c (as_type y LightEndpoint) = ret x) as [x Ex].
    { unfold hit_weight. destruct sm; [now exists 1| |]; (destruct nee; cbn [negb]; [|now exists 1]); rewrite E6, pbind_val, E7, pbind_val; destruct (balance_val pB pL P6 P7) as (x & Ex & _); exists x; now rewrite Ex. }
    rewrite Ex, E5. unfold counted. destruct sm, nee; cbn [negb]; try (exists []; split; [reflexivity|cbn; ring]); (rewrite obind_ok; destruct b; [rewrite !pbind_val; eexists; split; [reflexivity|cbn [total_of value ret]; rewrite comp_vscale, comp_vmul; ring]|exists []; split; [reflexivity|cbn; ring]]).
  Qed.

  (** One round *)
  Lemma pt_round k nv r v rng sp wi c rp thr : pt_inv nv (sp, wi, c, rp) -> good r -> exists l, total_of phi i l = comp thr i * pt_now nv r (sp, wi, c, rp)
    /\ pt_walk A sm pmd win (S k) nv (first (set_rr r v) rng) sp wi c thr rp =
       match pt_next nv r (sp, wi, c, rp) with
       | None => ret l
       | Some (w, wc, (sp', wi', c', rp')) =>
           let! t := Ok (roulette nv (2 / 10) v (vmul thr w)) in
           match t with
           | None => ret l
           | Some t => let! rest := pt_walk A sm pmd win k (nv + 1) rng sp' wi' c' (vscale wc t) rp' in ret (l ++ rest)
           end
       end.
  Proof using HS.
    intros (Hnv & Hp & Hs) Hr. destruct (HS sp wi c r Hp Hr) as ((sc & Es) & _ & Hw0).
    assert (Hw : walkable A sp wi c (dir_draw nv r) (rn_draw r) P) by (unfold dir_draw; destruct (nv =? 1)%Z eqn:N; [apply Hs; [lia|exact Hr]|exact Hw0]).
    assert (Hras : forall wo w, a_sample_direction api (dir_draw nv r) sp wi c EL = ret (Some (wo, w)) -> exists rp', ras nv rp wo = Some rp' /\
      (if (nv =? 1)%Z then let! r := a_raster api wo in match r with Some r => ret r | None => UB end else ret rp) = ret rp').
    { intros wo w E. unfold ras, dir_draw in *. destruct (nv =? 1)%Z eqn:N; [|eauto]. destruct (Hs ltac:(lia) r Hr) as [_ Q]. destruct (Q wo w E) as (rp' & E'). exists rp'. rewrite E', got_ret, pbind_val. auto. }
    cbn [pt_walk first rn_draw set_rr rn_rr]. unfold pt_now, pt_next.
    assert (En : samplable_by_nee A sm pmd nv sp c = ret (nee_on nv sp c)).
    { unfold samplable_by_nee, nee_on, smooth. destruct sm; [reflexivity| |]; rewrite Es, pbind_val; destruct pmd; reflexivity. }
    rewrite En, pbind_val. set (nee := nee_on nv sp c) in *.
    assert (exists ld, (if nee then pt_nee A sm nv sp wi c thr rp (rn_draw r) else ret []) = ret ld
      /\ total_of phi i ld = comp thr i * (if nee then connected A i (fun spL woL => phi_at nv rp (vneg woL) * value 0 (nee_weight A sm sp wi c spL woL)) r sp wi c else 0)) as (ld & Ed & Td).
    { destruct nee eqn:Hn; [|exists []; split; [reflexivity|cbn; ring]]. now apply nee_fine. }
    rewrite Ed, pbind_val. unfold pt_direction. fold (windowed win (rn_draw r)). fold (dir_draw nv r).
    pose proof Hw as [[s Edir] [o Eo] Hh]. rewrite Edir, pbind_val, got_ret. destruct s as [[wo w]|]; [|exists ld; split; [rewrite Td; ring|reflexivity]].
    destruct (Hras wo w Edir) as (rp' & Er & Er'). rewrite Er', pbind_val, Eo, pbind_okval. destruct (Hh wo w o Edir Eo) as (_ & (hit & Eh) & Hy).
    unfold hit_from. rewrite Eo, Eh, pbind_val, got_ret. destruct hit as [y|]; [|exists ld; split; [rewrite Td; ring|reflexivity]].
    destruct (hit_fine nee r sp wi c wo w o y (vmul thr w) rp' (dir_draw nv r) Hw Edir Eo Eh) as (le & Ee & Te). rewrite Ee, pbind_val.
    exists (ld ++ le). split. { rewrite total_app, Td, Te, comp_vmul. unfold phi_at. rewrite Er. ring. }
    destruct (infinite (igeom y)) eqn:Ei; [reflexivity|].
    destruct (Hy y Eh) as (_ & _ & _ & _ & Hc). destruct (Hc Ei) as (c' & wc & Ec & _ & _). rewrite Ec. cbn [value ret]. rewrite Er.
    destruct (roulette nv (2 / 10) v (vmul thr w)) as [[t|]| |]; cbn [pbind]; try reflexivity.
    unfold ret at 1. cbn [pbind]. destruct (pt_walk A sm pmd win k (nv + 1) _ y (vneg wo) c' (vscale wc t) rp') as [[rest| |]| | |]; cbn [pbind]; try reflexivity. now rewrite app_assoc.
  Qed.

  Lemma roulette_fine nv v thr : 0 < v < 1 -> (forall j, 0 <= comp thr j) -> exists t, roulette nv (2 / 10) v thr = Val t /\ forall t', t = Some t' -> forall j, 0 <= comp t' j.
  Proof.
    intros Hv T. assert (M : 0 <= comp_max thr) by (eapply Rle_trans; [apply (T O)|apply comp_max_bound]).
    unfold roulette. destruct (5 <? nv)%Z; [|exists (Some thr); split; [reflexivity|intros t' [= <-]; exact T]].
    set (q := Rmax (2 / 10) (1 - comp_max thr)). destruct (Rlt_dec v q) as [L|L]; [exists None; split; [reflexivity|discriminate]|].
    assert (Q : q < 1) by lra. unfold vdiv. destruct (Req_EM_T (1 - q) 0); [lra|]. eexists. split; [reflexivity|]. intros t' [= <-] j. rewrite comp_vscale. apply Rmult_le_pos; [left; apply Rinv_0_lt_compat; lra|apply T].
  Qed.
  Lemma pt_next_inv nv r st w wc st' : pt_inv nv st -> good r -> pt_next nv r st = Some (w, wc, st') -> (forall j, 0 <= comp w j) /\ 0 <= wc /\ pt_inv (nv + 1) st'.
  Proof using HS.
    destruct st as [[[sp wi] c] rp]. intros (Hnv & Hp & Hs) Hr. destruct (HS sp wi c r Hp Hr) as (_ & _ & Hw0).
    assert (Hw : walkable A sp wi c (dir_draw nv r) (rn_draw r) P) by (unfold dir_draw; destruct (nv =? 1)%Z eqn:N; [apply Hs; [lia|exact Hr]|exact Hw0]).
    destruct Hw as [[s Edir] [o Eo] Hh]. unfold pt_next, hit_from. rewrite Edir, got_ret, Eo. destruct s as [[wo w']|]; [|discriminate].
    destruct (Hh wo w' o Edir Eo) as (Hw & (hit & Eh) & Hy). rewrite Eh, got_ret. destruct hit as [y|]; [|discriminate]. destruct (infinite (igeom y)) eqn:Ei; [discriminate|].
    destruct (Hy y Eh) as (_ & _ & _ & _ & Hc). destruct (Hc Ei) as (c' & wc' & Ec & Hc' & HP'). rewrite Ec. cbn [value ret]. intros [= <- <- <-]. split; [exact Hw|split; [exact Hc'|]].
    split; [lia|split; [exact HP'|lia]].
  Qed.
  Lemma pt_walk_gives k : forall nv rng sp wi c rp thr, pt_inv nv (sp, wi, c, rp) -> stream good rng -> (forall j, 0 <= comp thr j) -> gives (pt_walk A sm pmd win k nv rng sp wi c thr rp).
  Proof using HS i phi.
    induction k as [|k IH]; intros nv rng sp wi c rp thr Hi Hs T; [now exists []|].
    destruct (Hs O) as (r & v & Hr & Hv & E0).
    assert (Ew : pt_walk A sm pmd win (S k) nv rng sp wi c thr rp = pt_walk A sm pmd win (S k) nv (first (set_rr r v) (fun j => rng (S j))) sp wi c thr rp) by (cbn [pt_walk first]; rewrite <- E0; reflexivity).
    rewrite Ew. destruct (pt_round k nv r v (fun j => rng (S j)) sp wi c rp thr Hi Hr) as (l & _ & ->).
    destruct (pt_next nv r (sp, wi, c, rp)) as [[[w wc] [[[sp' wi'] c'] rp']]|] eqn:En; [|now exists l].
    destruct (pt_next_inv _ _ _ _ _ _ Hi Hr En) as (Hw & Hwc & Hi').
    destruct (roulette_fine nv v (vmul thr w) Hv) as (t & Et & Ht); [intros j; rewrite comp_vmul; apply Rmult_le_pos; auto|]. rewrite Et, pbind_okval. destruct t as [t|]; [|now exists l].
    destruct (IH (nv + 1)%Z (fun j => rng (S j)) sp' wi' c' rp' (vscale wc t) Hi') as (rest & Er); [intros j; apply (Hs (S j))|intros j; rewrite comp_vscale; apply Rmult_le_pos; [exact Hwc|eauto]|]. rewrite Er, pbind_val. eexists. reflexivity.
  Qed.

  Variables (E : (round -> R) -> R) (r0 : round).
  Hypothesis HE : average good E.
  Hypothesis H0 : exists r v, good r /\ 0 < v < 1 /\ r0 = set_rr r v.
  Notation reach := (reaches E i pt_now pt_next).
  Lemma pt_expect k nv sp wi c rp thr : pt_inv nv (sp, wi, c, rp) -> (forall j, 0 <= comp thr j) ->
    expect E r0 k (fun rng => total phi i (pt_walk A sm pmd win k nv rng sp wi c thr rp)) = comp thr i * reach k nv (sp, wi, c, rp).
  Proof using HS HE H0.
    intros Hi T. destruct (walk_expect good E r0 HE H0 i (2 / 10) (fun k nv rng (st : pstate) thr => let '(sp, wi, c, rp) := st in total phi i (pt_walk A sm pmd win k nv rng sp wi c thr rp)) pt_now pt_next pt_inv) with (k := k) (nv := nv) (st := (sp, wi, c, rp)) (thr := thr) as [_ X]; [lra|..].
    - intros nv' rng [[[? ?] ?] ?] thr'. reflexivity.
    - intros k' nv' r v rng [[[sp' wi'] c'] rp'] thr' Hi' Hr Hv Hs' T'. destruct (pt_round k' nv' r v rng sp' wi' c' rp' thr' Hi' Hr) as (l & Tl & ->). rewrite <- Tl.
      destruct (pt_next nv' r (sp', wi', c', rp')) as [[[w wc] [[[sp2 wi2] c2] rp2]]|] eqn:En; [|unfold total; cbn [value ret]; ring].
      destruct (pt_next_inv _ _ _ _ _ _ Hi' Hr En) as (Hw & Hwc & Hi2).
      destruct (roulette_fine nv' v (vmul thr' w) Hv) as (t & Et & Ht); [intros j; rewrite comp_vmul; apply Rmult_le_pos; auto|]. rewrite Et, pbind_okval. destruct t as [t|]; [|unfold total; cbn [value ret]; ring].
      destruct (pt_walk_gives k' (nv' + 1)%Z rng sp2 wi2 c2 rp2 (vscale wc t) Hi2 Hs') as (rest & Er); [intros j; rewrite comp_vscale; apply Rmult_le_pos; [exact Hwc|eauto]|]. rewrite Er, pbind_val. unfold total. cbn [value ret]. apply total_app.
    - intros. eapply pt_next_inv; eauto.
    - exact Hi.
    - exact T.
    - exact X.
  Qed.

  (** The weights of the two ways to reach a light add up. *)
  Lemma split_direct sp wi c (Phi : vec3 -> R) : sm <> Naive -> P sp wi c -> smooth A sp c = true -> unbiased_direct A E i good sp wi c ->
    E (fun r => connected A i (fun spL woL => Phi (vneg woL) * value 0 (nee_weight A sm sp wi c spL woL)) r sp wi c
                + match got (a_sample_direction api (rn_draw r) sp wi c EL) with
                  | None => 0
                  | Some (wo, w) => match hit_from A sp wo with
                                    | None => 0
                                    | Some y => Phi wo * (counted true * value 0 (hit_weight A sm true sp wi wo c (as_type y LightEndpoint))) * (comp w i * emitted A i y wo c)
                                    end
                  end)
    = E (fun r => connected A i (only_hidden A Phi) r sp wi c) + E (fun r => continued A i Phi r sp wi c (fun wo => emitted_along A i sp wo c)).
  Proof using HS HE.
    intros Hsm Hp Hsmooth (pl & Hl1 & Hl2 & Hu). set (pb := fun wo => value 0 (a_pdf_direction api sp wi wo c true)).
    set (g := fun wo => match sm with MIS => Phi wo * value 0 (Ok (balance_heuristic (pl wo) (pb wo))) | _ => Phi wo end).
    assert (Hspec : a_specular api sp c = ret false \/ forall r, ~ good r).
    { unfold smooth in Hsmooth. destruct (a_specular api sp c) as [[[|]| |]| | |] eqn:Es; try discriminate. now left. }
    transitivity (E (fun r => connected A i (only_hidden A Phi) r sp wi c + (connected A i (only_hittable A g) r sp wi c + continued A i (fun wo => Phi wo - g wo) r sp wi c (fun wo => emitted_along A i sp wo c)))).
    - apply (av_ext _ _ HE). intros r Hr. destruct Hspec as [Hspec|F]; [|now destruct (F r)]. destruct (HS sp wi c r Hp Hr) as (_ & [[sL E1] Hc] & [[s Edir] [o Eo] Hh]). rewrite <- Rplus_assoc. f_equal.
      + unfold connected. rewrite E1, got_ret. destruct sL as [[[spL woL] wL]|]; [|ring]. destruct (Hc spL woL wL E1) as ((vis & E2) & _ & (fs & E4) & (sL & E5) & (pL & E6 & P6) & pB & E7 & P7).
        rewrite E2, E4. cbn [value ret]. destruct vis; [|ring]. unfold only_hidden, only_hittable. destruct (hittable A spL) eqn:Eh.
        * pose proof (Hl1 r spL woL wL Hr E1 E2 Eh) as E6'. unfold hittable in Eh. rewrite E5 in Eh. cbn [value ret] in Eh. unfold nee_weight, g, pb. rewrite E7. cbn [value ret]. destruct sm; [congruence|cbn [value ret]; ring|].
          rewrite E5, pbind_val. replace (sL || degenerated (igeom spL)) with false by (destruct sL, (degenerated (igeom spL)); cbn in Eh |- *; congruence). rewrite E6', pbind_val, pbind_val. cbn [value ret]. ring.
        * unfold hittable in Eh. rewrite E5 in Eh. cbn [value ret] in Eh. unfold nee_weight. destruct sm; [congruence|cbn [value ret]; ring|].
          rewrite E5, pbind_val. replace (sL || degenerated (igeom spL)) with true by (destruct sL, (degenerated (igeom spL)); cbn in Eh |- *; congruence). cbn [value ret]. ring.
      + unfold continued, emitted_along. rewrite Edir, got_ret. destruct s as [[wo w]|]; [|reflexivity]. destruct (Hh wo w o Edir Eo) as (_ & (hit & Ehit) & Hy).
        destruct (hit_from A sp wo) as [y|] eqn:Ey; [|ring]. assert (Eint : a_intersect api o wo = ret (Some y)) by (unfold hit_from in Ey; rewrite Eo, Ehit, got_ret in Ey; now rewrite Ehit, Ey).
        destruct (Hy y Eint) as ((b & Eb) & _ & (qB & E6 & P6 & P6') & (qL & E7 & P7) & _). unfold g, counted. destruct sm; [congruence|ring|].
        destruct b; [|unfold emitted; rewrite Eb; ring]. pose proof (Hl2 r wo w y Hr Edir Ey Eb) as E7'. rewrite E7 in E7'. apply ret_inj in E7'. subst qL. unfold pb, hit_weight. rewrite E6. cbn [negb]. rewrite pbind_val, E7, pbind_val. cbn [value ret].
        specialize (P6' Hspec). destruct (balance_val qB (pl wo) P6 P7) as (x & Ex & Vx). destruct (balance_val (pl wo) qB P7 P6) as (x' & Ex' & Vx'). rewrite Ex, Ex'. cbn [value].
        replace x with (1 - x'); [ring|]. rewrite (Vx (or_introl P6')), (Vx' (or_intror P6')). field. lra.
    - rewrite (av_add _ _ HE). f_equal. rewrite (av_add _ _ HE), Hu, <- (av_add _ _ HE). apply (av_ext _ _ HE). intros r _. unfold continued. destruct (got _) as [[wo w]|]; ring.
  Qed.

  Definition lit : bool := match sm with Naive => false | _ => true end.
  Hypothesis HU : sm <> Naive -> forall sp wi c, P sp wi c -> smooth A sp c = true -> unbiased_direct A E i good sp wi c.
  (** A round whose directions are not restricted to a window *)
  Lemma reach_step k nv sp wi c rp : pt_inv nv (sp, wi, c, rp) -> (forall r, dir_draw nv r = rn_draw r) -> (forall r, good r -> forall wo w, a_sample_direction api (rn_draw r) sp wi c EL = ret (Some (wo, w)) -> exists rp', ras nv rp wo = Some rp') ->
    (forall sp' wi' c' rp', P sp' wi' c' -> reach k (nv + 1)%Z (sp', wi', c', rp') = phi rp' * radiance A E i lit k sp' wi' c') ->
    nee_on nv sp c = lit && smooth A sp c ->
    reach (S k) nv (sp, wi, c, rp) =
      (if lit && smooth A sp c then E (fun r => connected A i (only_hidden A (phi_at nv rp)) r sp wi c) else 0)
      + E (fun r => continued A i (phi_at nv rp) r sp wi c (fun wo => emitted_along A i sp wo c + reflected_along A (radiance A E i lit k) r sp wo)).
  Proof using HS HE HU.
    intros (Hnv & Hp & Hst) Hd Hras IH Hnee. cbn [reaches].
    transitivity (E (fun r => pt_now nv r (sp, wi, c, rp)) + E (fun r => continued A i (phi_at nv rp) r sp wi c (fun wo => reflected_along A (radiance A E i lit k) r sp wo))).
    { rewrite <- (av_add _ _ HE). apply (av_ext _ _ HE). intros r Hr. f_equal. destruct (HS sp wi c r Hp Hr) as (_ & _ & [[s Edir] [o Eo] Hh]).
      unfold pt_next, continued, reflected_along. rewrite Hd, Edir, got_ret. destruct s as [[wo w]|]; [|reflexivity]. destruct (Hh wo w o Edir Eo) as (_ & (hit & Ehit) & Hy).
      destruct (Hras r Hr wo w Edir) as (rp' & Er). unfold phi_at. rewrite Er. destruct (hit_from A sp wo) as [y|] eqn:Ey; [|ring]. assert (Eint : a_intersect api o wo = ret (Some y)) by (unfold hit_from in Ey; rewrite Eo, Ehit, got_ret in Ey; now rewrite Ehit, Ey).
      destruct (infinite (igeom y)) eqn:Ei; [ring|]. destruct (Hy y Eint) as (_ & _ & _ & _ & Hc). destruct (Hc Ei) as (c' & wc & Ec & _ & Hn). rewrite Ec. cbn [value ret]. rewrite (IH _ _ _ _ Hn). ring. }
    assert (Hsplit : forall r : round, True) by auto.
    transitivity (((if lit && smooth A sp c then E (fun r => connected A i (only_hidden A (phi_at nv rp)) r sp wi c) else 0)
      + E (fun r => continued A i (phi_at nv rp) r sp wi c (fun wo => emitted_along A i sp wo c))) + E (fun r => continued A i (phi_at nv rp) r sp wi c (fun wo => reflected_along A (radiance A E i lit k) r sp wo))).
    - f_equal. destruct (lit && smooth A sp c) eqn:El.
      + apply andb_prop in El. destruct El as [El Es]. assert (Hsm : sm <> Naive) by (unfold lit in El; destruct sm; [discriminate|discriminate|discriminate]).
        rewrite <- (split_direct sp wi c (phi_at nv rp) Hsm Hp Es (HU Hsm sp wi c Hp Es)). apply (av_ext _ _ HE). intros r _. unfold pt_now. rewrite Hnee, Hd. reflexivity.
      + rewrite Rplus_0_l. apply (av_ext _ _ HE). intros r _. unfold pt_now, continued, emitted_along. rewrite Hnee, Hd, Rplus_0_l.
        destruct (got _) as [[wo w]|]; [|reflexivity]. destruct (hit_from A sp wo) as [y|]; [|ring]. unfold counted, hit_weight. destruct sm; cbn [negb value ret]; ring.
    - rewrite Rplus_assoc. f_equal. rewrite <- (av_add _ _ HE). apply (av_ext _ _ HE). intros r _. unfold continued. destruct (got _) as [[wo w]|]; ring.
  Qed.
  Lemma reach_later k : forall nv sp wi c rp, (2 <= nv)%Z -> P sp wi c -> reach k nv (sp, wi, c, rp) = phi rp * radiance A E i lit k sp wi c.
  Proof using HS HE HU.
    induction k as [|k IH]; intros nv sp wi c rp Hnv Hp; [cbn; ring|].
    assert (N : (nv =? 1)%Z = false) by lia.
    rewrite reach_step.
    - cbn [radiance]. rewrite Rmult_plus_distr_l. f_equal.
      + destruct (lit && smooth A sp c); [|ring]. rewrite <- (av_scale _ _ HE). apply (av_ext _ _ HE). intros r _. unfold connected, only_hidden, phi_at, ras. rewrite N. destruct (got _) as [[[spL woL] wL]|]; [|ring]. destruct (value false _); [|ring]. destruct (hittable A spL); ring.
      + rewrite <- (av_scale _ _ HE). apply (av_ext _ _ HE). intros r _. unfold continued, phi_at, ras. rewrite N. destruct (got _) as [[wo w]|]; ring.
    - split; [lia|split; [exact Hp|lia]].
    - intros r. unfold dir_draw. now rewrite N.
    - intros r _ wo w _. exists rp. unfold ras. now rewrite N.
    - intros sp' wi' c' rp' Hp'. apply IH; [lia|exact Hp'].
    - unfold nee_on, lit. destruct sm; [reflexivity| |]; destruct pmd; cbn [andb]; try reflexivity; replace (1 <? nv)%Z with true by lia; reflexivity.
  Qed.
  Lemma window_unit u : windowed (0, 0, 1, 1) u = u.
  Proof. destruct u as [a [x y] b d]. unfold windowed, in_window. cbn. f_equal. f_equal; ring. Qed.
  Definition primary : bool := match pmd with PixelMode => false | ImageMode => true end.
  Lemma reach_first k sp c : P sp v0 c -> starts sp v0 c -> (pmd = ImageMode -> win = (0, 0, 1, 1)) ->
    reach k 1 (sp, v0, c, V2 0 0) = measured A E i lit primary win k sp c phi.
  Proof using HS HE HU.
    intros Hp Hst Hwin. destruct k as [|k]; [reflexivity|]. unfold measured, primary.
    assert (IH : forall sp' wi' c' rp', P sp' wi' c' -> reach k (1 + 1) (sp', wi', c', rp') = phi rp' * radiance A E i lit k sp' wi' c') by (intros; apply reach_later; [lia|assumption]).
    destruct pmd eqn:Epm.
    - rewrite andb_false_r. cbn [andb]. rewrite Rplus_0_l. cbn [reaches]. apply (av_ext _ _ HE). intros r Hr. set (Rk := reaches E i pt_now pt_next k (1 + 1)%Z) in *. clearbody Rk.
      unfold pt_now, pt_next, nee_on, dir_draw. rewrite Epm. change (1 =? 1)%Z with true. cbv iota.
      replace (match sm with Naive => false | _ => (1 <? 1)%Z && smooth A sp c end) with false by (destruct sm; reflexivity). cbv iota. rewrite Rplus_0_l.
      destruct (Hst r Hr) as ([[s Edir] [o Eo] Hh] & Hras). rewrite Edir, got_ret. destruct s as [[wo w]|]; [|ring]. destruct (Hras wo w Edir) as (rp' & Er). destruct (Hh wo w o Edir Eo) as (_ & (hit & Ehit) & Hy).
      unfold of_raster, phi_at, ras, emitted_along, reflected_along. change (1 =? 1)%Z with true. cbv iota. rewrite Er, got_ret.
      destruct (hit_from A sp wo) as [y|] eqn:Ey; [|ring]. assert (Eint : a_intersect api o wo = ret (Some y)) by (unfold hit_from in Ey; rewrite Eo, Ehit, got_ret in Ey; now rewrite Ehit, Ey).
      assert (Ecw : counted false * value 0 (hit_weight A sm false sp v0 wo c (as_type y LightEndpoint)) = 1) by (unfold counted, hit_weight; destruct sm; cbn [negb value ret]; ring). rewrite Ecw.
      destruct (infinite (igeom y)) eqn:Ei; [ring|]. destruct (Hy y Eint) as (_ & _ & _ & _ & Hc). destruct (Hc Ei) as (c' & wc & Ec & _ & Hn). rewrite Ec. cbn [value ret]. rewrite (IH _ _ _ _ Hn). ring.
    - rewrite andb_true_r. specialize (Hwin eq_refl).
      rewrite reach_step.
      + unfold of_raster, phi_at, ras. change (1 =? 1)%Z with true. cbv iota. f_equal. apply (av_ext _ _ HE). intros r _. rewrite Hwin, window_unit. reflexivity.
      + split; [lia|split; [exact Hp|intros _; exact Hst]].
      + intros r. unfold dir_draw. change (1 =? 1)%Z with true. cbv iota. now rewrite Hwin, window_unit.
      + intros r Hr wo w Ed. destruct (Hst r Hr) as (_ & Hras). rewrite Hwin, window_unit in Hras. destruct (Hras wo w Ed) as (rp' & Er). exists rp'. unfold ras. change (1 =? 1)%Z with true. cbv iota. now rewrite Er.
      + exact IH.
      + unfold nee_on, lit. rewrite Epm. destruct sm; reflexivity.
  Qed.
End PT.
