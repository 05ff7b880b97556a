From Coq Require Import List ZArith Bool String Lia Arith ZifyBool.
From Verif Require Import Base SceneModel SceneSpec SceneProofs PbrtModel PbrtSpec.
Import ListNotations.
Local Open Scope nat_scope. Local Open Scope list_scope.

Section Pbrt.
  Variables (A M : Type).
  Variable aone : A.
  Variable amul : A -> A -> A.
  Variable one : M.
  Variable mul : M -> M -> M.
  Variable conv : A -> M.
  Variable material : nat.
  Notation node := (node M).
  Notation pobj := (pobj A).
  Notation pst := (pst M).
  Notation content := (list (M * nat)).
  Notation len := (@List.length _).
  Hypothesis mul_one : forall T, mul T one = T.
  Hypothesis one_mul : forall T, mul one T = T.
  Hypothesis mul_assoc : forall a b c, mul a (mul b c) = mul (mul a b) c.

  Lemma pobj_nested (Q : pobj -> Prop) : (forall n sh insts, Forall (fun i => Q (snd i)) insts -> Q (PObj A n sh insts)) -> forall o, Q o.
  Proof.
    intros H. fix IH 1. intros [n sh insts]. apply H.
    induction insts as [|[x o] r IHr]; constructor; [apply IH|exact IHr].
  Qed.

  (** ** What a node shows; groups in [O] are not entered *)
  Section Yield.
    Variable ns : list node.
    Variable O : Z -> bool.
    Fixpoint yall (y : Z -> M -> option content) (l : list Z) (T : M) : option content :=
      match l with
      | [] => Some []
      | c :: r => match y c T, yall y r T with Some a, Some b => Some (a ++ b) | _, _ => None end
      end.
    Fixpoint yield (f : nat) (i : Z) (T : M) : option content :=
      match f with
      | 0 => None
      | S f =>
          if O i then None else
          match node_at ns i with
          | Ok (NPrim _ p) => Some (match p_mesh p with Some m => [(T, m)] | None => [] end)
          | Ok (NGroup _ ch _ loc) => yall (yield f) ch (match loc with Some L => mul T L | None => T end)
          | _ => None
          end
      end.
  End Yield.

  Lemma yall_impl (y y' : Z -> M -> option content) l T c : (forall i c, y i T = Some c -> y' i T = Some c) -> yall y l T = Some c -> yall y' l T = Some c.
  Proof.
    intros H. revert c. induction l as [|i l IH]; intros c E; [easy|]. cbn in *. destruct (y i T) eqn:E1; [|discriminate]. rewrite (H _ _ E1).
    destruct (yall y l T); [|discriminate]. now rewrite (IH _ eq_refl).
  Qed.
  Lemma yall_app y l1 l2 T c1 c2 : yall y l1 T = Some c1 -> yall y l2 T = Some c2 -> yall y (l1 ++ l2) T = Some (c1 ++ c2).
  Proof.
    revert c1. induction l1 as [|i l IH]; intros c1 E1 E2; cbn in *.
    - now injection E1 as <-.
    - destruct (y i T); [|discriminate]. destruct (yall y l T); [|discriminate]. injection E1 as <-. rewrite (IH _ eq_refl E2). now rewrite app_assoc.
  Qed.
  Lemma yield_mono ns ns' O O' : (forall i n, O i = false -> node_at ns i = Ok n -> O' i = false /\ node_at ns' i = Ok n) ->
    forall f i T c, yield ns O f i T = Some c -> yield ns' O' f i T = Some c.
  Proof.
    intros H. induction f as [|f IH]; intros i T c E; [discriminate|]. cbn in *. destruct (O i) eqn:Oi; [discriminate|].
    destruct (node_at ns i) as [n| | |] eqn:En; try discriminate. destruct (H i n Oi En) as [-> ->]. destruct n as [j p|j ch inst loc]; [easy|].
    revert E. apply yall_impl. intros. now apply IH.
  Qed.
  Lemma yield_more ns O f : forall i T c, yield ns O f i T = Some c -> forall f', f <= f' -> yield ns O f' i T = Some c.
  Proof.
    induction f as [|f IH]; intros i T c E [|f'] L; try discriminate; [lia|]. cbn in *. destruct (O i); [discriminate|].
    destruct (node_at ns i) as [[j p|j ch inst loc]| | |]; try easy. revert E. apply yall_impl. intros. apply IH; [easy|lia].
  Qed.
  Lemma yall_more ns O f l T c : yall (yield ns O f) l T = Some c -> forall f', f <= f' -> yall (yield ns O f') l T = Some c.
  Proof. intros E f' L. revert E. apply yall_impl. intros. now apply (yield_more ns O f). Qed.
  Definition moved (T : M) (c : content) : content := map (fun x => (mul T (fst x), snd x)) c.
  Lemma yield_shift ns O f : forall i B C c, yield ns O f i C = Some c -> yield ns O f i (mul B C) = Some (moved B c).
  Proof.
    induction f as [|f IH]; intros i B C c E; [discriminate|]. cbn in *. destruct (O i); [discriminate|].
    destruct (node_at ns i) as [[j p|j ch inst loc]| | |]; try discriminate.
    - injection E as <-. now destruct (p_mesh p).
    - assert (Q : match loc with Some L => mul (mul B C) L | None => mul B C end = mul B (match loc with Some L => mul C L | None => C end)) by (destruct loc; now rewrite ?mul_assoc).
      rewrite Q. set (C' := match loc with Some L => mul C L | None => C end) in *. clearbody C'. revert c E.
      induction ch as [|k ch IHc]; intros c E; [now injection E as <-|]. cbn in *.
      destruct (yield ns O f k C') eqn:E1; [|discriminate]. rewrite (IH _ B C' _ E1).
      destruct (yall (yield ns O f) ch C'); [|discriminate]. rewrite (IHc _ eq_refl). injection E as <-. unfold moved. now rewrite map_app.
  Qed.
  Lemma yield_visit ns O f : forall i T c, yield ns O f i T = Some c -> exists calls, visit mul ns f i T = (calls, Ok tt) /\ drawn M calls = c.
  Proof.
    induction f as [|f IH]; intros i T c E; [discriminate|]. rewrite visit_S. cbn in E. destruct (O i); [discriminate|].
    destruct (node_at ns i) as [[j p|j ch inst loc]| | |]; try discriminate.
    - injection E as <-. eexists. split; [reflexivity|]. cbn. now destruct (p_mesh p).
    - cbv zeta. change (match loc with Some L => mul T L | None => T end) with (here mul ns T loc) in E. set (T' := here mul ns T loc) in *.
      assert (Q : exists calls, vlist (fun k => visit mul ns f k T') ch = (calls, Ok tt) /\ drawn M calls = c).
      { clearbody T'. revert c E. induction ch as [|k ch IHc]; intros c E; [injection E as <-; now exists []|]. cbn in *.
        destruct (yield ns O f k T') eqn:E1; [|discriminate]. destruct (IH _ _ _ E1) as (ca & -> & D1). cbn [fst snd].
        destruct (yall (yield ns O f) ch T'); [|discriminate]. destruct (IHc _ eq_refl) as (cb & -> & D2). injection E as <-. cbn [fst snd].
        eexists. split; [reflexivity|]. unfold drawn in *. rewrite flat_map_app. now rewrite D1, D2. }
      destruct Q as (calls & -> & D). cbn [fst snd]. eexists. split; [reflexivity|]. exact D.
  Qed.

  (** ** What the model shows *)
  Notation seen_t := (list (string * content)).
  Fixpoint seen_at (n : string) (l : seen_t) : option content :=
    match l with [] => None | (m, c) :: r => if String.eqb n m then Some c else seen_at n r end.
  Definition own (l : list (option nat)) : content := map (fun m => (one, m)) (meshes l).
  Fixpoint shown (o : pobj) (X : A) (seen : seen_t) {struct o} : content * seen_t :=
    let '(PObj _ _ shapes insts) := o in
    let r := (fix each (l : list (A * pobj)) (seen : seen_t) {struct l} : content * seen_t :=
       match l with
       | [] => ([], seen)
       | (x, o') :: r =>
           let G := amul X x in
           let a := match seen_at (po_name A o') seen with
                    | Some c => (moved (conv G) c, seen)
                    | None => let b := shown o' G seen in ([], (po_name A o', fst b) :: snd b)
                    end in
           let b := each r (snd a) in (fst a ++ fst b, snd b)
       end) insts seen in
    (own shapes ++ fst r, snd r).

  (** ** The nodes *)
  Definition open_in (O : Z -> bool) (ns : list node) : Prop := forall i, O i = true -> (0 <= i < Z.of_nat (len ns))%Z.
  Definition recorded (ns : list node) (O : Z -> bool) (vis : list (string * Z)) (seen : seen_t) : Prop :=
    Forall2 (fun v e => fst v = fst e /\ exists f, yield ns O f (snd v) one = Some (snd e)) vis seen.
  Definition wf (s : pst) (O : Z -> bool) (seen : seen_t) : Prop :=
    numbered (ps_nodes M s) /\ open_in O (ps_nodes M s) /\ recorded (ps_nodes M s) O (ps_visited M s) seen.
  (** From [ns] to [ns'], node [p] got the children [new], and all others are kept. *)
  Definition grown (p : nat) (new : list Z) (ns ns' : list node) : Prop :=
    (forall k n, nth_error ns k = Some n -> k <> p -> nth_error ns' k = Some n) /\
    (exists i ch inst loc, nth_error ns p = Some (NGroup i ch inst loc) /\ nth_error ns' p = Some (NGroup i (ch ++ new) inst loc)).
  Lemma grown_trans p a b n1 n2 n3 : grown p a n1 n2 -> grown p b n2 n3 -> grown p (a ++ b) n1 n3.
  Proof.
    intros (K1 & i & ch & inst & loc & G1 & G2) (K2 & i' & ch' & inst' & loc' & G3 & G4). split; [auto|].
    rewrite G2 in G3. injection G3 as <- <- <- <-. exists i, ch, inst, loc. split; [easy|]. now rewrite G4, app_assoc.
  Qed.
  Lemma node_at_nat (ns : list node) i n : node_at ns i = Ok n -> exists k, i = Z.of_nat k /\ nth_error ns k = Some n.
  Proof.
    unfold node_at. destruct (i <? 0)%Z eqn:E; [discriminate|]. apply Z.ltb_ge in E. destruct (nth_error ns (Z.to_nat i)) eqn:N; [|discriminate].
    intros [= ->]. exists (Z.to_nat i). rewrite Z2Nat.id by easy. now split.
  Qed.
  Lemma nat_node_at (ns : list node) k n : nth_error ns k = Some n -> node_at ns (Z.of_nat k) = Ok n.
  Proof. intros H. unfold node_at. destruct (Z.of_nat k <? 0)%Z eqn:E; [lia|]. now rewrite Nat2Z.id, H. Qed.
  Lemma grown_keeps p new ns ns' O : grown p new ns ns' -> O (Z.of_nat p) = true ->
    forall i n, O i = false -> node_at ns i = Ok n -> O i = false /\ node_at ns' i = Ok n.
  Proof.
    intros [K _] Op i n Oi N. split; [easy|]. apply node_at_nat in N as (k & -> & N). apply nat_node_at. apply K; [easy|]. intros ->. congruence.
  Qed.
  Lemma recorded_mono ns ns' O O' vis seen : (forall i n, O i = false -> node_at ns i = Ok n -> O' i = false /\ node_at ns' i = Ok n) ->
    recorded ns O vis seen -> recorded ns' O' vis seen.
  Proof.
    intros H. induction 1 as [|v e vis seen [E (f & Y)] _ IH]; constructor; [|easy]. split; [easy|]. exists f. now apply (yield_mono ns ns' O O').
  Qed.
  Lemma recorded_at ns O vis seen n : recorded ns O vis seen ->
    match lookup n vis, seen_at n seen with
    | Some g, Some c => exists f, yield ns O f g one = Some c
    | None, None => True
    | _, _ => False
    end.
  Proof.
    induction 1 as [|[m g] [m' c] vis seen [E Y] _ IH]; cbn in *; [easy|]. subst m'. destruct (String.eqb n m); [exact Y|exact IH].
  Qed.
  Lemma numbered_push (ns : list node) n : numbered ns -> n_index n = Z.of_nat (len ns) -> numbered (ns ++ [n]).
  Proof.
    intros H E k x N. destruct (lt_dec k (len ns)) as [L|L].
    - rewrite nth_error_app1 in N by easy. now apply H.
    - rewrite nth_error_app2 in N by lia. destruct (k - len ns) as [|q] eqn:Q; [|now destruct q]. cbn in N. injection N as <-. rewrite E. f_equal. lia.
  Qed.
  Lemma put_same {B} (l : list B) k x : k < len l -> nth_error (put l k x) k = Some x.
  Proof. revert k. induction l as [|a l IH]; intros [|k] L; cbn in *; try lia; [easy|]. apply IH. lia. Qed.
  Lemma put_other {B} (l : list B) k j x : j <> k -> nth_error (put l k x) j = nth_error l j.
  Proof. revert k j. induction l as [|a l IH]; intros [|k] [|j] N; cbn in *; try easy. apply IH. lia. Qed.
  Lemma put_len {B} (l : list B) k x : len (put l k x) = len l.
  Proof. revert k. induction l as [|a l IH]; intros [|k]; cbn; auto. Qed.
  Lemma link_grows p c s i ch inst loc : nth_error (ps_nodes M s) p = Some (NGroup i ch inst loc) -> numbered (ps_nodes M s) ->
    exists s', link M (Z.of_nat p) c s = Ok s' /\ grown p [c] (ps_nodes M s) (ps_nodes M s') /\ numbered (ps_nodes M s')
      /\ ps_visited M s' = ps_visited M s /\ len (ps_nodes M s') = len (ps_nodes M s) /\ ps_meshes M s' = ps_meshes M s.
  Proof.
    intros H Num. unfold link. destruct (Z.of_nat p <? 0)%Z eqn:E; [lia|]. rewrite Nat2Z.id, H. eexists. split; [reflexivity|]. cbn.
    assert (L : p < len (ps_nodes M s)) by (apply nth_error_Some; congruence).
    split; [split|split; [|split; [easy|split; [now rewrite put_len|easy]]]].
    - intros k n Hk Ne. now rewrite put_other.
    - exists i, ch, inst, loc. split; [easy|]. now apply put_same.
    - intros k n Hk. destruct (Nat.eq_dec k p) as [->|Ne].
      + rewrite put_same in Hk by easy. injection Hk as <-. specialize (Num _ _ H). exact Num.
      + rewrite put_other in Hk by easy. now apply Num.
  Qed.
  Lemma grown_len p new ns ns' : grown p new ns ns' -> len ns <= len ns'.
  Proof.
    intros [K (i & ch & inst & loc & G & G')]. destruct (le_lt_dec (len ns) (len ns')) as [L|L]; [easy|exfalso].
    destruct (nth_error ns (len ns')) as [n|] eqn:N; [|apply nth_error_None in N; lia].
    destruct (Nat.eq_dec (len ns') p) as [E|E].
    - assert (p < len ns') by (apply nth_error_Some; congruence). lia.
    - specialize (K _ _ N E). assert (len ns' < len ns') by (apply nth_error_Some; congruence). lia.
  Qed.
  Lemma grown_push p new ns ns' n : p < len ns -> grown p new (ns ++ [n]) ns' -> grown p new ns ns'.
  Proof.
    intros L [K (i & ch & inst & loc & G & G')]. split.
    - intros k x N. apply K. rewrite nth_error_app1; [easy|]. apply nth_error_Some. congruence.
    - exists i, ch, inst, loc. now rewrite nth_error_app1 in G by easy.
  Qed.
  Lemma grown_nil p (ns : list node) i ch inst loc : nth_error ns p = Some (NGroup i ch inst loc) -> grown p [] ns ns.
  Proof. intros H. split; [easy|]. exists i, ch, inst, loc. now rewrite app_nil_r. Qed.
  Lemma grown_group p new ns ns' : grown p new ns ns' -> exists i ch inst loc, nth_error ns' p = Some (NGroup i ch inst loc).
  Proof. intros [_ (i & ch & inst & loc & _ & G)]. eauto. Qed.

  Definition is_group (ns : list node) (p : nat) : Prop := exists i ch inst loc, nth_error ns p = Some (NGroup i ch inst loc).
  (** The outcome of a part of the import: new children of [p] that show [c] *)
  Definition done (p : nat) (O : Z -> bool) (s : pst) (c : content) (seen : seen_t) (r : outcome pst) : Prop :=
    exists s' new f, r = Ok s' /\ grown p new (ps_nodes M s) (ps_nodes M s') /\ wf s' O seen /\
      yall (yield (ps_nodes M s') O f) new one = Some c.
  Arguments done p O s c seen r : clear implicits.
  Lemma done_then p O s c1 seen1 r k c2 seen2 : O (Z.of_nat p) = true -> done p O s c1 seen1 r ->
    (forall s1, wf s1 O seen1 -> is_group (ps_nodes M s1) p -> done p O s1 c2 seen2 (k s1)) -> done p O s (c1 ++ c2) seen2 (obind r k).
  Proof.
    intros Op (s1 & n1 & f1 & -> & G1 & W1 & Y1) H. cbn [obind]. destruct (H s1 W1 (grown_group _ _ _ _ G1)) as (s2 & n2 & f2 & -> & G2 & W2 & Y2).
    exists s2, (n1 ++ n2), (f1 + f2). split; [easy|]. split; [now apply (grown_trans p n1 n2 _ (ps_nodes M s1))|]. split; [easy|].
    apply yall_app.
    - apply (yall_more _ _ f1); [|lia]. revert Y1. apply yall_impl. intros i c. apply yield_mono. now apply (grown_keeps p n2).
    - apply (yall_more _ _ f2); [easy|lia].
  Qed.

  (** Adding a node and linking it below [p] *)
  Lemma add_node p O s seen n : wf s O seen -> O (Z.of_nat p) = true -> is_group (ps_nodes M s) p -> n_index n = Z.of_nat (len (ps_nodes M s)) ->
    forall ms, exists s', link M (Z.of_nat p) (Z.of_nat (len (ps_nodes M s))) (mk_pst M (ps_nodes M s ++ [n]) ms (ps_visited M s)) = Ok s' /\
      grown p [Z.of_nat (len (ps_nodes M s))] (ps_nodes M s) (ps_nodes M s') /\ wf s' O seen /\ nth_error (ps_nodes M s') (len (ps_nodes M s)) = Some n /\
      O (Z.of_nat (len (ps_nodes M s))) = false /\ ps_visited M s' = ps_visited M s /\ len (ps_nodes M s') = S (len (ps_nodes M s)).
  Proof.
    intros (Num & Op & Rec) Pp (i & ch & inst & loc & G) Ei ms.
    assert (L : p < len (ps_nodes M s)) by (apply nth_error_Some; congruence).
    assert (Num' : numbered (ps_nodes M s ++ [n])) by now apply numbered_push.
    destruct (link_grows p (Z.of_nat (len (ps_nodes M s))) (mk_pst M (ps_nodes M s ++ [n]) ms (ps_visited M s)) i ch inst loc) as (s' & E & Gr & N' & V & Le & _); cbn; [now rewrite nth_error_app1|easy|].
    cbn in Gr, Le, V. rewrite app_length in Le. cbn in Le. rewrite Nat.add_1_r in Le. exists s'. split; [exact E|].
    assert (Gr' := grown_push _ _ _ _ _ L Gr). split; [easy|]. split; [|split; [|split; [|now split]]].
    - split; [easy|]. split.
      + intros j Oj. specialize (Op j Oj). lia.
      + rewrite V. apply (recorded_mono (ps_nodes M s) _ O); [|easy]. now apply (grown_keeps p [Z.of_nat (len (ps_nodes M s))]).
    - destruct Gr as [K _]. apply K; [rewrite nth_error_app2, Nat.sub_diag by lia; easy|lia].
    - destruct (O (Z.of_nat (len (ps_nodes M s)))) eqn:Q; [|easy]. specialize (Op _ Q). lia.
  Qed.

  Lemma shapes_done p O l : O (Z.of_nat p) = true -> forall s seen, wf s O seen -> is_group (ps_nodes M s) p ->
    done p O s (own l) seen (add_shapes M material (Z.of_nat p) l s).
  Proof.
    intros Op. induction l as [|[m|] l IH]; intros s seen W Gp.
    - exists s, [], 0. split; [easy|]. destruct Gp as (i & ch & inst & loc & G). split; [now apply (grown_nil p _ i ch inst loc)|]. now split.
    - cbn [add_shapes]. change (own (Some m :: l)) with ([(one, m)] ++ own l). unfold psize.
      apply (done_then p O s [(one, m)] seen); [easy| |intros; now apply IH].
      destruct (add_node p O s seen (NPrim (Z.of_nat (len (ps_nodes M s))) (mk_prim (Some m) (Some material) None None None)) W Op Gp eq_refl (ps_meshes M s ++ [m])) as (s' & E & Gr & W' & Nn & On & _).
      exists s', [Z.of_nat (len (ps_nodes M s))], 1. split; [exact E|]. split; [easy|]. split; [easy|].
      cbn. rewrite On, (nat_node_at _ _ _ Nn). easy.
    - cbn [add_shapes]. change (own (None :: l)) with (own l). now apply IH.
  Qed.

  Definition each_inst (parent : Z) (X : A) := 
    fix each (l : list (A * pobj)) (s : pst) {struct l} : outcome pst :=
      match l with
      | [] => Ok s
      | (x, o') :: r =>
          let G := amul X x in
          let t := psize M s in
          obind (link M parent t (push M (NGroup t [] false (Some (conv G))) s)) (fun s2 =>
          obind (match lookup (po_name A o') (ps_visited M s2) with
                 | Some g => link M t g s2
                 | None =>
                     let g := psize M s2 in
                     obind (visit_object A M amul one conv material o' g G (push M (NGroup g [] true (Some one)) s2)) (fun s' =>
                     Ok (mk_pst M (ps_nodes M s') (ps_meshes M s') ((po_name A o', g) :: ps_visited M s')))
                 end) (fun s3 => each r s3))
      end.
  Definition each_shown (X : A) :=
    fix each (l : list (A * pobj)) (seen : seen_t) {struct l} : content * seen_t :=
       match l with
       | [] => ([], seen)
       | (x, o') :: r =>
           let G := amul X x in
           let a := match seen_at (po_name A o') seen with
                    | Some c => (moved (conv G) c, seen)
                    | None => let b := shown o' G seen in ([], (po_name A o', fst b) :: snd b)
                    end in
           let b := each r (snd a) in (fst a ++ fst b, snd b)
       end.

  Lemma visit_done o : forall p O X s seen, O (Z.of_nat p) = true -> wf s O seen -> is_group (ps_nodes M s) p ->
    done p O s (fst (shown o X seen)) (snd (shown o X seen)) (visit_object A M amul one conv material o (Z.of_nat p) X s).
  Proof.
    induction o as [nm sh insts IHo] using pobj_nested. intros p O X s seen Op W Gp.
    change (shown (PObj A nm sh insts) X seen) with (let r := each_shown X insts seen in (own sh ++ fst r, snd r)).
    change (visit_object A M amul one conv material (PObj A nm sh insts) (Z.of_nat p) X s) with (obind (add_shapes M material (Z.of_nat p) sh s) (fun s1 => each_inst (Z.of_nat p) X insts s1)).
    cbn [fst snd]. apply (done_then p O s (own sh) seen); [easy|now apply shapes_done|]. clear s W Gp sh.
    intros s W Gp. revert s seen W Gp. induction IHo as [|[x o'] r Ho Hr IH]; intros s seen W Gp.
    - exists s, [], 0. split; [easy|]. destruct Gp as (i & ch & inst & loc & G). split; [now apply (grown_nil p _ i ch inst loc)|]. now split.
    - cbn [each_inst each_shown fst snd]. set (G := amul X x). cbn [snd] in Ho.
      (* the transform group *)
      unfold push. change (psize M s) with (Z.of_nat (len (ps_nodes M s))). set (t := len (ps_nodes M s)).
      destruct (add_node p O s seen (NGroup (Z.of_nat t) [] false (Some (conv G))) W Op Gp eq_refl (ps_meshes M s)) as (s2 & E2 & Gr2 & W2 & N2 & Ot & V2 & L2).
      fold t in E2, Gr2, N2, Ot, L2. rewrite E2. cbn [obind]. pose proof W2 as (Num2 & Op2 & Rec2).
      pose proof (recorded_at _ _ _ _ (po_name A o') Rec2) as RA.
      destruct (lookup (po_name A o') (ps_visited M s2)) as [g|] eqn:El.
      + destruct (seen_at (po_name A o') seen) as [c|] eqn:Es; [|easy]. clear RA. cbn [fst snd].
        destruct (link_grows t g s2 _ _ _ _ N2 Num2) as (s3 & E3 & Gr3 & Num3 & V3 & L3 & _).
        apply (done_then p O s (moved (conv G) c) seen); [easy| |intros; now apply IH].
        assert (Nt : nth_error (ps_nodes M s3) t = Some (NGroup (Z.of_nat t) [g] false (Some (conv G)))).
        { destruct Gr3 as [_ (i & ch & inst & loc & A1 & A2)]. rewrite N2 in A1. injection A1 as <- <- <- <-. exact A2. }
        (* [t] is not entered from [g] *)
        assert (Keep : forall i n, orb (O i) (Z.eqb i (Z.of_nat t)) = false -> node_at (ps_nodes M s2) i = Ok n -> O i = false /\ node_at (ps_nodes M s3) i = Ok n).
        { intros i n Oi N. apply orb_false_iff in Oi as [Oi Ne]. split; [easy|]. apply node_at_nat in N as (k & -> & N). apply nat_node_at.
          destruct Gr3 as [K _]. apply K; [easy|]. intros ->. now rewrite Z.eqb_refl in Ne. }
        assert (Old : recorded (ps_nodes M s2) (fun i => orb (O i) (Z.eqb i (Z.of_nat t))) (ps_visited M s2) seen).
        { rewrite V2. destruct W as (_ & _ & Rec). apply (recorded_mono (ps_nodes M s) _ O); [|easy]. intros i n Oi N.
          destruct (grown_keeps p _ _ _ O Gr2 Op i n Oi N) as [_ N']. rewrite Oi. cbn. split; [|easy]. apply node_at_nat in N as (k & -> & N).
          apply Z.eqb_neq. assert (k < t) by (apply nth_error_Some; congruence). lia. }
        pose proof (recorded_at _ _ _ _ (po_name A o') Old) as RO. rewrite El, Es in RO. destruct RO as (f' & Y').
        exists s3, [Z.of_nat t], (S f'). split; [exact E3|]. split; [|split].
        * destruct Gr2 as [K2 (i & ch & inst & loc & A1 & A2)]. destruct Gr3 as [K3 _].
          assert (p <> t) by (intros ->; congruence).
          split; [intros k n Hk Ne; apply K3; [now apply K2|]; intros ->; apply (Nat.lt_irrefl t); apply (proj1 (nth_error_Some (ps_nodes M s) t)); congruence|].
          exists i, ch, inst, loc. split; [easy|]. now apply K3.
        * split; [easy|]. split; [intros i Oi; rewrite L3; now apply Op2|]. rewrite V3. now apply (recorded_mono (ps_nodes M s2) _ (fun i => orb (O i) (Z.eqb i (Z.of_nat t)))).
        * cbn [yall]. cbn [yield]. rewrite Ot, (nat_node_at _ _ _ Nt). cbn [yall]. rewrite one_mul.
          rewrite <- (mul_one (conv G)), (yield_shift _ _ _ _ (conv G) one c); [now rewrite !app_nil_r, ?mul_one|].
          now apply (yield_mono (ps_nodes M s2) _ (fun i => orb (O i) (Z.eqb i (Z.of_nat t)))).
      + destruct (seen_at (po_name A o') seen) as [c|]; [easy|]. cbn [fst snd]. set (b := shown o' G seen).
        apply (done_then p O s [] ((po_name A o', fst b) :: snd b)); [easy| |intros; now apply IH].
        change (psize M s2) with (Z.of_nat (len (ps_nodes M s2))). set (g := len (ps_nodes M s2)).
        set (s2' := mk_pst M (ps_nodes M s2 ++ [NGroup (Z.of_nat g) [] true (Some one)]) (ps_meshes M s2) (ps_visited M s2)).
        set (O' := fun i => orb (O i) (Z.eqb i (Z.of_nat g))).
        assert (Og : O (Z.of_nat g) = false) by (destruct (O (Z.of_nat g)) eqn:Q; [specialize (Op2 _ Q); unfold g in Op2; lia|easy]).
        assert (W2' : wf s2' O' seen).
        { split; [now apply numbered_push|]. split.
          - intros i. unfold O'. rewrite orb_true_iff. cbn. rewrite app_length. cbn. fold g. intros [Oi|Ei]; [specialize (Op2 _ Oi); fold g in Op2; lia|apply Z.eqb_eq in Ei; lia].
          - cbn. apply (recorded_mono (ps_nodes M s2) _ O); [|easy]. intros i n Oi N. unfold O'. rewrite Oi. cbn. apply node_at_nat in N as (k & -> & N).
            assert (k < g) by (apply nth_error_Some; unfold g; congruence). split; [apply Z.eqb_neq; lia|]. apply nat_node_at. now rewrite nth_error_app1. }
        assert (Ng : nth_error (ps_nodes M s2') g = Some (NGroup (Z.of_nat g) [] true (Some one))) by (cbn; unfold g; rewrite nth_error_app2, Nat.sub_diag by lia; easy).
        destruct (Ho g O' G s2' seen) as (s' & new & f & -> & Gr' & (Num' & Op' & Rec') & Y'); [unfold O'; rewrite Z.eqb_refl; apply orb_true_r|easy|now do 4 eexists; exact Ng|].
        fold b in Rec', Y'. cbn [obind]. exists (mk_pst M (ps_nodes M s') (ps_meshes M s') ((po_name A o', Z.of_nat g) :: ps_visited M s')), [Z.of_nat t], 1.
        assert (Keep : forall i n, O' i = false -> node_at (ps_nodes M s') i = Ok n -> O i = false /\ node_at (ps_nodes M s') i = Ok n).
        { intros i n Oi N. unfold O' in Oi. apply orb_false_iff in Oi as [Oi _]. now split. }
        assert (Ng' : nth_error (ps_nodes M s') g = Some (NGroup (Z.of_nat g) new true (Some one))).
        { destruct Gr' as [_ (i & ch & inst & loc & A1 & A2)]. rewrite Ng in A1. injection A1 as <- <- <- <-. exact A2. }
        assert (To : forall k n, nth_error (ps_nodes M s2) k = Some n -> nth_error (ps_nodes M s') k = Some n).
        { intros k n Hk. assert (k < g) by (apply nth_error_Some; unfold g; congruence). destruct Gr' as [K _]. apply K; [cbn; now rewrite nth_error_app1|lia]. }
        cbn [ps_nodes]. split; [easy|]. split; [|split].
        * destruct Gr2 as [K2 (i & ch & inst & loc & A1 & A2)]. split; [intros k n Hk Ne; apply To; now apply K2|]. exists i, ch, inst, loc. split; [easy|now apply To].
        * split; [easy|]. split; [intros i Oi; apply Op'; unfold O'; now rewrite Oi|]. cbn [ps_visited ps_nodes]. constructor.
          -- cbn [fst snd]. split; [easy|]. exists (S f). cbn [yield]. rewrite Og, (nat_node_at _ _ _ Ng'), mul_one. revert Y'. apply yall_impl. intros i c. now apply yield_mono.
          -- now apply (recorded_mono (ps_nodes M s') _ O').
        * cbn [yall]. cbn [yield]. rewrite Ot, (nat_node_at _ _ _ (To _ _ N2)). easy.
  Qed.

  Lemma camera_done cam : let O := Z.eqb 0 in done 0 O (pst0 M) [] [] (add_camera M cam (pst0 M)).
  Proof.
    cbv zeta. assert (W : wf (pst0 M) (Z.eqb 0) []).
    { split; [intros [|[|k]] n H; [now injection H as <-|discriminate|discriminate]|]. split; [|constructor]. intros i Hi. apply Z.eqb_eq in Hi. cbn. lia. }
    assert (Gp : is_group (ps_nodes M (pst0 M)) 0) by (do 4 eexists; reflexivity). destruct cam as [c|].
    - destruct (add_node 0 (Z.eqb 0) (pst0 M) [] (NPrim 1 (mk_prim None None None (Some c) None)) W eq_refl Gp eq_refl []) as (s' & E & Gr & W' & Nn & On & _).
      exists s', [1%Z], 1. split; [exact E|]. split; [easy|]. split; [easy|]. change [1%Z] with [Z.of_nat (len (ps_nodes M (pst0 M)))]. cbn [yall yield]. rewrite On, (nat_node_at _ _ _ Nn). easy.
    - exists (pst0 M), [], 0. split; [easy|]. split; [now apply (grown_nil 0 _ 0%Z [] false None)|]. now split.
  Qed.
  (** The import succeeds, and traversing the nodes gives what [shown] says. *)
  Lemma construct_shown cam world : exists s f calls, pbrt_construct A M aone amul one conv material cam world = Ok s /\
    numbered (ps_nodes M s) /\ visit mul (ps_nodes M s) f 0 one = (calls, Ok tt) /\ drawn M calls = fst (shown world aone []).
  Proof.
    assert (D : done 0 (Z.eqb 0) (pst0 M) ([] ++ fst (shown world aone [])) (snd (shown world aone [])) (pbrt_construct A M aone amul one conv material cam world)).
    { unfold pbrt_construct. apply (done_then 0 (Z.eqb 0) (pst0 M) [] []); [easy|apply camera_done|]. intros s W G. now apply (visit_done world 0). }
    destruct D as (s & new & f & E & [_ (i & ch & inst & loc & G1 & G2)] & (Num & _) & Y). cbn in G1. injection G1 as <- <- <- <-. cbn [app] in *.
    exists s, (S f). destruct (yield_visit (ps_nodes M s) (fun _ => false) (S f) 0%Z one (fst (shown world aone []))) as (calls & V & D).
    - change 0%Z with (Z.of_nat 0). cbn [yield]. rewrite (nat_node_at _ _ _ G2). revert Y. apply yall_impl. intros j c. apply yield_mono. easy.
    - exists calls. now split.
  Qed.
  Lemma add_shapes_meshes p l : forall s s', add_shapes M material p l s = Ok s' -> ps_meshes M s' = ps_meshes M s ++ meshes l.
  Proof.
    induction l as [|[m|] l IH]; intros s s' E; cbn [add_shapes] in E.
    - injection E as <-. cbn. now rewrite app_nil_r.
    - unfold link in E. destruct (p <? 0)%Z; [discriminate|]. cbn [ps_nodes] in E. destruct (nth_error _ _) as [[?|? ? ? ?]|]; try discriminate. cbn [obind] in E.
      rewrite (IH _ _ E). cbn. now rewrite <- app_assoc.
    - exact (IH _ _ E).
  Qed.

  (** ** Scenes without instances within instances *)
  Definition flat (o : pobj) : Prop := let '(PObj _ _ _ insts) := o in insts = [].
  Definition shapes_of (o : pobj) : list (option nat) := let '(PObj _ _ sh _) := o in sh.
  Lemma moved_own T l : moved T (own l) = map (fun m => (T, m)) (meshes l).
  Proof. unfold moved, own. rewrite map_map. apply map_ext. intros m. cbn. now rewrite mul_one. Qed.
  Hypothesis aone_mul : forall x, amul aone x = x.
  Lemma flat_shown nm sh insts : Forall (fun i => flat (snd i)) insts ->
    (forall i j, In i insts -> In j insts -> po_name A (snd i) = po_name A (snd j) -> snd i = snd j) ->
    fst (shown (PObj A nm sh insts) aone []) =
    own sh ++ flat_map (fun k => match nth_error insts k with
      | Some (x, o) => if existsb (fun j => String.eqb (po_name A o) (po_name A (snd j))) (firstn k insts) then map (fun m => (conv x, m)) (meshes (shapes_of o)) else []
      | None => [] end) (seq 0 (len insts)).
  Proof.
    intros F Inj. change (shown (PObj A nm sh insts) aone []) with (let r := each_shown aone insts [] in (own sh ++ fst r, snd r)). cbn [fst snd]. f_equal.
    assert (G : forall l pre seen, insts = pre ++ l ->
      (forall n, match seen_at n seen with Some c => exists i, In i pre /\ po_name A (snd i) = n /\ c = own (shapes_of (snd i)) | None => ~ exists i, In i pre /\ po_name A (snd i) = n end) ->
      fst (each_shown aone l seen) = flat_map (fun k => match nth_error insts k with
      | Some (x, o) => if existsb (fun j => String.eqb (po_name A o) (po_name A (snd j))) (firstn k insts) then map (fun m => (conv x, m)) (meshes (shapes_of o)) else []
      | None => [] end) (seq (len pre) (len l))).
    { induction l as [|[x o] l IH]; intros pre seen Ei Hs; [easy|]. cbn [each_shown List.length seq flat_map fst snd].
      rewrite aone_mul.
      assert (N : nth_error insts (len pre) = Some (x, o)) by (rewrite Ei, nth_error_app2, Nat.sub_diag by lia; easy). rewrite N.
      assert (Fp : firstn (len pre) insts = pre) by (rewrite Ei, firstn_app, Nat.sub_diag, firstn_all; cbn; apply app_nil_r). rewrite Fp.
      assert (Inx : In (x, o) insts) by (rewrite Ei; apply in_or_app; right; now left).
      rewrite Forall_forall in F. pose proof (F _ Inx) as Fo. cbn [snd] in Fo.
      pose proof (Hs (po_name A o)) as Ho. destruct (seen_at (po_name A o) seen) as [c|] eqn:Es.
      - destruct Ho as (i & Ini & Eq & ->). cbn [fst snd]. f_equal.
        + assert (Eb : existsb (fun j => String.eqb (po_name A o) (po_name A (snd j))) pre = true) by (apply existsb_exists; exists i; split; [easy|]; rewrite Eq; apply String.eqb_refl).
          rewrite Eb, moved_own. rewrite (Inj i (x, o)); [easy|rewrite Ei; apply in_or_app; now left|easy|easy].
        + replace (S (len pre)) with (len (pre ++ [(x, o)])) by (rewrite app_length; cbn; lia). apply IH; [now rewrite <- app_assoc|].
          intros n. specialize (Hs n). destruct (seen_at n seen) as [c|].
          * destruct Hs as (j & Inj' & En & Ec). exists j. split; [apply in_or_app; now left|easy].
          * intros (j & Inj' & En). apply in_app_or in Inj' as [Inj'|[<-|[]]]; [apply Hs; now exists j|]. apply Hs. exists i. split; [easy|]. cbn in En. now rewrite Eq.
      - assert (Eb : existsb (fun j => String.eqb (po_name A o) (po_name A (snd j))) pre = false).
        { destruct (existsb _ pre) eqn:Q; [|easy]. apply existsb_exists in Q as (i & Ini & Eq). apply String.eqb_eq in Eq. destruct Ho. exists i. now split. }
        rewrite Eb. destruct o as [no so io]. cbn in Fo. subst io. cbn [po_name] in *. change (shown (PObj A no so []) x seen) with (own so ++ [], seen). rewrite app_nil_r. cbn [fst snd app].
        replace (S (len pre)) with (len (pre ++ [(x, PObj A no so [])])) by (rewrite app_length; cbn; lia). apply IH; [now rewrite <- app_assoc|].
        intros n. cbn [seen_at]. destruct (String.eqb_spec n no) as [->|Nn].
        + exists (x, PObj A no so []). split; [apply in_or_app; right; now left|now split].
        + specialize (Hs n). destruct (seen_at n seen) as [c|].
          * destruct Hs as (j & Inj' & En & Ec). exists j. split; [apply in_or_app; now left|easy].
          * intros (j & Inj' & En). apply in_app_or in Inj' as [Inj'|[<-|[]]]; [apply Hs; now exists j|]. cbn in En; congruence. }
    apply (G insts [] []); [easy|]. intros n. cbn. now intros (i & [] & _).
  Qed.
End Pbrt.
