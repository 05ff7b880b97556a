From Coq Require Import List String ZArith Bool Lia Relations Sorting.Sorted.
From Verif Require Import Base JsonModel JsonSpec JsonProofs SceneModel SceneSpec.
Import ListNotations.
Open Scope string_scope. Open Scope list_scope. Open Scope nat_scope.

(** ** Nodes *)
Section N.
  Context {M : Type}.
  Notation node := (node M).
  Implicit Type ns : list node.

  Lemma node_at_ok ns i n : node_at ns i = Ok n <-> has_node ns i n.
  Proof.
    unfold node_at, has_node. destruct (Z.ltb_spec i 0).
    - split; [discriminate|lia].
    - destruct (nth_error ns (Z.to_nat i)); split; try discriminate; try (intros [_ [=]]); try (intros [= <-]; auto).
      subst. reflexivity.
  Qed.
  Lemma node_at_cases ns i : (exists n, node_at ns i = Ok n) \/ (node_at ns i = Throw ErrOutOfRange /\ forall n, ~ has_node ns i n).
  Proof.
    destruct (node_at ns i) as [n| | |] eqn:E; [eauto| | |]; right;
      (split; [|intros n Hn; apply node_at_ok in Hn; congruence]); revert E; unfold node_at;
      destruct (Z.ltb i 0); try congruence; destruct (nth_error ns (Z.to_nat i)); congruence.
  Qed.
  Lemma has_node_fun ns i n n' : has_node ns i n -> has_node ns i n' -> n = n'.
  Proof. intros [_ H] [_ H']. congruence. Qed.
  Lemma has_node_lt ns i n : has_node ns i n -> (0 <= i < Z.of_nat (List.length ns))%Z.
  Proof. intros [H1 H2]. assert (nth_error ns (Z.to_nat i) <> None) by congruence. apply nth_error_Some in H. lia. Qed.
  Lemma has_node_ex ns i : (0 <= i < Z.of_nat (List.length ns))%Z -> exists n, has_node ns i n.
  Proof.
    intros H. destruct (nth_error ns (Z.to_nat i)) as [n|] eqn:E; [exists n; split; [lia|assumption]|].
    apply nth_error_None in E. lia.
  Qed.

  Lemma path_start ns i p j Ls : path ns i p j Ls -> exists n, has_node ns i n.
  Proof. intros []; eauto. Qed.
  Lemma path_end ns i p j Ls : path ns i p j Ls -> exists n, has_node ns j n.
  Proof. induction 1; eauto. Qed.

  (** ** Traversal *)
  Section V.
    Variable mul : M -> M -> M.
    Definition here (ns : list node) (T : M) (loc : option M) : M := match loc with Some L => mul T L | None => T end.

    Section VL.
      Variable v : Z -> list (node * M) * outcome unit.
      Fixpoint vlist (l : list Z) : list (node * M) * outcome unit :=
        match l with
        | [] => ([], Ok tt)
        | c :: r =>
            let a := v c in
            match snd a with
            | Ok _ => let b := vlist r in (fst a ++ fst b, snd b)
            | e => (fst a, e)
            end
        end.
    End VL.

    Lemma visit_S ns f i T : visit mul ns (S f) i T =
      match node_at ns i with
      | Ok (NPrim x p) => ([(NPrim x p, T)], Ok tt)
      | Ok (NGroup x ch inst loc) =>
          let r := vlist (fun c => visit mul ns f c (here ns T loc)) ch in
          ((NGroup x ch inst loc, T) :: fst r, snd r)
      | Throw e => ([], Throw e) | UB => ([], UB) | Fuel => ([], Fuel)
      end.
    Proof. reflexivity. Qed.

    Definition shows ns i T (p : list nat) (c : node * M) : Prop :=
      exists j Ls, path ns i p j Ls /\ has_node ns j (fst c) /\ snd c = fold_left mul Ls T.

    Lemma before_cons_list n l l' : (forall p, In p l -> exists q, p = n :: q) -> (forall p, In p l' -> exists m q, n < m /\ p = m :: q) ->
      StronglySorted before l -> StronglySorted before l' -> StronglySorted before (l ++ l').
    Proof.
      intros H1 H2 S1 S2. induction S1 as [|x l Sl IH Hx]; cbn; [assumption|]. constructor.
      - apply IH. intros p Hp. apply H1. now right.
      - rewrite Forall_forall in *. intros q Hq. apply in_app_or in Hq. destruct Hq as [Hq|Hq]; [now apply Hx|].
        destruct (H1 x (or_introl eq_refl)) as [y ->]. destruct (H2 q Hq) as (m & z & Hm & ->). now constructor.
    Qed.

    Lemma visit_spec ns f : forall i T calls, visit mul ns f i T = (calls, Ok tt) ->
      exists paths, StronglySorted before paths
        /\ (forall p, In p paths <-> exists j Ls, path ns i p j Ls)
        /\ Forall2 (shows ns i T) paths calls.
    Proof.
      induction f as [|f IH]; intros i T calls H; [discriminate|]. rewrite visit_S in H.
      destruct (node_at ns i) as [[x p|x ch inst loc]| | |] eqn:En; try discriminate.
      - injection H as <-. apply node_at_ok in En. exists [[]]. split; [repeat constructor|]. split.
        + intros q. split.
          * intros [<-|[]]. exists i, []. econstructor. eassumption.
          * intros (j & Ls & Hp). inversion Hp as [? n Hn|? ? ? ? ? ? ? ? ? ? Hn]; subst; [now left|].
            assert (E := has_node_fun _ _ _ _ En Hn). discriminate.
        + repeat constructor. exists i, []. cbn. repeat split; [econstructor; eassumption|apply En|apply En].
      - apply node_at_ok in En.
        set (T' := here ns T loc) in *. cbv zeta in H. injection H as <- Hok.
        assert (G : forall l n, snd (vlist (fun c => visit mul ns f c T') l) = Ok tt ->
          exists paths, StronglySorted before paths
            /\ (forall p, In p paths <-> exists k c q j Ls, p = (n + k) :: q /\ nth_error l k = Some c /\ path ns c q j Ls)
            /\ Forall2 (fun p call => exists k c q j Ls, p = (n + k) :: q /\ nth_error l k = Some c /\ path ns c q j Ls
                          /\ has_node ns j (fst call) /\ snd call = fold_left mul Ls T') paths (fst (vlist (fun c => visit mul ns f c T') l))).
        { induction l as [|c l IHl]; intros n Hl; cbn [vlist fst snd] in *.
          - exists []. split; [constructor|]. split; [|constructor]. intros p. split; [intros []|].
            intros (k & c & q & j & Ls & _ & Hk & _). destruct k; discriminate.
          - destruct (visit mul ns f c T') as [ca ea] eqn:Ea. cbn [fst snd] in *.
            destruct ea as [u| | |]; try discriminate. destruct u.
            destruct (IH _ _ _ Ea) as (pa & Sa & Ia & Fa). cbn [fst snd] in Hl |- *.
            destruct (IHl (S n) Hl) as (pb & Sb & Ib & Fb).
            exists (map (cons n) pa ++ pb). split; [|split].
            + apply (before_cons_list n).
              * intros p Hp. apply in_map_iff in Hp. destruct Hp as (q & <- & _). eauto.
              * intros p Hp. apply Ib in Hp. destruct Hp as (k & c' & q & j & Ls & -> & _). exists (S n + k), q. split; [lia|reflexivity].
              * clear -Sa. induction Sa as [|x l Sl IH Hx]; cbn; constructor; [assumption|].
                rewrite Forall_forall in *. intros y Hy. apply in_map_iff in Hy. destruct Hy as (z & <- & Hz). apply bf_tail. now apply Hx.
              * assumption.
            + intros p. rewrite in_app_iff, in_map_iff. split.
              * intros [(q & <- & Hq)|Hb].
                { apply Ia in Hq. destruct Hq as (j & Ls & Hq). exists 0, c, q, j, Ls. rewrite Nat.add_0_r. cbn. auto. }
                { apply Ib in Hb. destruct Hb as (k & c' & q & j & Ls & -> & Hk & Hq). exists (S k), c', q, j, Ls.
                  split; [f_equal; lia|]. split; [exact Hk|assumption]. }
              * intros ([|k] & c' & q & j & Ls & -> & Hk & Hq).
                { left. cbn in Hk. injection Hk as <-. exists q. rewrite Nat.add_0_r. split; [reflexivity|]. apply Ia. eauto. }
                { right. apply Ib. exists k, c', q, j, Ls. split; [f_equal; lia|]. split; [exact Hk|assumption]. }
            + apply Forall2_app.
              * clear -Fa. induction Fa as [|p call pl cl (j & Ls & Hp & Hn & HT) _ IH]; cbn; constructor; [|assumption].
                exists 0, c, p, j, Ls. rewrite Nat.add_0_r. cbn. auto.
              * revert Fb. apply JsonProofs.Forall2_imp. intros p call (k & c' & q & j & Ls & -> & Hk & Hq & Hn & HT).
                exists (S k), c', q, j, Ls. split; [f_equal; lia|]. split; [exact Hk|auto]. }
        destruct (G ch 0 Hok) as (paths & Sp & Ip & Fp). exists ([] :: paths). split; [|split].
        + constructor; [assumption|]. apply Forall_forall. intros q Hq. apply Ip in Hq.
          destruct Hq as (k & c & q' & j & Ls & -> & _). constructor.
        + intros q. cbn [In]. rewrite Ip. split.
          * intros [<-|(k & c & q' & j & Ls & -> & Hk & Hq)]; [exists i, []; econstructor; eassumption|].
            do 2 eexists. econstructor; eassumption.
          * intros (j & Ls & Hq). inversion Hq as [? n Hn|? k c q' ? Ls' ? ch' ? ? Hn Hk Hq']; subst; [now left|right].
            assert (E := has_node_fun _ _ _ _ En Hn). injection E as <- <- <- <-. exists k, c, q', j, Ls'. auto.
        + constructor.
          * exists i, []. cbn. split; [econstructor; eassumption|]. split; [assumption|reflexivity].
          * revert Fp. apply JsonProofs.Forall2_imp. intros p call (k & c & q & j & Ls & -> & Hk & Hq & Hn & HT).
            exists j, (match loc with Some L => L :: Ls | None => Ls end). split; [econstructor; eassumption|]. split; [assumption|].
            rewrite HT. unfold T', here. destruct loc; reflexivity.
    Qed.

    (** The traversal never ends with undefined behaviour or any exception but out_of_range. *)
    Lemma visit_outcome ns f : forall i T, snd (visit mul ns f i T) = Ok tt \/ snd (visit mul ns f i T) = Fuel
      \/ snd (visit mul ns f i T) = Throw ErrOutOfRange.
    Proof.
      induction f as [|f IH]; intros i T; [now right; left|]. rewrite visit_S.
      destruct (node_at_cases ns i) as [[[x p|x ch inst loc] ->]|[-> _]]; cbn [snd]; [now left| |now right; right].
      cbv zeta. cbn [snd]. generalize (here ns T loc). intros T'. induction ch as [|c ch IHc]; cbn; [now left|].
      destruct (IH c T') as [->|[->| ->]]; cbn; auto.
    Qed.

    (** Out of fuel: a chain of children of that length. *)
    Fixpoint chain ns (i : Z) (l : list Z) : Prop := match l with [] => True | c :: r => child ns i c /\ chain ns c r end.

    Lemma vlist_fuel ns v l : snd (vlist v l) = Fuel -> exists k c, nth_error l k = Some c /\ snd (v c) = Fuel.
    Proof.
      induction l as [|c l IH]; cbn; [discriminate|].
      destruct (snd (v c)) as [u| | |] eqn:E; cbn; try discriminate.
      - intros H. destruct (IH H) as (k & c' & Hk & Hc). exists (S k), c'. auto.
      - intros _. exists 0, c. auto.
    Qed.
    Lemma vlist_throw ns v l e : snd (vlist v l) = Throw e -> exists k c, nth_error l k = Some c /\ snd (v c) = Throw e.
    Proof.
      induction l as [|c l IH]; cbn; [discriminate|].
      destruct (snd (v c)) as [u| | |] eqn:E; cbn; try discriminate.
      - intros H. destruct (IH H) as (k & c' & Hk & Hc). exists (S k), c'. auto.
      - intros [= ->]. exists 0, c. auto.
    Qed.

    Lemma visit_fuel ns f : forall i T, snd (visit mul ns f i T) = Fuel -> exists l, List.length l = f /\ chain ns i l.
    Proof.
      induction f as [|f IH]; intros i T H; [exists []; cbn; auto|]. rewrite visit_S in H.
      destruct (node_at_cases ns i) as [[[x p|x ch inst loc] En]|[En _]]; rewrite En in H; try discriminate.
      apply node_at_ok in En. cbv zeta in H. cbn [snd] in H. apply (vlist_fuel ns) in H. destruct H as (k & c & Hk & Hc).
      apply IH in Hc. destruct Hc as (l & Hl & Hch). exists (c :: l). split; [cbn; lia|]. cbn. split; [|assumption].
      exists k. do 4 eexists. split; eassumption.
    Qed.

    Lemma visit_throw ns f : forall i T, snd (visit mul ns f i T) = Throw ErrOutOfRange ->
      exists j, descendant ns i j /\ forall n, ~ has_node ns j n.
    Proof.
      induction f as [|f IH]; intros i T H; [discriminate|]. rewrite visit_S in H.
      destruct (node_at_cases ns i) as [[[x p|x ch inst loc] En]|[En Hn]]; rewrite En in H; try discriminate.
      - apply node_at_ok in En. cbv zeta in H. cbn [snd] in H. apply (vlist_throw ns) in H. destruct H as (k & c & Hk & Hc).
        apply IH in Hc. destruct Hc as (j & Hj & Hno). exists j. split; [|assumption].
        eapply rt_trans; [apply rt_step|exact Hj]. exists k. do 4 eexists. split; eassumption.
      - exists i. split; [apply rt_refl|assumption].
    Qed.

    Lemma chain_descends ns l : forall i c, chain ns i l -> In c l -> clos_trans Z (child ns) i c.
    Proof.
      induction l as [|d l IH]; intros i c Hc Hi; [destruct Hi|]. destruct Hc as [H1 H2]. destruct Hi as [<-|Hi]; [now apply t_step|].
      eapply t_trans; [apply t_step; exact H1|]. now apply IH.
    Qed.

    Lemma chain_dup ns l : forall i, chain ns i l -> ~ NoDup (i :: l) -> exists j, descendant ns i j /\ clos_trans Z (child ns) j j.
    Proof.
      induction l as [|d l IH]; intros i Hc Hd.
      - exfalso. apply Hd. repeat constructor. intros [].
      - destruct (in_dec Z.eq_dec i (d :: l)) as [Hi|Hi].
        + exists i. split; [apply rt_refl|]. eapply chain_descends; eassumption.
        + destruct Hc as [H1 H2]. destruct (IH d H2) as (j & Hj & Hjj).
          * intros H. apply Hd. now constructor.
          * exists j. split; [|assumption]. eapply rt_trans; [apply rt_step; exact H1|exact Hj].
    Qed.

    Lemma child_parent ns i c : child ns i c -> exists n, has_node ns i n.
    Proof. intros (k & x & ch & inst & loc & H & _). eauto. Qed.

    Lemma chain_nodes ns l : forall i, chain ns i l -> forall k, In k (removelast (i :: l)) -> (0 <= k < Z.of_nat (List.length ns))%Z.
    Proof.
      induction l as [|d l IH]; intros i Hc k Hk; [destruct Hk|]. destruct Hc as [H1 H2].
      change (removelast (i :: d :: l)) with (i :: removelast (d :: l)) in Hk. destruct Hk as [<-|Hk].
      - apply child_parent in H1. destruct H1 as [n Hn]. eapply has_node_lt; eassumption.
      - eapply IH; eassumption.
    Qed.

    Lemma visit_terminates ns i T : traversable ns i -> snd (visit mul ns (S (S (List.length ns))) i T) = Ok tt.
    Proof.
      intros [Ha He]. destruct (visit_outcome ns (S (S (List.length ns))) i T) as [H|[H|H]]; [assumption| |]; exfalso.
      - apply visit_fuel in H. destruct H as (l & Hl & Hc).
        assert (D : ~ NoDup (i :: l)).
        { intros Hn. assert (Hn' : NoDup (removelast (i :: l))).
          { assert (E := app_removelast_last 0%Z (l := i :: l) ltac:(discriminate)). rewrite E in Hn. apply NoDup_remove_1 in Hn. now rewrite app_nil_r in Hn. }
          assert (L : List.length (removelast (i :: l)) = S (S (List.length ns))).
          { assert (E := app_removelast_last 0%Z (l := i :: l) ltac:(discriminate)). apply (f_equal (@List.length Z)) in E.
            rewrite app_length in E. cbn [List.length] in E. lia. }
          assert (I : incl (removelast (i :: l)) (map Z.of_nat (seq 0 (List.length ns)))).
          { intros k Hk. assert (B := chain_nodes ns l i Hc k Hk). apply in_map_iff. exists (Z.to_nat k). split; [lia|]. apply in_seq. lia. }
          assert (X := NoDup_incl_length Hn' I). rewrite map_length, seq_length in X. lia. }
        destruct (chain_dup ns l i Hc D) as (j & Hj & Hjj). exact (Ha j Hj Hjj).
      - apply visit_throw in H. destruct H as (j & Hj & Hno). destruct (He j Hj) as [n Hn]. exact (Hno n Hn).
    Qed.

    (** Conversely. *)
    Lemma vlist_ok v l : snd (vlist v l) = Ok tt -> forall k c, nth_error l k = Some c -> snd (v c) = Ok tt.
    Proof.
      induction l as [|d l IH]; intros H k c Hk; [destruct k; discriminate|]. cbn in H.
      destruct (snd (v d)) as [u| | |] eqn:E; cbn in H; try discriminate. destruct u.
      destruct k as [|k]; [injection Hk as <-; assumption|]. exact (IH H k c Hk).
    Qed.
    Lemma visit_child ns f i T c : snd (visit mul ns (S f) i T) = Ok tt -> child ns i c -> exists T', snd (visit mul ns f c T') = Ok tt.
    Proof.
      rewrite visit_S. intros H (k & x & ch & inst & loc & Hn & Hk). apply node_at_ok in Hn. rewrite Hn in H.
      cbv zeta in H. cbn [snd] in H. eexists. exact (vlist_ok _ _ H k c Hk).
    Qed.
    Lemma visit_chain ns l : forall f i T, snd (visit mul ns f i T) = Ok tt -> chain ns i l -> List.length l < f.
    Proof.
      induction l as [|c l IH]; intros [|f] i T H Hc; try discriminate; cbn; [lia|]. destruct Hc as [H1 H2].
      destruct (visit_child _ _ _ _ _ H H1) as [T' H']. specialize (IH f c T' H' H2). lia.
    Qed.

    Lemma trans_chain ns i j : clos_trans Z (child ns) i j -> exists l, chain ns i (l ++ [j]).
    Proof.
      intros H. apply clos_trans_t1n in H. induction H as [i j H|i c j H _ [l IH]]; [exists []; cbn; auto|].
      exists (c :: l). cbn. auto.
    Qed.
    Lemma chain_app ns l : forall i j l', chain ns i (l ++ [j]) -> chain ns j l' -> chain ns i (l ++ [j] ++ l').
    Proof.
      induction l as [|c l IH]; intros i j l'; cbn.
      - intros [H _] H'. auto.
      - intros [H1 H2] H'. split; [assumption|]. exact (IH _ _ _ H2 H').
    Qed.
    Lemma visit_ok_desc ns f i T j : snd (visit mul ns f i T) = Ok tt -> descendant ns i j -> exists f' T', snd (visit mul ns f' j T') = Ok tt.
    Proof.
      intros H Hd. apply clos_rt_rt1n in Hd. revert f T H. induction Hd as [i|i c j Hc _ IH]; intros f T H; [eauto|].
      destruct f as [|f]; [discriminate|]. destruct (visit_child _ _ _ _ _ H Hc) as [T' H']. eauto.
    Qed.

    Lemma visit_traversable ns f i T : snd (visit mul ns f i T) = Ok tt -> traversable ns i.
    Proof.
      intros H. split; intros j Hd; destruct (visit_ok_desc _ _ _ _ _ H Hd) as (f' & T' & Hj).
      - intros Hc. apply trans_chain in Hc. destruct Hc as [l Hl].
        assert (G : forall n, exists l', chain ns j l' /\ n <= List.length l').
        { induction n as [|n (l' & Hc & Hn)]; [exists []; cbn; split; [exact I|lia]|]. exists (l ++ [j] ++ l').
          split; [now apply chain_app|]. rewrite !app_length. cbn. lia. }
        destruct (G f') as (l' & Hc & Hn). assert (X := visit_chain _ _ _ _ _ Hj Hc). lia.
      - destruct f' as [|f']; [discriminate|]. rewrite visit_S in Hj.
        destruct (node_at ns j) as [n| | |] eqn:E; try discriminate. exists n. now apply node_at_ok.
    Qed.

    (** More fuel does not change a finished traversal. *)
    Lemma visit_more ns f : forall f' i T, f <= f' -> snd (visit mul ns f i T) = Ok tt -> visit mul ns f' i T = visit mul ns f i T.
    Proof.
      induction f as [|f IH]; intros f' i T Hf H; [discriminate|]. destruct f' as [|f']; [lia|].
      rewrite visit_S in H. rewrite !visit_S. destruct (node_at ns i) as [[x p|x ch inst loc]| | |]; try reflexivity.
      cbv zeta in *. cbn [snd] in H. generalize dependent (here ns T loc). intros T' H.
      assert (E : vlist (fun c => visit mul ns f' c T') ch = vlist (fun c => visit mul ns f c T') ch).
      { clear x inst loc T. induction ch as [|c ch IHc]; [reflexivity|]. cbn in H |- *.
        destruct (visit mul ns f c T') as [ca ea] eqn:Ea. cbn [fst snd] in *. destruct ea as [u| | |]; try discriminate. destruct u.
        rewrite (IH f' c T') by (rewrite ?Ea; cbn; auto; lia). rewrite Ea. cbn [fst snd] in *. rewrite (IHc H). reflexivity. }
      now rewrite E.
    Qed.
  End V.
End N.
