From Coq Require Import List String Ascii ZArith NArith Bool Lia.
From Verif Require Import Base JsonModel JsonSpec PyModel PySpec PyProofs CallModel CallSpec.
Import ListNotations.
Open Scope string_scope. Open Scope list_scope.

Section P.
  Context {F : Type}.
  Variables (encode : pystr -> option string) (debug : bool).
  Notation load := (load (F := F) encode debug). Notation means := (means (F := F) encode).
  Lemma key_text (v : py F) s : load_key encode v = Some s <-> is_text encode v s.
  Proof.
    unfold is_text, key_is. split.
    - destruct v as [| | | |t|b| | | | |]; cbn [load_key]; intros H; try discriminate; [left; eauto|right; congruence].
    - intros [(t & -> & H)| ->]; [exact H|reflexivity].
  Qed.
  Lemma text_fun (v : py F) a b : is_text encode v a -> is_text encode v b -> a = b.
  Proof. intros H G. apply key_text in H, G. congruence. Qed.
  Lemma cast_kwargs_ok kw p : cast_kwargs encode debug kw = Ok p <-> means (dict_of kw) p.
  Proof.
    rewrite <- (load_iff encode debug). unfold cast_kwargs, as_dict, dict_of. destruct (load _) as [j|e| |]; try tauto.
    destruct e; try tauto. destruct n as [|[|n]]; try tauto. split; discriminate.
  Qed.
  (** What the dispatcher does for load *)
  Lemma dispatch_two (n k : py F) kw : dispatch encode debug load_overloads [n; k] kw =
    match load_key encode n, load_key encode k with Some a, Some b => Ok (1%nat, [VStr a; VStr b], kw) | _, _ => Throw arg_error end.
  Proof.
    unfold dispatch, load_overloads, pass, bind. cbn. destruct (load_key encode n), (load_key encode k); reflexivity.
  Qed.
  Lemma dispatch_three (n k v : py F) : dispatch encode debug load_overloads [n; k; v] [] =
    obind (load_arg encode debug true TJson v) (fun r => match load_key encode n, load_key encode k, r with Some a, Some b, Some j => Ok (0%nat, [VStr a; VStr b; j], []) | _, _, _ => Throw arg_error end).
  Proof.
    unfold dispatch, load_overloads, pass, bind. cbn. destruct (load_key encode n), (load_key encode k), (load v) as [j|e| |]; cbn; try reflexivity;
      destruct e; try reflexivity; destruct n0 as [|[|n0]]; reflexivity.
  Qed.
  Lemma dispatch_other (args : list (py F)) kw : List.length args <> 2%nat -> (List.length args <> 3%nat \/ kw <> []) -> dispatch encode debug load_overloads args kw = Throw arg_error.
  Proof.
    intros L2 L3. destruct args as [|a [|b [|c [|d args]]]]; cbn in L2, L3; try reflexivity; try lia.
    destruct L3 as [L3|L3]; [lia|]. unfold dispatch, load_overloads, pass, bind. cbn. destruct kw as [|e kw]; [congruence|]. reflexivity.
  Qed.

  Lemma load_json_ok v c : load_arg encode debug true TJson v = Ok (Some c) <-> exists j, c = VJson j /\ means v j.
  Proof.
    cbn [load_arg]. split.
    - destruct (load v) as [j|e| |] eqn:E; try discriminate.
      + intros H. injection H as <-. exists j. split; [reflexivity|]. now apply (load_iff encode debug).
      + destruct e; try discriminate. destruct n as [|[|n]]; discriminate.
    - intros (j & -> & H). apply (load_iff encode debug) in H. now rewrite H.
  Qed.
  Lemma load_call_iff interface (args : list (py F)) (kw : kwargs F) name key p :
    load_call encode debug interface args kw = Ok (name, key, p) <-> asks encode interface args kw name key p.
  Proof.
    split.
    - intros H. unfold load_call in H.
      destruct (PeanoNat.Nat.eq_dec (List.length args) 2) as [L|L].
      + destruct args as [|n [|k [|]]]; try discriminate. rewrite dispatch_two in H.
        destruct (load_key encode n) as [a|] eqn:N; [|discriminate]. destruct (load_key encode k) as [b|] eqn:K; [|discriminate].
        cbn [obind] in H. destruct (cast_kwargs encode debug kw) as [q|e| |] eqn:C; try discriminate. cbn [obind] in H.
        injection H as <- <- <-. apply by_keywords; [now apply key_text|now apply key_text|now apply cast_kwargs_ok].
      + destruct (PeanoNat.Nat.eq_dec (List.length args) 3) as [L'|L'].
        2:{ rewrite dispatch_other in H by auto. discriminate. }
        destruct kw as [|e kw].
        2:{ rewrite dispatch_other in H; [discriminate|exact L|right; discriminate]. }
        destruct args as [|n [|k [|v [|]]]]; try discriminate. rewrite dispatch_three in H.
        destruct (load_arg encode debug true TJson v) as [r|e| |] eqn:V; try discriminate. cbn [obind] in H.
        destruct (load_key encode n) as [a|] eqn:N; [|discriminate]. destruct (load_key encode k) as [b|] eqn:K; [|discriminate].
        destruct r as [c|]; [|discriminate]. apply load_json_ok in V. destruct V as (j & -> & M). cbn [obind] in H. injection H as <- <- <-.
        apply by_position; [now apply key_text|now apply key_text|exact M].
    - intros H. unfold load_call. destruct H as [n k name impl kw p N K M|n k v name impl p N K M].
      + rewrite dispatch_two. apply key_text in N, K. rewrite N, K. apply cast_kwargs_ok in M. cbn [obind]. now rewrite M.
      + rewrite dispatch_three. apply key_text in N, K. rewrite N, K.
        rewrite (proj2 (load_json_ok v (VJson p)) (ex_intro _ p (conj eq_refl M))). reflexivity.
  Qed.
  Lemma load_call_shape interface (args : list (py F)) (kw : kwargs F) : ~ well_shaped encode args kw -> List.length args <> 3%nat \/ kw <> [] ->
    load_call encode debug interface args kw = Throw arg_error.
  Proof.
    intros W L. unfold load_call. destruct (PeanoNat.Nat.eq_dec (List.length args) 2) as [E|E].
    - destruct args as [|n [|k [|]]]; try discriminate. rewrite dispatch_two.
      destruct (load_key encode n) as [a|] eqn:N; [|reflexivity]. destruct (load_key encode k) as [b|] eqn:K; [|reflexivity].
      destruct W. left. exists n, k, a, b. split; [reflexivity|]. split; now apply key_text.
    - now rewrite dispatch_other.
  Qed.
  (** init *)
  Lemma init_one default (t : py F) kw : dispatch encode debug (init_overloads default) [t] kw =
    match load_key encode t with
    | Some a => Ok (1%nat, [VStr a], kw)
    | None => dispatch encode debug (init_overloads default) [t] kw
    end.
  Proof.
    destruct (load_key encode t) as [a|] eqn:T; [|reflexivity]. unfold dispatch, init_overloads. cbn [pass].
    match goal with |- context [bind ?o [t] kw] => destruct (bind o [t] kw) as [[vs rest]|] eqn:B end.
    - assert (exists w, vs = [t; w]) as (w & ->).
      { unfold bind in B. cbn [o_params List.length Nat.ltb Nat.leb firstn skipn existsb] in B.
        destruct (_ || _)%bool in B; [discriminate|]. cbn [fill p_name p_default] in B. destruct (kfind (text "prop") kw) as [w|]; cbn in B.
        - destruct (kremove _ kw); cbn in B; [injection B as <- <-; eauto|discriminate].
        - destruct kw; cbn in B; [injection B as <- <-; eauto|discriminate]. }
      cbn [map o_params p_type load_args load_arg]. rewrite T. cbn. rewrite T. reflexivity.
    - cbn. rewrite T. reflexivity.
  Qed.
  Lemma init_one_none default (t : py F) kw r : load_key encode t = None -> dispatch encode debug (init_overloads default) [t] kw <> Ok r.
  Proof.
    intros T. unfold dispatch, init_overloads. cbn [pass].
    match goal with |- context [bind ?o [t] kw] => destruct (bind o [t] kw) as [[vs rest]|] eqn:B end.
    - assert (exists w, vs = [t; w]) as (w & ->).
      { unfold bind in B. cbn [o_params List.length Nat.ltb Nat.leb firstn skipn existsb] in B.
        destruct (_ || _)%bool in B; [discriminate|]. cbn [fill p_name p_default] in B. destruct (kfind (text "prop") kw) as [w|]; cbn in B.
        - destruct (kremove _ kw); cbn in B; [injection B as <- <-; eauto|discriminate].
        - destruct kw; cbn in B; [injection B as <- <-; eauto|discriminate]. }
      cbn [map o_params p_type load_args load_arg]. rewrite T. cbn. rewrite T. cbn.
      destruct (load w) as [j|e| |]; cbn; try discriminate. destruct e; try discriminate. destruct n as [|[|n]]; discriminate.
    - cbn. rewrite T. discriminate.
  Qed.
  Lemma init_two default (t v : py F) kw : dispatch encode debug (init_overloads default) [t; v] kw =
    match kw with
    | [] => obind (load_arg encode debug true TJson v) (fun r => match load_key encode t, r with Some a, Some j => Ok (0%nat, [VStr a; j], []) | _, _ => Throw arg_error end)
    | _ => Throw arg_error
    end.
  Proof.
    unfold dispatch, init_overloads. destruct kw as [|e kw].
    - cbn. destruct (load_key encode t), (load v) as [j|e| |]; cbn; try reflexivity; destruct e; try reflexivity; destruct n as [|[|n]]; reflexivity.
    - cbn [pass]. assert (B : forall ps, List.length ps = 2%nat -> bind (mk_overload ps false) [t; v] (e :: kw) = None).
      { intros ps L. destruct ps as [|a [|b [|]]]; try discriminate. unfold bind. cbn [o_params List.length Nat.ltb Nat.leb firstn skipn fill o_kwargs negb andb].
        now destruct (existsb _ _). }
      rewrite !B by reflexivity. reflexivity.
  Qed.
  Lemma kfind_in k (kw : kwargs F) v : kfind k kw = Some v -> In (k, v) kw.
  Proof. induction kw as [|[k' w] kw IH]; cbn; [discriminate|]. destruct (list_eq_dec N.eq_dec k k') as [->|]; [intros H; injection H as <-; now left|auto]. Qed.
  Lemma kfind_none k (kw : kwargs F) : kfind k kw = None <-> ~ In k (map fst kw).
  Proof.
    induction kw as [|[k' w] kw IH]; cbn; [tauto|]. destruct (list_eq_dec N.eq_dec k k') as [->|Ne]; [split; [discriminate|intros H; destruct H; now left]|].
    rewrite IH. split; [intros H [E|E]; [now apply Ne|auto]|intros H G; apply H; now right].
  Qed.
  Lemma kfind_some k (kw : kwargs F) v : NoDup (map fst kw) -> In (k, v) kw -> kfind k kw = Some v.
  Proof.
    induction kw as [|[k' w] kw IH]; cbn; [tauto|]. intros D [E|E].
    - injection E as -> ->. destruct (list_eq_dec N.eq_dec k k); [reflexivity|congruence].
    - inversion D as [|? ? X Y]; subst. destruct (list_eq_dec N.eq_dec k k') as [->|]; [|auto]. destruct X. change k' with (fst (k', v)). now apply in_map.
  Qed.
  Lemma given_iff kw name (d v : py F) : NoDup (map fst kw) -> given kw name d v <-> v = match kfind (text name) kw with Some x => x | None => d end.
  Proof.
    intros D. unfold given. split.
    - intros [H|(H & ->)]; [now rewrite (kfind_some _ _ _ D H)|]. apply kfind_none in H. now rewrite H.
    - intros ->. destruct (kfind (text name) kw) as [x|] eqn:E; [left; now apply kfind_in|right; split; [now apply kfind_none|reflexivity]].
  Qed.
  Definition drop k (kw : kwargs F) := match kfind k kw with Some _ => kremove k kw | None => kw end.
  Lemma drop_cons k k' v (kw : kwargs F) : drop k ((k', v) :: kw) = if list_eq_dec N.eq_dec k k' then kw else (k', v) :: drop k kw.
  Proof. unfold drop. cbn. destruct (list_eq_dec N.eq_dec k k'); [reflexivity|]. destruct (kfind k kw); reflexivity. Qed.
  Lemma in_drop k k' (kw : kwargs F) : NoDup (map fst kw) -> In k' (map fst (drop k kw)) <-> In k' (map fst kw) /\ k' <> k.
  Proof.
    induction kw as [|[a v] kw IH]; intros D; [cbn; tauto|]. inversion D as [|? ? X Y]; subst. rewrite drop_cons. cbn [map fst In].
    destruct (list_eq_dec N.eq_dec k a) as [->|Ne].
    - split; [intros H; split; [now right|intros ->; contradiction]|intros ([E|E] & N); [congruence|exact E]].
    - cbn [map fst In]. rewrite IH by exact Y. split; [intros [<-|(H & N)]; [split; [now left|congruence]|tauto]|intros ([E|E] & N); [now left|right; tauto]].
  Qed.
  Lemma nodup_drop k (kw : kwargs F) : NoDup (map fst kw) -> NoDup (map fst (drop k kw)).
  Proof.
    induction kw as [|[a v] kw IH]; intros D; [exact D|]. inversion D as [|? ? X Y]; subst. rewrite drop_cons. destruct (list_eq_dec N.eq_dec k a) as [->|Ne]; [exact Y|].
    cbn [map fst]. constructor; [|now apply IH]. rewrite in_drop by exact Y. tauto.
  Qed.
  Lemma drop_all k k' (kw : kwargs F) : NoDup (map fst kw) -> drop k' (drop k kw) = [] <-> incl (map fst kw) [k; k'].
  Proof.
    intros D. assert (E : drop k' (drop k kw) = [] <-> forall x, ~ In x (map fst (drop k' (drop k kw)))).
    { destruct (drop k' (drop k kw)) as [|[a b] l]; [cbn; tauto|]. split; [discriminate|]. intros H. destruct (H a). now left. }
    rewrite E. unfold incl. split.
    - intros H x I. specialize (H x). rewrite in_drop, in_drop in H by auto using nodup_drop. cbn.
      destruct (list_eq_dec N.eq_dec x k) as [->|]; [now left|]. destruct (list_eq_dec N.eq_dec x k') as [->|]; [right; now left|]. tauto.
    - intros H x. rewrite in_drop, in_drop by auto using nodup_drop. intros ((I & A) & B). specialize (H x I). cbn in H. intuition congruence.
  Qed.
  Lemma kfind_drop k k' (kw : kwargs F) : k <> k' -> kfind k (drop k' kw) = kfind k kw.
  Proof.
    intros Ne. induction kw as [|[a v] kw IH]; [reflexivity|]. rewrite drop_cons. destruct (list_eq_dec N.eq_dec k' a) as [->|].
    - cbn. destruct (list_eq_dec N.eq_dec k a); [congruence|reflexivity].
    - cbn. now rewrite IH.
  Qed.
  Lemma type_prop : text "prop" <> text "type". Proof. discriminate. Qed.
  Lemma init_none default (kw : kwargs F) : dispatch encode debug (init_overloads default) [] kw =
    match drop (text "prop") (drop (text "type") kw) with
    | [] => let t := match kfind (text "type") kw with Some x => x | None => PStr (text default) end in
            let v := match kfind (text "prop") kw with Some x => x | None => PNone end in
            obind (load_arg encode debug true TJson v) (fun r => match load_key encode t, r with Some a, Some j => Ok (0%nat, [VStr a; j], []) | _, _ => Throw arg_error end)
    | _ => Throw arg_error
    end.
  Proof.
    unfold dispatch, init_overloads. cbn [pass].
    match goal with |- context [bind (mk_overload [?a; ?b] false) [] kw] => set (o := mk_overload [a; b] false) end.
    assert (B : bind o [] kw = match drop (text "prop") (drop (text "type") kw) with
      | [] => Some ([match kfind (text "type") kw with Some x => x | None => PStr (text default) end; match kfind (text "prop") kw with Some x => x | None => PNone end], [])
      | _ => None end).
    { unfold bind, o. cbn [o_params List.length Nat.ltb Nat.leb firstn skipn existsb fill p_name p_default o_kwargs negb andb app].
      assert (K : kfind (text "prop") (drop (text "type") kw) = kfind (text "prop") kw) by (apply kfind_drop, type_prop).
      rewrite <- K. destruct (kfind (text "type") kw) as [x|] eqn:T.
      - replace (drop (text "type") kw) with (kremove (text "type") kw) in * by (unfold drop; now rewrite T).
        unfold drop. destruct (kfind (text "prop") (kremove (text "type") kw)); [destruct (kremove (text "prop") _)|destruct (kremove (text "type") kw)]; reflexivity.
      - replace (drop (text "type") kw) with kw in * by (unfold drop; now rewrite T).
        unfold drop. destruct (kfind (text "prop") kw); [destruct (kremove (text "prop") _)|destruct kw]; reflexivity. }
    rewrite B. destruct (drop (text "prop") (drop (text "type") kw)) as [|e l]; [|reflexivity].
    cbv zeta. generalize (match kfind (text "type") kw with Some x => x | None => PStr (text default) end) as t.
    generalize (match kfind (text "prop") kw with Some x => x | None => PNone end) as v. intros v t.
    unfold o. cbn [map o_params p_type load_args load_arg]. destruct (load_key encode t), (load v) as [j|e| |]; cbn; try reflexivity; destruct e; try reflexivity; destruct n as [|[|n]]; reflexivity.
  Qed.
  Lemma init_call_iff default (args : list (py F)) (kw : kwargs F) t p : NoDup (map fst kw) ->
    init_call encode debug default args kw = Ok (t, p) <-> init_asks encode default args kw t p.
  Proof.
    intros D. unfold init_call. split.
    - intros H. destruct args as [|a [|v [|w args]]].
      + rewrite init_none in H. destruct (drop (text "prop") (drop (text "type") kw)) as [|e l] eqn:E; [|discriminate]. cbv zeta in H.
        apply drop_all in E; [|exact D].
        destruct (load_arg _ _ _ _ _) as [r|e| |] eqn:V in H; try discriminate. cbn [obind] in H. destruct (load_key _ _) as [x|] eqn:T in H; [|discriminate].
        destruct r as [c|]; [|discriminate]. apply load_json_ok in V. destruct V as (j & -> & M). cbn [obind] in H. injection H as <- <-.
        apply key_text in T. eapply in_names; [exact E|apply given_iff; [exact D|reflexivity]|apply given_iff; [exact D|reflexivity]|exact T|exact M].
      + rewrite init_one in H. destruct (load_key encode a) as [x|] eqn:T.
        * cbn [obind] in H. destruct (cast_kwargs encode debug kw) as [q|e| |] eqn:C; try discriminate. cbn [obind] in H. injection H as <- <-.
          apply in_keywords; [now apply key_text|now apply cast_kwargs_ok].
        * destruct (dispatch _ _ _ _ _) as [r|e| |] eqn:Z in H; try discriminate. now apply init_one_none in Z.
      + rewrite init_two in H. destruct kw; [|discriminate]. destruct (load_arg _ _ _ _ _) as [r|e| |] eqn:V in H; try discriminate. cbn [obind] in H.
        destruct (load_key encode a) as [x|] eqn:T; [|discriminate]. destruct r as [c|]; [|discriminate]. apply load_json_ok in V. destruct V as (j & -> & M).
        cbn [obind] in H. injection H as <- <-. apply in_position; [now apply key_text|exact M].
      + discriminate.
    - intros H. destruct H as [a kw t p T M|a v t p T M|kw a v t p I G1 G2 T M].
      + rewrite init_one. apply key_text in T. rewrite T. cbn [obind]. apply cast_kwargs_ok in M. now rewrite M.
      + rewrite init_two. apply key_text in T. rewrite T. now rewrite (proj2 (load_json_ok v (VJson p)) (ex_intro _ p (conj eq_refl M))).
      + apply (given_iff _ _ _ _ D) in G1, G2. rewrite init_none. apply (drop_all _ _ _ D) in I. rewrite I. cbv zeta. rewrite <- G1, <- G2.
        apply key_text in T. rewrite T. now rewrite (proj2 (load_json_ok v (VJson p)) (ex_intro _ p (conj eq_refl M))).
  Qed.
  Lemma prim_call_iff (args : list (py F)) (kw : kwargs F) p :
    prim_call encode debug args kw = Ok p <-> (args = [] /\ means (dict_of kw) p) \/ (exists v, args = [v] /\ kw = [] /\ means v p).
  Proof.
    unfold prim_call, dispatch, prim_overloads. destruct args as [|a [|b args]].
    - rewrite <- cast_kwargs_ok. cbn. split; [tauto|]. intros [(_ & H)|(v & H & _)]; [exact H|discriminate].
    - destruct kw as [|e kw].
      + transitivity (means a p); [|split; [intros H; right; eauto|intros [(H & _)|(v & H & _ & M)]; [discriminate|now injection H as <-]]].
        rewrite <- (load_iff encode debug). cbn. destruct (load a) as [j|e| |]; cbn; try (split; discriminate); [tauto|].
        destruct e; try (split; discriminate). destruct n as [|[|n]]; split; discriminate.
      + cbn. split; [discriminate|]. intros [(H & _)|(v & _ & H & _)]; discriminate.
    - cbn. split; [discriminate|]. intros [(H & _)|(v & H & _)]; discriminate.
  Qed.
End P.
