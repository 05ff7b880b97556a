From Coq Require Import List ZArith Bool Lia Arith.
From Verif Require Import Base SceneModel SceneSpec SceneProofs AccelModel AccelSpec.
Import ListNotations.

Section Accel.
  Variables (M P : Type).
  Variable one : M.
  Variable mul : M -> M -> M.
  Variable act : M -> P -> P.
  Variable mesh_of : nat -> list (P * P * P).
  Notation node := (node M).
  Notation corners := (corners M P act).
  Notation faces := (faces P mesh_of).
  Notation world := (world M P act mesh_of).
  Notation ok := (map (fun x : (M * Z * nat) * (P * P * P) => (Ok (fst x), Some (snd x)))).

  (** ** Geometries *)
  Lemma geom_fold T ts : forall s g, let g' := fold_left (geom_face M P act T) (combine (seq s (length ts)) ts) g in
    g_size P g' = g_size P g /\
    (forall f, f < s -> g_fs P g' f = g_fs P g f) /\ (forall i, i < 3 * s -> g_vs P g' i = g_vs P g i) /\
    (forall f t, nth_error ts f = Some t -> g_fs P g' (s + f) = Some (3 * (s + f), 3 * (s + f) + 1, 3 * (s + f) + 2) /\
       read3 (g_vs P g') (3 * (s + f)) (3 * (s + f) + 1) (3 * (s + f) + 2) = Some (corners T t)).
  Proof.
    induction ts as [|t ts IH]; intros s g; cbv zeta.
    - cbn. repeat split; try easy; now destruct f.
    - cbn [length seq combine fold_left]. specialize (IH (S s) (geom_face M P act T g (s, t))). cbv zeta in IH.
      destruct IH as (I1 & I2 & I3 & I4). set (g' := fold_left _ _ _) in *. repeat split.
      + rewrite I1. unfold geom_face. cbn. now destruct (corners T t) as [[? ?] ?].
      + intros f Hf. rewrite I2 by lia. unfold geom_face. cbn. destruct (corners T t) as [[? ?] ?]. cbn. unfold write.
        destruct (Nat.eqb_spec f s); [lia|easy].
      + intros i Hi. rewrite I3 by lia. unfold geom_face. cbn [fst snd]. destruct (corners T t) as [[? ?] ?]. cbn [g_vs]. unfold write.
        repeat match goal with |- context [Nat.eqb ?a ?b] => destruct (Nat.eqb_spec a b); [lia|] end. easy.
      + destruct f as [|f]; cbn [nth_error] in H.
        * injection H as ->. rewrite Nat.add_0_r, I2 by lia. unfold geom_face. cbn [fst snd]. destruct (corners T t0) as [[? ?] ?]. cbn [g_fs]. unfold write.
          now rewrite Nat.eqb_refl.
        * destruct (I4 f t0 H) as [J _]. now rewrite <- plus_n_Sm.
      + destruct f as [|f]; cbn [nth_error] in H.
        * injection H as ->. unfold read3. rewrite !I3 by lia. rewrite Nat.add_0_r. unfold geom_face. cbn [fst snd].
          destruct (corners T t0) as [[a b] c]. cbn [g_vs]. unfold write.
          repeat match goal with |- context [Nat.eqb ?a ?b] => destruct (Nat.eqb_spec a b); try lia end. easy.
        * destruct (I4 f t0 H) as [_ J]. now rewrite <- plus_n_Sm.
  Qed.
  Lemma make_geometry_size T k : g_size P (make_geometry M P act mesh_of T k) = length (mesh_of k).
  Proof. unfold make_geometry, AccelModel.faces. now destruct (geom_fold T (mesh_of k) 0 (mk_geometry P (length (mesh_of k)) (fun _ => None) (fun _ => None))) as (-> & _). Qed.
  Lemma make_geometry_triangle T k f t : nth_error (mesh_of k) f = Some t -> geom_triangle P (make_geometry M P act mesh_of T k) f = Some (corners T t).
  Proof.
    intros H. unfold geom_triangle. rewrite make_geometry_size.
    assert (L : f < length (mesh_of k)) by (apply nth_error_Some; now rewrite H). apply Nat.ltb_lt in L. rewrite L.
    unfold make_geometry, AccelModel.faces.
    destruct (geom_fold T (mesh_of k) 0 (mk_geometry P (length (mesh_of k)) (fun _ => None) (fun _ => None))) as (_ & _ & _ & J).
    destruct (J f t H) as [J1 J2]. cbn [plus] in J1, J2. rewrite J1. exact J2.
  Qed.
  Lemma map_seq_combine {A B} (g : nat -> B) (h : nat * A -> B) (l : list A) : forall s,
    (forall f t, nth_error l f = Some t -> g (s + f) = h (s + f, t)) -> map g (seq s (length l)) = map h (combine (seq s (length l)) l).
  Proof.
    induction l as [|x l IH]; intros s H; [easy|]. cbn. f_equal.
    - specialize (H 0 x eq_refl). now rewrite Nat.add_0_r in H.
    - apply IH. intros f t E. specialize (H (S f) t E). now rewrite <- plus_n_Sm in H.
  Qed.
  Lemma geom_listing_is inst move n T k :
    geom_listing P inst move (n, make_geometry M P act mesh_of T k) =
    map (fun x => (inst, n, fst x, Some (let '(a, b, c) := corners T (snd x) in (move a, move b, move c)))) (faces k).
  Proof.
    unfold geom_listing, AccelModel.faces. cbn [fst snd]. rewrite make_geometry_size. apply map_seq_combine.
    intros f t E. cbn [fst snd plus]. rewrite (make_geometry_triangle _ _ _ _ E). cbn. reflexivity.
  Qed.

  (** ** Embree without instances *)
  Definition resolve_embree (fl : list (M * Z)) (x : option nat * nat * nat * option (P * P * P)) : outcome (M * Z * nat) * option (P * P * P) :=
    let '(_, g, f, t) := x in (embree_hit M fl g f, t).
  Lemma embree_fold calls : forall s fl, (exists more, fl = fst (fold_left (embree_node M P act mesh_of) calls s) ++ more) ->
    map (resolve_embree fl) (embree_listing P (snd (fold_left (embree_node M P act mesh_of) calls s))) =
    map (resolve_embree fl) (embree_listing P (snd s)) ++ ok (world calls).
  Proof.
    induction calls as [|[[i p|i ch inst loc] T] r IH]; intros s fl Hfl; cbn [fold_left] in *.
    - cbn. now rewrite app_nil_r.
    - rewrite (IH _ _ Hfl). cbn [embree_node] in *. destruct (p_mesh p) as [k|] eqn:Ek.
      + cbn [snd fst]. unfold embree_listing. rewrite flat_map_app, map_app, <- app_assoc. f_equal.
        cbn [flat_map]. rewrite app_nil_r. cbn [AccelSpec.world flat_map]. rewrite Ek, map_app. f_equal.
        rewrite geom_listing_is, !map_map. unfold AccelModel.faces. apply map_ext. intros [f t]. cbn [fst snd resolve_embree].
        assert (G : nth_error fl (length (fst s)) = Some (T, i)).
        { destruct Hfl as [more ->].
          assert (Q : forall calls s0, exists more, fst (fold_left (embree_node M P act mesh_of) calls s0) = fst s0 ++ more).
          { clear. induction calls as [|[[i p|i ch inst loc] T] r IH]; intros s0; cbn [fold_left].
            - exists []. now rewrite app_nil_r.
            - cbn [embree_node]. destruct (p_mesh p); [|apply IH]. destruct (IH (fst s0 ++ [(T, i)], snd s0 ++ [(length (fst s0), make_geometry M P act mesh_of T n)])) as [m E].
              exists ((T, i) :: m). cbn [fst] in E. rewrite E, <- app_assoc. easy.
            - apply IH. }
          destruct (Q r (fst s ++ [(T, i)], snd s ++ [(length (fst s), make_geometry M P act mesh_of T k)])) as [m E]. rewrite E. cbn [fst].
          rewrite <- !app_assoc, nth_error_app2, Nat.sub_diag by lia. easy. }
        unfold embree_hit. rewrite G. unfold AccelModel.corners. now destruct t as [[a b] c].
      + f_equal. cbn. now rewrite Ek.
    - exact (IH _ _ Hfl).
  Qed.
  Lemma embree_all calls : map (resolve_embree (fst (embree_build M P act mesh_of calls))) (embree_listing P (snd (embree_build M P act mesh_of calls))) = ok (world calls).
  Proof. unfold embree_build. rewrite embree_fold; [easy|]. exists []. now rewrite app_nil_r. Qed.

  (** ** NanoRT *)
  Definition nano_ok (s : nano M P) (done : list ((M * Z * nat) * (P * P * P))) : Prop :=
    length (nr_vs M P s) = length (nr_fs M P s) /\ length (nr_fs M P s) = 3 * length done /\ length (nr_per M P s) = length done /\
    forall k h t, nth_error done k = Some (h, t) -> nano_hit M P s k = Ok h /\ nano_triangle M P s k = Some t.
  Lemma nth_app3 {A} (l : list A) a b c n : length l = n -> nth_error (l ++ [a; b; c]) n = Some a /\ nth_error (l ++ [a; b; c]) (n + 1) = Some b /\ nth_error (l ++ [a; b; c]) (n + 2) = Some c.
  Proof.
    intros <-. repeat split; rewrite nth_error_app2 by lia.
    - now rewrite Nat.sub_diag.
    - now replace (length l + 1 - length l) with 1 by lia.
    - now replace (length l + 2 - length l) with 2 by lia.
  Qed.
  Lemma nth_error_grow {A} (l m : list A) n x : nth_error l n = Some x -> nth_error (l ++ m) n = Some x.
  Proof. intros H. rewrite nth_error_app1; [easy|]. apply nth_error_Some. now rewrite H. Qed.
  Lemma nano_face_ok n T i s done f t : nano_ok s done -> nth_error (nr_flat M P s) n = Some (T, i) ->
    nano_ok (nano_face M P act n T s (f, t)) (done ++ [((T, i, f), corners T t)]).
  Proof.
    intros (A & B & C & D) F. unfold nano_face. cbn [fst snd]. destruct (corners T t) as [[a b] c] eqn:E.
    unfold nano_ok. cbn [nr_vs nr_fs nr_per nr_flat]. rewrite !app_length. cbn [length]. repeat split; try lia.
    - destruct (lt_dec k (length done)) as [L|L].
      + rewrite nth_error_app1 in H by easy. destruct (D k h t0 H) as [D1 _]. unfold nano_hit in *. cbn [nr_per nr_flat].
        destruct (nth_error (nr_per M P s) k) eqn:G; [|discriminate]. now rewrite (nth_error_grow _ _ _ _ G).
      + rewrite nth_error_app2 in H by lia. destruct (k - length done) as [|q] eqn:Q; [|now destruct q].
        cbn in H. injection H as <- <-. unfold nano_hit. cbn [nr_per nr_flat]. rewrite nth_error_app2, C, Q by lia. cbn. now rewrite F.
    - destruct (lt_dec k (length done)) as [L|L].
      + rewrite nth_error_app1 in H by easy. destruct (D k h t0 H) as [_ D1]. unfold nano_triangle in *. cbn [nr_fs nr_vs].
        destruct (nth_error (nr_fs M P s) (3 * k)) eqn:G1; [|discriminate].
        destruct (nth_error (nr_fs M P s) (3 * k + 1)) eqn:G2; [|discriminate].
        destruct (nth_error (nr_fs M P s) (3 * k + 2)) eqn:G3; [|discriminate].
        rewrite (nth_error_grow _ _ _ _ G1), (nth_error_grow _ _ _ _ G2), (nth_error_grow _ _ _ _ G3).
        unfold read3 in *.
        destruct (nth_error (nr_vs M P s) n0) eqn:V1; [|discriminate].
        destruct (nth_error (nr_vs M P s) n1) eqn:V2; [|discriminate].
        destruct (nth_error (nr_vs M P s) n2) eqn:V3; [|discriminate].
        now rewrite (nth_error_grow _ _ _ _ V1), (nth_error_grow _ _ _ _ V2), (nth_error_grow _ _ _ _ V3).
      + rewrite nth_error_app2 in H by lia. destruct (k - length done) as [|q] eqn:Q; [|now destruct q].
        cbn in H. injection H as <- <-. unfold nano_triangle. cbn [nr_fs nr_vs]. assert (k = length done) by lia. subst k.
        destruct (nth_app3 (nr_fs M P s) (length (nr_fs M P s)) (length (nr_fs M P s) + 1) (length (nr_fs M P s) + 2) (3 * length done) B) as (-> & -> & ->).
        unfold read3. destruct (nth_app3 (nr_vs M P s) a b c (length (nr_fs M P s)) A) as (-> & -> & ->). easy.
  Qed.
  Lemma nano_face_flat n T s x : nr_flat M P (nano_face M P act n T s x) = nr_flat M P s.
  Proof. unfold nano_face. now destruct (corners T (snd x)) as [[a b] c]. Qed.
  Lemma nano_faces_ok n T i l : forall s done, nano_ok s done -> nth_error (nr_flat M P s) n = Some (T, i) ->
    nano_ok (fold_left (nano_face M P act n T) l s) (done ++ map (fun x => ((T, i, fst x), corners T (snd x))) l).
  Proof.
    induction l as [|[f t] r IH]; intros s done H F; cbn [fold_left map]; [now rewrite app_nil_r|].
    replace (done ++ (T, i, fst (f, t), corners T (snd (f, t))) :: map (fun x => (T, i, fst x, corners T (snd x))) r)
      with ((done ++ [((T, i, f), corners T t)]) ++ map (fun x => (T, i, fst x, corners T (snd x))) r) by now rewrite <- app_assoc.
    apply IH; [now apply nano_face_ok|]. now rewrite nano_face_flat.
  Qed.
  Lemma nano_fold calls : forall s done, nano_ok s done -> nano_ok (fold_left (nano_node M P act mesh_of) calls s) (done ++ world calls).
  Proof.
    induction calls as [|[[i p|i ch inst loc] T] r IH]; intros s done H; cbn [fold_left].
    - cbn. now rewrite app_nil_r.
    - cbn [nano_node AccelSpec.world flat_map]. destruct (p_mesh p) as [k|]; [|now apply IH].
      rewrite app_assoc. apply IH. apply nano_faces_ok.
      + destruct H as (A & B & C & D). unfold nano_ok. cbn. repeat split; try easy.
        destruct (D k0 h t H) as [D1 _]. unfold nano_hit in *. cbn. destruct (nth_error (nr_per M P s) k0) as [[n f]|]; [|easy].
        destruct (nth_error (nr_flat M P s) n) eqn:G; [|easy]. now rewrite (nth_error_grow _ _ _ _ G). 
        now destruct (D k0 h t H) as [_ D2].
      + cbn. rewrite nth_error_app2, Nat.sub_diag by lia. easy.
    - now apply IH.
  Qed.
  Lemma nano_all calls : let s := nano_build M P act mesh_of calls in
    map (fun k => (nano_hit M P s k, nano_triangle M P s k)) (seq 0 (nano_count M P s)) = ok (world calls).
  Proof.
    cbv zeta. assert (H : nano_ok (nano_build M P act mesh_of calls) ([] ++ world calls)).
    { apply nano_fold. repeat split; try easy; now destruct k. }
    cbn [app] in H. destruct H as (A & B & C & D). unfold nano_count. rewrite B, Nat.mul_comm, Nat.div_mul by lia.
    rewrite (map_seq_combine _ (fun x : nat * ((M * Z * nat) * (P * P * P)) => (Ok (fst (snd x)), Some (snd (snd x))))).
    - clear. generalize 0. induction (world calls) as [|x l IH]; intros n; [easy|]. cbn. now rewrite IH.
    - intros k [h t] E. cbn [plus fst snd]. destruct (D k h t E) as [-> ->]. easy.
  Qed.

  (** ** Embree with instances *)
  Hypothesis mul_one : forall T, mul T one = T.
  Hypothesis mul_assoc : forall A B C, mul A (mul B C) = mul (mul A B) C.
  Hypothesis act_mul : forall A B p, act (mul A B) p = act A (act B p).

  Definition pr : Type := (M * Z * prim)%type.
  Definition prims (calls : list (node * M)) : list pr := flat_map (fun c => match c with (NPrim i p, T) => [(T, i, p)] | (NGroup _ _ _ _, _) => [] end) calls.
  Definition fprim (x : pr) : fnode M := FPrim M (fst (fst x)) (snd (fst x)).
  Definition shift (A : M) (x : pr) : pr := (mul A (fst (fst x)), snd (fst x), snd x).

  Lemma visit_shift ns f : forall i A B, visit mul ns f i (mul A B) = (map (fun c => (fst c, mul A (snd c))) (fst (visit mul ns f i B)), snd (visit mul ns f i B)).
  Proof.
    induction f as [|f IH]; intros i A B; [easy|]. rewrite !visit_S. destruct (node_at ns i) as [[x p|x ch inst loc]| | |]; try easy.
    cbv zeta.
    assert (E : forall l, vlist (fun c => visit mul ns f c (here mul ns (mul A B) loc)) l =
      (map (fun c => (fst c, mul A (snd c))) (fst (vlist (fun c => visit mul ns f c (here mul ns B loc)) l)), snd (vlist (fun c => visit mul ns f c (here mul ns B loc)) l))).
    { assert (Q : here mul ns (mul A B) loc = mul A (here mul ns B loc)) by (destruct loc; cbn; now rewrite ?mul_assoc).
      rewrite Q. induction l as [|c l IHl]; [easy|]. cbn [vlist]. rewrite IH. cbn [fst snd].
      destruct (visit mul ns f c (here mul ns B loc)) as [ca [u|e| |]]; cbn [fst snd]; try easy.
      destruct (vlist (fun c0 => visit mul ns f c0 (mul A (here mul ns B loc))) l) as [va ve]. injection IHl as -> ->. cbn [fst snd]. now rewrite map_app. }
    rewrite E. reflexivity.
  Qed.
  Lemma prims_shift A calls : prims (map (fun c : node * M => (fst c, mul A (snd c))) calls) = map (shift A) (prims calls).
  Proof. unfold prims. induction calls as [|[[i p|i ch inst loc] T] r IH]; [easy| |exact IH]. cbn in *. now rewrite IH. Qed.
  Lemma prims_app a b : prims (a ++ b) = prims a ++ prims b.
  Proof. unfold prims. apply flat_map_app. Qed.

  Lemma put_mid {A} (l r : list A) x y : put (l ++ x :: r) (length l) y = l ++ y :: r.
  Proof. induction l as [|a l IH]; [easy|]. cbn. now rewrite IH. Qed.

  (** Filling a scene without instances *)
  Lemma fill ns f : forall i T calls before this after m, visit mul ns f i T = (calls, Ok tt) ->
    inst_visit M one mul ns f i T (length before) true (mk_flat M (before ++ this :: after) m) =
    (mk_flat M (before ++ (this ++ map fprim (prims calls)) :: after) m, Ok tt).
  Proof.
    induction f as [|f IH]; intros i T calls before this after m H; [discriminate|]. rewrite visit_S in H. cbn [inst_visit].
    destruct (node_at ns i) as [[x p|x ch inst loc]| | |]; try discriminate.
    - injection H as <-. unfold push_node. cbn [fl_scenes fl_map]. rewrite nth_error_app2, Nat.sub_diag by lia. cbn [nth_error].
      rewrite put_mid. reflexivity.
    - cbv zeta in H. cbn [negb andb]. change (match loc with Some L => mul T L | None => T end) with (here mul ns T loc).
      set (T' := here mul ns T loc) in *. injection H as <- H.
      cbn [prims flat_map app]. fold (prims (fst (vlist (fun c => visit mul ns f c T') ch))).
      revert this H. induction ch as [|c ch IHc]; intros this H; [cbn; now rewrite app_nil_r|].
      cbn [vlist in_turn] in *. destruct (visit mul ns f c T') as [ca [u|e| |]] eqn:Ev; cbn [fst snd] in *; try discriminate. destruct u.
      rewrite (IH c T' ca before this after m Ev). cbn [fst snd].
      rewrite (IHc _ H). now rewrite prims_app, map_app, app_assoc.
  Qed.

  (** The primitives that a list of flattened nodes stands for *)
  Inductive unfolds (fs : list (list (fnode M))) : list (fnode M) -> list pr -> Prop :=
  | u_nil : unfolds fs [] []
  | u_prim T i p l ps : unfolds fs l ps -> unfolds fs (FPrim M T i :: l) ((T, i, p) :: ps)
  | u_inst T j c sub l ps : 0 < c -> nth_error fs c = Some (map fprim sub) -> unfolds fs l ps -> unfolds fs (FInst M T j c :: l) (map (shift T) sub ++ ps).
  Lemma unfolds_app fs l1 p1 l2 p2 : unfolds fs l1 p1 -> unfolds fs l2 p2 -> unfolds fs (l1 ++ l2) (p1 ++ p2).
  Proof. induction 1; intros; cbn; [easy|constructor; auto|]. rewrite <- app_assoc. econstructor; eauto. Qed.
  Lemma unfolds_grow r1 r2 rest more l ps : unfolds (r1 :: rest) l ps -> unfolds (r2 :: rest ++ more) l ps.
  Proof.
    induction 1 as [|T i p l ps U IH|T j c sub l ps C N U IH]; [constructor|now constructor|]. apply (u_inst _ _ _ c sub); [easy| |easy].
    destruct c; [lia|]. cbn in *. now apply nth_error_grow.
  Qed.

  Definition stands_for ns (i : Z) (l : list (fnode M)) : Prop := exists f calls, visit mul ns f i one = (calls, Ok tt) /\ l = map fprim (prims calls).
  Definition good ns (st : flat M) (ps : list pr) : Prop :=
    exists root rest, fl_scenes M st = root :: rest /\ unfolds (root :: rest) root ps /\
      Forall (fun l => exists i, stands_for ns i l) rest /\
      (forall i c, find_scene i (fl_map M st) = Some c -> exists k l, c = S k /\ nth_error rest k = Some l /\ stands_for ns i l).

  Lemma push_inst ns st ps T i c calls f : good ns st ps -> visit mul ns f i T = (calls, Ok tt) ->
    (exists root rest k l, fl_scenes M st = root :: rest /\ c = S k /\ nth_error rest k = Some l /\ stands_for ns i l) ->
    exists st', push_node M 0 (FInst M T i c) st = (st', Ok tt) /\ good ns st' (ps ++ prims calls).
  Proof.
    intros (root & rest & E & U & F & I) V (root' & rest' & k & l & E' & -> & N & (f' & cs & V' & ->)).
    rewrite E in E'. injection E' as <- <-. unfold push_node. rewrite E. cbn [nth_error put]. eexists. split; [reflexivity|].
    exists (root ++ [FInst M T i (S k)]), rest. cbn [fl_scenes fl_map]. split; [easy|]. split; [|now split].
    apply unfolds_app.
    - pose proof (unfolds_grow root (root ++ [FInst M T i (S k)]) rest [] root ps U) as G. now rewrite app_nil_r in G.
    - assert (S1 : prims calls = map (shift T) (prims cs)).
      { pose proof (visit_shift ns f i T one) as Q. rewrite mul_one, V in Q. injection Q as Q1 Q2.
        destruct (visit mul ns f i one) as [cs1 e1] eqn:V1. cbn [fst snd] in *. subst e1.
        assert (D : cs1 = cs).
        { pose proof (visit_more mul ns f (f + f') i one ltac:(lia)) as X. rewrite V1 in X. specialize (X eq_refl).
          pose proof (visit_more mul ns f' (f + f') i one ltac:(lia)) as Y. rewrite V' in Y. specialize (Y eq_refl). congruence. }
        subst cs1. rewrite Q1. apply prims_shift. }
      rewrite S1, <- (app_nil_r (map (shift T) (prims cs))). apply u_inst; [lia|easy|constructor].
  Qed.

  Lemma inst_visit_good ns : numbered ns -> forall f i T calls st ps, visit mul ns f i T = (calls, Ok tt) -> good ns st ps ->
    exists st', inst_visit M one mul ns (S f) i T 0 false st = (st', Ok tt) /\ good ns st' (ps ++ prims calls).
  Proof.
    intros Num. induction f as [|f IH]; intros i T calls st ps V G; [discriminate|].
    pose proof V as V0. rewrite visit_S in V. remember (S f) as f1 eqn:Ef1. cbn [inst_visit]. subst f1.
    destruct (node_at ns i) as [[x p|x ch inst loc]| | |] eqn:En; try discriminate.
    - injection V as <-. destruct G as (root & rest & E & U & F & I). unfold push_node. rewrite E. cbn [nth_error put]. eexists. split; [reflexivity|].
      exists (root ++ [FPrim M T x]), rest. cbn [fl_scenes fl_map]. split; [easy|]. split; [|now split]. apply unfolds_app.
      + pose proof (unfolds_grow root (root ++ [FPrim M T x]) rest [] root ps U) as Q. now rewrite app_nil_r in Q.
      + cbn. constructor. constructor.
    - assert (x = i) as ->.
      { unfold node_at in En. destruct (i <? 0)%Z eqn:Z0; [discriminate|]. destruct (nth_error ns (Z.to_nat i)) eqn:Nn; [|discriminate].
        injection En as ->. specialize (Num _ _ Nn). cbn in Num. lia. }
      destruct inst; cbn [negb andb].
      + destruct (find_scene i (fl_map M st)) as [c|] eqn:Fs.
        * apply (push_inst ns st ps T i c calls (S f)); [easy|easy|]. destruct G as (root & rest & E & U & F & I).
          destruct (I i c Fs) as (k & l & -> & N & S). exists root, rest, k, l. now split.
        * destruct (visit mul ns (S f) i one) as [cs1 e1] eqn:V1.
          assert (e1 = Ok tt).
          { pose proof (visit_shift ns (S f) i T one) as Q. rewrite mul_one, V0, V1 in Q. now injection Q as _ ->. }
          subst e1. destruct G as (root & rest & E & U & F & I).
          pose proof (fill ns (S f) i one cs1 (fl_scenes M st) [] [] ((i, length (fl_scenes M st)) :: fl_map M st) V1) as Fi.
          cbn [app] in Fi. rewrite Fi. cbn [fst snd].
          apply (push_inst ns _ ps T i _ calls (S f)); [|easy|].
          -- exists root, (rest ++ [map fprim (prims cs1)]). cbn [fl_scenes fl_map]. rewrite E. split; [easy|]. split; [|split].
             ++ now apply (unfolds_grow root root rest [map fprim (prims cs1)]).
             ++ apply Forall_app. split; [easy|]. constructor; [|constructor]. exists i, (S f), cs1. now split.
             ++ intros j c. cbn [find_scene]. destruct (Z.eqb_spec j i) as [->|Nj].
                ** intros [= <-]. exists (length rest), (map fprim (prims cs1)). split; [easy|]. split.
                   --- rewrite nth_error_app2, Nat.sub_diag by lia. easy.
                   --- exists (S f), cs1. now split.
                ** intros Fj. destruct (I j c Fj) as (k & l & -> & N & S). exists k, l. split; [easy|]. split; [|easy]. now apply nth_error_grow.
          -- exists root, (rest ++ [map fprim (prims cs1)]), (length rest), (map fprim (prims cs1)). cbn [fl_scenes]. rewrite E. cbn [length].
             split; [easy|]. split; [easy|]. split; [rewrite nth_error_app2, Nat.sub_diag by lia; easy|]. exists (S f), cs1. now split.
      + cbv zeta in V. change (match loc with Some L => mul T L | None => T end) with (here mul ns T loc).
        set (T' := here mul ns T loc) in *. injection V as <- V.
        cbn [prims flat_map app]. fold (prims (fst (vlist (fun c => visit mul ns f c T') ch))).
        clear En V0. revert st ps G V. induction ch as [|c ch IHc]; intros st ps G V.
        * cbn. eexists. split; [reflexivity|]. now rewrite app_nil_r.
        * cbn [vlist in_turn] in *. destruct (visit mul ns f c T') as [ca [u|e| |]] eqn:Ev; cbn [fst snd] in *; try discriminate. destruct u.
          destruct (IH c T' ca st ps Ev G) as (st1 & E1 & G1). rewrite E1. cbn [fst snd].
          destruct (IHc st1 _ G1 V) as (st2 & E2 & G2). exists st2. split; [exact E2|]. now rewrite prims_app, app_assoc.
  Qed.
  Lemma flatten_good ns f calls : numbered ns -> visit mul ns f 0 one = (calls, Ok tt) ->
    exists st, inst_flatten M one mul (S f) ns = (st, Ok tt) /\ good ns st (prims calls).
  Proof.
    intros Num V. apply (inst_visit_good ns Num f 0%Z one calls (no_flat M) [] V).
    exists [], []. split; [easy|]. split; [constructor|]. split; [constructor|]. easy.
  Qed.

  (** ** The scenes of Embree *)
  Definition found (ns : list node) (x : pr) : Prop := node_at ns (snd (fst x)) = Ok (NPrim (snd (fst x)) (snd x)).
  Lemma visit_found ns f : numbered ns -> forall i T calls, visit mul ns f i T = (calls, Ok tt) -> Forall (found ns) (prims calls).
  Proof.
    intros Num. induction f as [|f IH]; intros i T calls V; [discriminate|]. rewrite visit_S in V.
    destruct (node_at ns i) as [[x p|x ch inst loc]| | |] eqn:En; try discriminate.
    - injection V as <-. constructor; [|constructor]. unfold found. cbn.
      assert (x = i) as ->.
      { unfold node_at in En. destruct (i <? 0)%Z eqn:Z0; [discriminate|]. destruct (nth_error ns (Z.to_nat i)) eqn:Nn; [|discriminate].
        injection En as ->. specialize (Num _ _ Nn). cbn in Num. lia. }
      exact En.
    - cbv zeta in V. set (T' := here mul ns T loc) in *. injection V as <- V.
      cbn [prims flat_map app]. fold (prims (fst (vlist (fun c => visit mul ns f c T') ch))).
      clear En. induction ch as [|c ch IHc]; [constructor|]. cbn [vlist] in *.
      destruct (visit mul ns f c T') as [ca [u|e| |]] eqn:Ev; cbn [fst snd] in *; try discriminate. destruct u. rewrite prims_app. apply Forall_app. split; [now apply (IH c T' ca)|now apply IHc].
  Qed.

  Notation att := (attached M P).
  Fixpoint geoms (n : nat) (ps : list pr) : list (nat * geometry P) :=
    match ps with
    | [] => []
    | (T, i, p) :: r => match p_mesh p with None => geoms (S n) r | Some k => (n, make_geometry M P act mesh_of T k) :: geoms (S n) r end
    end.
  Lemma attach_prims ns made i ps : Forall (found ns) ps -> forall n,
    attach M P act mesh_of ns made i (map fprim ps) n = Ok (map (fun x => (fst x, AGeom M P (snd x))) (geoms n ps)).
  Proof.
    induction 1 as [|[[T j] p] ps Fx _ IH]; intros n; [easy|]. cbn [map fprim fst snd attach geoms]. unfold found in Fx. cbn [fst snd] in Fx.
    rewrite Fx. cbn [obind]. rewrite IH. cbn [obind]. now destruct (p_mesh p).
  Qed.
  Lemma geoms_only_geoms l : geoms_only M P (map (fun x : nat * geometry P => (fst x, AGeom M P (snd x))) l) = Some l.
  Proof. induction l as [|[n g] l IH]; [easy|]. cbn. unfold geoms_only in IH. cbn in IH. now rewrite IH. Qed.

  (** Scenes [i - 1], ..., 1 *)
  Lemma make_rest ns root rest : Forall (fun l => exists ps, l = map fprim ps /\ Forall (found ns) ps) rest ->
    forall i made, i <= length rest ->
      (forall k ps, i <= k -> nth_error rest k = Some (map fprim ps) -> Forall (found ns) ps -> made (S k) = Some (map (fun x => (fst x, AGeom M P (snd x))) (geoms 0 ps))) ->
      exists made', make_scenes M P act mesh_of ns (root :: rest) (S i) made = make_scenes M P act mesh_of ns (root :: rest) 1 made' /\
        (forall k ps, nth_error rest k = Some (map fprim ps) -> Forall (found ns) ps -> made' (S k) = Some (map (fun x => (fst x, AGeom M P (snd x))) (geoms 0 ps))).
  Proof.
    intros R. induction i as [|i IH]; intros made L H.
    - exists made. split; [easy|]. intros k ps. apply H. lia.
    - destruct (nth_error rest i) as [l|] eqn:N; [|apply nth_error_None in N; lia].
      assert (Q := N). apply nth_error_In in Q. rewrite Forall_forall in R. destruct (R l Q) as (ps & -> & Fp).
      remember (S i) as i1 eqn:E1. cbn [make_scenes]. subst i1. cbn [nth].
      rewrite (nth_error_nth rest i [] N). rewrite (attach_prims ns made (S i) ps Fp 0). cbn [obind].
      destruct (IH (write made (S i) (map (fun x => (fst x, AGeom M P (snd x))) (geoms 0 ps)))) as (made' & E & H').
      + lia.
      + intros k ps' Lk N' Fp'. unfold write. destruct (Nat.eqb_spec (S k) (S i)) as [[= ->]|Ne].
        * rewrite N in N'. injection N' as N'. assert (ps = ps').
          { clear - N' Fp Fp'. revert ps' N' Fp'. induction Fp as [|[[T j] p] ps Fx _ IHp]; intros [|[[T' j'] p'] ps'] N' Fp'; try discriminate; [easy|].
            cbn in N'. injection N' as -> -> N'. apply Forall_cons_iff in Fp' as [Fx' Fp']. unfold found in Fx, Fx'. cbn in Fx, Fx'. rewrite Fx in Fx'. injection Fx' as ->.
            f_equal. now apply IHp. }
          now subst.
        * apply H; [lia|easy|easy].
      + exists made'. split; [exact E|exact H'].
  Qed.

  Definition resolve_inst (fs : list (list (fnode M))) (x : option nat * nat * nat * option (P * P * P)) : outcome (M * Z * nat) * option (P * P * P) :=
    let '(inst, g, f, t) := x in (inst_hit M mul fs inst g f, t).
  Definition pworld (ps : list pr) : list ((M * Z * nat) * (P * P * P)) :=
    flat_map (fun x => match p_mesh (snd x) with
      | Some k => map (fun y => ((fst x, fst y), corners (fst (fst x)) (snd y))) (faces k) | None => [] end) ps.
  Lemma pworld_prims calls : pworld (prims calls) = world calls.
  Proof.
    induction calls as [|[[i p|i ch inst loc] T] r IH]; [easy| |exact IH]. cbn [prims flat_map app]. fold (prims r).
    unfold pworld in *. cbn [flat_map fst snd]. rewrite IH. cbn [AccelSpec.world flat_map]. reflexivity.
  Qed.

  Lemma listing_geoms fs inst move n ps :
    map (resolve_inst fs) (flat_map (geom_listing P inst move) (geoms n ps)) =
    flat_map (fun x : nat * pr => match p_mesh (snd (snd x)) with
       | Some k => map (fun y => (inst_hit M mul fs inst (fst x) (fst y), Some (let '(a, b, c) := corners (fst (fst (snd x))) (snd y) in (move a, move b, move c)))) (faces k) | None => [] end)
       (combine (seq n (length ps)) ps).
  Proof.
    revert n. induction ps as [|[[T i] p] ps IH]; intros n; [easy|]. cbn [geoms length seq combine flat_map fst snd].
    rewrite <- IH. destruct (p_mesh p) as [k|]; [|easy]. cbn [flat_map]. rewrite map_app. f_equal.
    rewrite geom_listing_is, map_map. apply map_ext. intros [f t]. easy.
  Qed.

  (** The root scene, from the flattened nodes [l] on, which are preceded by [pre] *)
  Lemma attach_root ns fs made rest root : fs = root :: rest ->
    (forall k ps, nth_error rest k = Some (map fprim ps) -> Forall (found ns) ps -> made (S k) = Some (map (fun x => (fst x, AGeom M P (snd x))) (geoms 0 ps))) ->
    forall l ps, unfolds fs l ps -> Forall (found ns) ps -> forall pre, root = pre ++ l ->
      exists a, attach M P act mesh_of ns made 0 l (length pre) = Ok a /\
        map (resolve_inst fs) (inst_listing M P act a) = ok (pworld ps).
  Proof.
    intros Efs Hm l ps U. induction U as [|T i p l ps U IH|T j c sub l ps C N U IH]; intros F pre Er.
    - exists []. now split.
    - apply Forall_cons_iff in F as [Fx F]. cbn [attach]. unfold found in Fx. cbn [fst snd] in Fx. rewrite Fx. cbn [obind].
      destruct (IH F (pre ++ [FPrim M T i])) as (a & Ea & Ha); [now rewrite <- app_assoc|].
      rewrite app_length, Nat.add_1_r in Ea. rewrite Ea. cbn [obind]. cbn [pworld flat_map fst snd]. fold (pworld ps).
      destruct (p_mesh p) as [k|].
      + eexists. split; [reflexivity|]. cbn [inst_listing flat_map fst snd]. fold (inst_listing M P act a). rewrite !map_app. f_equal; [|exact Ha].
        rewrite geom_listing_is, !map_map. apply map_ext. intros [f t]. cbn [fst snd resolve_inst].
        assert (H1 : inst_hit M mul fs None (length pre) f = Ok (T, i, f)).
        { unfold inst_hit. subst fs. cbn [nth_error]. rewrite Er, nth_error_app2, Nat.sub_diag by lia. easy. }
        rewrite H1. now destruct (corners T t) as [[? ?] ?].
      + eexists. split; [reflexivity|]. exact Ha.
    - apply Forall_app in F as [Fs F]. cbn [attach Nat.eqb negb].
      assert (Fsub : Forall (found ns) sub).
      { clear - Fs. induction sub as [|x sub IHs]; [constructor|]. cbn in Fs. apply Forall_cons_iff in Fs as [A B]. constructor; [exact A|now apply IHs]. }
      destruct c as [|c]; [lia|]. subst fs. pose proof N as N0. cbn [nth_error] in N. rewrite (Hm c sub N Fsub), geoms_only_geoms.
      destruct (IH F (pre ++ [FInst M T j (S c)])) as (a & Ea & Ha); [now rewrite <- app_assoc|].
      rewrite app_length, Nat.add_1_r in Ea. rewrite Ea. cbn [obind]. eexists. split; [reflexivity|].
      cbn [inst_listing flat_map fst snd]. fold (inst_listing M P act a). rewrite map_app. unfold pworld. rewrite flat_map_app, map_app. f_equal; [|exact Ha].
      rewrite listing_geoms.
      assert (H1 : forall n x f, nth_error sub n = Some x -> inst_hit M mul (root :: rest) (Some (length pre)) n f = Ok (mul T (fst (fst x)), snd (fst x), f)).
      { intros n x f Hx. unfold inst_hit. cbn [nth_error]. rewrite Er, nth_error_app2, Nat.sub_diag by lia. cbn [nth_error obind].
        change (nth_error ((pre ++ FInst M T j (S c) :: l) :: rest) (S c)) with (nth_error rest c). rewrite N. cbn [obind].
        rewrite nth_error_map, Hx. reflexivity. }
      assert (G : forall sub' n0, (forall n x f, nth_error sub' n = Some x -> inst_hit M mul (root :: rest) (Some (length pre)) (n0 + n) f = Ok (mul T (fst (fst x)), snd (fst x), f)) ->
        flat_map (fun x : nat * pr => match p_mesh (snd (snd x)) with
          | Some k => map (fun y => (inst_hit M mul (root :: rest) (Some (length pre)) (fst x) (fst y), Some (let '(a, b, c) := corners (fst (fst (snd x))) (snd y) in (act T a, act T b, act T c)))) (faces k) | None => [] end)
          (combine (seq n0 (length sub')) sub') =
        ok (flat_map (fun x => match p_mesh (snd x) with Some k => map (fun y => ((fst x, fst y), corners (fst (fst x)) (snd y))) (faces k) | None => [] end) (map (shift T) sub'))).
      { clear - act_mul. induction sub' as [|[[T2 i] p] r IHr]; intros n0 H; [easy|].
        cbn [length seq combine flat_map map fst snd shift]. rewrite map_app. f_equal.
        - destruct (p_mesh p) as [k|]; [|easy]. rewrite map_map. apply map_ext. intros [f t]. cbn [fst snd].
          specialize (H 0 _ f eq_refl). rewrite Nat.add_0_r in H. rewrite H. cbn [fst snd]. f_equal. f_equal.
          unfold AccelModel.corners. destruct t as [[a b] c]. now rewrite !act_mul.
        - apply IHr. intros n x f Hx. specialize (H (S n) x f Hx). now rewrite <- plus_n_Sm in H. }
      apply (G sub 0). intros n x f Hx. now apply H1.
  Qed.

  Lemma instanced_all ns f calls : numbered ns -> visit mul ns f 0 one = (calls, Ok tt) ->
    exists st l, inst_build M P one mul act mesh_of (S f) ns = Ok (st, l) /\
      map (resolve_inst (fl_scenes M st)) (inst_listing M P act l) = ok (world calls).
  Proof.
    intros Num V. destruct (flatten_good ns f calls Num V) as (st & Ef & root & rest & Es & U & F & _).
    unfold inst_build. rewrite Ef. cbn [fst snd obind].
    destruct (make_rest ns root rest) with (i := length rest) (made := fun _ : nat => @None (list (nat * att))) as (made & Em & Hm).
    - eapply Forall_impl; [|exact F]. intros l (i & f' & cs & V' & ->). exists (prims cs). split; [easy|]. now apply (visit_found ns f' Num i one).
    - lia.
    - intros k ps Lk N. apply nth_error_None in Lk. now rewrite N in Lk.
    - rewrite Es. cbn [length]. rewrite Em. cbn [make_scenes nth].
      destruct (attach_root ns (root :: rest) made rest root eq_refl Hm root (prims calls) U (visit_found ns f Num 0%Z one calls V) [] eq_refl) as (a & Ea & Ha).
      cbn [length] in Ea. rewrite Ea. cbn [obind]. unfold write at 1. cbn [Nat.eqb]. exists st, a. split; [easy|]. rewrite Es, Ha. now rewrite pworld_prims.
  Qed.
End Accel.
