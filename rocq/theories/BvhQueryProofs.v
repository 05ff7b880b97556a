(** Proofs about the query of the acceleration structure. *)
From Coq Require Import Reals ZArith Bool List Arith Lia Lra Permutation.
From Verif Require Import Base RBase VecBase GeoModel GeoSpec GeoProofs BvhModel BvhSpec BvhProofs.
Import ListNotations.
Local Open Scope nat_scope.

(** Triangles as the constructor makes them. *)
Definition made (k : tri) : Prop := exists p1 p2 p3 fn f, k = new_tri p1 p2 p3 fn f.

Lemma hit_in_box k r tl th h : made k -> tri_isect k r tl th = Some h ->
  (tl <= ht h <= th)%R /\ in_box (tb k) (ray_at r (ht h)).
Proof.
  intros (p1 & p2 & p3 & fn & f & ->) H. apply tri_isect_sound in H.
  destruct H as (H1 & H2 & H2' & H2'' & H3). split; [exact H1|].
  replace (ray_at r (ht h)) with (bary p1 p2 p3 (hu h) (hv h)); [apply new_tri_box; repeat split; auto|].
  rewrite H3. cbn [new_tri tp1 te1 te2]. unfold bary. vring.
Qed.

Section Query.
  Variable trs : list tri.
  Variable nds : nat -> node.
  Variable num_nodes : nat.
  Variable idx : list nat.
  Variable r : ray.
  Variable tmin : R.
  Hypothesis all_made : Forall made trs.
  Hypothesis idx_ok : forall i k, nth_error idx i = Some k -> k < length trs.

  (** The triangle at position [i] of the order. *)
  Definition at_pos (i : nat) (k : tri) : Prop := exists j, nth_error idx i = Some j /\ nth_error trs j = Some k.

  Definition good (s e : nat) (b b' : best) : Prop :=
    (b_tmax b' <= b_tmax b)%R
    /\ (b' = b \/ exists i k h, s <= i < e /\ at_pos i k /\ tri_isect k r tmin (b_tmax b) = Some h /\ b' = mk_best (Some (h, i)) (ht h))
    /\ (forall i k h, s <= i < e -> at_pos i k -> tri_isect k r tmin (b_tmax b) = Some h -> (b_tmax b' <= ht h)%R /\ b_hit b' <> None).

  Lemma at_made i k : at_pos i k -> made k.
  Proof. intros (j & _ & H). rewrite Forall_forall in all_made. eapply all_made, nth_error_In, H. Qed.

  Lemma good_refl s b : good s s b b.
  Proof. split; [lra|]. split; [auto|]. intros; lia. Qed.

  Lemma isect_widen k tl th th' h : tri_isect k r tl th = Some h -> made k -> (th <= th')%R -> tri_isect k r tl th' = Some h.
  Proof. intros H M L. apply (tri_isect_shrink _ _ _ _ _ _ H). apply hit_in_box in H; auto. lra. Qed.

  Lemma good_trans s m e b b1 b2 : s <= m <= e -> good s m b b1 -> good m e b1 b2 -> good s e b b2.
  Proof.
    intros L (A1 & B1 & C1) (A2 & B2 & C2). split; [lra|]. split.
    - destruct B2 as [->|(i & k & h & I & P & T & ->)].
      + destruct B1 as [->|(i & k & h & I & P & T & ->)]; [auto|]. right. exists i, k, h. repeat split; auto; lia.
      + right. exists i, k, h. split; [lia|]. split; [auto|]. split; [|auto]. eapply isect_widen; eauto. eapply at_made; eauto.
    - intros i k h I P T. destruct (le_lt_dec m i) as [M|M].
      + destruct (Rle_dec (ht h) (b_tmax b1)) as [L1|L1].
        * apply (C2 i k h); auto; [lia|]. eapply tri_isect_shrink; eauto.
        * split; [lra|]. destruct B1 as [->|(i' & k' & h' & I' & P' & T' & ->)].
          { exfalso. apply hit_in_box in T; [|eapply at_made; eauto]. lra. }
          destruct B2 as [->|(i'' & k'' & h'' & _ & _ & _ & ->)]; cbn [b_hit]; discriminate.
      + destruct (C1 i k h) as [X Y]; auto; [lia|]. split; [lra|].
        destruct B2 as [->|(i'' & k'' & h'' & _ & _ & _ & ->)]; [auto|]. cbn [b_hit]. discriminate.
  Qed.

  (** A box that the ray misses has no triangle to offer. *)
  Lemma good_skip s e b bx : covers trs idx bx s e -> isect bx r tmin (b_tmax b) = false -> good s e b b.
  Proof.
    intros C N. split; [lra|]. split; [auto|]. intros i k h I P T. exfalso.
    pose proof (at_made _ _ P) as M. destruct P as (j & P1 & P2).
    apply hit_in_box in T; auto. destruct T as [T1 T2].
    assert (B : in_box bx (ray_at r (ht h))) by (eapply in_box_le; [|exact T2]; eapply C; eauto).
    destruct (isect_range_in bx r tmin (b_tmax b) (ht h) T1 B) as (l & h0 & E & _). unfold isect in N. rewrite E in N. discriminate.
  Qed.

  Lemma leaf_loop_ok n : forall s b, s + n <= length idx -> exists b', leaf_loop trs idx r tmin (seq s n) b = Ok b' /\ good s (s + n) b b'.
  Proof.
    induction n as [|n IH]; intros s b L; cbn [seq leaf_loop].
    - exists b. split; auto. rewrite Nat.add_0_r. apply good_refl.
    - destruct (nth_error idx s) as [k|] eqn:Ek; [|apply nth_error_None in Ek; lia].
      pose proof (idx_ok _ _ Ek) as Lk. destruct (nth_error trs k) as [tri|] eqn:Et; [|apply nth_error_None in Et; lia].
      assert (P : at_pos s tri) by (exists k; auto).
      assert (One : forall i k', s <= i < S s -> at_pos i k' -> k' = tri).
      { intros i k' I (j & J1 & J2). replace i with s in J1 by lia. congruence. }
      replace (s + S n) with (S s + n) by lia.
      destruct (tri_isect tri r tmin (b_tmax b)) as [h|] eqn:T.
      + destruct (IH (S s) (mk_best (Some (h, s)) (ht h))) as (b' & E & G); [lia|]. exists b'. split; auto.
        eapply (good_trans s (S s)); [lia| |exact G]. pose proof (hit_in_box _ _ _ _ _ (at_made _ _ P) T) as [T1 _].
        split; [cbn; lra|]. split.
        * right. exists s, tri, h. repeat split; auto; lia.
        * intros i k' h' I P' T'. rewrite (One i k') in T' by auto. rewrite T in T'. injection T' as <-. cbn. split; [lra|discriminate].
      + destruct (IH (S s) b) as (b' & E & G); [lia|]. exists b'. split; auto.
        eapply (good_trans s (S s)); [lia| |exact G]. split; [lra|]. split; [auto|].
        intros i k' h' I P' T'. rewrite (One i k') in T' by auto. congruence.
  Qed.

  Lemma run_ok ni s e d u : tree trs nds idx ni s e d u -> e <= length idx -> (forall k, In k u -> k < num_nodes) ->
    forall rest b, length rest + 1 + d <= 99 ->
    exists n b', n <= length u /\ good s e b b' /\ forall f, run trs nds num_nodes idx r tmin (n + f) (ni :: rest) b = run trs nds num_nodes idx r tmin f rest b'.
  Proof.
    induction 1 as [ni s e L Lf S E C|ni s m e d1 d2 u1 u2 Lf C T1 IH1 T2 IH2]; intros Le U rest b D.
    - assert (Hn : (num_nodes <=? ni) = false) by (apply Nat.leb_gt, U; left; auto).
      destruct (isect (nb (nds ni)) r tmin (b_tmax b)) eqn:Is.
      + destruct (leaf_loop_ok (e - s) s b) as (b' & E1 & G); [lia|]. replace (s + (e - s)) with e in G by lia.
        exists 1, b'. split; [cbn; lia|]. split; [exact G|]. intros f. cbn [Nat.add run]. rewrite Hn, Is, Lf, S, E. cbn [negb]. rewrite E1. reflexivity.
      + exists 1, b. split; [cbn; lia|]. split; [eapply good_skip; eauto|]. intros f. cbn [Nat.add run]. rewrite Hn, Is. reflexivity.
    - assert (Hn : (num_nodes <=? ni) = false) by (apply Nat.leb_gt, U; left; auto).
      pose proof (tree_bounds _ _ _ _ _ _ _ _ T1) as (L1 & _). pose proof (tree_bounds _ _ _ _ _ _ _ _ T2) as (L2 & _).
      destruct (isect (nb (nds ni)) r tmin (b_tmax b)) eqn:Is.
      + destruct (IH2 Le) with (rest := nc1 (nds ni) :: rest) (b := b) as (n2 & b2 & N2 & G2 & R2).
        { intros k K. apply U. right. apply in_app_iff; auto. } { cbn [length]. lia. }
        destruct IH1 with (rest := rest) (b := b2) as (n1 & b1 & N1 & G1 & R1).
        { lia. } { intros k K. apply U. right. apply in_app_iff; auto. } { lia. }
        exists (1 + (n2 + n1)), b1. split; [cbn; rewrite app_length; lia|]. split.
        * (* the right half was searched first *)
          destruct G1 as (A1 & B1 & C1), G2 as (A2 & B2 & C2). split; [lra|]. split.
          -- destruct B1 as [->|(i & k & h & I & P & T & ->)].
             ++ destruct B2 as [->|(i & k & h & I & P & T & ->)]; [auto|]. right. exists i, k, h. repeat split; auto; lia.
             ++ right. exists i, k, h. split; [lia|]. split; [auto|]. split; [|auto]. eapply isect_widen; eauto. eapply at_made; eauto.
          -- intros i k h I P T. destruct (le_lt_dec m i) as [M|M].
             ++ destruct (C2 i k h) as [X Y]; auto; [lia|]. split; [lra|].
                destruct B1 as [->|(i'' & k'' & h'' & _ & _ & _ & ->)]; [auto|]. cbn [b_hit]. discriminate.
             ++ destruct (Rle_dec (ht h) (b_tmax b2)) as [Q|Q].
                ** apply (C1 i k h); auto; [lia|]. eapply tri_isect_shrink; eauto.
                ** split; [lra|]. destruct B2 as [->|(i' & k' & h' & I' & P' & T' & ->)].
                   { exfalso. apply hit_in_box in T; [|eapply at_made; eauto]. lra. }
                   destruct B1 as [->|(i'' & k'' & h'' & _ & _ & _ & ->)]; cbn [b_hit]; discriminate.
        * intros f. cbn [Nat.add run]. rewrite Hn, Is, Lf. cbn [negb].
          destruct (Nat.ltb_spec 99 (length rest + 2)) as [O|O]; [lia|].
          replace (n2 + n1 + f) with (n2 + (n1 + f)) by lia. rewrite R2, R1. reflexivity.
      + exists 1, b. split; [cbn; lia|]. split; [eapply good_skip; eauto|]. intros f. cbn [Nat.add run]. rewrite Hn, Is. reflexivity.
  Qed.

  Lemma query_ok d u nt fuel tmax : nt = length trs -> Permutation idx (seq 0 nt) -> tree trs nds idx 0 0 nt d u ->
    (forall k, In k u -> k < num_nodes) -> d <= 98 -> length u < fuel ->
    exists res, query trs nds num_nodes idx r tmin fuel tmax = Ok res
      /\ match res with
         | None => forall k, In k trs -> tri_isect k r tmin tmax = None
         | Some (t, (x, y), fl, fc) => exists k, In k trs /\ tri_isect k r tmin tmax = Some (mk_hit t x y) /\ fl = tflat k /\ fc = tface k
             /\ forall k' h', In k' trs -> tri_isect k' r tmin tmax = Some h' -> (t <= ht h')%R
         end.
  Proof.
    intros En P T U D F.
    assert (Ll : length idx = nt) by (rewrite (Permutation_length P), seq_length; auto).
    assert (Pos : forall k, In k trs -> exists i, 0 <= i < nt /\ at_pos i k).
    { intros k I. apply In_nth_error in I. destruct I as (j & J). assert (Lj : j < length trs) by (apply nth_error_Some; congruence).
      assert (I : In j idx) by (eapply Permutation_in; [symmetry; exact P|]; apply in_seq; lia).
      apply In_nth_error in I. destruct I as (i & I). exists i. split; [|exists j; auto].
      assert (i < length idx) by (apply nth_error_Some; congruence). lia. }
    destruct (run_ok _ _ _ _ _ T ltac:(lia) U [] (mk_best None tmax) ltac:(cbn; lia)) as (n & b' & N & (G1 & G2 & G3) & R).
    unfold query. replace fuel with (n + S (fuel - n - 1)) by lia. rewrite R. cbn [run obind]. cbn [b_tmax] in *.
    destruct G2 as [->|(i & k & h & I & (j & J1 & J2) & Tk & ->)]; cbn [b_hit].
    - exists None. split; auto. intros k I. destruct (tri_isect k r tmin tmax) as [h|] eqn:E; auto. exfalso.
      destruct (Pos k I) as (i & Hi & At). destruct (G3 i k h Hi At E) as [_ X]. auto.
    - rewrite J1, J2. eexists. split; [reflexivity|]. cbn [b_tmax]. exists k. split; [eapply nth_error_In; eauto|]. split.
      { rewrite Tk. destruct h; reflexivity. }
      split; [auto|]. split; [auto|]. intros k' h' I' E'. destruct (Pos k' I') as (i' & Hi & At). destruct (G3 i' k' h' Hi At E') as [X _]. exact X.
  Qed.
End Query.

Lemma tree_height trs nds idx ni s e d u : tree trs nds idx ni s e d u -> d + 1 <= e - s /\ length u + 1 <= 2 * (e - s).
Proof.
  induction 1 as [ni s e L Lf S E C|ni s m e d1 d2 u1 u2 Lf C T1 IH1 T2 IH2]; [cbn; lia|].
  apply tree_bounds in T1, T2. cbn [length]. rewrite app_length. lia.
Qed.
