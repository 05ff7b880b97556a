(** The density of every volume that can be constructed is piecewise continuous along every ray. *)
From Coq Require Import List Reals ZArith Bool Lra Lia Classical.
From Coquelicot Require Import Coquelicot.
From Verif Require Import Base RBase VecBase GeoModel GeoSpec MatModel PathModel VolModel VolSpec VolProofs VolExpectSpec VolExpectProofs VolPieceProofs.
Import ListNotations.
Open Scope R_scope.

(** Finitely many parts with one value each *)
Inductive stepwise {T} (g : R -> T) : R -> R -> Prop :=
| sw_one a b v : a <= b -> (forall t, a < t < b -> g t = v) -> stepwise g a b
| sw_two a b c : stepwise g a b -> stepwise g b c -> stepwise g a c.
Lemma sw_le {T} (g : R -> T) a b : stepwise g a b -> a <= b.
Proof. induction 1; lra. Qed.
Lemma sw_sub {T} (g : R -> T) a b : stepwise g a b -> forall c d, a <= c -> c <= d -> d <= b -> stepwise g c d.
Proof.
  induction 1 as [a b v L E|a b e H1 IH1 H2 IH2]; intros c d Lc Lcd Ld.
  - apply (sw_one g c d v); [exact Lcd|]. intros t Ht. apply E. lra.
  - destruct (Rle_dec d b); [apply IH1; lra|]. destruct (Rle_dec b c); [apply IH2; lra|].
    apply (sw_two g c b d); [apply IH1; lra|apply IH2; lra].
Qed.
Lemma sw_pair {T U} (g : R -> T) (h : R -> U) a b : stepwise g a b -> stepwise h a b -> stepwise (fun t => (g t, h t)) a b.
Proof.
  intros H1. induction H1 as [a b v L E|a b e H1 IH1 H1' IH1']; intros H2.
  - induction H2 as [a b v' L' E'|a b e H2 IH2 H2' IH2'].
    + apply (sw_one _ a b (v, v')); [exact L|]. intros t Ht. now rewrite E, E'.
    + assert (L1 := sw_le _ _ _ H2). assert (L2 := sw_le _ _ _ H2').
      apply (sw_two _ a b e); [apply IH2|apply IH2']; try lra; intros t Ht; apply E; lra.
  - assert (L1 := sw_le _ _ _ H1). assert (L2 := sw_le _ _ _ H1'). apply (sw_two _ a b e); [apply IH1|apply IH1']; apply (sw_sub h a e H2); lra.
Qed.
Lemma sw_map {T U} (F : T -> U) (g : R -> T) a b : stepwise g a b -> stepwise (fun t => F (g t)) a b.
Proof.
  induction 1 as [a b v L E|a b e H1 IH1 H2 IH2]; [|now apply (sw_two _ a b e)].
  apply (sw_one _ a b (F v)); [exact L|]. intros t Ht. now rewrite E.
Qed.
Lemma sw_ext {T} (g g' : R -> T) a b : (forall t, g t = g' t) -> stepwise g a b -> stepwise g' a b.
Proof.
  intros E. induction 1 as [a b v L Ev|a b e H1 IH1 H2 IH2]; [|now apply (sw_two _ a b e)].
  apply (sw_one _ a b v); [exact L|]. intros t Ht. rewrite <- E. now apply Ev.
Qed.
Lemma sw_pw (g : R -> R) a b : stepwise g a b -> piecewise g a b.
Proof.
  induction 1 as [a b v L E|a b e H1 IH1 H2 IH2]; [|now apply (pw_two _ a b e)].
  apply (pw_one _ a b (fun _ => v)); [exact L| |exact E]. intros; apply continuous_const.
Qed.

(** A monotone function with integer values has finitely many *)
Lemma sw_mono (g : R -> Z) : forall n k a b, a <= b -> (forall s t, a < s -> s <= t -> t < b -> (g s <= g t)%Z) ->
  (forall t, a < t < b -> (k <= g t <= k + Z.of_nat n)%Z) -> stepwise g a b.
Proof.
  induction n as [|n IH]; intros k a b L Mo Rg.
  - apply (sw_one g a b k); [exact L|]. intros t Ht. specialize (Rg t Ht). lia.
  - set (E := fun t => t = a \/ (a < t < b /\ g t = k)).
    destruct (completeness E) as (s & Ub & Lub).
    { exists b. intros t [->|[Ht _]]; lra. } { exists a. now left. }
    assert (La : a <= s) by (apply Ub; now left). assert (Lb : s <= b) by (apply Lub; intros t [->|[Ht _]]; lra).
    apply (sw_two g a s b).
    + apply (sw_one g a s k); [exact La|]. intros t Ht.
      destruct (Z.eq_dec (g t) k) as [?|N]; [assumption|]. exfalso.
      assert (s <= t); [|lra]. apply Lub. intros u [->|[Hu Eu]]; [lra|]. destruct (Rle_dec u t) as [?|Nu]; [assumption|].
      assert (g t <= g u)%Z by (apply Mo; lra). assert (R := Rg t ltac:(lra)). lia.
    + apply (IH (k + 1)%Z); [exact Lb|intros u t Hu Hut Ht; apply Mo; lra|]. intros t Ht. assert (R := Rg t ltac:(lra)).
      assert (g t <> k); [|lia]. intros Eq. assert (t <= s) by (apply Ub; right; split; [lra|exact Eq]). lra.
Qed.
Lemma sw_anti (g : R -> Z) n k a b : a <= b -> (forall s t, a < s -> s <= t -> t < b -> (g t <= g s)%Z) ->
  (forall t, a < t < b -> (k <= g t <= k + Z.of_nat n)%Z) -> stepwise g a b.
Proof.
  intros L Mo Rg. apply (sw_ext (fun t => Z.opp (Z.opp (g t)))); [intros t; lia|]. apply (sw_map Z.opp (fun t => Z.opp (g t))).
  apply (sw_mono _ n (- (k + Z.of_nat n))%Z); [exact L| |].
  - intros s t H1 H2 H3. assert (Q := Mo s t H1 H2 H3). lia.
  - intros t Ht. assert (Q := Rg t Ht). lia.
Qed.
(** Membership in a convex set *)
Lemma sw_convex (g : R -> bool) a b : a <= b -> (forall s t u, s <= t <= u -> g s = true -> g u = true -> g t = true) -> stepwise g a b.
Proof.
  intros L Cv.
  destruct (classic (exists c, a <= c <= b /\ g c = true)) as [[c [Hc Ec]]|No].
  - apply (sw_two g a c b).
    + apply (sw_ext (fun t => Z.eqb (Z.b2z (g t)) 1)); [intros t; now destruct (g t)|]. apply (sw_map (fun z => Z.eqb z 1)).
      apply (sw_mono _ 1 0); [lra| |intros t _; destruct (g t); cbn; lia]. intros s t H1 H2 H3. destruct (g s) eqn:Es; [|destruct (g t); cbn; lia].
      rewrite (Cv s t c); [lia|lra|exact Es|exact Ec].
    + apply (sw_ext (fun t => Z.eqb (Z.b2z (g t)) 1)); [intros t; now destruct (g t)|]. apply (sw_map (fun z => Z.eqb z 1)).
      apply (sw_anti _ 1 0); [lra| |intros t _; destruct (g t); cbn; lia]. intros s t H1 H2 H3. destruct (g t) eqn:Et; [|destruct (g s); cbn; lia].
      rewrite (Cv c s t); [lia|lra|exact Ec|exact Et].
  - apply (sw_one g a b false); [exact L|]. intros t Ht. destruct (g t) eqn:E; [|reflexivity]. exfalso. apply No. exists t. split; [lra|exact E].
Qed.

(** A linear function *)
Lemma line_between o d s t u : s <= t <= u -> Rmin (o + s * d) (o + u * d) <= o + t * d <= Rmax (o + s * d) (o + u * d).
Proof.
  intros H. unfold Rmin, Rmax. assert (Q : s * d <= t * d <= u * d \/ u * d <= t * d <= s * d).
  { destruct (Rle_dec 0 d) as [D|D]; [left|right]; nra. }
  destruct (Rle_dec (o + s * d) (o + u * d)), Q; lra.
Qed.
Lemma box_convex b r s t u : s <= t <= u -> in_box b (ray_at r s) -> in_box b (ray_at r u) -> in_box b (ray_at r t).
Proof.
  intros H [(A1 & A2 & A3) (A4 & A5 & A6)] [(B1 & B2 & B3) (B4 & B5 & B6)]. unfold in_box, vle, ray_at, vadd, vscale in *. cbn [vx vy vz] in *.
  assert (X := line_between (vx (ro r)) (vx (rd r)) s t u H). assert (Y := line_between (vy (ro r)) (vy (rd r)) s t u H). assert (W := line_between (vz (ro r)) (vz (rd r)) s t u H).
  unfold Rmin, Rmax in X, Y, W. repeat split; repeat match goal with H : context [Rle_dec ?a ?b] |- _ => destruct (Rle_dec a b) end; lra.
Qed.
Definition quad (c : vec3) (r : ray) (t : R) : R := dot (vsub c (ray_at r t)) (vsub c (ray_at r t)).
Lemma quad_convex c r s t u : s <= t <= u -> (u - s) * quad c r t <= (u - t) * quad c r s + (t - s) * quad c r u.
Proof.
  intros H. unfold quad, dot, vsub, ray_at, vadd, vscale. cbn [vx vy vz].
  set (x := vx (rd r)). set (y := vy (rd r)). set (z := vz (rd r)).
  assert (0 <= (u - t) * (t - s) * (u - s) * (x * x + y * y + z * z)).
  { apply Rmult_le_pos; [|nra]. apply Rmult_le_pos; [apply Rmult_le_pos|]; lra. }
  match goal with |- ?l <= ?r => replace r with (l + (u - t) * (t - s) * (u - s) * (x * x + y * y + z * z)) by ring end. lra.
Qed.
Lemma ball_convex c r rad s t u : s <= t <= u -> vlen (vsub c (ray_at r s)) < rad -> vlen (vsub c (ray_at r u)) < rad -> vlen (vsub c (ray_at r t)) < rad.
Proof.
  intros H A B. unfold vlen in *. fold (quad c r s) (quad c r u) (quad c r t) in *.
  assert (P : forall v, 0 <= quad c r v) by (intros v; unfold quad, dot; nra).
  assert (P0 := sqrt_pos (quad c r s)). assert (R0 : 0 < rad) by lra.
  assert (Sq : forall v, sqrt (quad c r v) < rad -> quad c r v < rad * rad).
  { intros v Hv. assert (Q := sqrt_sqrt (quad c r v) (P v)). assert (0 <= sqrt (quad c r v)) by apply sqrt_pos. nra. }
  apply Sq in A, B. rewrite <- (sqrt_square rad) by lra. apply sqrt_lt_1_alt. split; [apply P|].
  destruct (Req_dec s u) as [E|N]; [replace t with s by lra; exact A|]. assert (Q := quad_convex c r s t u H).
  apply Rmult_lt_reg_l with (u - s); [lra|]. eapply Rle_lt_trans; [exact Q|].
  replace ((u - s) * (rad * rad)) with ((u - t) * (rad * rad) + (t - s) * (rad * rad)) by ring.
  destruct (Req_dec t u) as [->|Nt].
  - apply Rplus_le_lt_compat; [apply Rmult_le_compat_l; lra|apply Rmult_lt_compat_l; lra].
  - apply Rplus_lt_le_compat; [apply Rmult_lt_compat_l; lra|apply Rmult_le_compat_l; lra].
Qed.

(** Truncation *)
Lemma trunc_mono x y : x <= y -> (trunc x <= trunc y)%Z.
Proof.
  intros H. unfold trunc. destruct (base_Int_part x) as [A1 A2]. destruct (base_Int_part y) as [B1 B2].
  destruct (base_Int_part (- x)) as [C1 C2]. destruct (base_Int_part (- y)) as [D1 D2].
  destruct (Rlt_dec x 0), (Rlt_dec y 0).
  - assert (L : IZR (Int_part (- y)) < IZR (Int_part (- x)) + 1) by lra. rewrite <- plus_IZR in L. apply lt_IZR in L. lia.
  - assert (L : -1 < IZR (Int_part (- x))) by lra. apply (lt_IZR (-1)) in L. assert (L' : -1 < IZR (Int_part y)) by lra. apply (lt_IZR (-1)) in L'. lia.
  - lra.
  - assert (L : IZR (Int_part x) < IZR (Int_part y) + 1) by lra. rewrite <- plus_IZR in L. apply lt_IZR in L. lia.
Qed.
Lemma trunc_line o d a b : a <= b -> stepwise (fun t => trunc (o + t * d)) a b.
Proof.
  intros L. destruct (Rle_dec 0 d) as [D|D].
  - assert (T : (trunc (o + a * d) <= trunc (o + b * d))%Z) by (apply trunc_mono; nra).
    apply (sw_mono _ (Z.to_nat (trunc (o + b * d) - trunc (o + a * d))) (trunc (o + a * d))); [exact L|intros s t _ H _; apply trunc_mono; nra|].
    intros t Ht. rewrite Z2Nat.id by lia. assert (trunc (o + a * d) <= trunc (o + t * d))%Z by (apply trunc_mono; nra).
    assert (trunc (o + t * d) <= trunc (o + b * d))%Z by (apply trunc_mono; nra). lia.
  - assert (T : (trunc (o + b * d) <= trunc (o + a * d))%Z) by (apply trunc_mono; nra).
    apply (sw_anti _ (Z.to_nat (trunc (o + a * d) - trunc (o + b * d))) (trunc (o + b * d))); [exact L|intros s t _ H _; apply trunc_mono; nra|].
    intros t Ht. rewrite Z2Nat.id by lia. assert (trunc (o + b * d) <= trunc (o + t * d))%Z by (apply trunc_mono; nra).
    assert (trunc (o + t * d) <= trunc (o + a * d))%Z by (apply trunc_mono; nra). lia.
Qed.

Definition along_ray (v : volume) (r : ray) (a b : R) : Prop :=
  exists f, piecewise f a b /\ forall t, in_box (v_bound v) (ray_at r t) -> v_scalar v (ray_at r t) = ret (f t).
Lemma checker_along lo hi r a b : a <= b -> positive (vsub hi lo) -> along_ray (checker (mk_bound lo hi)) r a b.
Proof.
  intros L P. set (g := fun t => checker_eval (mk_bound lo hi) (ray_at r t)).
  exists (fun t => match g t with Val x => x | _ => 0 end). split.
  - destruct P as (P1 & P2 & _). unfold vsub in P1, P2. cbn [vx vy] in P1, P2. apply sw_pw. apply (sw_map (fun o => match o with Val x => x | _ => 0 end) g).
    set (zx := fun t => trunc ((vx (ro r) - vx lo) / (vx hi - vx lo) / / 5 + t * (vx (rd r) / (vx hi - vx lo) / / 5))).
    set (zy := fun t => trunc ((vy (ro r) - vy lo) / (vy hi - vy lo) / / 5 + t * (vy (rd r) / (vy hi - vy lo) / / 5))).
    set (F := fun '(x, y) => do x <- (if ((-2147483648 <=? x) && (x <=? 2147483647))%Z then Val x else Undefined);
      do y <- (if ((-2147483648 <=? y) && (y <=? 2147483647))%Z then Val y else Undefined);
      if ((-2147483648 <=? x + y) && (x + y <=? 2147483647))%Z then Val (if (Z.rem (x + y) 2 =? 0)%Z then 1 else 0) else Undefined).
    apply (sw_ext (fun t => F (zx t, zy t))).
    + intros t. unfold g, checker_eval, to_int, F, zx, zy. cbn [bmin bmax]. cbv zeta. unfold rdiv, fdiv.
      destruct (Req_EM_T (vx hi - vx lo) 0); [lra|]. destruct (Req_EM_T (vy hi - vy lo) 0); [lra|]. cbn [fbind]. unfold ray_at, vadd, vscale. cbn [vx vy].
      replace ((vx (ro r) + t * vx (rd r) - vx lo) / (vx hi - vx lo) / / 5) with ((vx (ro r) - vx lo) / (vx hi - vx lo) / / 5 + t * (vx (rd r) / (vx hi - vx lo) / / 5)) by (field; lra).
      replace ((vy (ro r) + t * vy (rd r) - vy lo) / (vy hi - vy lo) / / 5) with ((vy (ro r) - vy lo) / (vy hi - vy lo) / / 5 + t * (vy (rd r) / (vy hi - vy lo) / / 5)) by (field; lra).
      reflexivity.
    + apply (sw_map F). apply sw_pair; now apply trunc_line.
  - intros t It. cbn [v_bound v_scalar checker] in *. destruct (checker_defined lo hi _ P It) as [x E]. unfold g. rewrite E. reflexivity.
Qed.
Lemma gauss_along m p sg r a b : a <= b -> positive sg -> exists f, piecewise f a b /\ forall t, gauss_eval m (vsub p (ray_at r t)) sg = Val (f t).
Proof.
  intros L (P1 & P2 & P3).
  exists (fun t => let q := vsub p (ray_at r t) in m * exp (- (1 / 2) * (vx q * vx q / (vx sg * vx sg) + vy q * vy q / (vy sg * vy sg) + vz q * vz q / (vz sg * vz sg)))). split.
  - apply pw_cont; [exact L|]. intros t. cbv zeta. unfold vsub, ray_at, vadd, vscale. cbn [vx vy vz].
    apply (ex_derive_continuous (V := R_NormedModule)). auto_derive. trivial.
  - intros t. cbv zeta. unfold gauss_eval, rdiv, fdiv.
    destruct (Req_EM_T (vx sg * vx sg) 0); [nra|]. destruct (Req_EM_T (vy sg * vy sg) 0); [nra|]. destruct (Req_EM_T (vz sg * vz sg) 0); [nra|]. reflexivity.
Qed.
Lemma made_along v : made v -> v_has_scalar v = true -> forall r a b, a <= b -> along_ray v r a b.
Proof.
  induction 1 as [lo hi P|lo hi c s v N H|c p s rad v N P H|c s p sg v N P H|alb den v _ IA _ ID H]; intros S r a b L.
  - now apply checker_along.
  - apply constant_inv in H as [_ ->]. cbn in S. destruct s as [m|]; [|discriminate]. exists (fun _ => m). split; [|reflexivity].
    apply pw_cont; [exact L|]. intros; apply continuous_const.
  - apply sphere_inv in H as [_ ->]. cbn in S. destruct s as [m|]; [|discriminate].
    set (g := fun t => if Rlt_dec (vlen (vsub p (ray_at r t))) rad then true else false).
    exists (fun t => m * (if g t then 1 else 0)). split.
    + apply sw_pw. apply (sw_map (fun k : bool => m * (if k then 1 else 0)) g). apply sw_convex; [exact L|]. unfold g. intros x y z O.
      destruct (Rlt_dec (vlen (vsub p (ray_at r x))) rad) as [A|]; [|discriminate]. destruct (Rlt_dec (vlen (vsub p (ray_at r z))) rad) as [B|]; [|discriminate].
      intros _ _. destruct (Rlt_dec (vlen (vsub p (ray_at r y))) rad) as [_|Nn]; [reflexivity|]. destruct Nn. now apply (ball_convex p r rad x y z).
    + intros t _. cbn [v_scalar read pbind ret]. unfold g. destruct (Rlt_dec _ rad); reflexivity.
  - apply gaussian_inv in H as (_ & x & y & z & _ & _ & _ & ->). cbn in S. destruct s as [m|]; [|discriminate].
    destruct (gauss_along m p sg r a b L P) as (f & Pf & E). exists f. split; [exact Pf|]. intros t _. cbn [v_scalar read pbind ret]. now rewrite E.
  - apply multi_inv in H as (l & bd & m & -> & -> & NE & F & E & ->). unfold along_ray. cbn [v_bound v_scalar]. clear NE E S IA m.
    assert (G : exists f, piecewise f a b /\ forall t s0, multi_scalar (map snd l) (ray_at r t) s0 = ret (s0 + f t)).
    { induction l as [|[al d] l IH]; cbn [map multi_scalar].
      - exists (fun _ => 0). split; [apply pw_cont; [exact L|intros; apply continuous_const]|]. intros t s0. now rewrite Rplus_0_r.
      - inversion F as [|? ? [F1 F2] F3]; subst. cbn [fst snd] in *.
        destruct IH as (f & Pf & Ef); [intros w X; apply ID; now right|exact F3|].
        destruct (ID d (or_introl eq_refl) F2 r a b L) as (k & Pk & Ek).
        set (g := fun t => is_in_bound (ray_at r t) (v_bound d)).
        exists (fun t => (if g t then 1 else 0) * k t + f t). split.
        + apply (pw_plus (fun t => (if g t then 1 else 0) * k t) f); [|exact Pf]. apply (pw_mult (fun t => if g t then 1 else 0) k); [|exact Pk].
          apply sw_pw. apply (sw_map (fun k : bool => if k then 1 else 0) g). apply sw_convex; [exact L|]. unfold g. intros x y z O A B.
          apply in_bound_iff in A, B. apply in_bound_iff. now apply (box_convex _ r x y z).
        + intros t s0. fold (g t). unfold g. destruct (is_in_bound (ray_at r t) (v_bound d)) eqn:K; cbn [negb].
          * apply in_bound_iff in K. rewrite (Ek t K). cbn [pbind ret]. rewrite Ef. f_equal. ring.
          * rewrite Ef. f_equal. ring. }
    destruct G as (f & Pf & Ef). exists f. split; [exact Pf|]. intros t _. rewrite Ef. f_equal. ring.
Qed.
