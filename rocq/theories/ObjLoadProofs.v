(** Loading MTL and OBJ files. *)
From Coq Require Import List ZArith Bool Ascii String Lia ZifyBool.
From Verif Require Import Base LogModel LogProofs ObjModel ObjSpec ObjProofs.
Import ListNotations.
Open Scope Z_scope.

(** ** Lines of a file *)
Lemma getlines_word : forall w cur rest, ~ In newline w -> getlines cur (w ++ newline :: rest) = rev (rev w ++ cur) :: getlines [] rest.
Proof.
  induction w as [|c w IH]; intros cur rest H; cbn [app getlines].
  - rewrite Ascii.eqb_refl. reflexivity.
  - destruct (Ascii.eqb_spec c newline) as [->|]; [exfalso; apply H; left; reflexivity|].
    rewrite IH by (intros G; apply H; right; exact G). cbn [rev]. rewrite <- app_assoc. reflexivity.
Qed.

Lemma lines_text ls : (forall l, In l ls -> ~ In newline l) -> getlines [] (List.concat (map (fun l => l ++ [newline]) ls)) = ls.
Proof.
  intros Hn. induction ls as [|l ls IH]; [reflexivity|]. cbn [map List.concat]. rewrite <- app_assoc. cbn [app].
  rewrite getlines_word by (apply Hn; left; reflexivity). rewrite app_nil_r, rev_involutive.
  f_equal. apply IH. intros x Hx. apply Hn. right. exact Hx.
Qed.

Lemma lines_file ls content : file_of ls content -> Forall short ls -> lines content = ls.
Proof.
  intros [Hn ->] Hs. unfold lines.
  assert (E := lines_text ls Hn).
  rewrite E. clear E Hn. induction Hs as [|l ls Hl _ IH]; [reflexivity|]. cbn [read_lines].
  destruct (Nat.ltb_spec (List.length l) 4096); [rewrite IH; reflexivity|unfold short in Hl; lia].
Qed.

Ltac find_command x args Hx :=
  repeat match goal with
    | |- context [command (str ?c ++ x :: args) (str ?c)] => rewrite (command_ok (str c) x args Hx)
    | |- context [command (str ?c ++ x :: args) (str ?d)] => change (command (str c ++ x :: args) (str d)) with (@None text)
    end.
Ltac literal := eexists; eexists; split; [reflexivity|intros [B|B]; discriminate].

Section Floats.
Variable F : Type.
Variables zero one : F.
Variable num : text -> F.
Notation mtl := (mtl F).
Notation mats := (mats F).
Notation mtl_line := (mtl_line F zero num).
Notation set_param := (set_param F).

(** ** MTL *)
Definition apply_m (d : mats) (s : mstmt F) : mats :=
  match s with
  | MNew _ n => mk_mats F (ms F d ++ [new_mtl F zero n]) ((n, List.length (ms F d)) :: msmap F d)
  | MOther _ => d
  | s => mk_mats F (upd_last F (fun m => set_param m s) (ms F d)) (msmap F d)
  end.

Lemma upd_none (d : mats) f : ms F d = [] -> mk_mats F (upd_last F f (ms F d)) (msmap F d) = d.
Proof. intros E. rewrite E. cbn. rewrite <- E. destruct d. reflexivity. Qed.

Lemma mtl_line_ok s l d nm : msays F num s l -> exists nm', mtl_line (d, nm) l = Ok (apply_m d s, nm').
Proof.
  intros H. destruct H as [args l n C S N|args l x y z C T|args l x y z C T|args l x y z C T|args l v C O|args l v C O|args l v C O|args l i w C S I|args l n C S N|l Ho];
    unfold ObjModel.mtl_line.
  - destruct (line_text "newmtl" args l ltac:(literal) C) as (x & Hx & ->). find_command x args Hx.
    rewrite (next_string_ok nm n args N S). cbn [obind]. eexists. reflexivity.
  - destruct (line_text "Kd" args l ltac:(literal) C) as (c & Hx & ->). find_command c args Hx.
    rewrite (three_ok F num args x y z T). unfold apply_m. destruct (ms F d) eqn:E; [rewrite <- E, upd_none by exact E|]; eexists; reflexivity.
  - destruct (line_text "Ks" args l ltac:(literal) C) as (c & Hx & ->). find_command c args Hx.
    rewrite (three_ok F num args x y z T). unfold apply_m. destruct (ms F d) eqn:E; [rewrite <- E, upd_none by exact E|]; eexists; reflexivity.
  - destruct (line_text "Ke" args l ltac:(literal) C) as (c & Hx & ->). find_command c args Hx.
    rewrite (three_ok F num args x y z T). unfold apply_m. destruct (ms F d) eqn:E; [rewrite <- E, upd_none by exact E|]; eexists; reflexivity.
  - destruct (line_text "Ni" args l ltac:(literal) C) as (c & Hx & ->). find_command c args Hx.
    rewrite (one_ok F num args v O). unfold apply_m. destruct (ms F d) eqn:E; [rewrite <- E, upd_none by exact E|]; eexists; reflexivity.
  - destruct (line_text "Ns" args l ltac:(literal) C) as (c & Hx & ->). find_command c args Hx.
    rewrite (one_ok F num args v O). unfold apply_m. destruct (ms F d) eqn:E; [rewrite <- E, upd_none by exact E|]; eexists; reflexivity.
  - destruct (line_text "aniso" args l ltac:(literal) C) as (c & Hx & ->). find_command c args Hx.
    rewrite (one_ok F num args v O). unfold apply_m. destruct (ms F d) eqn:E; [rewrite <- E, upd_none by exact E|]; eexists; reflexivity.
  - destruct (line_text "illum" args l ltac:(literal) C) as (c & Hx & ->). find_command c args Hx.
    assert (En : next_int args = i).
    { destruct (integer_facts i w I) as (_ & U & _ & At). inversion S as [|b ? r ? B E S']; subst. unfold next_int.
      rewrite (skip_word b w r B U). apply At. apply ends_head. exact E. }
    rewrite En. unfold apply_m. destruct (ms F d) eqn:E; [rewrite <- E, upd_none by exact E|]; eexists; reflexivity.
  - destruct (line_text "map_Kd" args l ltac:(literal) C) as (c & Hx & ->). find_command c args Hx.
    unfold apply_m. destruct (ms F d) eqn:E; [rewrite <- E, upd_none by exact E; eexists; reflexivity|].
    rewrite (next_string_ok nm n args N S). cbn [obind]. eexists. reflexivity.
  - assert (Hc : forall c, In c mtl_commands -> command (skip_spaces l) (str c) = None).
    { intros c Hin. apply no_command. intros args. exact (Ho c args Hin). }
    unfold mtl_commands in Hc.
    rewrite (Hc "newmtl"%string), (Hc "Kd"%string), (Hc "Ks"%string), (Hc "Ni"%string), (Hc "Ns"%string), (Hc "aniso"%string), (Hc "Ke"%string), (Hc "illum"%string), (Hc "map_Kd"%string) by (cbn [In]; tauto).
    cbn [apply_m]. destruct (ms F d); eexists; reflexivity.
Qed.

Lemma mtl_lines_ok : forall sts ls d nm, Forall2 (msays F num) sts ls ->
  exists nm', ofold mtl_line (d, nm) ls = Ok (fold_left apply_m sts d, nm').
Proof.
  intros sts ls d nm H. revert d nm. induction H as [|s l sts ls Hs _ IH]; intros d nm; [exists nm; reflexivity|].
  cbn [ofold fold_left]. destruct (mtl_line_ok s l d nm Hs) as [n1 ->]. cbn [obind]. apply IH.
Qed.

Fixpoint upto (l : list (mstmt F)) : list (mstmt F) :=
  match l with [] => [] | MNew _ _ :: _ => [] | s :: l' => s :: upto l' end.
Lemma blocks_new n l : blocks F (MNew F n :: l) = (n, upto l) :: blocks F l.
Proof. reflexivity. Qed.

Lemma upd_last_app f l m : upd_last F f (l ++ [m]) = l ++ [f m].
Proof. induction l as [|a l IH]; [reflexivity|]. cbn [app upd_last]. rewrite IH. destruct (l ++ [m]) eqn:E; [destruct l; discriminate|reflexivity]. Qed.

Lemma apply_open : forall sts (d : mats) base m, ms F d = base ++ [m] ->
  ms F (fold_left apply_m sts d) = base ++ [fold_left set_param (upto sts) m] ++ mtl_means F zero sts.
Proof.
  induction sts as [|s sts IH]; intros d base m E; [cbn; rewrite E; reflexivity|].
  assert (Other : forall m', ms F (apply_m d s) = base ++ [m'] -> m' = set_param m s -> upto (s :: sts) = s :: upto sts -> mtl_means F zero (s :: sts) = mtl_means F zero sts ->
     ms F (fold_left apply_m (s :: sts) d) = base ++ [fold_left set_param (upto (s :: sts)) m] ++ mtl_means F zero (s :: sts)).
  { intros m' E1 E2 E3 E4. cbn [fold_left]. rewrite (IH (apply_m d s) base m' E1), E3, E4, E2. reflexivity. }
  destruct s; try (apply (Other _ (eq_trans (f_equal (upd_last F _) E) (upd_last_app _ base m)) eq_refl eq_refl eq_refl)).
  - cbn [fold_left]. rewrite (IH (apply_m d (MNew F n)) (base ++ [m]) (new_mtl F zero n)).
    + cbn [upto fold_left]. unfold mtl_means. rewrite blocks_new. cbn [map fst snd]. rewrite <- app_assoc. reflexivity.
    + cbn [apply_m ms]. rewrite E. reflexivity.
  - apply (Other m); [exact E|reflexivity|reflexivity|reflexivity].
Qed.

Lemma apply_headed : forall sts (d : mats), headed F sts -> ms F (fold_left apply_m sts d) = ms F d ++ mtl_means F zero sts.
Proof.
  induction sts as [|s sts IH]; intros d H; [cbn; rewrite app_nil_r; reflexivity|].
  destruct s; cbn [headed] in H; try contradiction.
  - cbn [fold_left]. rewrite (apply_open sts (apply_m d (MNew F n)) (ms F d) (new_mtl F zero n)) by reflexivity. unfold mtl_means. rewrite blocks_new. reflexivity.
  - cbn [fold_left]. apply IH. exact H.
Qed.

(** The map from names to indices. *)
Definition map_ok (d : mats) : Prop := forall n k, lookup n (msmap F d) = Some k <-> named F (ms F d) n k.

Lemma text_eqb_spec a b : text_eqb a b = true <-> a = b.
Proof. unfold text_eqb. destruct (list_eq_dec ascii_dec a b); split; congruence. Qed.

Lemma named_names l l' n k : map (m_name F) l = map (m_name F) l' -> named F l n k -> named F l' n k.
Proof.
  intros E. assert (T : forall l l', map (m_name F) l = map (m_name F) l' -> forall k m, nth_error l k = Some m -> exists m', nth_error l' k = Some m' /\ m_name F m' = m_name F m).
  { clear. induction l as [|a l IH]; intros [|b l'] E [|k] m H; cbn in *; try discriminate.
    - injection H as ->. injection E as E _. exists b. auto.
    - injection E as _ E. exact (IH l' E k m H). }
  intros [(m & Hm & En) Hlast]. split.
  - destruct (T l l' E k m Hm) as (m' & H1 & H2). exists m'. split; [exact H1|congruence].
  - intros k' m' Hk H. destruct (T l' l (eq_sym E) k' m' H) as (m1 & H1 & H2). rewrite <- H2. exact (Hlast k' m1 Hk H1).
Qed.

Lemma set_param_name m s : m_name F (set_param m s) = m_name F m.
Proof. destruct s; reflexivity. Qed.
Lemma upd_last_names f l : (forall m, m_name F (f m) = m_name F m) -> map (m_name F) (upd_last F f l) = map (m_name F) l.
Proof.
  intros H. induction l as [|a [|b l] IH]; [reflexivity|cbn; rewrite H; reflexivity|]. cbn [upd_last map] in *. f_equal. exact IH.
Qed.

Lemma map_ok_new d n : map_ok d -> map_ok (apply_m d (MNew F n)).
Proof.
  intros H n' k. cbn [apply_m msmap lookup ms]. destruct (text_eqb n n') eqn:E.
  - apply text_eqb_spec in E. subst n'. split.
    + intros G. injection G as <-. split.
      * exists (new_mtl F zero n). rewrite nth_error_app2, Nat.sub_diag by lia. auto.
      * intros k' m' Hk Hm. exfalso. assert (k' < List.length (ms F d ++ [new_mtl F zero n]))%nat by (apply nth_error_Some; congruence).
        rewrite app_length in *. cbn in *. lia.
    + intros [(m & Hm & En) Hl]. f_equal. assert (k < List.length (ms F d ++ [new_mtl F zero n]))%nat by (apply nth_error_Some; congruence).
      rewrite app_length in *. cbn [List.length] in *.
      destruct (Nat.eq_dec k (List.length (ms F d))) as [->|Hne]; [reflexivity|]. exfalso.
      apply (Hl (List.length (ms F d)) (new_mtl F zero n)); [lia| |reflexivity]. rewrite nth_error_app2, Nat.sub_diag by lia. reflexivity.
  - rewrite (H n' k). split; intros [(m & Hm & En) Hl].
    + split.
      * exists m. split; [rewrite nth_error_app1; [exact Hm|apply nth_error_Some; congruence]|exact En].
      * intros k' m' Hk Hm'. destruct (Nat.lt_ge_cases k' (List.length (ms F d))) as [Hlt|Hge].
        -- rewrite nth_error_app1 in Hm' by exact Hlt. exact (Hl k' m' Hk Hm').
        -- rewrite nth_error_app2 in Hm' by exact Hge. destruct (k' - List.length (ms F d))%nat as [|[|j]]; cbn in Hm'; try discriminate.
           injection Hm' as <-. cbn. intros G. apply text_eqb_spec in G. congruence.
    + destruct (Nat.lt_ge_cases k (List.length (ms F d))) as [Hlt|Hge].
      * rewrite nth_error_app1 in Hm by exact Hlt. split; [exists m; auto|].
        intros k' m' Hk Hm'. apply (Hl k' m' Hk). rewrite nth_error_app1; [exact Hm'|apply nth_error_Some; congruence].
      * exfalso. rewrite nth_error_app2 in Hm by exact Hge. destruct (k - List.length (ms F d))%nat as [|[|j]]; cbn in Hm; try discriminate.
        injection Hm as <-. cbn in En. apply text_eqb_spec in En. congruence.
Qed.

Lemma map_ok_apply d s : map_ok d -> map_ok (apply_m d s).
Proof.
  intros H. assert (U : map_ok (mk_mats F (upd_last F (fun m => set_param m s) (ms F d)) (msmap F d))).
  { intros n k. cbn [msmap ms]. rewrite (H n k). assert (E := upd_last_names (fun m => set_param m s) (ms F d) (fun m => set_param_name m s)).
    split; apply named_names; congruence. }
  destruct s; try exact U; [apply map_ok_new; exact H|exact H].
Qed.
Lemma map_ok_fold : forall sts d, map_ok d -> map_ok (fold_left apply_m sts d).
Proof. induction sts as [|s sts IH]; intros d H; [exact H|]. cbn [fold_left]. apply IH. apply map_ok_apply. exact H. Qed.

Lemma loadmtl_ok open lib n new d : library F zero num open lib -> lib n = Some new -> map_ok d ->
  exists d', loadmtl F zero num (open n) d = Ok (Some d') /\ ms F d' = ms F d ++ new /\ map_ok d'.
Proof.
  intros L E H. destruct (L n new E) as (content & ls & sts & Eo & Ef & Es & Em & Eh & ->).
  unfold loadmtl. rewrite Eo, (lines_file ls content Ef Es). destruct (mtl_lines_ok sts ls d None Em) as [nm ->]. cbn [obind fst].
  exists (fold_left apply_m sts d). split; [reflexivity|]. split; [apply apply_headed; exact Eh|apply map_ok_fold; exact H].
Qed.

(** ** OBJ *)
Notation obj := (obj F).
Notation obj_line := (obj_line F zero num).
Notation env := (env F).

Lemma triples_app {A} : forall n (a b : list A), List.length a = (3 * n)%nat -> triples (a ++ b) = triples a ++ triples b.
Proof.
  induction n as [|n IH]; intros a b H.
  - destruct a; [reflexivity|discriminate].
  - destruct a as [|x [|y [|z a]]]; try (cbn in H; lia). cbn [app triples]. f_equal. apply IH. cbn in H. lia.
Qed.

Definition prim_tris (p : prim) : list (tri * nat) := map (fun t => (t, material_index p)) (triples (fs p)).
Definition all_tris (l : list prim) : list (tri * nat) := List.concat (map prim_tris l).

Record inv (s : obj) (e : env) (out : list (tri * nat)) : Prop := mk_inv {
  i_ps : ps F (g F s) = e_ps F e;
  i_ns : ns F (g F s) = e_ns F e;
  i_ts : ts F (g F s) = e_ts F e;
  i_ms : ms F (mt F s) = e_mats F e;
  i_map : map_ok (mt F s);
  i_cur : curr F s = e_cur F e;
  i_curlt : (curr F s = 0 \/ curr F s < List.length (ms F (mt F s)))%nat;
  i_out : all_tris (prims F s) = out;
  i_len : forall p, In p (prims F s) -> exists n, List.length (fs p) = (3 * n)%nat;
  i_mat : forall p, In p (prims F s) -> (material_index p = 0 \/ material_index p < List.length (ms F (mt F s)))%nat;
  i_last : match rev (prims F s) with [] => curr F s = 0%nat | p :: _ => material_index p = curr F s end
}.

Lemma upd_back_app f l p : upd_back f (l ++ [p]) = l ++ [f p].
Proof. induction l as [|a l IH]; [reflexivity|]. cbn [app upd_back]. rewrite IH. destruct (l ++ [p]) eqn:E; [destruct l; discriminate|reflexivity]. Qed.

Lemma all_tris_app a b : all_tris (a ++ b) = all_tris a ++ all_tris b.
Proof. unfold all_tris. rewrite map_app, concat_app. reflexivity. Qed.

(** Switching to a material: the new or empty last primitive gets it. *)
Lemma fresh_cases l : exists base q, fresh l = base ++ [q] /\ fs q = [] /\ all_tris base = all_tris l /\ (forall p, In p base -> In p l).
Proof.
  unfold fresh. destruct (rev l) as [|p r] eqn:E.
  - apply (f_equal (@rev prim)) in E. rewrite rev_involutive in E. subst l. exists [], (mk_prim 0 []). cbn. auto.
  - apply (f_equal (@rev prim)) in E. rewrite rev_involutive in E. cbn [rev] in E. destruct (fs p) eqn:Ef.
    + exists (rev r), p. split; [exact E|]. split; [exact Ef|]. split.
      * rewrite E, all_tris_app. unfold all_tris at 3. cbn [map List.concat]. unfold prim_tris. rewrite Ef. cbn. rewrite app_nil_r. reflexivity.
      * intros x Hx. rewrite E. apply in_or_app. left. exact Hx.
    + exists l, (mk_prim 0 []). auto.
Qed.

Lemma inv_switch (s : obj) (e : env) out i nm : inv s e out -> (i = 0 \/ i < List.length (ms F (mt F s)))%nat ->
  inv (mk_obj F (g F s) (upd_back (fun p => mk_prim i (fs p)) (fresh (prims F s))) i (mt F s) nm)
      (mk_env F (e_ps F e) (e_ns F e) (e_ts F e) (e_mats F e) i) out.
Proof.
  intros [] Hi. destruct (fresh_cases (prims F s)) as (base & q & E & Eq & Et & Eb). rewrite E, upd_back_app, Eq.
  constructor; cbn [g prims curr mt e_ps e_ns e_ts e_mats e_cur]; auto.
  - rewrite all_tris_app, Et, i_out0. unfold all_tris. cbn. rewrite app_nil_r. reflexivity.
  - intros p Hp. apply in_app_or in Hp. destruct Hp as [Hp|[<-|[]]]; [apply i_len0, Eb; exact Hp|exists 0%nat; reflexivity].
  - intros p Hp. apply in_app_or in Hp. destruct Hp as [Hp|[<-|[]]]; [apply i_mat0, Eb; exact Hp|exact Hi].
  - rewrite rev_app_distr. reflexivity.
Qed.

Ltac same H := destruct H; constructor; cbn [g ps ns ts prims curr mt e_ps e_ns e_ts e_mats e_cur]; auto; try congruence.

(** One statement. *)
Lemma obj_line_ok open lib (e e' : env) st l sts out out' s : library F zero num open lib ->
  says F num st l -> means F lib e (st :: sts) e' out -> inv s e out' ->
  exists s' e1 o1 o2, obj_line open s l = Ok (Some s') /\ inv s' e1 (out' ++ o1) /\ means F lib e1 sts e' o2 /\ out = o1 ++ o2.
Proof.
  intros L Hs Hm I. destruct Hs as [args l x y z C T|args l x y z C T|args l x y C T|args l C|args l vs ws C S V N|args l n C S N|args l n C S N|l Ho];
    inversion Hm; subst; unfold ObjModel.obj_line.
  - destruct (line_text "v" args l ltac:(literal) C) as (c & Hx & ->). find_command c args Hx. rewrite (three_ok F num args x y z T).
    do 2 eexists. exists [], out. split; [reflexivity|]. split; [|split; [eassumption|reflexivity]]. rewrite app_nil_r. same I.
  - destruct (line_text "vn" args l ltac:(literal) C) as (c & Hx & ->). find_command c args Hx. rewrite (three_ok F num args x y z T).
    do 2 eexists. exists [], out. split; [reflexivity|]. split; [|split; [eassumption|reflexivity]]. rewrite app_nil_r. same I.
  - destruct (line_text "vt" args l ltac:(literal) C) as (c & Hx & ->). find_command c args Hx. rewrite (two_ok F num args x y T).
    do 2 eexists. exists [], out. split; [reflexivity|]. split; [|split; [eassumption|reflexivity]]. rewrite app_nil_r. same I.
  - destruct (line_text "g" args l ltac:(literal) C) as (c & Hx & ->). find_command c args Hx.
    do 2 eexists. exists [], out. split; [reflexivity|]. split; [|split; [eassumption|reflexivity]]. rewrite app_nil_r.
    assert (I2 := inv_switch s e out' (curr F s) (name F s) I (i_curlt _ _ _ I)). 
    assert (Ee : mk_env F (e_ps F e) (e_ns F e) (e_ts F e) (e_mats F e) (curr F s) = e) by (rewrite (i_cur _ _ _ I); destruct e; reflexivity).
    rewrite Ee in I2. exact I2.
  - destruct (line_text "f" args l ltac:(literal) C) as (c & Hx & ->). find_command c args Hx.
    match goal with H : Forall2 (vert_denotes _ _ _) _ ?x |- _ => rename x into fs0 end.
    do 2 eexists. do 2 eexists. split; [reflexivity|]. split; [|split; [eassumption|reflexivity]].
    rewrite (i_ps _ _ _ I), (i_ns _ _ _ I), (i_ts _ _ _ I).
    match goal with H : Forall2 (vert_denotes _ _ _) _ ?fs |- _ => destruct (parse_face_ok _ _ _ vs fs ws args V H S N) as [Et [k Ek]] end.
    set (is := parse_face _ _ _ args) in *. clearbody is.
    assert (Hp : exists base q, match prims F s with [] => [mk_prim 0 []] | l => l end = base ++ [q] /\ all_tris (base ++ [q]) = out'
                  /\ (forall p, In p (base ++ [q]) -> exists n, List.length (fs p) = (3 * n)%nat)
                  /\ (forall p, In p (base ++ [q]) -> (material_index p = 0 \/ material_index p < List.length (ms F (mt F s)))%nat)
                  /\ material_index q = curr F s).
    { destruct I. destruct (prims F s) as [|p0 pl] eqn:Ep.
      - exists [], (mk_prim 0 []). split; [reflexivity|]. split; [exact i_out0|]. split; [intros p [<-|[]]; exists 0%nat; reflexivity|].
        split; [intros p [<-|[]]; left; reflexivity|]. cbn in i_last0. cbn. congruence.
      - destruct (exists_last (l := p0 :: pl)) as (base & q & E); [discriminate|]. exists base, q. rewrite E in *.
        split; [reflexivity|]. split; [exact i_out0|]. split; [exact i_len0|]. split; [exact i_mat0|]. rewrite rev_app_distr in i_last0. exact i_last0. }
    destruct Hp as (base & q & -> & Eo & El & Em & Eq). rewrite upd_back_app.
    destruct (El q) as [nq Enq]; [apply in_or_app; right; left; reflexivity|].
    destruct I. constructor; cbn [g prims curr mt e_ps e_ns e_ts e_mats e_cur]; auto.
    + rewrite all_tris_app. rewrite <- Eo, all_tris_app, <- app_assoc. f_equal. unfold all_tris. cbn [map List.concat]. rewrite !app_nil_r.
      unfold prim_tris. cbn [fs material_index]. rewrite (triples_app nq) by exact Enq. rewrite map_app. f_equal. rewrite Et, Eq, i_cur0. reflexivity.
    + intros p Hp. apply in_app_or in Hp. destruct Hp as [Hp|[<-|[]]]; [apply El; apply in_or_app; left; exact Hp|].
      cbn [fs]. exists (nq + k)%nat. rewrite app_length. lia.
    + intros p Hp. apply in_app_or in Hp. destruct Hp as [Hp|[<-|[]]]; [apply Em; apply in_or_app; left; exact Hp|]. cbn [material_index].
      apply Em. apply in_or_app. right. left. reflexivity.
    + rewrite rev_app_distr. cbn. exact Eq.
  - destruct (line_text "usemtl" args l ltac:(literal) C) as (c & Hx & ->). find_command c args Hx.
    rewrite (next_string_ok (name F s) n args N S). cbn [obind].
    match goal with H : named _ _ n ?k |- _ => rename H into Hd; rename k into kd end.
    assert (Hn : lookup n (msmap F (mt F s)) = Some kd) by (apply (proj2 (i_map _ _ _ I n kd)); rewrite (i_ms _ _ _ I); exact Hd).
    assert (Hk : (kd < List.length (e_mats F e))%nat) by (destruct Hd as [(m & Hm1 & _) _]; apply nth_error_Some; congruence).
    rewrite Hn. do 2 eexists. exists [], out. split; [reflexivity|]. split; [|split; [eassumption|reflexivity]]. rewrite app_nil_r.
    apply inv_switch; [exact I|]. right. rewrite (i_ms _ _ _ I). exact Hk.
  - destruct (line_text "mtllib" args l ltac:(literal) C) as (c & Hx & ->). find_command c args Hx.
    rewrite (next_string_ok (name F s) n args N S). cbn [obind].
    match goal with H : lib n = Some ?new |- _ => destruct (loadmtl_ok open lib n new (mt F s) L H (i_map _ _ _ I)) as (d' & Ed & Em & Eo) end.
    rewrite Ed. cbn [obind]. do 2 eexists. exists [], out. split; [reflexivity|]. split; [|split; [eassumption|reflexivity]]. rewrite app_nil_r.
    assert (Lg : (List.length (ms F (mt F s)) <= List.length (ms F d'))%nat) by (rewrite Em, app_length; lia).
    destruct I; constructor; cbn [g prims curr mt e_ps e_ns e_ts e_mats e_cur]; auto; try congruence; try lia.
    intros p Hp. destruct (i_mat0 p Hp); lia.
  - assert (Hc : forall c, In c obj_commands -> command (skip_spaces l) (str c) = None).
    { intros c Hin. apply no_command. intros args. exact (Ho c args Hin). }
    unfold obj_commands in Hc.
    rewrite (Hc "v"%string), (Hc "vn"%string), (Hc "vt"%string), (Hc "g"%string), (Hc "f"%string), (Hc "usemtl"%string), (Hc "mtllib"%string) by (cbn [In]; tauto).
    exists s, e, [], out. split; [reflexivity|]. split; [rewrite app_nil_r; exact I|]. split; [eassumption|reflexivity].
Qed.

Lemma obj_lines_ok open lib : library F zero num open lib -> forall sts ls, Forall2 (says F num) sts ls -> forall e e' out out' s,
  means F lib e sts e' out -> inv s e out' -> exists s', obj_lines F zero num open s ls = Ok (Some s') /\ inv s' e' (out' ++ out).
Proof.
  intros L sts ls H. induction H as [|st l sts ls Hs _ IH]; intros e e' out out' s Hm I.
  - inversion Hm; subst. exists s. rewrite app_nil_r. auto.
  - destruct (obj_line_ok open lib e e' st l sts out out' s L Hs Hm I) as (s1 & e1 & o1 & o2 & E & I1 & M1 & ->).
    cbn [obj_lines]. rewrite E. cbn [obind]. destruct (IH e1 e' o2 (out' ++ o1) s1 M1 I1) as (s' & E' & I'). exists s'. split; [exact E'|].
    rewrite <- app_assoc in I'. exact I'.
Qed.

(** The calls of process_mesh. *)
Definition mesh_tris (m : list findex * mtl) : list (tri * mtl) := map (fun t => (t, snd m)) (triples (fst m)).

Lemma load_ok open lib content ls sts e out : library F zero num open lib -> file_of ls content -> Forall short ls ->
  Forall2 (says F num) sts ls -> means F lib (start F) sts e out ->
  exists geo meshes, load F zero num one open (Some content) = Ok (Some (geo, materials F zero one e, meshes))
    /\ ps F geo = e_ps F e /\ ns F geo = e_ns F e /\ ts F geo = e_ts F e
    /\ map (fun x => (fst x, Some (snd x))) (List.concat (map mesh_tris meshes)) = map (fun x => (fst x, nth_error (materials F zero one e) (snd x))) out
    /\ forall m, In m meshes -> exists n, List.length (fst m) = (3 * n)%nat.
Proof.
  intros L Hf Hsh Hs Hm. unfold load. rewrite (lines_file ls content Hf Hsh).
  set (s0 := mk_obj F (mk_geom F [] [] []) [] 0 (mk_mats F [] []) None).
  assert (I0 : inv s0 (start F) []).
  { constructor; try reflexivity; [|left; reflexivity|intros p []|intros p []].
    intros n k. cbn. split; [discriminate|]. intros [(m & H & _) _]. destruct k; discriminate. }
  destruct (obj_lines_ok open lib L sts ls Hs (start F) e out [] s0 Hm I0) as (s & E & I). rewrite E. cbn [obind app] in *.
  assert (Em : match ms F (mt F s) with [] => [default_mtl F zero one] | l => l end = materials F zero one e).
  { unfold materials. rewrite (i_ms _ _ _ I). destruct (e_mats F e); reflexivity. }
  rewrite Em. set (m := materials F zero one e) in *.
  assert (Hlt : forall p, In p (prims F s) -> (material_index p < List.length m)%nat).
  { intros p Hp. destruct (i_mat _ _ _ I p Hp) as [H|H]; rewrite <- Em; destruct (ms F (mt F s)); cbn in *; lia. }
  assert (Hlen := i_len _ _ _ I). rewrite <- (i_out _ _ _ I). clearbody m. clear - Hlt Hlen I.
  exists (g F s).
  assert (G : forall l acc, (forall p, In p l -> (material_index p < List.length m)%nat) -> (forall p, In p l -> exists n, List.length (fs p) = (3 * n)%nat) ->
    exists new, (fix go (l : list prim) (acc : list (list findex * mtl)) : outcome (option (geom F * list mtl * list (list findex * mtl))) :=
               match l with
               | [] => Ok (Some (g F s, m, acc))
               | p :: l' => match nth_error m (material_index p) with
                            | None => Throw ErrOutOfRange
                            | Some x => go l' (acc ++ [(fs p, x)])
                            end
               end) l acc = Ok (Some (g F s, m, acc ++ new))
     /\ map (fun x => (fst x, Some (snd x))) (List.concat (map mesh_tris new)) = map (fun x => (fst x, nth_error m (snd x))) (all_tris l)
     /\ forall m, In m new -> exists n, List.length (fst m) = (3 * n)%nat).
  { clear. induction l as [|p l IH]; intros acc Hlt Hlen.
    - exists []. rewrite app_nil_r. split; [reflexivity|]. split; [reflexivity|intros m0 []].
    - destruct (nth_error m (material_index p)) as [x|] eqn:Ex; [|exfalso; apply nth_error_None in Ex; assert (H := Hlt p (or_introl eq_refl)); lia].
      destruct (IH (acc ++ [(fs p, x)])) as (new & E & Et & El); [intros q Hq; apply Hlt; right; exact Hq|intros q Hq; apply Hlen; right; exact Hq|].
      exists ((fs p, x) :: new). split; [rewrite E, <- app_assoc; reflexivity|]. split.
      + unfold all_tris. cbn [map List.concat]. fold (all_tris l). rewrite !map_app, Et. f_equal.
        unfold mesh_tris, prim_tris. cbn [fst snd]. rewrite !map_map. cbn [fst snd]. rewrite Ex. reflexivity.
      + intros y [<-|Hy]; [apply (Hlen p); left; reflexivity|exact (El y Hy)]. }
  destruct (G (prims F s) [] Hlt Hlen) as (new & E & Et & El). exists new. cbn [app] in E.
  split; [exact E|]. destruct I. auto.
Qed.

(** Every index of a triangle lies in its list. *)
Definition in_lists (e : env) (f : findex) : Prop :=
  0 <= fp f < zlen (e_ps F e) /\ (ft f = -1 \/ 0 <= ft f < zlen (e_ts F e)) /\ (fn f = -1 \/ 0 <= fn f < zlen (e_ns F e)).
Definition le_env (a b : env) : Prop :=
  zlen (e_ps F a) <= zlen (e_ps F b) /\ zlen (e_ts F a) <= zlen (e_ts F b) /\ zlen (e_ns F a) <= zlen (e_ns F b).

Lemma means_le lib e l e' out : means F lib e l e' out -> le_env e e'.
Proof.
  induction 1; unfold le_env, zlen in *; cbn [e_ps e_ns e_ts] in *; rewrite ?app_length in *; cbn [List.length] in *; lia.
Qed.

Lemma vert_in e e' v f : vert_denotes (zlen (e_ps F e)) (zlen (e_ts F e)) (zlen (e_ns F e)) v f -> le_env e e' -> in_lists e' f.
Proof.
  destruct v as [[p t] n]. intros (Dp & Dt & Dn) (L1 & L2 & L3). split; [apply denotes_range in Dp; lia|].
  split; [destruct t; [right; apply denotes_range in Dt; lia|left; exact Dt]|destruct n; [right; apply denotes_range in Dn; lia|left; exact Dn]].
Qed.

Lemma means_in lib e l e' out : means F lib e l e' out -> forall a b c k, In (a, b, c, k) out -> in_lists e' a /\ in_lists e' b /\ in_lists e' c.
Proof.
  induction 1 as [e|e x y z l e' out H IH|e x y z l e' out H IH|e x y l e' out H IH|e l e' out H IH|e l e' out H IH|e vs fs l e' out Hd H IH|e n k l e' out Hn H IH|e n new l e' out Hn H IH];
    intros a b c k0 Hin; try (exact (IH a b c k0 Hin)); [destruct Hin|].
  apply in_app_or in Hin. destruct Hin as [Hin|Hin]; [|exact (IH a b c k0 Hin)].
  assert (Le := means_le _ _ _ _ _ H).
  assert (Hall : Forall (in_lists e') fs). { clear - Hd Le. induction Hd; constructor; [eapply vert_in; eassumption|assumption]. }
  apply in_map_iff in Hin. destruct Hin as (t & Et & Hin). injection Et as -> _.
  rewrite Forall_forall in Hall.
  destruct fs as [|f1 [|f2 [|f3 [|f4 [|f5 fs]]]]]; cbn [triangles_of In] in Hin; try contradiction.
  - destruct Hin as [Hin|[]]. injection Hin as <- <- <-. repeat split; apply Hall; cbn [In]; tauto.
  - destruct Hin as [Hin|[Hin|[]]]; injection Hin as <- <- <-; repeat split; apply Hall; cbn [In]; tauto.
Qed.

End Floats.

(** ** tinyobjloader *)
Fixpoint kept_tiny {A} (prev : Z) (l : list (A * Z)) : list (A * Z) :=
  match l with [] => [] | (f, m) :: l' => if m =? prev then (f, m) :: kept_tiny m l' else kept_tiny m l' end.

Lemma tiny_ok {A} : forall (l : list (A * Z)) prev acc,
  List.concat (map (fun x => map (fun f => (f, snd x)) (fst x)) (tiny_faces prev acc l)) = map (fun f => (f, prev)) acc ++ kept_tiny prev l.
Proof.
  induction l as [|[f m] l IH]; intros prev acc; cbn [tiny_faces kept_tiny].
  - destruct acc; cbn; rewrite ?app_nil_r; reflexivity.
  - destruct (m =? prev) eqn:E.
    + apply Z.eqb_eq in E. subst m. rewrite IH, map_app, <- app_assoc. reflexivity.
    + cbn [map List.concat fst snd]. rewrite IH. reflexivity.
Qed.
