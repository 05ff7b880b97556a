(** C46 (indices of OBJ faces), C47 (faces and meshes of an OBJ file), C60 (materials of an MTL file). *)
From Coq Require Import List ZArith Bool Ascii String Lia.
From Verif Require Import Base LogModel LogProofs ObjModel ObjSpec ObjProofs ObjLoadProofs.
Import ListNotations.
Open Scope Z_scope.

(** C46: the index [k] that the format denotes by [i] is what the parser computes, it lies in the list, and
    the index 0 (not allowed by the format) and a missing index give -1. *)
Theorem C46_index : (forall n i k, denotes n i k -> parse_index i n = k /\ 0 <= k < n) /\ forall n, parse_index 0 n = -1.
Proof. split; [intros n i k H; split; [apply parse_index_denotes; exact H|eapply denotes_range; exact H]|reflexivity]. Qed.
Print Assumptions C46_index.
(** Every index is denoted by exactly one positive and one negative number. *)
Theorem C46_exact : forall n k, 0 <= k < n -> denotes n (k + 1) k /\ denotes n (k - n) k
  /\ forall i, denotes n i k -> i = k + 1 \/ i = k - n.
Proof. intros n k H. unfold denotes. split; [lia|]. split; [lia|]. intros i. lia. Qed.
Print Assumptions C46_exact.
(** The text of a vertex of a face, in each of the four forms, after blanks and before a blank or the end of
    the line, is read as the indices it denotes. *)
Theorem C46_vertex : forall np nt nn v w f b rest, vert_text v w -> vert_denotes np nt nn v f -> blanks b -> ends_word rest ->
  fst (parse_indices np nt nn (b ++ w ++ rest)) = f.
Proof.
  intros np nt nn v w f b rest Hv Hd Hb He. destruct (parse_vert np nt nn v w f b rest Hv Hd Hb He) as (r & E & _). rewrite E. reflexivity.
Qed.
Print Assumptions C46_vertex.

Lemma triples_in {A} : forall n (l : list A) x, List.length l = (3 * n)%nat -> In x l -> exists a b c, In (a, b, c) (triples l) /\ (x = a \/ x = b \/ x = c).
Proof.
  induction n as [|n IH]; intros l x Hl Hx; [destruct l; [destruct Hx|discriminate]|].
  destruct l as [|a [|b [|c l]]]; try (cbn in Hl; lia). cbn [triples].
  destruct Hx as [<-|[<-|[<-|Hx]]]; try (exists a, b, c; split; [left; reflexivity|tauto]).
  destruct (IH l x) as (a' & b' & c' & Hin & E); [cbn in Hl; lia|exact Hx|]. exists a', b', c'. split; [right; exact Hin|exact E].
Qed.

(** Every index of every mesh of a well-formed file lies in the list it indexes. *)
Theorem C46_in_range : forall F zero one num open lib content ls sts e out,
  library F zero num open lib -> file_of ls content -> Forall short ls -> Forall2 (says F num) sts ls -> means F lib (start F) sts e out ->
  exists geo mats meshes, load F zero num one open (Some content) = Ok (Some (geo, mats, meshes))
    /\ forall m f, In m meshes -> In f (fst m) ->
         0 <= fp f < zlen (ps F geo) /\ (ft f = -1 \/ 0 <= ft f < zlen (ts F geo)) /\ (fn f = -1 \/ 0 <= fn f < zlen (ns F geo)).
Proof.
  intros F zero one num open lib content ls sts e out L Hf Hs Hy Hm.
  destruct (load_ok F zero one num open lib content ls sts e out L Hf Hs Hy Hm) as (geo & meshes & E & Ep & En & Et & Em & El).
  exists geo, (materials F zero one e), meshes. split; [exact E|]. intros m f Hin Hfi. rewrite Ep, En, Et.
  destruct (El m Hin) as [n Hn]. destruct (triples_in n (fst m) f Hn Hfi) as (a & b & c & Ht & Eq).
  assert (Ho : exists k, In (a, b, c, k) out).
  { apply (f_equal (map fst)) in Em. rewrite !map_map in Em. cbn [fst] in Em.
    assert (Hx : In (a, b, c) (map (fun x : tri * nat => fst x) out)).
    { rewrite <- Em. apply in_map_iff. exists (a, b, c, snd m). split; [reflexivity|]. apply in_concat. exists (mesh_tris F m).
      split; [apply in_map; exact Hin|]. unfold mesh_tris. apply in_map_iff. exists (a, b, c). split; [reflexivity|exact Ht]. }
    apply in_map_iff in Hx. destruct Hx as ([t k] & Et' & Hx). cbn in Et'. subst t. exists k. exact Hx. }
  destruct Ho as [k Ho]. destruct (means_in F lib (start F) sts e out Hm a b c k Ho) as (Ia & Ib & Ic).
  destruct Eq as [-> | [-> | ->]]; assumption.
Qed.
Print Assumptions C46_in_range.

(** C47: loading a file whose lines say the statements [sts] gives the geometry of the statements, the
    materials of its libraries, and meshes whose triangles, with their materials, are in order exactly the
    triangles that the statements define. Missing for the full claim: lines of more than 4095 characters and
    faces of more than four vertices, see the refutations below, and the other loader. *)
Theorem C47_simple_partial : forall F zero one num open lib content ls sts e out,
  library F zero num open lib -> file_of ls content -> Forall short ls -> Forall2 (says F num) sts ls -> means F lib (start F) sts e out ->
  exists geo meshes, load F zero num one open (Some content) = Ok (Some (geo, materials F zero one e, meshes))
    /\ ps F geo = e_ps F e /\ ns F geo = e_ns F e /\ ts F geo = e_ts F e
    /\ map (fun x => (fst x, Some (snd x))) (List.concat (map (fun m => map (fun t => (t, snd m)) (triples (fst m))) meshes))
       = map (fun x => (fst x, nth_error (materials F zero one e) (snd x))) out
    /\ forall m, In m meshes -> exists n, List.length (fst m) = (3 * n)%nat.
Proof. exact load_ok. Qed.
Print Assumptions C47_simple_partial.

(** Finding: a line of 4096 characters or more, a comment for example, ends the file: load succeeds with
    what was read before it. *)
Definition file (ls : list text) : text := List.concat (map (fun l => l ++ [newline]) ls).
Lemma read_cut : forall ls l rest, Forall short ls -> (4096 <= List.length l)%nat -> read_lines (ls ++ l :: rest) = ls.
Proof.
  induction ls as [|a ls IH]; intros l rest Hs Hl; cbn [app read_lines].
  - destruct (Nat.ltb_spec (List.length l) 4096); [lia|reflexivity].
  - inversion Hs as [|? ? Ha Hs']; subst. unfold short in Ha. destruct (Nat.ltb_spec (List.length a) 4096); [|lia]. rewrite IH; auto.
Qed.
Theorem C47_long_line_refuted : forall F zero one num open ls l rest, (forall x, In x (ls ++ l :: rest) -> ~ In newline x) ->
  Forall short ls -> (4096 <= List.length l)%nat ->
  load F zero num one open (Some (file (ls ++ l :: rest))) = load F zero num one open (Some (file ls)).
Proof.
  intros F zero one num open ls l rest Hn Hs Hl.
  assert (E : lines (file (ls ++ l :: rest)) = lines (file ls)).
  { unfold lines, file. rewrite (lines_text (ls ++ l :: rest) Hn).
    rewrite (lines_text ls) by (intros x Hx; apply Hn; apply in_or_app; left; exact Hx).
    rewrite read_cut by assumption. clear - Hs. symmetry. induction Hs as [|a ls Ha Hs IH]; [reflexivity|].
    cbn [read_lines]. unfold short in Ha. destruct (Nat.ltb_spec (List.length a) 4096); [rewrite IH; reflexivity|lia]. }
  unfold load. rewrite E. reflexivity.
Qed.
Print Assumptions C47_long_line_refuted.

(** Finding: of a face of five or more vertices only the first four are read. *)
Theorem C47_polygon_refuted : forall np nt nn vs fs ws t, (4 < List.length vs)%nat -> Forall2 vert_text vs ws ->
  Forall2 (vert_denotes np nt nn) vs fs -> separated ws t -> triples (parse_face np nt nn t) = triangles_of (firstn 4 fs).
Proof. exact parse_face_many. Qed.
Print Assumptions C47_polygon_refuted.

(** The loader of the plugin: of the faces of a shape, each with its material, exactly those are handed over
    whose material is that of the face before (the first face counts as following itself), with their
    material and in order. Missing for the full claim: the others, see [C47_tiny_refuted]. *)
Fixpoint like_previous {A} (prev : Z) (l : list (A * Z)) : list (A * Z) :=
  match l with [] => [] | (f, m) :: l' => if m =? prev then (f, m) :: like_previous m l' else like_previous m l' end.
Theorem C47_tiny_partial : forall A f m (l : list (A * Z)), exists calls, tiny_shape ((f, m) :: l) = Ok calls
  /\ List.concat (map (fun x => map (fun f => (f, snd x)) (fst x)) calls) = (f, m) :: like_previous m l.
Proof.
  intros A f m l. exists (tiny_faces m [] ((f, m) :: l)). split; [reflexivity|]. rewrite (tiny_ok ((f, m) :: l) m []).
  cbn [map app kept_tiny]. rewrite Z.eqb_refl. reflexivity.
Qed.
Print Assumptions C47_tiny_partial.
(** Finding: the first face after a change of the material is lost. *)
Theorem C47_tiny_refuted : forall A (f1 f2 f3 : A) m m', m <> m' -> tiny_shape [(f1, m); (f2, m'); (f3, m')] = Ok [([f1], m); ([f3], m')].
Proof. intros A f1 f2 f3 m m' H. unfold tiny_shape. cbn [tiny_faces app]. rewrite !Z.eqb_refl. destruct (Z.eqb_spec m' m); [congruence|]. cbn [tiny_faces app]. reflexivity. Qed.
Print Assumptions C47_tiny_refuted.

(** C60: reading an MTL file whose lines say [sts] appends one material per block, with the parameters of its
    block and zero for those not given. *)
Theorem C60_parameters : forall F zero num content ls sts, file_of ls content -> Forall short ls ->
  Forall2 (msays F num) sts ls -> headed F sts ->
  exists d, loadmtl F zero num (Some content) (mk_mats F [] []) = Ok (Some d) /\ ms F d = mtl_means F zero sts.
Proof.
  intros F zero num content ls sts Hf Hs Hm Hh.
  destruct (loadmtl_ok F zero num (fun _ => Some content) (fun _ => Some (mtl_means F zero sts)) [] (mtl_means F zero sts) (mk_mats F [] []))
    as (d & E & Ed & _).
  - intros n new En. injection En as <-. exists content, ls, sts. auto 8.
  - reflexivity.
  - intros n k. cbn. split; [discriminate|]. intros [(m & H & _) _]. destruct k; discriminate.
  - exists d. split; [exact E|exact Ed].
Qed.
Print Assumptions C60_parameters.
(** What [mtl_means] gives for a parameter: the value of the last line of the block that sets it. *)
Definition last_of {A B} (sel : A -> option B) (l : list A) (z : B) : B := fold_left (fun b a => match sel a with Some v => v | None => b end) l z.
Theorem C60_last : forall F zero (sts : list (mstmt F)) m, In m (mtl_means F zero sts) -> exists n body, In (n, body) (blocks F sts)
  /\ m_name F m = n
  /\ m_Kd F m = last_of (fun s => match s with MKd _ v => Some v | _ => None end) body (zero, zero, zero)
  /\ m_Ks F m = last_of (fun s => match s with MKs _ v => Some v | _ => None end) body (zero, zero, zero)
  /\ m_Ke F m = last_of (fun s => match s with MKe _ v => Some v | _ => None end) body (zero, zero, zero)
  /\ m_Ni F m = last_of (fun s => match s with MNi _ v => Some v | _ => None end) body zero
  /\ m_Ns F m = last_of (fun s => match s with MNs _ v => Some v | _ => None end) body zero
  /\ m_an F m = last_of (fun s => match s with MAniso _ v => Some v | _ => None end) body zero
  /\ m_illum F m = last_of (fun s => match s with MIllum _ i => Some i | _ => None end) body 0
  /\ m_map F m = last_of (fun s => match s with MMap _ n => Some n | _ => None end) body [].
Proof.
  intros F zero sts m Hm. unfold mtl_means in Hm. apply in_map_iff in Hm. destruct Hm as ([n body] & <- & Hin). exists n, body. split; [exact Hin|].
  cbn [fst snd]. clear Hin.
  assert (G : forall body m0, let m := fold_left (set_param F) body m0 in
     m_name F m = m_name F m0
  /\ m_Kd F m = last_of (fun s => match s with MKd _ v => Some v | _ => None end) body (m_Kd F m0)
  /\ m_Ks F m = last_of (fun s => match s with MKs _ v => Some v | _ => None end) body (m_Ks F m0)
  /\ m_Ke F m = last_of (fun s => match s with MKe _ v => Some v | _ => None end) body (m_Ke F m0)
  /\ m_Ni F m = last_of (fun s => match s with MNi _ v => Some v | _ => None end) body (m_Ni F m0)
  /\ m_Ns F m = last_of (fun s => match s with MNs _ v => Some v | _ => None end) body (m_Ns F m0)
  /\ m_an F m = last_of (fun s => match s with MAniso _ v => Some v | _ => None end) body (m_an F m0)
  /\ m_illum F m = last_of (fun s => match s with MIllum _ i => Some i | _ => None end) body (m_illum F m0)
  /\ m_map F m = last_of (fun s => match s with MMap _ n => Some n | _ => None end) body (m_map F m0)).
  { clear. induction body as [|s body IH]; intros m0; [cbn; repeat split|]. cbn [fold_left]. specialize (IH (set_param F m0 s)).
    cbn zeta in IH |- *. destruct IH as (H1 & H2 & H3 & H4 & H5 & H6 & H7 & H8 & H9).
    rewrite H1, H2, H3, H4, H5, H6, H7, H8, H9. unfold last_of. cbn [fold_left]. destruct s; repeat split. }
  apply (G body (defaults F zero n)).
Qed.
Print Assumptions C60_last.

(** ** A concrete file *)
Fixpoint join (ws : list text) : text := match ws with [] => [] | [w] => w | w :: ws' => w ++ blank :: join ws' end.
Lemma join_sep : forall ws, separated ws (join ws).
Proof.
  induction ws as [|w ws IH]; [apply sep_nil; constructor|]. destruct ws as [|w' ws].
  - cbn [join]. assert (H := sep_cons [] w [] [] (Forall_nil _) (or_introl eq_refl) (sep_nil [] (Forall_nil _))). cbn [app] in H. rewrite app_nil_r in H. exact H.
  - change (join (w :: w' :: ws)) with ([] ++ w ++ blank :: join (w' :: ws)). apply sep_cons; [constructor| |].
    + right. exists blank, (join (w' :: ws)). split; [reflexivity|left; reflexivity].
    + generalize dependent (join (w' :: ws)). intros t IH. inversion IH as [|b ? rest ? Hb He Hr Ew Et]; subst.
      change (blank :: b ++ w' ++ rest) with ((blank :: b) ++ w' ++ rest).
      apply sep_cons; [constructor; [left; reflexivity|exact Hb]|exact He|exact Hr].
Qed.
Lemma cmd_line c args : command_line c args (str c ++ blank :: args).
Proof. exists [], blank. split; [constructor|]. split; [left; reflexivity|reflexivity]. Qed.
Lemma number_ok w : forallb (fun c => negb (Ascii.eqb c slash) && negb (Ascii.eqb c blank) && negb (Ascii.eqb c tab)) w = true -> w <> [] -> number_word w.
Proof.
  intros H Hw. split; [exact Hw|]. apply Forall_forall. intros c Hc. rewrite forallb_forall in H. specialize (H c Hc).
  apply andb_true_iff in H. destruct H as [H H3]. apply andb_true_iff in H. destruct H as [H1 H2].
  apply negb_true_iff in H1, H2, H3. apply Ascii.eqb_neq in H1, H2, H3. split; [exact H1|]. intros [E|E]; congruence.
Qed.
Lemma name_ok w : forallb (fun c => negb (isspace c)) w = true -> w <> [] -> (List.length w <= 255)%nat -> name_word w.
Proof.
  intros H Hw Hl. split; [exact Hw|]. split; [|exact Hl]. apply Forall_forall. intros c Hc. rewrite forallb_forall in H. specialize (H c Hc).
  apply negb_true_iff in H. exact H.
Qed.
Lemma integer_digit n : 0 <= n <= 9 -> integer n [ascii_of_nat (48 + Z.to_nat n)].
Proof. intros H. left. constructor. exact H. Qed.
Lemma integer_minus n : 0 <= n <= 9 -> integer (- n) (minus :: [ascii_of_nat (48 + Z.to_nat n)]).
Proof. intros H. right. eexists. split; [reflexivity|]. rewrite Z.opp_involutive. constructor. exact H. Qed.

Definition x_mtl : list text := map str ["newmtl red"; "Kd 1 0 0"; "newmtl lamp"; "Ke 9 8 7"; "Ke 5 5 5"; "illum 2"]%string.
Definition x_obj : list text := map str ["mtllib m.mtl"; "v 0 0 0"; "v 1 0 0"; "v 0 1 0"; "usemtl red"; "f 1 2 3"; "g roof"; "v 1 1 0"; "usemtl lamp"; "vn 0 0 1"; "f -4//1 -3//1 4//-1 3//1"]%string.
Definition x_open (n : text) : option text := if text_eqb n (str "m.mtl") then Some (file x_mtl) else None.
Definition x_red : mtl Z := mk_mtl Z (str "red") 0 (1, 0, 0) (0, 0, 0) (0, 0, 0) [] 0 0 0.
Definition x_lamp : mtl Z := mk_mtl Z (str "lamp") 2 (0, 0, 0) (0, 0, 0) (5, 5, 5) [] 0 0 0.
Definition x_msts : list (mstmt Z) := [MNew Z (str "red"); MKd Z (1, 0, 0); MNew Z (str "lamp"); MKe Z (9, 8, 7); MKe Z (5, 5, 5); MIllum Z 2].
Definition x_lib (n : text) : option (list (mtl Z)) := if text_eqb n (str "m.mtl") then Some [x_red; x_lamp] else None.
Definition x_sts : list (stmt Z) :=
  [SLib Z (str "m.mtl"); SVertex Z 0 0 0; SVertex Z 1 0 0; SVertex Z 0 1 0; SUse Z (str "red"); SFace Z [(1, None, None); (2, None, None); (3, None, None)];
   SGroup Z; SVertex Z 1 1 0; SUse Z (str "lamp"); SNormal Z 0 0 1;
   SFace Z [(-4, None, Some 1); (-3, None, Some 1); (4, None, Some (-1)); (3, None, Some 1)]].

Ltac nw := apply number_ok; [reflexivity|discriminate].

Lemma x_three F num a b c : number_word a -> number_word b -> number_word c -> three F num (join [a; b; c]) (num a) (num b) (num c).
Proof. intros Ha Hb Hc. exists a, b, c, []. split; [exact Ha|]. split; [exact Hb|]. split; [exact Hc|]. split; [apply join_sep|auto]. Qed.

Lemma x_no_newline ls : forallb (fun l => forallb (fun c => negb (Ascii.eqb c newline)) l) ls = true -> forall l, In l ls -> ~ In newline l.
Proof.
  intros H l Hl Hn. rewrite forallb_forall in H. specialize (H l Hl). rewrite forallb_forall in H. specialize (H newline Hn).
  rewrite Ascii.eqb_refl in H. discriminate.
Qed.
Lemma x_short ls : forallb (fun l => Nat.leb (List.length l) 4095) ls = true -> Forall short ls.
Proof. intros H. apply Forall_forall. intros l Hl. rewrite forallb_forall in H. apply Nat.leb_le. exact (H l Hl). Qed.

Lemma x_msays : Forall2 (msays Z atoi) x_msts x_mtl.
Proof.
  unfold x_msts, x_mtl. cbn [map]. repeat apply Forall2_cons; [..|apply Forall2_nil].
  - exact (ms_new Z atoi (str "red") _ (str "red") (cmd_line "newmtl" (str "red")) (join_sep [str "red"]) ltac:(apply name_ok; [reflexivity|discriminate|cbn; lia])).
  - exact (ms_Kd Z atoi (join [str "1"; str "0"; str "0"]) _ 1 0 0 (cmd_line "Kd" _) (x_three Z atoi (str "1") (str "0") (str "0") ltac:(nw) ltac:(nw) ltac:(nw))).
  - exact (ms_new Z atoi (str "lamp") _ (str "lamp") (cmd_line "newmtl" (str "lamp")) (join_sep [str "lamp"]) ltac:(apply name_ok; [reflexivity|discriminate|cbn; lia])).
  - exact (ms_Ke Z atoi (join [str "9"; str "8"; str "7"]) _ 9 8 7 (cmd_line "Ke" _) (x_three Z atoi (str "9") (str "8") (str "7") ltac:(nw) ltac:(nw) ltac:(nw))).
  - exact (ms_Ke Z atoi (join [str "5"; str "5"; str "5"]) _ 5 5 5 (cmd_line "Ke" _) (x_three Z atoi (str "5") (str "5") (str "5") ltac:(nw) ltac:(nw) ltac:(nw))).
  - exact (ms_illum Z atoi (str "2") _ 2 (str "2") (cmd_line "illum" _) (join_sep [str "2"]) (integer_digit 2 ltac:(lia))).
Qed.
Lemma x_says : Forall2 (says Z atoi) x_sts x_obj.
Proof.
  unfold x_sts, x_obj. cbn [map]. repeat apply Forall2_cons; [..|apply Forall2_nil].
  - exact (says_mtllib Z atoi (str "m.mtl") _ (str "m.mtl") (cmd_line "mtllib" _) (join_sep [str "m.mtl"]) ltac:(apply name_ok; [reflexivity|discriminate|cbn; lia])).
  - exact (says_v Z atoi (join [str "0"; str "0"; str "0"]) _ 0 0 0 (cmd_line "v" _) (x_three Z atoi (str "0") (str "0") (str "0") ltac:(nw) ltac:(nw) ltac:(nw))).
  - exact (says_v Z atoi (join [str "1"; str "0"; str "0"]) _ 1 0 0 (cmd_line "v" _) (x_three Z atoi (str "1") (str "0") (str "0") ltac:(nw) ltac:(nw) ltac:(nw))).
  - exact (says_v Z atoi (join [str "0"; str "1"; str "0"]) _ 0 1 0 (cmd_line "v" _) (x_three Z atoi (str "0") (str "1") (str "0") ltac:(nw) ltac:(nw) ltac:(nw))).
  - exact (says_usemtl Z atoi (str "red") _ (str "red") (cmd_line "usemtl" _) (join_sep [str "red"]) ltac:(apply name_ok; [reflexivity|discriminate|cbn; lia])).
  - refine (says_f Z atoi (join [str "1"; str "2"; str "3"]) _ [(1, None, None); (2, None, None); (3, None, None)] _ (cmd_line "f" _) (join_sep [str "1"; str "2"; str "3"]) _ (or_introl eq_refl)).
    repeat apply Forall2_cons; [..|apply Forall2_nil]; apply vt_p; [apply (integer_digit 1)|apply (integer_digit 2)|apply (integer_digit 3)]; lia.
  - exact (says_g Z atoi (str "roof") _ (cmd_line "g" _)).
  - exact (says_v Z atoi (join [str "1"; str "1"; str "0"]) _ 1 1 0 (cmd_line "v" _) (x_three Z atoi (str "1") (str "1") (str "0") ltac:(nw) ltac:(nw) ltac:(nw))).
  - exact (says_usemtl Z atoi (str "lamp") _ (str "lamp") (cmd_line "usemtl" _) (join_sep [str "lamp"]) ltac:(apply name_ok; [reflexivity|discriminate|cbn; lia])).
  - exact (says_vn Z atoi (join [str "0"; str "0"; str "1"]) _ 0 0 1 (cmd_line "vn" _) (x_three Z atoi (str "0") (str "0") (str "1") ltac:(nw) ltac:(nw) ltac:(nw))).
  - refine (says_f Z atoi (join [str "-4//1"; str "-3//1"; str "4//-1"; str "3//1"]) _ [(-4, None, Some 1); (-3, None, Some 1); (4, None, Some (-1)); (3, None, Some 1)] _ (cmd_line "f" _) (join_sep [str "-4//1"; str "-3//1"; str "4//-1"; str "3//1"]) _ (or_intror eq_refl)).
    repeat apply Forall2_cons; [..|apply Forall2_nil].
    + exact (vt_pn (-4) 1 (str "-4") (str "1") (integer_minus 4 ltac:(lia)) (integer_digit 1 ltac:(lia))).
    + exact (vt_pn (-3) 1 (str "-3") (str "1") (integer_minus 3 ltac:(lia)) (integer_digit 1 ltac:(lia))).
    + exact (vt_pn 4 (-1) (str "4") (str "-1") (integer_digit 4 ltac:(lia)) (integer_minus 1 ltac:(lia))).
    + exact (vt_pn 3 1 (str "3") (str "1") (integer_digit 3 ltac:(lia)) (integer_digit 1 ltac:(lia))).
Qed.
Lemma x_library : library Z 0 atoi x_open x_lib.
Proof.
  intros n new H. unfold x_lib in H. destruct (text_eqb n (str "m.mtl")) eqn:E; [|discriminate]. injection H as <-.
  exists (file x_mtl), x_mtl, x_msts. unfold x_open. rewrite E. split; [reflexivity|]. split; [split; [apply x_no_newline; reflexivity|reflexivity]|].
  split; [apply x_short; reflexivity|]. split; [exact x_msays|]. split; [exact I|reflexivity].
Qed.
Definition x_out : list (tri * nat) :=
  [((mk_findex 0 (-1) (-1), mk_findex 1 (-1) (-1), mk_findex 2 (-1) (-1)), 0%nat);
   ((mk_findex 0 (-1) 0, mk_findex 1 (-1) 0, mk_findex 3 (-1) 0), 1%nat);
   ((mk_findex 0 (-1) 0, mk_findex 3 (-1) 0, mk_findex 2 (-1) 0), 1%nat)].
Lemma x_means : exists e, means Z x_lib (start Z) x_sts e x_out.
Proof.
  eexists. unfold x_sts. eapply me_lib; [reflexivity|]. do 3 apply me_v. cbn [e_ps e_ns e_ts e_mats e_cur app start].
  eapply (me_use _ _ _ _ 0).
  { split; [exists x_red; split; reflexivity|]. intros [|[|k]] m Hk Hm; cbn in Hm; [lia|injection Hm as <-; discriminate|destruct k; discriminate]. }
  cbn [e_ps e_ns e_ts e_mats e_cur app].
  change x_out with (map (fun t => (t, 0%nat)) (triangles_of [mk_findex 0 (-1) (-1); mk_findex 1 (-1) (-1); mk_findex 2 (-1) (-1)]) ++ tl x_out).
  apply me_f. { repeat constructor; cbn; lia. }
  apply me_g. apply me_v. cbn [e_ps e_ns e_ts e_mats e_cur app].
  eapply (me_use _ _ _ _ 1).
  { split; [exists x_lamp; split; reflexivity|]. intros [|[|k]] m Hk Hm; cbn in Hm; [lia|lia|destruct k; discriminate]. }
  apply me_vn. cbn [e_ps e_ns e_ts e_mats e_cur app].
  change (tl x_out) with (map (fun t => (t, 1%nat)) (triangles_of [mk_findex 0 (-1) 0; mk_findex 1 (-1) 0; mk_findex 3 (-1) 0; mk_findex 2 (-1) 0]) ++ []).
  apply me_f. { repeat constructor; cbn; lia. }
  apply me_nil.
Qed.
Example C46_example : library Z 0 atoi x_open x_lib /\ file_of x_obj (file x_obj) /\ Forall short x_obj
  /\ Forall2 (says Z atoi) x_sts x_obj /\ exists e, means Z x_lib (start Z) x_sts e x_out.
Proof.
  split; [exact x_library|]. split; [split; [apply x_no_newline; reflexivity|reflexivity]|].
  split; [apply x_short; reflexivity|]. split; [exact x_says|exact x_means].
Qed.
Example C47_example : exists geo, load Z 0 atoi 1 x_open (Some (file x_obj)) =
  Ok (Some (geo, [x_red; x_lamp], [([mk_findex 0 (-1) (-1); mk_findex 1 (-1) (-1); mk_findex 2 (-1) (-1)], x_red);
    ([mk_findex 0 (-1) 0; mk_findex 1 (-1) 0; mk_findex 3 (-1) 0; mk_findex 0 (-1) 0; mk_findex 3 (-1) 0; mk_findex 2 (-1) 0], x_lamp)])).
Proof. eexists. vm_compute. reflexivity. Qed.
Example C47_long_example : load Z 0 atoi 1 x_open (Some (file (x_obj ++ repeat "#"%char 4096 :: x_obj))) = load Z 0 atoi 1 x_open (Some (file x_obj)).
Proof.
  apply C47_long_line_refuted; [apply x_no_newline; vm_compute; reflexivity|apply x_short; reflexivity|rewrite repeat_length; lia].
Qed.
Example C47_polygon_example : parse_face 9 0 0 (str "1 2 3 4 5") = parse_face 9 0 0 (str "1 2 3 4").
Proof. reflexivity. Qed.
Example C60_example : exists d, loadmtl Z 0 atoi (Some (file x_mtl)) (mk_mats Z [] []) = Ok (Some d) /\ ms Z d = [x_red; x_lamp].
Proof. eexists. split; [vm_compute; reflexivity|reflexivity]. Qed.
