(** * C120: loading with tinyobjloader *)
From Coq Require Import List ZArith Bool Lia.
From Verif Require Import Base LogModel TinyModel TinySpec TinyProofs.
Import ListNotations.
Local Open Scope Z_scope.

(** The coordinates of a file whose positions, normals and texture coordinates are those given *)
Definition coords3 {F} (l : list (F * F * F)) : list F := flat_map (fun v => let '(x, y, z) := v in [x; y; z]) l.
Definition coords2 {F} (l : list (F * F)) : list F := flat_map (fun v => let '(x, y) := v in [x; y]) l.
Definition file_of {F} ps ns ts mats ls : tfile F := mk_tfile (coords3 ps) (coords3 ns) (coords2 ts) mats (map shape_of ls).
(** The materials of a file: those of the library, or a default one *)
Definition materials_of {F} (one : F) dflt (mats : list (tmaterial F)) : list (params F) := match mats with [] => [default_params one dflt] | l => map convert l end.

Section Load.
Context {F : Type}.
Variables (one : F) (dflt : text).
Variable accept : list (event F) -> event F -> bool.

Lemma copy_ok ps ns ts mats ls (g : geometry F) : ps <> [] ->
  copy_geometry (file_of ps ns ts mats ls) g = Ok (mk_geometry ps (match ns with [] => g_ns g | _ => ns end) (match ts with [] => g_ts g | _ => ts end)).
Proof.
  intros N. unfold copy_geometry. cbn [file_of vertices normals texcoords]. assert (P := triples_ok ps). fold (coords3 ps) in P. destruct ps as [|[[x y] z] ps]; [contradiction|]. cbn [coords3 flat_map app] in P |- *. rewrite P. cbn [obind].
  assert (Q := triples_ok ns). fold (coords3 ns) in Q. destruct ns as [|[[x1 y1] z1] ns]; cbn [coords3 flat_map app] in Q |- *; [|rewrite Q]; cbn [obind];
    (assert (R := pairs_ok ts); fold (coords2 ts) in R; destruct ts as [|[x2 y2] ts]; cbn [coords2 flat_map app] in R |- *; [|rewrite R]; reflexivity).
Qed.

(** If all calls succeed: the geometry is that of the file, the materials come first and in order, and the triangles handed
    over, each with its material, are those whose material is that of the triangle before them in their shape, and the first of
    each shape. Missing for the full claim: the others, see [C120_meshes_refuted]. *)
Theorem C120_meshes_partial ps ns ts mats ls (g : geometry F) : (forall tr e, accept tr e = true) -> ps <> [] -> (forall l, In l ls -> l <> [] /\ known (materials_of one dflt mats) l) ->
  exists meshes, load one accept dflt (Some (file_of ps ns ts mats ls)) g =
      Ok (mk_geometry ps (match ns with [] => g_ns g | _ => ns end) (match ts with [] => g_ts g | _ => ts end), map Mat (materials_of one dflt mats) ++ meshes, true) /\
    declared meshes = [] /\ map (fun x => (fst x, Some (snd x))) (handed meshes) = wanted (materials_of one dflt mats) (map kept ls).
Proof.
  intros All N K. unfold load. rewrite copy_ok by assumption. cbn [obind]. match goal with |- context [materials (file_of ps ns ts mats ?l)] => change (materials (file_of ps ns ts mats l)) with mats; change (shapes (file_of ps ns ts mats l)) with (map shape_of l) end. cbv zeta. replace (match mats with [] => [default_params one dflt] | a :: l => map convert (a :: l) end) with (materials_of one dflt mats) by (destruct mats; reflexivity). rewrite (process_ok accept All). cbn [app negb].
  destruct (shapes_ok accept All (materials_of one dflt mats) ls (map Mat (materials_of one dflt mats)) K) as (tr & A & B & C). rewrite A. exists tr. split; [reflexivity|]. split; [exact B|].
  unfold opt in C. rewrite C. unfold wanted, with_material. clear. induction ls as [|l ls IH]; [reflexivity|]. cbn [map flat_map]. now rewrite IH.
Qed.
(** Files whose shapes have one material each are loaded completely. *)
Theorem C120_one_material ps ns ts mats ls (g : geometry F) : (forall tr e, accept tr e = true) -> ps <> [] -> (forall l, In l ls -> l <> [] /\ known (materials_of one dflt mats) l) ->
  (forall l, In l ls -> exists m, forall t, In t l -> snd t = m) ->
  exists meshes, load one accept dflt (Some (file_of ps ns ts mats ls)) g =
      Ok (mk_geometry ps (match ns with [] => g_ns g | _ => ns end) (match ts with [] => g_ts g | _ => ts end), map Mat (materials_of one dflt mats) ++ meshes, true) /\
    declared meshes = [] /\ map (fun x => (fst x, Some (snd x))) (handed meshes) = wanted (materials_of one dflt mats) ls.
Proof.
  intros All N K M. destruct (C120_meshes_partial ps ns ts mats ls g All N K) as (tr & A & B & C). exists tr. split; [exact A|]. split; [exact B|]. rewrite C. f_equal.
  clear - M. induction ls as [|l ls IH]; [reflexivity|]. cbn [map]. f_equal; [|apply IH; intros x I; apply M; now right]. destruct (M l ltac:(now left)) as [m Hm]. unfold kept. destruct l as [|t l]; [reflexivity|]. rewrite (Hm t) by now left.
  assert (G : forall l, (forall t, In t l -> snd t = m) -> repeated m l = l).
  { clear. induction l as [|t l IH]; intros H; [reflexivity|]. cbn [repeated]. rewrite (H t) by now left. rewrite Z.eqb_refl. f_equal. apply IH. intros x I. apply H. now right. }
  now apply G.
Qed.
(** Materials are handed over as the library read them. *)
Theorem C120_material ps ns ts mats ls (g : geometry F) g' tr b : mats <> [] -> ps <> [] -> load one accept dflt (Some (file_of ps ns ts mats ls)) g = Ok (g', tr, b) -> b = true ->
  forall i m, nth_error mats i = Some m -> nth_error tr i = Some (Mat (mk_params (t_name m) (t_illum m) (t_diffuse m) (Some (t_specular m)) (Some (t_emission m)) (t_texname m) (Some (t_ior m)) (Some (t_shininess m)) (Some (t_anisotropy m)))).
Proof.
  intros Nm N. unfold load. rewrite copy_ok by assumption. cbn [obind]. match goal with |- context [materials (file_of ps ns ts mats ?l)] => change (materials (file_of ps ns ts mats l)) with mats; change (shapes (file_of ps ns ts mats l)) with (map shape_of l) end. cbv zeta. replace (match mats with [] => [default_params one dflt] | a :: l => map convert (a :: l) end) with (materials_of one dflt mats) by (destruct mats; reflexivity). intros E -> i m Im.
  assert (P : forall qs tr0 tr1, process accept tr0 qs = (tr1, true) -> tr1 = tr0 ++ map Mat qs).
  { clear. induction qs as [|q qs IH]; intros tr0 tr1; cbn [process map]; [intros [= <-]; now rewrite app_nil_r|]. destruct (accept tr0 (Mat q)); [|discriminate]. intros H. rewrite (IH _ _ H), <- app_assoc. reflexivity. }
  assert (H : forall id fs tr0 tr1 b, hand accept (materials_of one dflt mats) tr0 fs id = Ok (tr1, b) -> exists r, tr1 = tr0 ++ r).
  { intros id fs tr0 tr1 b. unfold hand. destruct (nth_error (materials_of one dflt mats) _); [|discriminate]. intros X; injection X as <- <-. now eexists. }
  assert (Fc : forall sh n fi prev fs tr0 tr1 r, faces accept sh (materials_of one dflt mats) n fi prev fs tr0 = Ok (tr1, r) -> exists r', tr1 = tr0 ++ r').
  { intros sh. induction n as [|n IH]; intros fi prev fs tr0 tr1 r; cbn [faces]; [intros [= <- _]; exists []; now rewrite app_nil_r|].
    destruct (nth_error (num_face_vertices sh) fi); [|discriminate]. destruct (negb (z =? 3)); [intros [= <- _]; exists []; now rewrite app_nil_r|]. destruct (nth_error (material_ids sh) fi); [|discriminate]. destruct (negb (z0 =? prev)).
    - destruct (hand accept (materials_of one dflt mats) tr0 fs prev) as [[t1 ok]| | |] eqn:Eh; cbn [obind]; try discriminate. destruct (H _ _ _ _ _ Eh) as [r1 ->]. destruct ok; cbn [negb]; [|intros [= <- _]; now eexists]. intros X. destruct (IH _ _ _ _ _ _ X) as [r2 ->]. exists (r1 ++ r2). now rewrite app_assoc.
    - destruct (nth_error _ (3 * fi)); [|discriminate]. destruct (nth_error _ (3 * fi + 1)); [|discriminate]. destruct (nth_error _ (3 * fi + 2)); [|discriminate]. apply IH. }
  assert (S : forall l tr0 tr1 b, all_shapes accept l (materials_of one dflt mats) tr0 = Ok (tr1, b) -> exists r, tr1 = tr0 ++ r).
  { induction l as [|sh l IH]; intros tr0 tr1 b; cbn [all_shapes]; [intros [= <- _]; exists []; now rewrite app_nil_r|]. destruct (one_shape accept sh (materials_of one dflt mats) tr0) as [[t1 ok]| | |] eqn:Es; cbn [obind]; try discriminate.
    assert (Q : exists r, t1 = tr0 ++ r).
    { revert Es. unfold one_shape. destruct (nth_error _ 0); [|discriminate]. destruct (faces _ _ _ _ _ _ _ _) as [[t2 r]| | |] eqn:Ef; cbn [obind]; try discriminate. destruct (Fc _ _ _ _ _ _ _ _ Ef) as [r1 ->]. destruct r as [[prev [|f fs]]|]; [intros [= <- _]; now eexists| |intros [= <- _]; now eexists]. intros X. destruct (H _ _ _ _ _ X) as [r2 ->]. exists (r1 ++ r2). now rewrite app_assoc. }
    destruct Q as [r1 ->]. destruct ok; [|intros [= <- _]; now eexists]. intros X. destruct (IH _ _ _ X) as [r2 ->]. exists (r1 ++ r2). now rewrite app_assoc. }
  destruct (process accept [] (materials_of one dflt mats)) as [t0 ok] eqn:Ep. destruct ok; cbn [negb] in E; [|discriminate]. destruct (all_shapes _ _ _ _) as [[t1 ok]| | |] eqn:Ea; cbn [obind] in E; try discriminate. injection E as _ <- _.
  apply P in Ep. subst t0. destruct (S _ _ _ _ Ea) as [r ->]. cbn [app]. assert (L : (i < List.length (map Mat (materials_of one dflt mats)))%nat).
  { unfold materials_of. destruct mats; [contradiction|]. rewrite !map_length. apply nth_error_Some. congruence. }
  rewrite nth_error_app1 by exact L. unfold materials_of. destruct mats; [contradiction|]. rewrite !nth_error_map, Im. reflexivity.
Qed.
(** A file without materials: one material of that name, diffuse and white. *)
Theorem C120_default : exists p, materials_of one dflt [] = [p] /\ p_name p = dflt /\ p_illum p = -1 /\ p_Kd p = (one, one, one) /\ p_mapKd p = [].
Proof. eexists. now repeat split. Qed.
(** Whatever the callbacks answer: a call that fails is the last one, and load returns true only if there was none. *)
Theorem C120_stops file g g' tr b : load one accept dflt file g = Ok (g', tr, b) ->
  (forall pre e post, tr = pre ++ e :: post -> accept pre e = false -> post = []) /\ (b = true -> forall pre e post, tr = pre ++ e :: post -> accept pre e = true).
Proof.
  assert (G : forall tr b, fine accept tr b -> (forall pre e post, tr = pre ++ e :: post -> accept pre e = false -> post = []) /\ (b = true -> forall pre e post, tr = pre ++ e :: post -> accept pre e = true)).
  { intros t c [E A]. split; [|exact A]. intros pre e post Q R. destruct post as [|x post]; [reflexivity|]. rewrite (E pre e (x :: post) Q ltac:(discriminate)) in R. discriminate. }
  intros H. apply G. revert H. unfold load. destruct file as [a|]; [|intros [= _ <- <-]; split; [apply accepted_ended, nothing|discriminate]].
  destruct (copy_geometry a g) as [g0| | |]; cbn [obind]; try discriminate. cbv zeta. destruct (process _ _ _) as [t0 ok] eqn:Ep. assert (Pf := process_fine accept _ _ _ _ (nothing accept) Ep). destruct ok; cbn [negb]; [|now intros [= _ <- <-]].
  destruct (all_shapes _ _ _ _) as [[t1 ok]| | |] eqn:Ea; cbn [obind]; try discriminate. intros [= _ <- <-]. exact (shapes_fine accept _ _ _ _ _ (proj2 Pf eq_refl) Ea).
Qed.
(** A file that cannot be read: nothing is called and nothing changes. *)
Theorem C120_no_file (g : geometry F) : load one accept dflt None g = Ok (g, [], false).
Proof. reflexivity. Qed.
(** A shape without faces (of lines or points only) is undefined behaviour. *)
Theorem C120_empty_shape ps ns ts mats ls1 ls2 (g : geometry F) : (forall tr e, accept tr e = true) -> ps <> [] -> (forall l, In l ls1 -> l <> [] /\ known (materials_of one dflt mats) l) ->
  load one accept dflt (Some (file_of ps ns ts mats (ls1 ++ [] :: ls2))) g = UB.
Proof.
  intros All N K. unfold load. rewrite copy_ok by assumption. cbn [obind]. match goal with |- context [materials (file_of ps ns ts mats ?l)] => change (materials (file_of ps ns ts mats l)) with mats; change (shapes (file_of ps ns ts mats l)) with (map shape_of l) end. cbv zeta. replace (match mats with [] => [default_params one dflt] | a :: l => map convert (a :: l) end) with (materials_of one dflt mats) by (destruct mats; reflexivity). rewrite (process_ok accept All). cbn [app negb].
  assert (G : forall ls tr, (forall l, In l ls -> l <> [] /\ known (materials_of one dflt mats) l) -> all_shapes accept (map shape_of (ls ++ [] :: ls2)) (materials_of one dflt mats) tr = UB).
  { clear K. induction ls as [|l ls IH]; intros tr K; cbn [map app all_shapes]; [reflexivity|]. destruct (K l ltac:(now left)) as [Nl Kl]. destruct (shape_ok accept All (materials_of one dflt mats) l tr Nl Kl) as (t1 & A & _). rewrite A. cbn [obind]. apply IH. intros x I. apply K. now right. }
  now rewrite G.
Qed.
End Load.
Print Assumptions C120_meshes_partial.
Print Assumptions C120_one_material.
Print Assumptions C120_material.
Print Assumptions C120_default.
Print Assumptions C120_stops.
Print Assumptions C120_no_file.
Print Assumptions C120_empty_shape.

(** ** Refuted *)
Definition c120_yes (tr : list (event Z)) (e : event Z) : bool := true.
Definition c120_corner (i : Z) : tindex := mk_tindex i i i.
Definition c120_tri (i m : Z) : triangle := ((c120_corner i, c120_corner (i + 1), c120_corner (i + 2)), m).
Definition c120_mat : tmaterial Z := mk_tmaterial [] 2 (1, 1, 1) (0, 0, 0) (0, 0, 0) [] 1 1 0.
(** Not all triangles are handed over: the first of each further material of a shape is lost. *)
Theorem C120_meshes_refuted : ~ forall ps mats ls (g : geometry Z), ps <> [] -> (forall l, In l ls -> l <> [] /\ known (materials_of 1 [] mats) l) ->
  exists meshes g', load 1 c120_yes [] (Some (file_of ps [] [] mats ls)) g = Ok (g', map Mat (materials_of 1 [] mats) ++ meshes, true) /\
    map (fun x => (fst x, Some (snd x))) (handed meshes) = wanted (materials_of 1 [] mats) ls.
Proof.
  intros H. destruct (H [(0, 0, 0)] [c120_mat; c120_mat] [[c120_tri 0 0; c120_tri 0 1]] (mk_geometry [] [] [])) as (ms & g' & A & B); [discriminate| |].
  - intros l [<-|[]]. split; [discriminate|]. intros t [<-|[<-|[]]]; cbn; lia.
  - apply (f_equal (@List.length _)) in B. rewrite map_length in B. vm_compute in A. injection A as _ E. subst ms. vm_compute in B. discriminate.
Qed.
Print Assumptions C120_meshes_refuted.
(** The default material is not specified completely: whether it emits light is read from memory that was never written. *)
Theorem C120_default_refuted : ~ forall mats : list (tmaterial Z), forall p, In p (materials_of 1 [] mats) -> exists ke, p_Ke p = Some ke.
Proof. intros H. destruct (H [] _ (or_introl eq_refl)) as [ke E]. discriminate. Qed.
Print Assumptions C120_default_refuted.

(** ** The hypotheses are met *)
Example C120_meshes_instance : forall l, In l [[c120_tri 0 0; c120_tri 0 1; c120_tri 1 1]; [c120_tri 2 (-1)]] -> l <> [] /\ known (materials_of 1 [] [c120_mat; c120_mat]) l.
Proof. intros l [<-|[<-|[]]]; (split; [discriminate|]); intros t I; repeat (destruct I as [<-|I]; [cbn; lia|]); destruct I. Qed.
Example C120_stops_instance : exists tr, load 1 (fun _ e => match e with Mat _ => true | Mesh _ _ => false end) [] (Some (file_of [(0, 0, 0)] [] [] [c120_mat] [[c120_tri 0 0]; [c120_tri 1 0]])) (mk_geometry [] [] []) = Ok (mk_geometry [(0, 0, 0)] [] [], tr, false) /\ List.length tr = 2%nat.
Proof. eexists. split; vm_compute; reflexivity. Qed.
Example C120_one_material_instance : exists tr, load 1 c120_yes [] (Some (file_of [(0, 0, 0)] [] [] [c120_mat; c120_mat] [[c120_tri 0 1; c120_tri 1 1]; [c120_tri 2 0]])) (mk_geometry [] [] []) = Ok (mk_geometry [(0, 0, 0)] [] [], tr, true) /\ List.length (handed tr) = 3%nat /\ List.length (declared tr) = 2%nat.
Proof. eexists. split; vm_compute; [reflexivity|]. now split. Qed.
Example C120_empty_shape_instance : load 1 c120_yes [] (Some (file_of [(0, 0, 0)] [] [] [c120_mat] ([[c120_tri 0 0]] ++ [] :: []))) (mk_geometry [] [] []) = UB.
Proof. apply C120_empty_shape; [reflexivity|discriminate|]. intros l [<-|[]]. split; [discriminate|]. intros t [<-|[]]; cbn; lia. Qed.
