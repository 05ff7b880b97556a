(** * C118: positional command line arguments *)
From Coq Require Import String List Ascii Bool Arith Lia.
From Verif Require Import Base LogModel ArgsModel ArgsSpec ArgsProofs.
Import ListNotations.
Local Open Scope char_scope. Local Open Scope nat_scope.

(** The template with each place replaced by its argument, literally *)
Theorem C118_format l args : fmt (written l) args = match fill l args with Some w => Ok w | None => Throw format_error end.
Proof. apply fmt_written. Qed.
Print Assumptions C118_format.
(** If the template with the arguments in their places is a JSON text of a value, the result is this value. *)
Theorem C118_parse n prog args l v w s1 s2 : n <= List.length args -> fill l (firstn n args) = Some (s1 ++ w ++ s2) -> jtext v w -> blanks s1 -> blanks s2 ->
  parse_positional_args n (prog :: args) (written l) = Ok v.
Proof.
  intros N F T A B. unfold parse_positional_args, format_with. destruct (Nat.ltb_spec (List.length args) n); [lia|]. rewrite fmt_written, F. cbn [obind]. now apply parse_ok.
Qed.
Print Assumptions C118_parse.
(** Too few arguments: elements beyond the end of the vector are read. *)
Theorem C118_missing n prog args temp : List.length args < n -> parse_positional_args n (prog :: args) temp = UB.
Proof. intros L. unfold parse_positional_args, format_with. destruct (Nat.ltb_spec (List.length args) n); [reflexivity|lia]. Qed.
Print Assumptions C118_missing.
(** More places than the number that the program says: an exception. *)
Theorem C118_places n prog args l : n <= List.length args -> fill l (firstn n args) = None -> parse_positional_args n (prog :: args) (written l) = Throw format_error.
Proof. intros N F. unfold parse_positional_args, format_with. destruct (Nat.ltb_spec (List.length args) n); [lia|]. now rewrite fmt_written, F. Qed.
Print Assumptions C118_places.
(** Arguments beyond those that the program says make no difference. *)
Theorem C118_extra n prog args more temp : n <= List.length args -> parse_positional_args n (prog :: args ++ more) temp = parse_positional_args n (prog :: args) temp.
Proof.
  intros N. unfold parse_positional_args, format_with. rewrite app_length. destruct (Nat.ltb_spec (List.length args + List.length more) n); [lia|]. destruct (Nat.ltb_spec (List.length args) n); [lia|].
  now rewrite firstn_app, (proj2 (Nat.sub_0_le n (List.length args)) N), firstn_O, app_nil_r.
Qed.
Print Assumptions C118_extra.

(** ** The templates of the examples (/repo/example/pt.cpp:32-42, custom_renderer.cpp:73-83) *)
Definition chars (s : string) : text := list_ascii_of_string s.
(** The tokens of a template *)
Fixpoint tokens (f : text) : list token :=
  match f with
  | [] => []
  | "{" :: "}" :: r => Place :: tokens r
  | "{" :: "{" :: r => Lit "{" :: tokens r
  | "}" :: "}" :: r => Lit "}" :: tokens r
  | c :: r => Lit c :: tokens r
  end.
Definition nl : text := ascii_of_nat 10 :: chars "            ".
Definition nl' : text := ascii_of_nat 10 :: chars "        ".
Definition q (s : string) : text := quoted (chars s).
Definition pt_template : text :=
  chars "{{" ++ nl ++ q "obj" ++ chars ": " ++ quoted (chars "{}") ++ chars "," ++ nl ++ q "out" ++ chars ": " ++ quoted (chars "{}") ++ chars "," ++
  nl ++ q "spp" ++ chars ": {}," ++ nl ++ q "max_verts" ++ chars ": {}," ++ nl ++ q "w" ++ chars ": {}," ++ nl ++ q "h" ++ chars ": {}," ++
  nl ++ q "eye" ++ chars ": [{},{},{}]," ++ nl ++ q "lookat" ++ chars ": [{},{},{}]," ++ nl ++ q "vfov" ++ chars ": {}" ++ nl' ++ chars "}}".
Lemma plain_dec a : forallb (fun c => negb (Ascii.eqb c quote) && negb (Ascii.eqb c backslash) && (32 <=? nat_of_ascii c)) a = true -> plain a.
Proof.
  intros H c I. rewrite forallb_forall in H. specialize (H c I). apply andb_prop in H. destruct H as [H A]. apply andb_prop in H. destruct H as [B C].
  split; [intros ->; discriminate|]. split; [intros ->; discriminate|]. now apply Nat.leb_le.
Qed.
Lemma blanks_dec s : forallb (fun c => Ascii.eqb c " " || Ascii.eqb c (ascii_of_nat 10)) s = true -> blanks s.
Proof. intros H c I. rewrite forallb_forall in H. specialize (H c I). apply orb_prop in H. destruct H as [H|H]; apply Ascii.eqb_eq in H; subst; [now left|now right; right; left]. Qed.
Lemma three a b c : number a -> number b -> number c -> jtext (VArr [VNum a; VNum b; VNum c]) ("[" :: (a ++ "," :: b ++ "," :: c) ++ ["]"]).
Proof.
  intros A B C. apply T_arr. assert (N : blanks []) by (intros ? []).
  assert (E3 := E_one (VNum c) c [] [] (T_num c C) N N). assert (E2 := E_cons (VNum b) b _ _ [] [] (T_num b B) N N E3). assert (E1 := E_cons (VNum a) a _ _ [] [] (T_num a A) N N E2).
  cbn [app] in E1. rewrite app_nil_r in E1. exact E1.
Qed.
(** With this template, whatever the arguments: two texts without quotes, backslashes and control characters, and numbers *)
Theorem C118_example prog obj out spp mv w h e1 e2 e3 l1 l2 l3 vfov more : plain obj -> plain out -> (forall t, In t [spp; mv; w; h; e1; e2; e3; l1; l2; l3; vfov] -> number t) ->
  parse_positional_args 13 (prog :: [obj; out; spp; mv; w; h; e1; e2; e3; l1; l2; l3; vfov] ++ more) pt_template =
  Ok (VObj [(chars "obj", VStr obj); (chars "out", VStr out); (chars "spp", VNum spp); (chars "max_verts", VNum mv); (chars "w", VNum w); (chars "h", VNum h);
            (chars "eye", VArr [VNum e1; VNum e2; VNum e3]); (chars "lookat", VArr [VNum l1; VNum l2; VNum l3]); (chars "vfov", VNum vfov)]).
Proof.
  intros P1 P2 N. rewrite C118_extra by (cbn; lia). replace pt_template with (written (tokens pt_template)) by (vm_compute; reflexivity).
  assert (B : blanks nl) by (apply blanks_dec; reflexivity). assert (B' : blanks nl') by (apply blanks_dec; reflexivity). assert (B1 : blanks [" "]) by (apply blanks_dec; reflexivity). assert (B0 : blanks []) by (intros ? []).
  assert (Nm : forall t, In t [spp; mv; w; h; e1; e2; e3; l1; l2; l3; vfov] -> jtext (VNum t) t) by (intros t I; apply T_num, N, I).
  assert (K : forall s, forallb (fun c => negb (Ascii.eqb c quote) && negb (Ascii.eqb c backslash) && (32 <=? nat_of_ascii c)) (chars s) = true -> plain (chars s)) by (intros s; apply plain_dec).
  assert (M := M_one (chars "vfov") (VNum vfov) vfov nl [] [" "] nl' (K "vfov"%string eq_refl) (Nm vfov ltac:(cbn; tauto)) B B0 B1 B').
  apply (M_cons (chars "lookat") _ _ _ _ nl [] [" "] [] (K "lookat"%string eq_refl) (three l1 l2 l3 (N l1 ltac:(cbn; tauto)) (N l2 ltac:(cbn; tauto)) (N l3 ltac:(cbn; tauto))) B B0 B1 B0) in M.
  apply (M_cons (chars "eye") _ _ _ _ nl [] [" "] [] (K "eye"%string eq_refl) (three e1 e2 e3 (N e1 ltac:(cbn; tauto)) (N e2 ltac:(cbn; tauto)) (N e3 ltac:(cbn; tauto))) B B0 B1 B0) in M.
  apply (M_cons (chars "h") _ _ _ _ nl [] [" "] [] (K "h"%string eq_refl) (Nm h ltac:(cbn; tauto)) B B0 B1 B0) in M.
  apply (M_cons (chars "w") _ _ _ _ nl [] [" "] [] (K "w"%string eq_refl) (Nm w ltac:(cbn; tauto)) B B0 B1 B0) in M.
  apply (M_cons (chars "max_verts") _ _ _ _ nl [] [" "] [] (K "max_verts"%string eq_refl) (Nm mv ltac:(cbn; tauto)) B B0 B1 B0) in M.
  apply (M_cons (chars "spp") _ _ _ _ nl [] [" "] [] (K "spp"%string eq_refl) (Nm spp ltac:(cbn; tauto)) B B0 B1 B0) in M.
  apply (M_cons (chars "out") _ _ _ _ nl [] [" "] [] (K "out"%string eq_refl) (T_str out P2) B B0 B1 B0) in M.
  apply (M_cons (chars "obj") _ _ _ _ nl [] [" "] [] (K "obj"%string eq_refl) (T_str obj P1) B B0 B1 B0) in M.
  apply T_obj in M. refine (C118_parse 13 prog _ _ _ _ [] [] _ _ M B0 B0); [cbn; lia|].
  clear. cbn [app]. rewrite app_nil_r. unfold quoted. repeat (rewrite <- app_assoc; cbn [app]). vm_compute tokens. cbn [firstn fill option_map]. reflexivity.
Qed.
Print Assumptions C118_example.

(** ** Refuted *)
(** Not every argument in quotes comes out as it is: file names with backslashes do not. *)
Definition c118_template : text := chars "{{" ++ q "obj" ++ chars ": " ++ quoted (chars "{}") ++ chars "}}".
Definition c118_path : text := chars "C:\temp".
Theorem C118_text_refuted : ~ forall prog a, parse_positional_args 1 [prog; a] c118_template = Ok (VObj [(chars "obj", VStr a)]).
Proof. intros H. specialize (H [] c118_path). vm_compute in H. discriminate. Qed.
Print Assumptions C118_text_refuted.
(** The same template takes every plain text as it is. *)
Theorem C118_text_partial prog a : plain a -> parse_positional_args 1 [prog; a] c118_template = Ok (VObj [(chars "obj", VStr a)]).
Proof.
  intros P. replace c118_template with (written (tokens c118_template)) by (vm_compute; reflexivity). assert (B0 : blanks []) by (intros ? []). assert (B1 : blanks [" "]) by (apply blanks_dec; reflexivity).
  assert (M := M_one (chars "obj") (VStr a) _ [] [] [" "] [] (plain_dec (chars "obj") eq_refl) (T_str a P) B0 B0 B1 B0). apply T_obj in M.
  refine (C118_parse 1 prog [a] _ _ _ [] [] _ _ M B0 B0); [cbn; lia|]. cbn [app]. rewrite app_nil_r. unfold quoted. repeat (rewrite <- app_assoc; cbn [app]). vm_compute tokens. cbn [firstn fill option_map]. reflexivity.
Qed.
Print Assumptions C118_text_partial.
(** An argument can add members: the result is not what the program asked for. *)
Definition c118_inject : text := chars "a" ++ [quote; ","] ++ q "out" ++ [":"; quote] ++ chars "b".
Theorem C118_shape_refuted : ~ forall prog a v, parse_positional_args 1 [prog; a] c118_template = Ok v -> exists s, v = VObj [(chars "obj", VStr s)].
Proof. intros H. destruct (H [] c118_inject (VObj [(chars "obj", VStr (chars "a")); (chars "out", VStr (chars "b"))]) ltac:(vm_compute; reflexivity)) as [s E]. discriminate. Qed.
Print Assumptions C118_shape_refuted.

(** ** The hypotheses are met *)
Example C118_example_instance : plain (chars "scenes/cornell box.obj") /\ number (chars "-1.5e3") /\ number (chars "0").
Proof.
  split; [now apply plain_dec|]. split.
  - exists ["-"], ["1"], ["."; "5"], ["e"; "3"]. split; [reflexivity|]. split; [now right|]. split; [right; exists "1", []; split; [reflexivity|]; split; [discriminate|]|split; [right; exists ["5"]; split; [reflexivity|]|right; exists "e", [], ["3"]; split; [reflexivity|]; split; [now left|]; split; [now left|]]];
      (split; [discriminate|]; intros c [<-|[]]; cbn; tauto).
  - exists [], ["0"], [], []. split; [reflexivity|]. repeat split; now left.
Qed.
Example C118_parse_instance : exists w, fill (tokens c118_template) [chars "a"] = Some w /\ jtext (VStr (chars "a")) (q "a").
Proof. eexists. split; [vm_compute; reflexivity|]. apply T_str. now apply plain_dec. Qed.
Example C118_places_instance : fill (tokens (chars "{}{}")) (firstn 1 [chars "a"; chars "b"]) = None.
Proof. reflexivity. Qed.
