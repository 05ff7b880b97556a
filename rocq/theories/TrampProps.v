(** Properties of components written in Python: dispatch of calls (C91) and serialization (C92). *)
From Coq Require Import List String Ascii ZArith Bool Lia.
From Verif Require Import Base CodecModel CodecProofs PyModel TrampModel TrampSpec.
Import ListNotations.
Open Scope string_scope. Open Scope list_scope.

Lemma param_skip {V} ns (vs : list V) n v x : n <> x -> param (n :: ns) (v :: vs) x = param ns vs x.
Proof. intros H. cbn. destruct (String.eqb_spec n x); [contradiction|reflexivity]. Qed.

Lemma actuals_skip {V} n (v : V) ns vs : forall xs, ~ In n xs -> actuals (n :: ns) (v :: vs) xs = actuals ns vs xs.
Proof.
  induction xs as [|x r IH]; intros H; [reflexivity|].
  cbn [actuals]. rewrite param_skip by (intros ->; apply H; left; reflexivity).
  rewrite IH by (intros Hi; apply H; right; exact Hi). reflexivity.
Qed.

Lemma actuals_all {V} : forall names (vals : list V), NoDup names -> List.length vals = List.length names -> actuals names vals names = Some vals.
Proof.
  induction names as [|n ns IH]; intros [|v vs] Hn Hl; try discriminate; [reflexivity|].
  inversion Hn as [|? ? Hi Hd]; subst. cbn [actuals]. rewrite actuals_skip by exact Hi.
  rewrite IH by (auto; cbn in Hl; lia). cbn [param]. rewrite String.eqb_refl. reflexivity.
Qed.

Fixpoint distinct (l : list string) : bool := match l with [] => true | x :: r => negb (existsb (String.eqb x) r) && distinct r end.
Lemma distinct_nodup : forall l, distinct l = true -> NoDup l.
Proof.
  induction l as [|x r IH]; intros H; constructor; cbn in H; apply andb_prop in H as [H1 H2]; auto.
  intros Hi. assert (E : existsb (String.eqb x) r = true) by (apply existsb_exists; exists x; rewrite String.eqb_refl; auto). rewrite E in H1. discriminate.
Qed.

(** The trampoline found for a declaration forwards it *)
Definition forwards (i : string) (d : decl) : bool :=
  match override i (d_fn d) (d_types d) with
  | Some t => String.eqb (t_method t) (d_fn d) && same_types (t_args t) (t_params t) && distinct (t_params t)
              && Nat.eqb (List.length (t_params t)) (List.length (d_types d)) && String.eqb (t_ret t) (d_ret d)
              && Bool.eqb (t_pure t) (d_pure d) && String.eqb (t_base t) i
  | None => false
  end.
Definition has_name (l : list (string * string)) (d : decl) : bool := existsb (fun p => String.eqb (d_iface d) (fst p) && String.eqb (d_fn d) (snd p)) l.
Definition names_not_forwarded := [("Component", "underlying"); ("Component", "foreach_underlying"); ("Component", "underlying_value"); ("Component", "underlying_raw_pointer");
     ("Film", "splat"); ("Texture", "eval_alpha"); ("Texture", "has_alpha"); ("Texture", "buffer"); ("Volume", "march");
     ("Light", "set_scene_bound"); ("Light", "is_env")].
Definition archivalb (d : decl) : bool := same_types (d_types d) ["InputArchive&"] || same_types (d_types d) ["OutputArchive&"].
Definition relevant (i : string) (d : decl) : bool := String.eqb (d_iface d) i || String.eqb (d_iface d) "Component".

Lemma table_forwards : forallb (fun i => forallb (fun d => negb (relevant i d) || archivalb d || has_name names_not_forwarded d || String.eqb (d_fn d) "max_scalar" || forwards i d) declarations) interfaces = true.
Proof. vm_compute. reflexivity. Qed.

Lemma table_not_forwarded : forallb (fun i => forallb (fun d => negb (relevant i d) || negb (has_name names_not_forwarded d) ||
  match override i (d_fn d) (d_types d) with None => true | Some _ => false end) declarations) interfaces = true.
Proof. vm_compute. reflexivity. Qed.

Lemma has_name_in l d : has_name l d = true <-> In (d_iface d, d_fn d) l.
Proof.
  unfold has_name. rewrite existsb_exists. split.
  - intros [[a b] [Hi H]]. cbn in H. apply andb_prop in H as [H1 H2]. apply String.eqb_eq in H1, H2. rewrite H1, H2. exact Hi.
  - intros H. exists (d_iface d, d_fn d). split; [exact H|]. cbn. rewrite !String.eqb_refl. reflexivity.
Qed.

Lemma same_types_eq a b : same_types a b = true <-> a = b.
Proof. unfold same_types. destruct (list_eq_dec string_dec a b); split; intros; congruence. Qed.

Lemma archivalb_spec d : archivalb d = true -> archival d.
Proof. unfold archivalb, archival. intros H. apply orb_prop in H as [H|H]; apply same_types_eq in H; auto. Qed.

Lemma relevant_spec i d : d_iface d = i \/ d_iface d = "Component" -> relevant i d = true.
Proof. intros [H|H]; unfold relevant; rewrite H, String.eqb_refl; rewrite ?orb_true_r; reflexivity. Qed.

(** C91: for every class derived from one of the 17 interfaces of the bindings, every virtual function of the interface other
    than those listed in [not_forwarded], those concerning archives (C92) and Volume::max_scalar, and all arguments, the
    caller gets what the Python class says. Missing from the full claim: the functions excluded, for which it fails. *)
Theorem C91_dispatch_partial : forall V (methods : string -> option (list V -> outcome V)) cast base i d (args : list V),
  function_of i d -> ~ archival d -> ~ not_forwarded d -> d_fn d <> "max_scalar" -> List.length args = List.length (d_types d) ->
  answers methods cast base pure_error i d args (call methods cast base i (d_fn d) (d_types d) args).
Proof.
  intros V methods cast base i d args (Hi & Hd & Hr) Ha Hn Hm Hl.
  pose proof table_forwards as Ht. rewrite forallb_forall in Ht. specialize (Ht i Hi). rewrite forallb_forall in Ht. specialize (Ht d Hd).
  rewrite (relevant_spec _ _ Hr) in Ht. cbn [negb orb] in Ht.
  destruct (archivalb d) eqn:Ea; [exfalso; apply Ha, archivalb_spec, Ea|].
  destruct (has_name names_not_forwarded d) eqn:En; [exfalso; apply Hn, has_name_in, En|].
  destruct (String.eqb_spec (d_fn d) "max_scalar") as [E|_]; [contradiction|]. cbn [orb] in Ht.
  unfold forwards in Ht. unfold call. destruct (override i (d_fn d) (d_types d)) as [t|]; [|discriminate].
  repeat (apply andb_prop in Ht as [Ht ?]).
  repeat match goal with H : String.eqb _ _ = true |- _ => apply String.eqb_eq in H end.
  match goal with H : same_types _ _ = true |- _ => apply same_types_eq in H; rename H into Hargs end.
  match goal with H : Nat.eqb _ _ = true |- _ => apply PeanoNat.Nat.eqb_eq in H; rename H into Hlen end.
  match goal with H : Bool.eqb _ _ = true |- _ => apply Bool.eqb_prop in H; rename H into Hpure end.
  match goal with H : distinct _ = true |- _ => apply distinct_nodup in H end.
  unfold run. rewrite Hargs, actuals_all by (auto; lia). rewrite Ht.
  destruct (methods (d_fn d)) as [f|] eqn:Ef.
  - replace (t_ret t) with (d_ret d) by auto. apply by_method, Ef.
  - rewrite Hpure. destruct (d_pure d) eqn:Ep; [apply by_error; assumption|].
    replace (t_base t) with i by auto. apply by_default; assumption.
Qed.
Print Assumptions C91_dispatch_partial.

(** Of the functions in [not_forwarded], the caller gets the default of the C++ interface whatever the Python class defines:
    a light written in Python is never an environment light, a texture never has alpha, no reference is reported. *)
Theorem C91_not_forwarded_refuted : forall V (methods : string -> option (list V -> outcome V)) cast base i d (args : list V),
  function_of i d -> not_forwarded d -> call methods cast base i (d_fn d) (d_types d) args = base i (d_fn d) args.
Proof.
  intros V methods cast base i d args (Hi & Hd & Hr) Hn.
  pose proof table_not_forwarded as Ht. rewrite forallb_forall in Ht. specialize (Ht i Hi). rewrite forallb_forall in Ht. specialize (Ht d Hd).
  rewrite (relevant_spec _ _ Hr) in Ht. cbn [negb orb] in Ht.
  destruct (has_name names_not_forwarded d) eqn:En; [|apply (has_name_in names_not_forwarded) in Hn; congruence]. cbn [negb orb] in Ht.
  unfold call. destruct (override i (d_fn d) (d_types d)); [discriminate|reflexivity].
Qed.
Print Assumptions C91_not_forwarded_refuted.

(** The maximum of a volume written in Python is the result of its has_scalar: a method max_scalar is never called. *)
Theorem C91_max_scalar_refuted : forall V (methods : string -> option (list V -> outcome V)) cast base f,
  methods "has_scalar" = Some f -> call methods cast base "Volume" "max_scalar" [] [] = obind (f []) (cast "Float").
Proof. intros V methods cast base f H. change (run methods cast base (mk_tramp "Volume" "max_scalar" [] [] true "Float" "Volume" "has_scalar" []) [] = obind (f []) (cast "Float")).
  unfold run. cbn [actuals t_params t_args t_method t_pure t_ret]. rewrite H. reflexivity. Qed.
Print Assumptions C91_max_scalar_refuted.

(** A volume with density up to 5, as seen by the caller, a diffuse material, and a light that says it surrounds the scene *)
Example C91_example :
  let dens := fun m => if String.eqb m "max_scalar" then Some (fun _ : list Z => Ok 5%Z) else if String.eqb m "has_scalar" then Some (fun _ => Ok 1%Z) else None in
  let mat := fun m => if String.eqb m "pdf_component" then Some (fun l => Ok (nth 0 l 0 + 10 * nth 1 l 0)%Z) else None in
  let light := fun m => if String.eqb m "is_env" then Some (fun _ : list Z => Ok 1%Z) else None in
  let cast := fun (_ : string) (v : Z) => Ok v in
  let base := fun (_ _ : string) (_ : list Z) => Ok 0%Z in
  call dens cast base "Volume" "max_scalar" [] [] = Ok 1%Z
  /\ ~ answers dens cast base pure_error "Volume" (mk_decl "Volume" "max_scalar" [] "Float" true) [] (Ok 1%Z)
  /\ call mat cast base "Material" "pdf_component" ["int"; "const PointGeometry&"; "Vec3"] [3; 4; 5]%Z = Ok 43%Z
  /\ call mat cast base "Material" "is_specular_component" ["int"] [3]%Z = Throw pure_error
  /\ call light cast base "Light" "is_env" [] [] = Ok 0%Z
  /\ ~ answers light cast base pure_error "Light" (mk_decl "Light" "is_env" [] "bool" false) [] (Ok 0%Z)
  /\ function_of "Material" (mk_decl "Material" "pdf_component" ["int"; "const PointGeometry&"; "Vec3"] "Float" true)
  /\ function_of "Material" (mk_decl "Component" "construct" ["const Json&"] "void" false).
Proof.
  cbv zeta. repeat split; try (vm_compute; reflexivity).
  - intros H. inversion H as [f Hf Ho| |]; cbn in *; try discriminate. injection Hf as <-. cbn in Ho. discriminate.
  - intros H. inversion H as [f Hf Ho| |]; cbn in *; try discriminate. injection Hf as <-. cbn in Ho. discriminate.
  - unfold interfaces; cbn [In]; tauto.
  - unfold declarations; cbn [In]; tauto.
  - left; reflexivity.
  - unfold interfaces; cbn [In]; tauto.
  - unfold declarations; cbn [In]; tauto.
  - right; reflexivity.
Qed.

Section C92.
  Context {F St : Type}.
  Variable encode : pystr -> option string.

(** C92: a component written in Python as a Component or a Renderer, with both methods: what save returns is what load is
    given, as bytes, wherever in the archive it stands, and the rest of the archive is left as it is. Missing: the other
    interfaces and classes defining only one of the methods, for which it fails. *)
Theorem C92_round_trip_partial : forall i (f : St -> outcome (py F)) (g : St -> py F -> outcome St) st v b,
  i = "Component" \/ i = "Renderer" -> f st = Ok v -> (v = PBytes b \/ exists s, v = PStr s /\ encode s = Some b) ->
  (Z.of_nat (String.length b) < 2 ^ 64)%Z ->
  exists e, (forall out, save_comp encode (mk_state_methods (Some f) (Some g)) i st out = Ok (out ++ e))
    /\ forall st0 rest, load_comp (mk_state_methods (Some f) (Some g)) i st0 (e ++ rest) = obind (g st0 (PBytes b)) (fun st' => Ok (st', rest)).
Proof.
  intros i f g st v b Hi Hf Hv Hb. exists (enc_str b). split.
  - intros out. unfold save_comp. cbn [py_save]. destruct (in_dec string_dec i serialized) as [_|Hn]; [|exfalso; apply Hn; destruct Hi as [->| ->]; cbn; auto].
    rewrite Hf. cbn [obind]. destruct Hv as [->|(s & -> & Hs)]; cbn [load_key]; [reflexivity|rewrite Hs; reflexivity].
  - intros st0 rest. unfold load_comp. cbn [py_load]. destruct (in_dec string_dec i serialized) as [_|Hn]; [|exfalso; apply Hn; destruct Hi as [->| ->]; cbn; auto].
    rewrite dec_enc_str by exact Hb. reflexivity.
Qed.

(** Of any other interface, the state of a component written in Python is neither written nor read, whatever methods it has
    (a film's save is the one that writes an image). *)
Theorem C92_lost_refuted : forall i (c : state_methods F St) st out,
  i <> "Component" -> i <> "Renderer" -> save_comp encode c i st out = Ok out /\ forall st0 inp, load_comp c i st0 inp = Ok (st0, inp).
Proof.
  intros i c st out H1 H2. unfold save_comp, load_comp.
  destruct (in_dec string_dec i serialized) as [Hi|_]; [exfalso; cbn in Hi; intuition congruence|]. split; reflexivity.
Qed.

(** A class that defines save and not load leaves its state in the archive, where the next component finds it. *)
Theorem C92_misaligned_refuted : forall i (f : St -> outcome (py F)) st b,
  i = "Component" \/ i = "Renderer" -> f st = Ok (PBytes b) ->
  exists e, e <> [] /\ (forall out, save_comp encode (mk_state_methods (Some f) None) i st out = Ok (out ++ e))
    /\ forall st0 rest, load_comp (mk_state_methods (Some f) None) i st0 (e ++ rest) = Ok (st0, e ++ rest).
Proof.
  intros i f st b Hi Hf. exists (enc_str b). split; [|split].
  - unfold enc_str, enc_size, enc_int. intros H. apply app_eq_nil in H as [H _]. apply (f_equal (@List.length ascii)) in H. rewrite le_bytes_length in H. discriminate.
  - intros out. unfold save_comp. cbn [py_save]. destruct (in_dec string_dec i serialized) as [_|Hn]; [|exfalso; apply Hn; destruct Hi as [->| ->]; cbn; auto].
    rewrite Hf. reflexivity.
  - intros st0 rest. unfold load_comp. cbn [py_load]. destruct (in_dec string_dec i serialized); reflexivity.
Qed.
End C92.
Print Assumptions C92_round_trip_partial.
Print Assumptions C92_lost_refuted.
Print Assumptions C92_misaligned_refuted.

(** A renderer that keeps a string: restored in another instance; as a material it is lost *)
Example C92_example :
  let c := mk_state_methods (F:=Z) (St:=string) (Some (fun st => Ok (PBytes st))) (Some (fun _ v => match v with PBytes b => Ok b | _ => Throw type_error end)) in
  let enc := fun _ : pystr => @None string in
  obind (save_comp enc c "Renderer" "spp" []) (load_comp c "Renderer" "") = Ok ("spp", [])
  /\ obind (save_comp enc c "Material" "red" []) (load_comp c "Material" "") = Ok ("", []).
Proof. split; vm_compute; reflexivity. Qed.
