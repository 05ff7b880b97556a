(** C105: what calls from Python with properties do. *)
From Coq Require Import List String Ascii ZArith NArith Bool Lia.
From Verif Require Import Base JsonModel JsonSpec PyModel PySpec PyProofs CallModel CallSpec CallProofs.
Import ListNotations.
Open Scope string_scope. Open Scope list_scope.

(** load_<interface> reaches the framework with a name, a key and properties exactly if the call asks for them. *)
Theorem C105_load : forall F encode debug interface (args : list (py F)) (kw : kwargs F) name key p,
  load_call encode debug interface args kw = Ok (name, key, p) <-> asks encode interface args kw name key p.
Proof. intros. apply load_call_iff. Qed.
Print Assumptions C105_load.

(** Properties as keywords and the same properties as a dict do the same. *)
Theorem C105_two_forms : forall F encode debug interface St Comp (load_asset : string -> string -> json F -> St -> St * outcome (option Comp)) implements n k kw a b p s,
  is_text encode n a -> is_text encode k b -> means encode (dict_of kw) p ->
  py_load encode debug load_asset implements interface [n; k] kw s = py_load encode debug load_asset implements interface [n; k; dict_of kw] [] s.
Proof.
  intros F encode debug interface St Comp la im n k kw a b p s N K M. unfold py_load.
  rewrite (proj2 (load_call_iff encode debug interface [n; k] kw _ _ p) (by_keywords encode interface n k a b kw p N K M)).
  now rewrite (proj2 (load_call_iff encode debug interface [n; k; dict_of kw] [] _ _ p) (by_position encode interface n k (dict_of kw) a b p N K M)).
Qed.
Print Assumptions C105_two_forms.

(** A call that asks for something loads it once, and returns it if it is of the interface; the errors of loading are passed on. *)
Theorem C105_effect : forall F encode debug interface St Comp (load_asset : string -> string -> json F -> St -> St * outcome (option Comp)) implements args kw name key p s s' r,
  asks encode interface args kw name key p -> load_asset name key p s = (s', r) ->
  fst (py_load encode debug load_asset implements interface args kw s) = s' /\
  (forall c, r = Ok (Some c) -> implements interface c = true -> snd (py_load encode debug load_asset implements interface args kw s) = Ok (Some c)) /\
  (r = Ok None -> snd (py_load encode debug load_asset implements interface args kw s) = Ok None) /\
  (forall e, r = Throw e -> snd (py_load encode debug load_asset implements interface args kw s) = Throw e).
Proof.
  intros F encode debug interface St Comp la im args kw name key p s s' r A L. unfold py_load. rewrite (proj2 (load_call_iff _ _ _ _ _ _ _ _) A). rewrite L.
  cbn [fst snd]. repeat split; [intros c -> H; cbn; now rewrite H|intros ->; reflexivity|intros e ->; reflexivity].
Qed.
Print Assumptions C105_effect.

(** Any other call changes nothing and does not return; if its arguments have the wrong shape it is a TypeError. *)
Theorem C105_rejected : forall F encode debug interface St Comp (load_asset : string -> string -> json F -> St -> St * outcome (option Comp)) implements args kw s,
  (forall name key p, ~ asks encode interface args kw name key p) ->
  fst (py_load encode debug load_asset implements interface args kw s) = s /\
  (forall c, snd (py_load encode debug load_asset implements interface args kw s) <> Ok c) /\
  (~ well_shaped encode args kw -> List.length args <> 3%nat \/ kw <> [] -> snd (py_load encode debug load_asset implements interface args kw s) = Throw arg_error).
Proof.
  intros F encode debug interface St Comp la im args kw s A. unfold py_load.
  destruct (load_call encode debug interface args kw) as [[[n k] p]|e| |] eqn:E.
  - destruct (A n k p). now apply (load_call_iff encode debug).
  - split; [reflexivity|]. split; [discriminate|]. intros W L. rewrite (load_call_shape encode debug interface args kw W L) in E. cbn. congruence.
  - split; [reflexivity|]. split; [discriminate|]. intros W L. rewrite (load_call_shape encode debug interface args kw W L) in E. discriminate.
  - split; [reflexivity|]. split; [discriminate|]. intros W L. rewrite (load_call_shape encode debug interface args kw W L) in E. discriminate.
Qed.
Print Assumptions C105_rejected.

(** init of the contexts, with keywords that are different as Python ensures *)
Theorem C105_init : forall F encode debug default (args : list (py F)) (kw : kwargs F) t p, NoDup (map fst kw) ->
  init_call encode debug default args kw = Ok (t, p) <-> init_asks encode default args kw t p.
Proof. intros. now apply init_call_iff. Qed.
Print Assumptions C105_init.
(** add_primitive and create_primitive_node: the properties are the keywords, or the only argument. *)
Theorem C105_primitive : forall F encode debug (args : list (py F)) (kw : kwargs F) p,
  prim_call encode debug args kw = Ok p <-> (args = [] /\ means encode (dict_of kw) p) \/ (exists v, args = [v] /\ kw = [] /\ means encode v p).
Proof. intros. apply prim_call_iff. Qed.
Print Assumptions C105_primitive.

(** Refuted: "init(type, prop=v) is init(type, v)". The name of the documented parameter becomes a property. *)
Theorem C105_named_prop_refuted : forall F encode debug default (t v : py F) type j,
  is_text encode t type -> encode (text "prop") = Some "prop" -> means encode v j ->
  init_call encode debug default [t; v] [] = Ok (type, j) /\ init_call encode debug default [t] [(text "prop", v)] = Ok (type, JObj [("prop", j)]).
Proof.
  intros F encode debug default t v type j T P M. split.
  - apply init_call_iff; [constructor|]. now apply in_position.
  - apply init_call_iff; [repeat constructor; intros []|]. apply in_keywords; [exact T|]. unfold dict_of. cbn [map fst snd].
    apply (load_iff encode debug). cbn [load load_key]. rewrite P. apply (load_iff encode debug) in M. rewrite M. reflexivity.
Qed.
Print Assumptions C105_named_prop_refuted.
(** Refuted: "load_<interface> returns the asset it has loaded". A class of another interface under the key is loaded, and None returned. *)
Theorem C105_wrong_interface_refuted : forall F encode debug interface St Comp (load_asset : string -> string -> json F -> St -> St * outcome (option Comp)) implements args kw name key p s s' c,
  asks encode interface args kw name key p -> load_asset name key p s = (s', Ok (Some c)) -> implements interface c = false ->
  py_load encode debug load_asset implements interface args kw s = (s', Ok None).
Proof.
  intros F encode debug interface St Comp la im args kw name key p s s' c A L I. unfold py_load. rewrite (proj2 (load_call_iff _ _ _ _ _ _ _ _) A). rewrite L.
  cbn. now rewrite I.
Qed.
Print Assumptions C105_wrong_interface_refuted.

(** ** Examples *)
Definition c105_encode (s : pystr) : option string := Some (string_of_list_ascii (map ascii_of_N s)).
Definition c105_str (s : string) : py Z := PStr (text s).
Definition c105_store (name key : string) (p : json Z) (s : list string) : list string * outcome (option string) := (s ++ [name], Ok (Some key)).
(** m = load_material("m", "diffuse", Kd=[1, 2]) and the same with a dict *)
Example C105_example : forall debug,
  asks c105_encode "material" [c105_str "m"; c105_str "diffuse"] [(text "Kd", PSeq true [PInt 1; PInt 2])] "m" "material::diffuse" (JObj [("Kd", JArr [JInt 1; JInt 2])]) /\
  py_load c105_encode debug c105_store (fun _ _ => true) "material" [c105_str "m"; c105_str "diffuse"; PDict [(c105_str "Kd", PInt 1)]] [] [] = (["m"], Ok (Some "material::diffuse")) /\
  (* too many arguments, a number as the name, a dict and keywords *)
  load_call c105_encode debug "material" [c105_str "m"; PInt 1] [] = Throw arg_error /\
  load_call c105_encode debug "material" [c105_str "m"; c105_str "diffuse"; PDict []] [(text "Kd", PInt 1)] = Throw arg_error /\
  ~ well_shaped c105_encode [c105_str "m"; PInt 1] [] /\
  (* parallel.init(), parallel.init("parallel::openmp", num_threads=4), and with prop= *)
  init_call (F := Z) c105_encode debug "parallel::openmp" [] [] = Ok ("parallel::openmp", JNull) /\
  init_call (F := Z) c105_encode debug "x" [c105_str "parallel::openmp"] [(text "num_threads", PInt 4)] = Ok ("parallel::openmp", JObj [("num_threads", JInt 4)]) /\
  init_call (F := Z) c105_encode debug "x" [] [(text "prop", PDict [(c105_str "a", PInt 4)])] = Ok ("x", JObj [("a", JInt 4)]) /\
  init_call (F := Z) c105_encode debug "x" [c105_str "t"] [(text "prop", PDict [(c105_str "a", PInt 4)])] = Ok ("t", JObj [("prop", JObj [("a", JInt 4)])]) /\
  init_call (F := Z) c105_encode debug "x" [] [(text "a", PInt 4)] = Throw arg_error /\
  prim_call (F := Z) c105_encode debug [] [(text "mesh", c105_str "$.m")] = Ok (JObj [("mesh", JStr "$.m")]).
Proof.
  intros debug. split; [apply (load_call_iff c105_encode debug); reflexivity|]. split; [reflexivity|]. split; [reflexivity|]. split; [reflexivity|].
  split; [intros [(n & k & a & b & E & _ & K)|(n & k & v & a & b & E & _)]; [injection E as <- <-; destruct K as [(s & K & _)|K]; discriminate|discriminate]|].
  repeat split; reflexivity.
Qed.
