(** Model of how calls from Python reach functions with properties: overload resolution of pybind11 2.7.1 and the wrappers
    of src/pylm.cpp. *)
From Coq Require Import List String Ascii ZArith NArith Bool.
From Verif Require Import Base JsonModel PyModel.
Import ListNotations.
Open Scope string_scope. Open Scope list_scope.

(** The text of a Python literal of ASCII characters. For the default values and names in src/pylm.cpp:192-297. *)
Definition text (s : string) : pystr := map N_of_ascii (list_ascii_of_string s).
(** pybind11: no overload accepts the arguments (TypeError).
    Raised by pybind11 for calls of the functions of src/pylm.cpp:174-246. *)
Definition arg_error := ErrUser 5.

Section Call.
  Context {F : Type}.
  Variables (encode : pystr -> option string) (debug : bool).
  (** Types of the parameters of the functions modelled, and values after conversion.
      src/pylm.cpp:174-246: std::string and Json. *)
  Inductive ptype := TStr | TJson.
  (** src/pylm.cpp:174-246. *)
  Inductive cval := VStr (s : string) | VJson (j : json F).
  (** A parameter has a name and a default value if it was annotated ("name"_a = ...). src/pylm.cpp:294. *)
  Record param := mk_param { p_name : option pystr; p_type : ptype; p_default : option (py F) }.
  (** One def of src/pylm.cpp:174-246: its parameters, and whether the last is pybind11::kwargs. *)
  Record overload := mk_overload { o_params : list param; o_kwargs : bool }.
  (** The keyword arguments of a call, in order, for src/pylm.cpp:179-184. *)
  Definition kwargs := list (pystr * py F).
  (** Lookup in the keyword arguments (pybind11, for src/pylm.cpp:174-246). *)
  Fixpoint kfind (k : pystr) (kw : kwargs) : option (py F) :=
    match kw with [] => None | (k', v) :: r => if list_eq_dec N.eq_dec k k' then Some v else kfind k r end.
  (** Removal from the keyword arguments (pybind11, for src/pylm.cpp:174-246). *)
  Fixpoint kremove (k : pystr) (kw : kwargs) : kwargs :=
    match kw with [] => [] | (k', v) :: r => if list_eq_dec N.eq_dec k k' then r else (k', v) :: kremove k r end.
  (** pybind11::kwargs as the dict it is: src/pylm.cpp:179-184. *)
  Definition as_dict (kw : kwargs) : py F := PDict (map (fun e => (PStr (fst e), snd e)) kw).

  (** One argument; Ok None: the caster returns false. The caster of Json refuses everything without conversion (pylm.h:27-31). *)
  Definition load_arg (convert : bool) (t : ptype) (v : py F) : outcome (option cval) :=
    match t with
    | TStr => Ok (option_map VStr (load_key encode v))
    | TJson => if convert then
                 match load encode debug v with
                 | Ok j => Ok (Some (VJson j))
                 | Throw (ErrUser 1) => Ok None
                 | Throw e => Throw e
                 | UB => UB
                 | Fuel => Fuel
                 end
               else Ok None
    end.
  (** argument_loader::load_args: all casters run, from left to right. pybind11, for src/pylm.cpp:174-246. *)
  Fixpoint load_args (convert : bool) (ts : list ptype) (vs : list (py F)) : outcome (option (list cval)) :=
    match ts, vs with
    | t :: ts, v :: vs =>
        obind (load_arg convert t v) (fun a =>
        obind (load_args convert ts vs) (fun r =>
        Ok (match a, r with Some a, Some r => Some (a :: r) | _, _ => None end)))
    | [], [] => Ok (Some [])
    | _, _ => Ok None
    end.
  (** pybind11.h cpp_function::dispatcher, steps 2 and 3: the parameters after the positional arguments come from keywords of
      their names or defaults *)
  Fixpoint fill (ps : list param) (kw : kwargs) : option (list (py F) * kwargs) :=
    match ps with
    | [] => Some ([], kw)
    | p :: ps =>
        match p_name p with
        | None => None
        | Some k =>
            match kfind k kw with
            | Some v => match fill ps (kremove k kw) with Some (vs, kw) => Some (v :: vs, kw) | None => None end
            | None => match p_default p with
                      | Some v => match fill ps kw with Some (vs, kw) => Some (v :: vs, kw) | None => None end
                      | None => None
                      end
            end
        end
    end.
  (** A parameter given by position and by keyword (pybind11, for src/pylm.cpp:174-246). *)
  Definition named_in (kw : kwargs) (p : param) : bool :=
    match p_name p with Some k => match kfind k kw with Some _ => true | None => false end | None => false end.
  (** dispatcher, steps 1 to 4: values of the parameters and the keywords left over *)
  Definition bind (o : overload) (args : list (py F)) (kw : kwargs) : option (list (py F) * kwargs) :=
    if (List.length (o_params o) <? List.length args)%nat then None
    else if existsb (named_in kw) (firstn (List.length args) (o_params o)) then None
    else match fill (skipn (List.length args) (o_params o)) kw with
         | None => None
         | Some (vs, rest) => if negb (o_kwargs o) && match rest with [] => false | _ => true end then None else Some (args ++ vs, rest)
         end.
  (** One pass over the overloads, in the order of definition: which one takes the call, with what.
      pybind11, for src/pylm.cpp:174-246. *)
  Fixpoint pass (convert : bool) (i : nat) (os : list overload) (args : list (py F)) (kw : kwargs) : outcome (option (nat * list cval * kwargs)) :=
    match os with
    | [] => Ok None
    | o :: os =>
        match bind o args kw with
        | None => pass convert (S i) os args kw
        | Some (vs, rest) =>
            obind (load_args convert (map p_type (o_params o)) vs) (fun r =>
            match r with Some cs => Ok (Some (i, cs, rest)) | None => pass convert (S i) os args kw end)
        end
    end.
  (** With several overloads a pass without conversion comes first. (pybind11 repeats only the calls that bound and have a
      parameter; the others could not fail.). pybind11, for src/pylm.cpp:174-246. *)
  Definition dispatch (os : list overload) (args : list (py F)) (kw : kwargs) : outcome (nat * list cval * kwargs) :=
    obind (match os with
           | [_] => pass true 0 os args kw
           | _ => obind (pass false 0 os args kw) (fun r => match r with Some x => Ok (Some x) | None => pass true 0 os args kw end)
           end) (fun r => match r with Some x => Ok x | None => Throw arg_error end).
  (** pybind11::cast<Json>(kwargs): cast_error if the caster returns false. src/pylm.cpp:182, 244. *)
  Definition cast_kwargs (kw : kwargs) : outcome (json F) :=
    match load encode debug (as_dict kw) with Throw (ErrUser 1) => Throw cast_error | r => r end.

  (** src/pylm.cpp:174-185 and 237-246 load_<interface>: what load_asset is called with *)
  Definition load_overloads : list overload :=
    [mk_overload [mk_param None TStr None; mk_param None TStr None; mk_param None TJson None] false;
     mk_overload [mk_param None TStr None; mk_param None TStr None] true].
  (** src/pylm.cpp:174-184, 237-246: what load_asset is called with. *)
  Definition load_call (interface : string) (args : list (py F)) (kw : kwargs) : outcome (string * string * json F) :=
    obind (dispatch load_overloads args kw) (fun r =>
    match r with
    | (0%nat, [VStr name; VStr impl; VJson prop], _) => Ok (name, interface ++ "::" ++ impl, prop)%string
    | (1%nat, [VStr name; VStr impl], kw) => obind (cast_kwargs kw) (fun prop => Ok (name, interface ++ "::" ++ impl, prop)%string)
    | _ => UB
    end).
  (** src/pylm.cpp:203-205 load *)
  Definition plain_load_call (args : list (py F)) (kw : kwargs) : outcome (string * string * json F) :=
    obind (dispatch [mk_overload [mk_param None TStr None; mk_param None TStr None; mk_param None TJson None] false] args kw) (fun r =>
    match r with
    | (_, [VStr name; VStr impl; VJson prop], _) => Ok (name, impl, prop)
    | _ => UB
    end).
  (** src/pylm.cpp:294-297, 336-339, 358-361, 375-378: init of the logger, parallel, objloader and progress contexts. The default
      Json{} is cast to None when the function is defined. *)
  Definition init_overloads (default : string) : list overload :=
    [mk_overload [mk_param (Some (text "type")) TStr (Some (PStr (text default))); mk_param (Some (text "prop")) TJson (Some PNone)] false;
     mk_overload [mk_param None TStr None] true].
  (** src/pylm.cpp:294-297, 336-339, 358-361, 375-378. *)
  Definition init_call (default : string) (args : list (py F)) (kw : kwargs) : outcome (string * json F) :=
    obind (dispatch (init_overloads default) args kw) (fun r =>
    match r with
    | (0%nat, [VStr type; VJson prop], _) => Ok (type, prop)
    | (1%nat, [VStr type], kw) => obind (cast_kwargs kw) (fun prop => Ok (type, prop))
    | _ => UB
    end).
  (** src/pylm.cpp:680-683, 688-691 create_primitive_node, add_primitive (after the scene, which pybind11 has found already) *)
  Definition prim_overloads : list overload := [mk_overload [mk_param None TJson None] false; mk_overload [] true].
  (** src/pylm.cpp:680-683, 688-691. *)
  Definition prim_call (args : list (py F)) (kw : kwargs) : outcome (json F) :=
    obind (dispatch prim_overloads args kw) (fun r =>
    match r with
    | (0%nat, [VJson prop], _) => Ok prop
    | (1%nat, [], kw) => cast_kwargs kw
    | _ => UB
    end).

  (** The whole call: [load_asset] on the state of the framework, then dynamic_cast to the interface (None if it fails) *)
  Section State.
    Context {St Comp : Type}.
    Variables (load_asset : string -> string -> json F -> St -> St * outcome (option Comp)) (implements : string -> Comp -> bool).
    (** src/pylm.cpp:174-184: the call and load_asset, whose effect is [load_asset]. *)
    Definition py_load (interface : string) (args : list (py F)) (kw : kwargs) (s : St) : St * outcome (option Comp) :=
      match load_call interface args kw with
      | Ok (name, key, prop) =>
          let '(s', r) := load_asset name key prop s in
          (s', obind r (fun c => Ok (match c with Some c => if implements interface c then Some c else None | None => None end)))
      | Throw e => (s, Throw e)
      | UB => (s, UB)
      | Fuel => (s, Fuel)
      end.
  End State.
End Call.
Arguments cval F : clear implicits. Arguments kwargs F : clear implicits. Arguments overload F : clear implicits. Arguments param F : clear implicits.
