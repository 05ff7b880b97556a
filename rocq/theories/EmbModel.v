(** Model of the parameters of the acceleration structures that use Embree (plugin/accel_embree/embree_params.h, and construct
    and build of plugin/accel_embree/accel_embree.cpp and accel_embree_instanced.cpp). The library is represented by the calls
    that receive parameters. The conversion from JSON to one of the library's types starts from a value of zeros, as
    nlohmann::json 3.10.2 (environment.yml:22) does. *)
From Coq Require Import List String ZArith Bool.
From Verif Require Import Base JsonModel.
Import ListNotations.
Local Open Scope string_scope. Local Open Scope Z_scope.

Section Embree.
  Context {F : Type}.
  (** Conversions of numbers: to Float, to int and to unsigned int (None: undefined), from double to float. For
      plugin/accel_embree/embree_params.h:107-114. *)
  Variable of_Z : Z -> F. Variable trunc : F -> option Z. Variable truncu : F -> option Z. Variable narrow : F -> F.
  (** 1.0f (plugin/accel_embree/embree_params.h:113-114) *)
  Variable one : F.
  Notation json := (json F).

  (** json::value<bool>(j, name, false) (plugin/accel_embree/embree_params.h:85-88) *)
  Definition flag (j : json) (name : string) : outcome bool := jvalue_def of_Z trunc CBool j name false.
  (** plugin/accel_embree/embree_params.h:81-100 from_json of the scene flags; [sf] is the value before *)
  Definition flags_from (sf : Z) (j : json) : outcome Z :=
    obind (flag j "dynamic") (fun d => obind (flag j "compact") (fun c => obind (flag j "robust") (fun r => obind (flag j "filter") (fun f =>
    let sf := if d then 1 else sf in
    let sf := if c then Z.lor sf 2 else sf in
    let sf := if r then Z.lor sf 4 else sf in
    let sf := if f then Z.lor sf 8 else sf in
    Ok (if negb (false || d || c || r) then 0 else sf))))).
  (** plugin/accel_embree/embree_params.h:70-80 to_json of the scene flags *)
  Definition flags_to (sf : Z) : json :=
    JObj [("compact", JBool (negb (Z.land sf 2 =? 0))); ("dynamic", JBool (negb (Z.land sf 1 =? 0)));
          ("filter", JBool (negb (Z.land sf 8 =? 0))); ("robust", JBool (negb (Z.land sf 4 =? 0)))].

  (** The members of RTCBuildArguments that plugin/accel_embree/embree_params.h:107-114 sets *)
  Record build_args := mk_args { quality : Z; max_depth : Z; max_branching : Z; sah_block : Z; min_leaf : Z; max_leaf : Z; trav_cost : F; int_cost : F }.
  (** json::value<unsigned int>(j, name, def) (plugin/accel_embree/embree_params.h:108-112): integers modulo 2^32 *)
  Definition unsigned (j : json) (name : string) (def : Z) : outcome Z :=
    match jfind name j with
    | None => Ok def
    | Some (JInt z) => Ok (z mod 2 ^ 32)
    | Some (JFloat x) => match truncu x with Some z => Ok z | None => UB end
    | Some (JBool b) => Ok (if b then 1 else 0)
    | Some _ => Throw ErrJsonType
    end.
  (** json::value<float>(j, name, 1.0f) (plugin/accel_embree/embree_params.h:113-114). Simplification: the conversion of
      booleans to float, which the library also allows, is left out. *)
  Definition single (j : json) (name : string) : outcome F :=
    match jfind name j with
    | None => Ok one
    | Some v => obind (to_float of_Z v) (fun x => Ok (narrow x))
    end.
  (** plugin/accel_embree/embree_params.h:105-115 from_json of the build arguments *)
  Definition args_from (j : json) : outcome build_args :=
    obind (jvalue_def of_Z trunc CI32 j "quality" 1) (fun q =>
    obind (unsigned j "maxDepth" 18) (fun d =>
    obind (unsigned j "maxBranchingFactor" 2) (fun b =>
    obind (unsigned j "sahBlockSize" 1) (fun s =>
    obind (unsigned j "minLeafSize" 1) (fun l =>
    obind (unsigned j "maxLeafSize" 32) (fun m =>
    obind (single j "travcost") (fun t =>
    obind (single j "intcost") (fun i => Ok (mk_args q d b s l m t i))))))))).
  (** plugin/accel_embree/embree_params.h:116-131 to_json of the build arguments *)
  Definition args_to (a : build_args) : json :=
    JObj [("intcost", JFloat (int_cost a)); ("maxBranchingFactor", JInt (max_branching a)); ("maxDepth", JInt (max_depth a));
          ("maxLeafSize", JInt (max_leaf a)); ("minLeafSize", JInt (min_leaf a)); ("quality", JInt (quality a));
          ("sahBlockSize", JInt (sah_block a)); ("travcost", JFloat (trav_cost a))].

  (** plugin/accel_embree/accel_embree.cpp:36-37, accel_embree_instanced.cpp:39-40; None: not set *)
  Record embree := mk_embree { settings : option build_args; sflags : option Z }.
  (** A new instance: plugin/accel_embree/accel_embree.cpp:36-37. *)
  Definition new_embree : embree := mk_embree None None.
  (** plugin/accel_embree/accel_embree.cpp:42-53, accel_embree_instanced.cpp:45-57; the log is left out. *)
  Definition construct (j : json) (e : embree) : embree * outcome Datatypes.unit :=
    match args_from j with
    | Ok a => let e := mk_embree (Some a) (sflags e) in
              match flags_from 0 j with
              | Ok sf => (mk_embree (settings e) (Some sf), Ok tt)
              | Throw x => (e, Throw x) | UB => (e, UB) | Fuel => (e, Fuel)
              end
    | Throw x => (e, Throw x) | UB => (e, UB) | Fuel => (e, Fuel)
    end.
  (** Calls of the library that receive parameters: plugin/accel_embree/accel_embree.cpp:86-87. *)
  Inductive lib_call := SetFlags (sf : Z) | SetQuality (q : Z).
  (** plugin/accel_embree/accel_embree.cpp:86-87 (one scene), accel_embree_instanced.cpp:172-180 (one for each of [n] scenes) *)
  Definition build_calls (n : nat) (e : embree) : outcome (list lib_call) :=
    match settings e, sflags e with
    | Some a, Some sf => Ok (List.concat (repeat [SetFlags sf; SetQuality (quality a)] n))
    | _, _ => UB
    end.
End Embree.
Arguments build_args : clear implicits. Arguments embree : clear implicits.
