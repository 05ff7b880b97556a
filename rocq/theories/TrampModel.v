(** Model of components written in Python: how calls of virtual functions reach them (src/pylm.cpp, include/lm/pylm.h). *)
From Coq Require Import List String Ascii ZArith Bool.
From Verif Require Import Base CodecModel PyModel.
Import ListNotations.
Open Scope string_scope. Open Scope list_scope.

(** One member function of a trampoline class [X_Py] (src/pylm.cpp): the class X, the function overridden with its parameter
    types and names, and the arguments of the PYBIND11_OVERLOAD or PYBIND11_OVERLOAD_PURE in its body: return type, base
    class, function, arguments. Namespace qualifiers of types are dropped. *)
Record tramp := mk_tramp { t_class : string; t_fn : string; t_types : list string; t_params : list string;
  t_pure : bool; t_ret : string; t_base : string; t_method : string; t_args : list string }.
(** All trampoline functions other than the two uses of PYLM_SERIALIZE_IMPL. src/pylm.cpp:122-1176; each has its line. *)
Definition trampolines : list tramp := [
  (* pylm.cpp:126 *) mk_tramp "Component" "construct" ["const Json&"] ["prop"] false "void" "Component" "construct" ["prop"];
  (* pylm.cpp:250 *) mk_tramp "AssetGroup" "construct" ["const Json&"] ["prop"] false "void" "AssetGroup" "construct" ["prop"];
  (* pylm.cpp:253 *) mk_tramp "AssetGroup" "load_asset" ["const std::string&"; "const std::string&"; "const Json&"] ["name"; "impl_key"; "prop"] true "Component*" "AssetGroup" "load_asset" ["name"; "impl_key"; "prop"];
  (* pylm.cpp:256 *) mk_tramp "AssetGroup" "load_serialized" ["const std::string&"; "const std::string&"] ["name"; "path"] true "Component*" "AssetGroup" "load_serialized" ["name"; "path"];
  (* pylm.cpp:307 *) mk_tramp "LoggerContext" "construct" ["const Json&"] ["prop"] false "void" "LoggerContext" "construct" ["prop"];
  (* pylm.cpp:311 *) mk_tramp "LoggerContext" "log" ["LogLevel"; "int"; "const char*"; "int"; "const char*"] ["level"; "severity"; "filename"; "line"; "message"] true "void" "LoggerContext" "log" ["level"; "severity"; "filename"; "line"; "message"];
  (* pylm.cpp:315 *) mk_tramp "LoggerContext" "update_indentation" ["int"] ["n"] true "void" "LoggerContext" "update_indentation" ["n"];
  (* pylm.cpp:319 *) mk_tramp "LoggerContext" "set_severity" ["int"] ["severity"] true "void" "LoggerContext" "set_severity" ["severity"];
  (* pylm.cpp:386 *) mk_tramp "ProgressContext" "construct" ["const Json&"] ["prop"] false "void" "ProgressContext" "construct" ["prop"];
  (* pylm.cpp:390 *) mk_tramp "ProgressContext" "start" ["ProgressMode"; "long long"; "double"] ["mode"; "total"; "totalTime"] true "void" "ProgressContext" "start" ["mode"; "total"; "totalTime"];
  (* pylm.cpp:394 *) mk_tramp "ProgressContext" "end" [] [] true "void" "ProgressContext" "end" [];
  (* pylm.cpp:398 *) mk_tramp "ProgressContext" "update" ["long long"] ["processed"] true "void" "ProgressContext" "update" ["processed"];
  (* pylm.cpp:402 *) mk_tramp "ProgressContext" "update_time" ["Float"] ["elapsed"] true "void" "ProgressContext" "update_time" ["elapsed"];
  (* pylm.cpp:464 *) mk_tramp "Film" "construct" ["const Json&"] ["prop"] false "void" "Film" "construct" ["prop"];
  (* pylm.cpp:467 *) mk_tramp "Film" "size" [] [] true "FilmSize" "Film" "size" [];
  (* pylm.cpp:470 *) mk_tramp "Film" "num_pixels" [] [] true "long long" "Film" "num_pixels" [];
  (* pylm.cpp:473 *) mk_tramp "Film" "set_pixel" ["int"; "int"; "Vec3"] ["x"; "y"; "v"] true "void" "Film" "set_pixel" ["x"; "y"; "v"];
  (* pylm.cpp:476 *) mk_tramp "Film" "save" ["const std::string&"] ["outpath"] true "bool" "Film" "save" ["outpath"];
  (* pylm.cpp:479 *) mk_tramp "Film" "buffer" [] [] true "FilmBuffer" "Film" "buffer" [];
  (* pylm.cpp:482 *) mk_tramp "Film" "accum" ["const Film*"] ["film"] true "void" "Film" "accum" ["film"];
  (* pylm.cpp:485 *) mk_tramp "Film" "splat_pixel" ["int"; "int"; "Vec3"] ["x"; "y"; "v"] true "void" "Film" "splat_pixel" ["x"; "y"; "v"];
  (* pylm.cpp:488 *) mk_tramp "Film" "update_pixel" ["int"; "int"; "const PixelUpdateFunc&"] ["x"; "y"; "updateFunc"] true "void" "Film" "update_pixel" ["x"; "y"; "updateFunc"];
  (* pylm.cpp:491 *) mk_tramp "Film" "rescale" ["Float"] ["s"] true "void" "Film" "rescale" ["s"];
  (* pylm.cpp:494 *) mk_tramp "Film" "clear" [] [] true "void" "Film" "clear" [];
  (* pylm.cpp:585 *) mk_tramp "Scene" "construct" ["const Json&"] ["prop"] false "void" "Scene" "construct" ["prop"];
  (* pylm.cpp:589 *) mk_tramp "Scene" "reset" [] [] true "void" "Scene" "reset" [];
  (* pylm.cpp:593 *) mk_tramp "Scene" "root_node" [] [] true "int" "Scene" "root_node" [];
  (* pylm.cpp:596 *) mk_tramp "Scene" "create_primitive_node" ["const Json&"] ["prop"] true "int" "Scene" "create_primitive_node" ["prop"];
  (* pylm.cpp:599 *) mk_tramp "Scene" "create_group_node" ["Mat4"] ["transform"] true "int" "Scene" "create_group_node" ["transform"];
  (* pylm.cpp:602 *) mk_tramp "Scene" "create_instance_group_node" [] [] true "int" "Scene" "create_instance_group_node" [];
  (* pylm.cpp:605 *) mk_tramp "Scene" "add_child" ["int"; "int"] ["parent"; "child"] true "void" "Scene" "add_child" ["parent"; "child"];
  (* pylm.cpp:608 *) mk_tramp "Scene" "add_child_from_model" ["int"; "const std::string&"] ["parent"; "modelLoc"] true "void" "Scene" "add_child_from_model" ["parent"; "modelLoc"];
  (* pylm.cpp:611 *) mk_tramp "Scene" "create_group_from_model" ["const std::string&"] ["modelLoc"] true "int" "Scene" "create_group_from_model" ["modelLoc"];
  (* pylm.cpp:614 *) mk_tramp "Scene" "num_nodes" [] [] true "int" "Scene" "num_nodes" [];
  (* pylm.cpp:617 *) mk_tramp "Scene" "num_lights" [] [] true "int" "Scene" "num_lights" [];
  (* pylm.cpp:620 *) mk_tramp "Scene" "camera_node" [] [] true "int" "Scene" "camera_node" [];
  (* pylm.cpp:623 *) mk_tramp "Scene" "medium_node" [] [] true "int" "Scene" "medium_node" [];
  (* pylm.cpp:626 *) mk_tramp "Scene" "env_light_node" [] [] true "int" "Scene" "env_light_node" [];
  (* pylm.cpp:629 *) mk_tramp "Scene" "traverse_primitive_nodes" ["const NodeTraverseFunc&"] ["traverseFunc"] true "void" "Scene" "traverse_primitive_nodes" ["traverseFunc"];
  (* pylm.cpp:632 *) mk_tramp "Scene" "visit_node" ["int"; "const VisitNodeFunc&"] ["node_index"; "visit"] true "void" "Scene" "visit_node" ["node_index"; "visit"];
  (* pylm.cpp:635 *) mk_tramp "Scene" "node_at" ["int"] ["node_index"] true "const SceneNode&" "Scene" "node_at" ["node_index"];
  (* pylm.cpp:639 *) mk_tramp "Scene" "accel" [] [] true "Accel*" "Scene" "accel" [];
  (* pylm.cpp:642 *) mk_tramp "Scene" "set_accel" ["const std::string&"] ["accel_loc"] true "void" "Scene" "set_accel" ["accel_loc"];
  (* pylm.cpp:645 *) mk_tramp "Scene" "build" [] [] true "void" "Scene" "build" [];
  (* pylm.cpp:648 *) mk_tramp "Scene" "intersect" ["Ray"; "Float"; "Float"] ["ray"; "tmin"; "tmax"] true "std::optional<SceneInteraction>" "Scene" "intersect" ["ray"; "tmin"; "tmax"];
  (* pylm.cpp:652 *) mk_tramp "Scene" "is_light" ["const SceneInteraction&"] ["sp"] true "bool" "Scene" "is_light" ["sp"];
  (* pylm.cpp:655 *) mk_tramp "Scene" "is_camera" ["const SceneInteraction&"] ["sp"] true "bool" "Scene" "is_camera" ["sp"];
  (* pylm.cpp:659 *) mk_tramp "Scene" "sample_light_selection" ["Float"] ["u"] true "LightSelectionSample" "Scene" "sample_light_selection" ["u"];
  (* pylm.cpp:662 *) mk_tramp "Scene" "pdf_light_selection" ["int"] ["light_index"] true "Float" "Scene" "pdf_light_selection" ["light_index"];
  (* pylm.cpp:665 *) mk_tramp "Scene" "light_primitive_index_at" ["int"] ["light_index"] true "LightPrimitiveIndex" "Scene" "light_primitive_index_at" ["light_index"];
  (* pylm.cpp:668 *) mk_tramp "Scene" "light_index_at" ["int"] ["node_index"] true "int" "Scene" "light_index_at" ["node_index"];
  (* pylm.cpp:740 *) mk_tramp "Accel" "construct" ["const Json&"] ["prop"] false "void" "Accel" "construct" ["prop"];
  (* pylm.cpp:743 *) mk_tramp "Accel" "build" ["const Scene&"] ["scene"] true "void" "Accel" "build" ["scene"];
  (* pylm.cpp:746 *) mk_tramp "Accel" "intersect" ["Ray"; "Float"; "Float"] ["ray"; "tmin"; "tmax"] true "std::optional<Hit>" "Accel" "intersect" ["ray"; "tmin"; "tmax"];
  (* pylm.cpp:763 *) mk_tramp "Renderer" "construct" ["const Json&"] ["prop"] false "void" "Renderer" "construct" ["prop"];
  (* pylm.cpp:766 *) mk_tramp "Renderer" "render" [] [] true "Json" "Renderer" "render" [];
  (* pylm.cpp:784 *) mk_tramp "Texture" "construct" ["const Json&"] ["prop"] false "void" "Texture" "construct" ["prop"];
  (* pylm.cpp:787 *) mk_tramp "Texture" "size" [] [] true "TextureSize" "Texture" "size" [];
  (* pylm.cpp:790 *) mk_tramp "Texture" "eval" ["Vec2"] ["t"] true "Vec3" "Texture" "eval" ["t"];
  (* pylm.cpp:793 *) mk_tramp "Texture" "eval_by_pixel_coords" ["int"; "int"] ["x"; "y"] true "Vec3" "Texture" "eval_by_pixel_coords" ["x"; "y"];
  (* pylm.cpp:826 *) mk_tramp "Mesh" "construct" ["const Json&"] ["prop"] false "void" "Mesh" "construct" ["prop"];
  (* pylm.cpp:829 *) mk_tramp "Mesh" "foreach_triangle" ["const ProcessTriangleFunc&"] ["process_triangle"] true "void" "Mesh" "foreach_triangle" ["process_triangle"];
  (* pylm.cpp:832 *) mk_tramp "Mesh" "triangle_at" ["int"] ["face"] true "Tri" "Mesh" "triangle_at" ["face"];
  (* pylm.cpp:835 *) mk_tramp "Mesh" "surface_point" ["int"; "Vec2"] ["face"; "uv"] true "InterpolatedPoint" "Mesh" "surface_point" ["face"; "uv"];
  (* pylm.cpp:838 *) mk_tramp "Mesh" "num_triangles" [] [] true "int" "Mesh" "num_triangles" [];
  (* pylm.cpp:861 *) mk_tramp "Material" "construct" ["const Json&"] ["prop"] false "void" "Material" "construct" ["prop"];
  (* pylm.cpp:864 *) mk_tramp "Material" "sample_component" ["const ComponentSampleU&"; "const PointGeometry&"; "Vec3"] ["u"; "geom"; "wi"] true "ComponentSample" "Material" "sample_component" ["u"; "geom"; "wi"];
  (* pylm.cpp:867 *) mk_tramp "Material" "pdf_component" ["int"; "const PointGeometry&"; "Vec3"] ["comp"; "geom"; "wi"] true "Float" "Material" "pdf_component" ["comp"; "geom"; "wi"];
  (* pylm.cpp:870 *) mk_tramp "Material" "sample_direction" ["const DirectionSampleU&"; "const PointGeometry&"; "Vec3"; "int"; "TransDir"] ["u"; "geom"; "wi"; "comp"; "trans_dir"] true "std::optional<DirectionSample>" "Material" "sample_direction" ["u"; "geom"; "wi"; "comp"; "trans_dir"];
  (* pylm.cpp:873 *) mk_tramp "Material" "pdf_direction" ["const PointGeometry&"; "Vec3"; "Vec3"; "int"; "bool"] ["geom"; "wi"; "wo"; "comp"; "eval_delta"] true "Float" "Material" "pdf_direction" ["geom"; "wi"; "wo"; "comp"; "eval_delta"];
  (* pylm.cpp:876 *) mk_tramp "Material" "eval" ["const PointGeometry&"; "Vec3"; "Vec3"; "int"; "TransDir"; "bool"] ["geom"; "wi"; "wo"; "comp"; "trans_dir"; "eval_delta"] true "Vec3" "Material" "eval" ["geom"; "wi"; "wo"; "comp"; "trans_dir"; "eval_delta"];
  (* pylm.cpp:879 *) mk_tramp "Material" "is_specular_component" ["int"] ["comp"] true "bool" "Material" "is_specular_component" ["comp"];
  (* pylm.cpp:882 *) mk_tramp "Material" "reflectance" ["const PointGeometry&"] ["geom"] true "Vec3" "Material" "reflectance" ["geom"];
  (* pylm.cpp:906 *) mk_tramp "Phase" "construct" ["const Json&"] ["prop"] false "void" "Phase" "construct" ["prop"];
  (* pylm.cpp:909 *) mk_tramp "Phase" "sample_direction" ["const DirectionSampleU&"; "const PointGeometry&"; "Vec3"] ["u"; "geom"; "wi"] true "std::optional<DirectionSample>" "Phase" "sample_direction" ["u"; "geom"; "wi"];
  (* pylm.cpp:912 *) mk_tramp "Phase" "pdf_direction" ["const PointGeometry&"; "Vec3"; "Vec3"] ["geom"; "wi"; "wo"] true "Float" "Phase" "pdf_direction" ["geom"; "wi"; "wo"];
  (* pylm.cpp:915 *) mk_tramp "Phase" "eval" ["const PointGeometry&"; "Vec3"; "Vec3"] ["geom"; "wi"; "wo"] true "Vec3" "Phase" "eval" ["geom"; "wi"; "wo"];
  (* pylm.cpp:938 *) mk_tramp "Medium" "construct" ["const Json&"] ["prop"] false "void" "Medium" "construct" ["prop"];
  (* pylm.cpp:941 *) mk_tramp "Medium" "sample_distance" ["Rng&"; "Ray"; "Float"; "Float"] ["rng"; "ray"; "tmin"; "tmax"] true "std::optional<DistanceSample>" "Medium" "sample_distance" ["rng"; "ray"; "tmin"; "tmax"];
  (* pylm.cpp:944 *) mk_tramp "Medium" "eval_transmittance" ["Rng&"; "Ray"; "Float"; "Float"] ["rng"; "ray"; "tmin"; "tmax"] true "Vec3" "Medium" "eval_transmittance" ["rng"; "ray"; "tmin"; "tmax"];
  (* pylm.cpp:947 *) mk_tramp "Medium" "is_emitter" [] [] true "bool" "Medium" "is_emitter" [];
  (* pylm.cpp:950 *) mk_tramp "Medium" "phase" [] [] true "const Phase*" "Medium" "phase" [];
  (* pylm.cpp:966 *) mk_tramp "Volume" "construct" ["const Json&"] ["prop"] false "void" "Volume" "construct" ["prop"];
  (* pylm.cpp:969 *) mk_tramp "Volume" "bound" [] [] true "Bound" "Volume" "bound" [];
  (* pylm.cpp:972 *) mk_tramp "Volume" "has_scalar" [] [] true "bool" "Volume" "has_scalar" [];
  (* pylm.cpp:975 *) mk_tramp "Volume" "max_scalar" [] [] true "Float" "Volume" "has_scalar" [];
  (* pylm.cpp:978 *) mk_tramp "Volume" "eval_scalar" ["Vec3"] ["p"] false "Float" "Volume" "eval_scalar" ["p"];
  (* pylm.cpp:981 *) mk_tramp "Volume" "has_color" [] [] true "bool" "Volume" "has_color" [];
  (* pylm.cpp:984 *) mk_tramp "Volume" "eval_color" ["Vec3"] ["p"] false "Vec3" "Volume" "eval_color" ["p"];
  (* pylm.cpp:1004 *) mk_tramp "Model" "construct" ["const Json&"] ["prop"] false "void" "Model" "construct" ["prop"];
  (* pylm.cpp:1007 *) mk_tramp "Model" "create_primitives" ["const CreatePrimitiveFunc&"] ["create_primitive"] true "void" "Model" "create_primitives" ["create_primitive"];
  (* pylm.cpp:1010 *) mk_tramp "Model" "foreach_node" ["const VisitNodeFuncType&"] ["visit"] true "void" "Model" "foreach_node" ["visit"];
  (* pylm.cpp:1042 *) mk_tramp "Camera" "construct" ["const Json&"] ["prop"] false "void" "Camera" "construct" ["prop"];
  (* pylm.cpp:1046 *) mk_tramp "Camera" "set_aspect_ratio" ["Float"] ["aspect"] true "void" "Camera" "set_aspect_ratio" ["aspect"];
  (* pylm.cpp:1050 *) mk_tramp "Camera" "view_matrix" [] [] true "Mat4" "Camera" "view_matrix" [];
  (* pylm.cpp:1053 *) mk_tramp "Camera" "projection_matrix" [] [] true "Mat4" "Camera" "projection_matrix" [];
  (* pylm.cpp:1057 *) mk_tramp "Camera" "primary_ray" ["Vec2"] ["rp"] true "Ray" "Camera" "primary_ray" ["rp"];
  (* pylm.cpp:1060 *) mk_tramp "Camera" "sample_ray" ["const RaySampleU&"] ["u"] true "std::optional<RaySample>" "Camera" "sample_ray" ["u"];
  (* pylm.cpp:1063 *) mk_tramp "Camera" "pdf_ray" ["const PointGeometry&"; "Vec3"] ["geom"; "wo"] true "Float" "Camera" "pdf_ray" ["geom"; "wo"];
  (* pylm.cpp:1067 *) mk_tramp "Camera" "sample_direction" ["const DirectionSampleU&"; "const PointGeometry&"] ["u"; "geom"] true "std::optional<DirectionSample>" "Camera" "sample_direction" ["u"; "geom"];
  (* pylm.cpp:1070 *) mk_tramp "Camera" "pdf_direction" ["const PointGeometry&"; "Vec3"] ["geom"; "wo"] true "Float" "Camera" "pdf_direction" ["geom"; "wo"];
  (* pylm.cpp:1074 *) mk_tramp "Camera" "sample_position" ["const PositionSampleU&"] ["u"] true "std::optional<PositionSample>" "Camera" "sample_position" ["u"];
  (* pylm.cpp:1077 *) mk_tramp "Camera" "pdf_position" ["const PointGeometry&"] ["geom"] true "Float" "Camera" "pdf_position" ["geom"];
  (* pylm.cpp:1081 *) mk_tramp "Camera" "sample_direct" ["const RaySampleU&"; "const PointGeometry&"] ["u"; "geom"] true "std::optional<RaySample>" "Camera" "sample_direct" ["u"; "geom"];
  (* pylm.cpp:1084 *) mk_tramp "Camera" "pdf_direct" ["const PointGeometry&"; "const PointGeometry&"; "Vec3"] ["geom"; "geomE"; "wo"] true "Float" "Camera" "pdf_direct" ["geom"; "geomE"; "wo"];
  (* pylm.cpp:1088 *) mk_tramp "Camera" "raster_position" ["Vec3"] ["wo"] true "std::optional<Vec2>" "Camera" "raster_position" ["wo"];
  (* pylm.cpp:1091 *) mk_tramp "Camera" "is_connectable" ["const PointGeometry&"] ["geom"] true "bool" "Camera" "is_connectable" ["geom"];
  (* pylm.cpp:1094 *) mk_tramp "Camera" "eval" ["Vec3"] ["wo"] true "Vec3" "Camera" "eval" ["wo"];
  (* pylm.cpp:1133 *) mk_tramp "Light" "construct" ["const Json&"] ["prop"] false "void" "Light" "construct" ["prop"];
  (* pylm.cpp:1137 *) mk_tramp "Light" "sample_ray" ["const RaySampleU&"; "const Transform&"] ["u"; "transform"] true "std::optional<RaySample>" "Light" "sample_ray" ["u"; "transform"];
  (* pylm.cpp:1140 *) mk_tramp "Light" "pdf_ray" ["const PointGeometry&"; "Vec3"; "const Transform&"; "bool"] ["geom"; "wo"; "transform"; "eval_delta"] true "Float" "Light" "pdf_ray" ["geom"; "wo"; "transform"; "eval_delta"];
  (* pylm.cpp:1144 *) mk_tramp "Light" "sample_direction" ["const DirectionSampleU&"; "const PointGeometry&"] ["u"; "geom"] true "std::optional<DirectionSample>" "Light" "sample_direction" ["u"; "geom"];
  (* pylm.cpp:1147 *) mk_tramp "Light" "pdf_direction" ["const PointGeometry&"; "Vec3"] ["geom"; "wo"] true "Float" "Light" "pdf_direction" ["geom"; "wo"];
  (* pylm.cpp:1151 *) mk_tramp "Light" "sample_position" ["const PositionSampleU&"; "const Transform&"] ["u"; "transform"] true "std::optional<PositionSample>" "Light" "sample_position" ["u"; "transform"];
  (* pylm.cpp:1154 *) mk_tramp "Light" "pdf_position" ["const PointGeometry&"; "const Transform&"] ["geom"; "transform"] true "Float" "Light" "pdf_position" ["geom"; "transform"];
  (* pylm.cpp:1158 *) mk_tramp "Light" "sample_direct" ["const RaySampleU&"; "const PointGeometry&"; "const Transform&"] ["u"; "geom"; "transform"] true "std::optional<RaySample>" "Light" "sample_direct" ["u"; "geom"; "transform"];
  (* pylm.cpp:1161 *) mk_tramp "Light" "pdf_direct" ["const PointGeometry&"; "const PointGeometry&"; "const Transform&"; "Vec3"; "bool"] ["geom"; "geomL"; "transform"; "wo"; "eval_delta"] true "Float" "Light" "pdf_direct" ["geom"; "geomL"; "transform"; "wo"; "eval_delta"];
  (* pylm.cpp:1165 *) mk_tramp "Light" "is_specular" [] [] true "bool" "Light" "is_specular" [];
  (* pylm.cpp:1168 *) mk_tramp "Light" "is_infinite" [] [] true "bool" "Light" "is_infinite" [];
  (* pylm.cpp:1171 *) mk_tramp "Light" "is_connectable" ["const PointGeometry&"] ["geom"] true "bool" "Light" "is_connectable" ["geom"];
  (* pylm.cpp:1174 *) mk_tramp "Light" "eval" ["const PointGeometry&"; "Vec3"; "bool"] ["geom"; "wo"; "eval_delta"] true "Vec3" "Light" "eval" ["geom"; "wo"; "eval_delta"]].
(** pylm.cpp:125 and 762: classes using PYLM_SERIALIZE_IMPL *)
Definition serialized : list string := ["Component"; "Renderer"].

(** No counterpart: C++ overrides by parameter types, for src/pylm.cpp:122-1176. *)
Definition same_types (a b : list string) : bool := if list_eq_dec string_dec a b then true else false.
(** The trampoline overriding function [fn] with the given parameter types. src/pylm.cpp:122-1176. *)
Definition override (cls fn : string) (types : list string) : option tramp :=
  find (fun t => String.eqb (t_class t) cls && String.eqb (t_fn t) fn && same_types (t_types t) types) trampolines.

(** pybind11_fail("Tried to call pure virtual function"), pybind11.h PYBIND11_OVERRIDE_PURE_NAME *)
Definition pure_error := ErrUser 4.

Section Call.
  (** Values passed between the languages; the methods defined by the Python class; conversion of a result to a C++ type;
      the function of the C++ base class. Conversion of arguments is the subject of C86 and C87 and left out. *)
  Context {V : Type}.
  Variables (methods : string -> option (list V -> outcome V)) (cast : string -> V -> outcome V)
            (base : string -> string -> list V -> outcome V).
  (** Value of a parameter. src/pylm.cpp:122-1176. *)
  Fixpoint param (names : list string) (vals : list V) (x : string) : option V :=
    match names, vals with n :: ns, v :: vs => if String.eqb n x then Some v else param ns vs x | _, _ => None end.
  (** The arguments passed on: src/pylm.cpp:122-1176. *)
  Fixpoint actuals (names : list string) (vals : list V) (xs : list string) : option (list V) :=
    match xs with
    | [] => Some []
    | x :: r => match param names vals x, actuals names vals r with Some v, Some l => Some (v :: l) | _, _ => None end
    end.
  (** The body of a trampoline: get_override by name, else the base class or an error. src/pylm.cpp:122-1176. *)
  Definition run (t : tramp) (vals : list V) : outcome V :=
    match actuals (t_params t) vals (t_args t) with
    | None => UB   (* does not compile *)
    | Some l =>
        match methods (t_method t) with
        | Some f => obind (f l) (cast (t_ret t))
        | None => if t_pure t then Throw pure_error else base (t_base t) (t_method t) l
        end
    end.
  (** Calling a virtual function of a component written in Python as a class derived from interface [cls]; a function
      without trampoline is the one inherited by the interface. PYLM_SERIALIZE_IMPL is modelled separately below.
      src/pylm.cpp:122-1176. *)
  Definition call (cls fn : string) (types : list string) (vals : list V) : outcome V :=
    match override cls fn types with Some t => run t vals | None => base cls fn vals end.
End Call.

Section Serial.
  Context {F St : Type}.
  Variable encode : pystr -> option string.
  (** A Python class with instances in states St; save and load if defined. include/lm/pylm.h:413-434. *)
  Record state_methods := mk_state_methods { py_save : option (St -> outcome (py F)); py_load : option (St -> py F -> outcome St) }.
  Variable c : state_methods.
  (** pylm.h:413-423. cast_safe<std::string> accepts str and bytes; Component::save (component.h:234) writes nothing. *)
  Definition save_comp (cls : string) (st : St) (out : stream) : outcome stream :=
    match (if in_dec string_dec cls serialized then py_save c else None) with
    | Some f => obind (f st) (fun v => match load_key encode v with Some s => Ok (out ++ enc_str s) | None => Throw cast_error end)
    | None => Ok out
    end.
  (** pylm.h:424-434. Component::load (component.h:221) reads nothing. *)
  Definition load_comp (cls : string) (st : St) (inp : stream) : outcome (St * stream) :=
    match (if in_dec string_dec cls serialized then py_load c else None) with
    | Some f => obind (dec_str inp) (fun r => obind (f st (PBytes (fst r))) (fun st' => Ok (st', snd r)))
    | None => Ok (st, inp)
    end.
End Serial.
Arguments mk_state_methods {F St} _ _. Arguments state_methods : clear implicits.
