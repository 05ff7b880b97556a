(** The interfaces that can be implemented in Python, and what calling an implementation means. *)
From Coq Require Import List String Bool.
From Verif Require Import Base.
Import ListNotations.
Open Scope string_scope. Open Scope list_scope.

(** A virtual function declared in include/lm: interface, name, parameter types, return type, pure or not *)
Record decl := mk_decl { d_iface : string; d_fn : string; d_types : list string; d_ret : string; d_pure : bool }.
Definition declarations : list decl := [
  (* component.h:210 *) mk_decl "Component" "construct" ["const Json&"] "void" false;
  (* component.h:221 *) mk_decl "Component" "load" ["InputArchive&"] "void" false;
  (* component.h:234 *) mk_decl "Component" "save" ["OutputArchive&"] "void" false;
  (* component.h:252 *) mk_decl "Component" "underlying" ["const std::string&"] "Component*" false;
  (* component.h:266 *) mk_decl "Component" "foreach_underlying" ["const ComponentVisitor&"] "void" false;
  (* component.h:278 *) mk_decl "Component" "underlying_value" ["const std::string&"] "Json" false;
  (* component.h:289 *) mk_decl "Component" "underlying_raw_pointer" ["const std::string&"] "void*" false;
  (* assetgroup.h:49 *) mk_decl "AssetGroup" "load_asset" ["const std::string&"; "const std::string&"; "const Json&"] "Component*" true;
  (* assetgroup.h:56 *) mk_decl "AssetGroup" "load_serialized" ["const std::string&"; "const std::string&"] "Component*" true;
  (* loggercontext.h:29 *) mk_decl "LoggerContext" "log" ["LogLevel"; "int"; "const char*"; "int"; "const char*"] "void" true;
  (* loggercontext.h:30 *) mk_decl "LoggerContext" "update_indentation" ["int"] "void" true;
  (* loggercontext.h:31 *) mk_decl "LoggerContext" "set_severity" ["int"] "void" true;
  (* progresscontext.h:30 *) mk_decl "ProgressContext" "start" ["ProgressMode"; "long long"; "double"] "void" true;
  (* progresscontext.h:31 *) mk_decl "ProgressContext" "update" ["long long"] "void" true;
  (* progresscontext.h:32 *) mk_decl "ProgressContext" "update_time" ["Float"] "void" true;
  (* progresscontext.h:33 *) mk_decl "ProgressContext" "end" [] "void" true;
  (* film.h:60 *) mk_decl "Film" "size" [] "FilmSize" true;
  (* film.h:65 *) mk_decl "Film" "num_pixels" [] "long long" true;
  (* film.h:79 *) mk_decl "Film" "set_pixel" ["int"; "int"; "Vec3"] "void" true;
  (* film.h:91 *) mk_decl "Film" "save" ["const std::string&"] "bool" true;
  (* film.h:103 *) mk_decl "Film" "buffer" [] "FilmBuffer" true;
  (* film.h:109 *) mk_decl "Film" "accum" ["const Film*"] "void" true;
  (* film.h:117 *) mk_decl "Film" "splat_pixel" ["int"; "int"; "Vec3"] "void" true;
  (* film.h:132 *) mk_decl "Film" "update_pixel" ["int"; "int"; "const PixelUpdateFunc&"] "void" true;
  (* film.h:138 *) mk_decl "Film" "rescale" ["Float"] "void" true;
  (* film.h:143 *) mk_decl "Film" "clear" [] "void" true;
  (* film.h:202 *) mk_decl "Film" "splat" ["Vec2"; "Vec3"] "void" false;
  (* scene.h:42 *) mk_decl "Scene" "reset" [] "void" true;
  (* scene.h:52 *) mk_decl "Scene" "root_node" [] "int" true;
  (* scene.h:66 *) mk_decl "Scene" "create_primitive_node" ["const Json&"] "int" true;
  (* scene.h:78 *) mk_decl "Scene" "create_group_node" ["Mat4"] "int" true;
  (* scene.h:89 *) mk_decl "Scene" "create_instance_group_node" [] "int" true;
  (* scene.h:103 *) mk_decl "Scene" "add_child" ["int"; "int"] "void" true;
  (* scene.h:110 *) mk_decl "Scene" "add_child_from_model" ["int"; "const std::string&"] "void" true;
  (* scene.h:117 *) mk_decl "Scene" "create_group_from_model" ["const std::string&"] "int" true;
  (* scene.h:177 *) mk_decl "Scene" "traverse_primitive_nodes" ["const NodeTraverseFunc&"] "void" true;
  (* scene.h:197 *) mk_decl "Scene" "visit_node" ["int"; "const VisitNodeFunc&"] "void" true;
  (* scene.h:204 *) mk_decl "Scene" "node_at" ["int"] "const SceneNode&" true;
  (* scene.h:213 *) mk_decl "Scene" "num_nodes" [] "int" true;
  (* scene.h:216 *) mk_decl "Scene" "num_lights" [] "int" true;
  (* scene.h:222 *) mk_decl "Scene" "camera_node" [] "int" true;
  (* scene.h:228 *) mk_decl "Scene" "medium_node" [] "int" true;
  (* scene.h:234 *) mk_decl "Scene" "env_light_node" [] "int" true;
  (* scene.h:309 *) mk_decl "Scene" "accel" [] "Accel*" true;
  (* scene.h:315 *) mk_decl "Scene" "set_accel" ["const std::string&"] "void" true;
  (* scene.h:318 *) mk_decl "Scene" "build" [] "void" true;
  (* scene.h:335 *) mk_decl "Scene" "intersect" ["Ray"; "Float"; "Float"] "std::optional<SceneInteraction>" true;
  (* scene.h:373 *) mk_decl "Scene" "is_light" ["const SceneInteraction&"] "bool" true;
  (* scene.h:376 *) mk_decl "Scene" "is_camera" ["const SceneInteraction&"] "bool" true;
  (* scene.h:408 *) mk_decl "Scene" "sample_light_selection" ["Float"] "LightSelectionSample" true;
  (* scene.h:415 *) mk_decl "Scene" "pdf_light_selection" ["int"] "Float" true;
  (* scene.h:418 *) mk_decl "Scene" "light_primitive_index_at" ["int"] "LightPrimitiveIndex" true;
  (* scene.h:421 *) mk_decl "Scene" "light_index_at" ["int"] "int" true;
  (* accel.h:38 *) mk_decl "Accel" "build" ["const Scene&"] "void" true;
  (* accel.h:70 *) mk_decl "Accel" "intersect" ["Ray"; "Float"; "Float"] "std::optional<Hit>" true;
  (* renderer.h:25 *) mk_decl "Renderer" "render" [] "Json" true;
  (* texture.h:62 *) mk_decl "Texture" "size" [] "TextureSize" true;
  (* texture.h:75 *) mk_decl "Texture" "eval" ["Vec2"] "Vec3" true;
  (* texture.h:87 *) mk_decl "Texture" "eval_by_pixel_coords" ["int"; "int"] "Vec3" true;
  (* texture.h:100 *) mk_decl "Texture" "eval_alpha" ["Vec2"] "Float" false;
  (* texture.h:109 *) mk_decl "Texture" "has_alpha" [] "bool" false;
  (* texture.h:115 *) mk_decl "Texture" "buffer" [] "TextureBuffer" false;
  (* mesh.h:75 *) mk_decl "Mesh" "foreach_triangle" ["const ProcessTriangleFunc&"] "void" true;
  (* mesh.h:80 *) mk_decl "Mesh" "triangle_at" ["int"] "Tri" true;
  (* mesh.h:95 *) mk_decl "Mesh" "surface_point" ["int"; "Vec2"] "InterpolatedPoint" true;
  (* mesh.h:100 *) mk_decl "Mesh" "num_triangles" [] "int" true;
  (* material.h:64 *) mk_decl "Material" "sample_component" ["const ComponentSampleU&"; "const PointGeometry&"; "Vec3"] "ComponentSample" true;
  (* material.h:76 *) mk_decl "Material" "pdf_component" ["int"; "const PointGeometry&"; "Vec3"] "Float" true;
  (* material.h:106 *) mk_decl "Material" "sample_direction" ["const DirectionSampleU&"; "const PointGeometry&"; "Vec3"; "int"; "TransDir"] "std::optional<DirectionSample>" true;
  (* material.h:121 *) mk_decl "Material" "pdf_direction" ["const PointGeometry&"; "Vec3"; "Vec3"; "int"; "bool"] "Float" true;
  (* material.h:141 *) mk_decl "Material" "eval" ["const PointGeometry&"; "Vec3"; "Vec3"; "int"; "TransDir"; "bool"] "Vec3" true;
  (* material.h:152 *) mk_decl "Material" "is_specular_component" ["int"] "bool" true;
  (* material.h:162 *) mk_decl "Material" "reflectance" ["const PointGeometry&"] "Vec3" true;
  (* phase.h:41 *) mk_decl "Phase" "sample_direction" ["const DirectionSampleU&"; "const PointGeometry&"; "Vec3"] "std::optional<DirectionSample>" true;
  (* phase.h:50 *) mk_decl "Phase" "pdf_direction" ["const PointGeometry&"; "Vec3"; "Vec3"] "Float" true;
  (* phase.h:59 *) mk_decl "Phase" "eval" ["const PointGeometry&"; "Vec3"; "Vec3"] "Vec3" true;
  (* medium.h:44 *) mk_decl "Medium" "sample_distance" ["Rng&"; "Ray"; "Float"; "Float"] "std::optional<DistanceSample>" true;
  (* medium.h:57 *) mk_decl "Medium" "eval_transmittance" ["Rng&"; "Ray"; "Float"; "Float"] "Vec3" true;
  (* medium.h:63 *) mk_decl "Medium" "is_emitter" [] "bool" true;
  (* medium.h:69 *) mk_decl "Medium" "phase" [] "const Phase*" true;
  (* volume.h:28 *) mk_decl "Volume" "bound" [] "Bound" true;
  (* volume.h:36 *) mk_decl "Volume" "has_scalar" [] "bool" true;
  (* volume.h:41 *) mk_decl "Volume" "max_scalar" [] "Float" true;
  (* volume.h:48 *) mk_decl "Volume" "eval_scalar" ["Vec3"] "Float" false;
  (* volume.h:59 *) mk_decl "Volume" "has_color" [] "bool" true;
  (* volume.h:66 *) mk_decl "Volume" "eval_color" ["Vec3"] "Vec3" false;
  (* volume.h:93 *) mk_decl "Volume" "march" ["Ray"; "Float"; "Float"; "Float"; "const RaymarchFunc&"] "void" false;
  (* model.h:56 *) mk_decl "Model" "create_primitives" ["const CreatePrimitiveFunc&"] "void" true;
  (* model.h:80 *) mk_decl "Model" "foreach_node" ["const VisitNodeFuncType&"] "void" true;
  (* camera.h:40 *) mk_decl "Camera" "set_aspect_ratio" ["Float"] "void" true;
  (* camera.h:48 *) mk_decl "Camera" "view_matrix" [] "Mat4" true;
  (* camera.h:54 *) mk_decl "Camera" "projection_matrix" [] "Mat4" true;
  (* camera.h:69 *) mk_decl "Camera" "primary_ray" ["Vec2"] "Ray" true;
  (* camera.h:92 *) mk_decl "Camera" "sample_ray" ["const RaySampleU&"] "std::optional<RaySample>" true;
  (* camera.h:103 *) mk_decl "Camera" "pdf_ray" ["const PointGeometry&"; "Vec3"] "Float" true;
  (* camera.h:128 *) mk_decl "Camera" "sample_direction" ["const DirectionSampleU&"; "const PointGeometry&"] "std::optional<DirectionSample>" true;
  (* camera.h:139 *) mk_decl "Camera" "pdf_direction" ["const PointGeometry&"; "Vec3"] "Float" true;
  (* camera.h:163 *) mk_decl "Camera" "sample_position" ["const PositionSampleU&"] "std::optional<PositionSample>" true;
  (* camera.h:173 *) mk_decl "Camera" "pdf_position" ["const PointGeometry&"] "Float" true;
  (* camera.h:187 *) mk_decl "Camera" "sample_direct" ["const RaySampleU&"; "const PointGeometry&"] "std::optional<RaySample>" true;
  (* camera.h:199 *) mk_decl "Camera" "pdf_direct" ["const PointGeometry&"; "const PointGeometry&"; "Vec3"] "Float" true;
  (* camera.h:208 *) mk_decl "Camera" "raster_position" ["Vec3"] "std::optional<Vec2>" true;
  (* camera.h:218 *) mk_decl "Camera" "is_connectable" ["const PointGeometry&"] "bool" true;
  (* camera.h:228 *) mk_decl "Camera" "eval" ["Vec3"] "Vec3" true;
  (* light.h:34 *) mk_decl "Light" "set_scene_bound" ["const Bound&"] "void" false;
  (* light.h:64 *) mk_decl "Light" "sample_ray" ["const RaySampleU&"; "const Transform&"] "std::optional<RaySample>" true;
  (* light.h:77 *) mk_decl "Light" "pdf_ray" ["const PointGeometry&"; "Vec3"; "const Transform&"; "bool"] "Float" true;
  (* light.h:102 *) mk_decl "Light" "sample_direction" ["const DirectionSampleU&"; "const PointGeometry&"] "std::optional<DirectionSample>" true;
  (* light.h:113 *) mk_decl "Light" "pdf_direction" ["const PointGeometry&"; "Vec3"] "Float" true;
  (* light.h:139 *) mk_decl "Light" "sample_position" ["const PositionSampleU&"; "const Transform&"] "std::optional<PositionSample>" true;
  (* light.h:150 *) mk_decl "Light" "pdf_position" ["const PointGeometry&"; "const Transform&"] "Float" true;
  (* light.h:168 *) mk_decl "Light" "sample_direct" ["const RaySampleU&"; "const PointGeometry&"; "const Transform&"] "std::optional<RaySample>" true;
  (* light.h:182 *) mk_decl "Light" "pdf_direct" ["const PointGeometry&"; "const PointGeometry&"; "const Transform&"; "Vec3"; "bool"] "Float" true;
  (* light.h:187 *) mk_decl "Light" "is_specular" [] "bool" true;
  (* light.h:190 *) mk_decl "Light" "is_infinite" [] "bool" true;
  (* light.h:193 *) mk_decl "Light" "is_env" [] "bool" false;
  (* light.h:196 *) mk_decl "Light" "is_connectable" ["const PointGeometry&"] "bool" true;
  (* light.h:208 *) mk_decl "Light" "eval" ["const PointGeometry&"; "Vec3"; "bool"] "Vec3" true].
(** The virtual functions of an interface: its own and those of Component *)
Definition interfaces : list string := ["Component"; "AssetGroup"; "LoggerContext"; "ProgressContext"; "Film"; "Scene"; "Accel";
  "Renderer"; "Texture"; "Mesh"; "Material"; "Phase"; "Medium"; "Volume"; "Model"; "Camera"; "Light"].
Definition function_of (i : string) (d : decl) : Prop := In i interfaces /\ In d declarations /\ (d_iface d = i \/ d_iface d = "Component").
(** Functions that take or return an archive are about serialization and treated apart *)
Definition archival (d : decl) : Prop := d_types d = ["InputArchive&"] \/ d_types d = ["OutputArchive&"].
(** Functions for which a method of the Python class plays no role *)
Definition not_forwarded (d : decl) : Prop :=
  In (d_iface d, d_fn d)
    [("Component", "underlying"); ("Component", "foreach_underlying"); ("Component", "underlying_value"); ("Component", "underlying_raw_pointer");
     ("Film", "splat"); ("Texture", "eval_alpha"); ("Texture", "has_alpha"); ("Texture", "buffer"); ("Volume", "march");
     ("Light", "set_scene_bound"); ("Light", "is_env")].

(** What the caller of function [d] gets from an implementation of interface [i]: the result of the Python method of the same
    name on the same arguments, as the declared type; if there is no such method, the default of the interface, or an error if
    the interface has none. *)
Inductive answers {V} (methods : string -> option (list V -> outcome V)) (cast : string -> V -> outcome V)
    (default : string -> string -> list V -> outcome V) (missing : error) (i : string) (d : decl) (args : list V) : outcome V -> Prop :=
| by_method : forall f, methods (d_fn d) = Some f -> answers methods cast default missing i d args (obind (f args) (cast (d_ret d)))
| by_default : methods (d_fn d) = None -> d_pure d = false -> answers methods cast default missing i d args (default i (d_fn d) args)
| by_error : methods (d_fn d) = None -> d_pure d = true -> answers methods cast default missing i d args (Throw missing).
