(** What each class keeps in its members and what it passes to the archive: the LM_SERIALIZE_IMPL blocks
    of src/ and the serialize members of the structures (include/lm/serial.h:433-436).
    Simplifications: a pointer is represented by the locator it is written with (that it points to the
    right component after loading is C09); the contents of an owned component are the entry of its own
    class. A Float is its 64-bit pattern, an enumeration its 4-byte value. *)
From Coq Require Import List String Ascii ZArith Bool.
From Verif Require Import Base CodecModel.
Import ListNotations.
Open Scope string_scope. Open Scope list_scope.

(** A class: its registered name, its members with the types the archive sees, the members passed to the
    archive in order, and the members that every use first overwrites.
    include/lm/serial.h:433-444 and the LM_SERIALIZE_IMPL blocks cited below. *)
Record class := mk_class {
  key : string;
  members : list (string * ty);
  archive : list string;
  scratch : list string }.

(** A value with its type, and the state of an instance. include/lm/serial.h:433-444. *)
Definition value : Type := { t : ty & den t }.
(** The members of an instance by name, for include/lm/serial.h:433-444. *)
Definition state : Type := string -> value.
(** A member that does not exist, for include/lm/serial.h:433-444. *)
Definition nothing : value := existT den TUnit tt.
(** Assignment to a member, for include/lm/serial.h:433-444. *)
Definition set (o : state) (n : string) (v : value) : state := fun k => if String.eqb k n then v else o k.

(** The declared type of a member, for include/lm/serial.h:433-444. *)
Fixpoint type_of (ms : list (string * ty)) (n : string) : option ty :=
  match ms with [] => None | (k, t) :: ms' => if String.eqb k n then Some t else type_of ms' n end.

(** Component::save through LM_SERIALIZE_IMPL (include/lm/serial.h:433-436): the listed members, in order. *)
Definition save_value (v : value) : stream := encode (projT1 v) (projT2 v).
(** include/lm/serial.h:433-436. *)
Definition save (c : class) (o : state) : stream := flat_map (fun n => save_value (o n)) (archive c).

(** Component::load: the listed members are overwritten, the others keep what the new instance has.
    include/lm/serial.h:433-444. *)
Fixpoint load_members (ms : list (string * ty)) (ns : list string) (o : state) (s : stream)
  : outcome (state * stream) :=
  match ns with
  | [] => Ok (o, s)
  | n :: ns' =>
      match type_of ms n with
      | None => UB
      | Some t => obind (decode t s) (fun r => load_members ms ns' (set o n (existT den t (fst r))) (snd r))
      end
  end.
(** include/lm/serial.h:433-444. *)
Definition load (c : class) (fresh : state) (s : stream) : outcome (state * stream) :=
  load_members (members c) (archive c) fresh s.

(** The bytes of a structure are those of its serialize member (cereal): the listed members in order.
    For the serialize members of include/lm/math.h:82-91, 724-734 and the others cited below. *)
Definition struct_ty (c : class) : ty :=
  fold_right (fun n t => match type_of (members c) n with Some u => TPair u t | None => t end) TUnit (archive c).

(** include/lm/common.h and glm: the basic types. *)
Definition int_t := TInt 4 true.
(** unsigned int, as in src/renderer/renderer_pt.cpp:31-42. *)
Definition uint_t := TInt 4 false.
(** long long, as in src/scheduler.cpp:18-25. *)
Definition long_t := TInt 8 true.
(** include/lm/common.h:278-287: Float is double. *)
Definition float_t := TInt 4 false.
(** include/lm/serial.h:61-66. *)
Definition vec2_t := TFixed 2 TF64.
(** include/lm/serial.h:61-66. *)
Definition vec3_t := TFixed 3 TF64.
(** include/lm/serial.h:71-76. *)
Definition mat3_t := TFixed 3 (TFixed 3 TF64).
(** include/lm/serial.h:71-76. *)
Definition mat4_t := TFixed 4 (TFixed 4 TF64).
(** T* and Component::Ptr<T> (include/lm/serial.h:104-311): see the head of the file. *)
Definition ref_t := TOpt TStr.
(** Component::Ptr: include/lm/serial.h:104-167; here only its place is of interest. *)
Definition own_t := TOpt TStr.

(** include/lm/math.h:82-91. *)
Definition s_bound : class :=
  mk_class "struct Bound"
    [("min", vec3_t); ("max", vec3_t)]
    ["min"; "max"] [].
(** include/lm/math.h:82-91: what the archive receives for a member of this type. *)
Definition bound_t : ty := struct_ty s_bound.

(** include/lm/math.h:183-194. *)
Definition s_sphere : class :=
  mk_class "struct SphereBound"
    [("center", vec3_t); ("radius", TF64)]
    ["center"; "radius"] [].
(** include/lm/math.h:183-194: what the archive receives for a member of this type. *)
Definition sphere_t : ty := struct_ty s_sphere.

(** include/lm/math.h:310-318. *)
Definition s_dist : class :=
  mk_class "struct Dist"
    [("c", (TVec TF64))]
    ["c"] [].
(** include/lm/math.h:310-318: what the archive receives for a member of this type. *)
Definition dist_t : ty := struct_ty s_dist.

(** include/lm/math.h:378-388. *)
Definition s_dist2 : class :=
  mk_class "struct Dist2"
    [("ds", (TVec dist_t)); ("m", dist_t); ("w", int_t); ("h", int_t)]
    ["ds"; "m"; "w"; "h"] [].
(** include/lm/math.h:378-388: what the archive receives for a member of this type. *)
Definition dist2_t : ty := struct_ty s_dist2.

(** include/lm/math.h:724-734. *)
Definition s_transform : class :=
  mk_class "struct Transform"
    [("M", mat4_t); ("normal_M", mat3_t); ("J", TF64)]
    ["M"; "normal_M"; "J"] [].
(** include/lm/math.h:724-734: what the archive receives for a member of this type. *)
Definition transform_t : ty := struct_ty s_transform.

(** include/lm/objloader.h:22-31. *)
Definition s_obj_geometry : class :=
  mk_class "struct OBJSurfaceGeometry"
    [("ps", (TVec vec3_t)); ("ns", (TVec vec3_t)); ("ts", (TVec vec2_t))]
    ["ps"; "ns"; "ts"] [].
(** include/lm/objloader.h:22-31: what the archive receives for a member of this type. *)
Definition geometry_t : ty := struct_ty s_obj_geometry.

(** include/lm/objloader.h:36-45. *)
Definition s_obj_face : class :=
  mk_class "struct OBJMeshFaceIndex"
    [("p", int_t); ("t", int_t); ("n", int_t)]
    ["p"; "t"; "n"] [].
(** include/lm/objloader.h:36-45: what the archive receives for a member of this type. *)
Definition face_t : ty := struct_ty s_obj_face.

(** include/lm/objloader.h:55-70. *)
Definition s_obj_material : class :=
  mk_class "struct MTLMatParams"
    [("name", TStr); ("illum", int_t); ("Kd", vec3_t); ("Ks", vec3_t); ("Ke", vec3_t); ("mapKd", TStr); ("Ni", TF64); ("Ns", TF64); ("an", TF64)]
    ["name"; "illum"; "Kd"; "Ks"; "Ke"; "mapKd"; "Ni"; "Ns"; "an"] [].

(** include/lm/scene.h:391-401. *)
Definition s_light_index : class :=
  mk_class "struct LightPrimitiveIndex"
    [("global_transform", transform_t); ("index", int_t)]
    ["global_transform"; "index"] [].
(** include/lm/scene.h:391-401: what the archive receives for a member of this type. *)
Definition light_index_t : ty := struct_ty s_light_index.

(** include/lm/scenenode.h:69-82. *)
Definition s_node_primitive : class :=
  mk_class "struct SceneNode::Primitive"
    [("mesh", ref_t); ("material", ref_t); ("light", ref_t); ("camera", ref_t); ("medium", ref_t)]
    ["mesh"; "material"; "light"; "camera"; "medium"] [].
(** include/lm/scenenode.h:69-82: what the archive receives for a member of this type. *)
Definition primitive_t : ty := struct_ty s_node_primitive.

(** include/lm/scenenode.h:88-99. *)
Definition s_node_group : class :=
  mk_class "struct SceneNode::Group"
    [("children", (TVec int_t)); ("instanced", TBool); ("local_transform", (TOpt mat4_t))]
    ["children"; "instanced"; "local_transform"] [].
(** include/lm/scenenode.h:88-99: what the archive receives for a member of this type. *)
Definition group_t : ty := struct_ty s_node_group.

(** include/lm/scenenode.h:61-109. *)
Definition s_node : class :=
  mk_class "struct SceneNode"
    [("type", int_t); ("index", int_t); ("primitive", primitive_t); ("group", group_t)]
    ["type"; "index"; "primitive"; "group"] [].
(** include/lm/scenenode.h:61-109: what the archive receives for a member of this type. *)
Definition node_t : ty := struct_ty s_node.

(** src/accel/accel_sahbvh.cpp:16-24. *)
Definition s_flat : class :=
  mk_class "struct FlattenedPrimitiveNode"
    [("global_transform", transform_t); ("primitive", int_t)]
    ["global_transform"; "primitive"] [].
(** src/accel/accel_sahbvh.cpp:16-24: what the archive receives for a member of this type. *)
Definition flat_t : ty := struct_ty s_flat.

(** src/accel/accel_sahbvh.cpp:26-37. *)
Definition s_tri : class :=
  mk_class "struct Tri"
    [("p1", vec3_t); ("e1", vec3_t); ("e2", vec3_t); ("b", bound_t); ("c", vec3_t); ("flattened_node", int_t); ("face", int_t)]
    ["p1"; "e1"; "e2"; "b"; "c"; "flattened_node"; "face"] [].
(** src/accel/accel_sahbvh.cpp:26-37: what the archive receives for a member of this type. *)
Definition tri_t : ty := struct_ty s_tri.

(** src/accel/accel_sahbvh.cpp:79-89. *)
Definition s_bvh_node : class :=
  mk_class "struct Node"
    [("b", bound_t); ("leaf", TBool); ("s", int_t); ("e", int_t); ("c1", int_t); ("c2", int_t)]
    ["b"; "leaf"; "s"; "e"; "c1"; "c2"] [].
(** src/accel/accel_sahbvh.cpp:79-89: what the archive receives for a member of this type. *)
Definition bvh_node_t : ty := struct_ty s_bvh_node.

(** src/mesh/mesh_raw.cpp:12-21. *)
Definition s_raw_face : class :=
  mk_class "struct MeshFaceIndex"
    [("p", int_t); ("t", int_t); ("n", int_t)]
    ["p"; "t"; "n"] [].

(** src/material/material_mixture.cpp:26-34, 122-130. *)
Definition s_mix_entry : class :=
  mk_class "struct Entry"
    [("material", ref_t); ("weight", TF64)]
    ["material"; "weight"] [].
(** src/material/material_mixture.cpp:26-34, 122-130: what the archive receives for a member of this type. *)
Definition entry_t : ty := struct_ty s_mix_entry.

(** src/material/material_mixture.cpp:121-138. *)
Definition s_mix_group : class :=
  mk_class "struct MaterialGroup"
    [("entries", (TVec entry_t)); ("dist", dist_t)]
    ["entries"; "dist"] [].
(** src/material/material_mixture.cpp:121-138: what the archive receives for a member of this type. *)
Definition mix_group_t : ty := struct_ty s_mix_group.

(** src/model/model_wavefrontobj.cpp:46-55. *)
Definition s_obj_group : class :=
  mk_class "struct Group"
    [("mesh", int_t); ("material", int_t); ("light", int_t)]
    ["mesh"; "material"; "light"] [].
(** src/model/model_wavefrontobj.cpp:46-55: what the archive receives for a member of this type. *)
Definition obj_group_t : ty := struct_ty s_obj_group.

(** src/assetgroup.cpp:14-20. *)
Definition k_assets : class :=
  mk_class "asset_group::default"
    [("assets_", (TVec own_t)); ("asset_index_map_", (TMapS int_t))]
    ["asset_index_map_"; "assets_"] [].

(** src/scene.cpp:22-33. *)
Definition k_scene : class :=
  mk_class "scene::default"
    [("accel_", ref_t); ("nodes_", (TVec node_t)); ("camera_", (TOpt int_t)); ("lights_", (TVec light_index_t)); ("light_indices_map_", (TMapI int_t)); ("env_light_", (TOpt int_t)); ("medium_", (TOpt int_t))]
    ["accel_"; "nodes_"; "camera_"; "lights_"; "light_indices_map_"; "env_light_"] [].

(** src/model/model_wavefrontobj.cpp:38-61. *)
Definition k_model_obj : class :=
  mk_class "model::wavefrontobj"
    [("geo_", geometry_t); ("assets_", (TVec own_t)); ("assets_map_", (TMapS int_t)); ("groups_", (TVec obj_group_t))]
    ["geo_"; "groups_"; "assets_map_"; "assets_"] [].

(** src/model/model_wavefrontobj.cpp:261-268. *)
Definition k_mesh_ref : class :=
  mk_class "mesh::wavefrontobj_ref"
    [("model_", ref_t); ("fs_", (TVec face_t))]
    ["model_"; "fs_"] [].

(** src/model/model_wavefrontobj.cpp:340-348. *)
Definition k_mat_obj : class :=
  mk_class "material::mixture_wavefrontobj"
    [("diffuse_", own_t); ("glossy_", own_t); ("mask_tex_", ref_t)]
    ["diffuse_"; "glossy_"; "mask_tex_"] [].

(** src/film/film_bitmap.cpp:123-134, 213-217 (data_temp_ is filled anew by every read access). *)
Definition k_film : class :=
  mk_class "film::bitmap"
    [("w_", int_t); ("h_", int_t); ("quality_", int_t); ("data_", (TVec vec3_t)); ("data_temp_", (TVec vec3_t))]
    ["w_"; "h_"; "quality_"; "data_"] ["data_temp_"].

(** src/renderer/renderer_blank.cpp:15-22. *)
Definition k_blank : class :=
  mk_class "renderer::blank"
    [("color_", vec3_t); ("film_", ref_t)]
    ["color_"; "film_"] [].

(** src/renderer/renderer_pt.cpp:31-42. *)
Definition k_pt : class :=
  mk_class "renderer::pt"
    [("scene_", ref_t); ("film_", ref_t); ("max_verts_", int_t); ("seed_", (TOpt uint_t)); ("sampling_mode_", int_t); ("primary_ray_sampling_mode_", int_t); ("sched_", own_t)]
    ["scene_"; "film_"; "max_verts_"; "sampling_mode_"; "sched_"] [].

(** src/renderer/renderer_raycast.cpp:20-32. *)
Definition k_raycast : class :=
  mk_class "renderer::raycast"
    [("scene_", ref_t); ("film_", ref_t); ("bg_color_", vec3_t); ("use_constant_color_", TBool); ("visualize_normal_", TBool); ("color_", (TOpt vec3_t)); ("sched_", own_t)]
    ["scene_"; "film_"; "bg_color_"; "use_constant_color_"; "visualize_normal_"; "sched_"] [].

(** src/renderer/renderer_lt.cpp:19-29. *)
Definition k_lt : class :=
  mk_class "renderer::lt"
    [("scene_", ref_t); ("film_", ref_t); ("max_verts_", int_t); ("seed_", (TOpt uint_t)); ("sched_", own_t)]
    ["scene_"; "film_"; "max_verts_"; "seed_"; "sched_"] [].

(** src/renderer/renderer_volpt.cpp:20-31. *)
Definition k_volpt_naive : class :=
  mk_class "renderer::volpt_naive"
    [("scene_", ref_t); ("film_", ref_t); ("max_verts_", int_t); ("rr_prob_", TF64); ("seed_", (TOpt uint_t)); ("sched_", own_t)]
    ["scene_"; "film_"; "max_verts_"; "rr_prob_"; "sched_"] [].

(** src/renderer/renderer_volpt.cpp:20-31. *)
Definition k_volpt : class :=
  mk_class "renderer::volpt"
    [("scene_", ref_t); ("film_", ref_t); ("max_verts_", int_t); ("rr_prob_", TF64); ("seed_", (TOpt uint_t)); ("sched_", own_t)]
    ["scene_"; "film_"; "max_verts_"; "rr_prob_"; "sched_"] [].

(** src/renderer/renderer_bdpt.cpp:38-45, 63 (no serialization function: Component::save and load do nothing, include/lm/component.h:221-236). *)
Definition k_pt_naive_path : class :=
  mk_class "renderer::pt_naive_path"
    [("scene_", ref_t); ("film_", ref_t); ("min_verts_", int_t); ("max_verts_", int_t); ("seed_", (TOpt uint_t)); ("sched_", own_t)]
    [] [].

(** src/renderer/renderer_bdpt.cpp:38-45, 129 (no serialization function: Component::save and load do nothing, include/lm/component.h:221-236). *)
Definition k_pt_nee_path : class :=
  mk_class "renderer::pt_nee_path"
    [("scene_", ref_t); ("film_", ref_t); ("min_verts_", int_t); ("max_verts_", int_t); ("seed_", (TOpt uint_t)); ("sched_", own_t)]
    [] [].

(** src/renderer/renderer_bdpt.cpp:38-45, 205 (no serialization function: Component::save and load do nothing, include/lm/component.h:221-236). *)
Definition k_lt_nee_path : class :=
  mk_class "renderer::lt_nee_path"
    [("scene_", ref_t); ("film_", ref_t); ("min_verts_", int_t); ("max_verts_", int_t); ("seed_", (TOpt uint_t)); ("sched_", own_t)]
    [] [].

(** src/renderer/renderer_bdpt.cpp:38-45, 297 (no serialization function: Component::save and load do nothing, include/lm/component.h:221-236). *)
Definition k_bdpt : class :=
  mk_class "renderer::bdpt"
    [("scene_", ref_t); ("film_", ref_t); ("min_verts_", int_t); ("max_verts_", int_t); ("seed_", (TOpt uint_t)); ("sched_", own_t)]
    [] [].

(** src/renderer/renderer_bdptopt.cpp:419-426 (no serialization function: Component::save and load do nothing, include/lm/component.h:221-236). *)
Definition k_bdptopt : class :=
  mk_class "renderer::bdptopt"
    [("scene_", ref_t); ("film_", ref_t); ("min_verts_", int_t); ("max_verts_", int_t); ("seed_", (TOpt uint_t)); ("sched_", own_t)]
    [] [].

(** src/mesh/mesh_raw.cpp:38-47. *)
Definition k_mesh_raw : class :=
  mk_class "mesh::raw"
    [("ps_", (TVec vec3_t)); ("ns_", (TVec vec3_t)); ("ts_", (TVec vec2_t)); ("fs_", (TVec face_t))]
    ["ps_"; "ns_"; "ts_"; "fs_"] [].

(** src/mesh/mesh_wavefrontobj.cpp:24-31. *)
Definition k_mesh_obj : class :=
  mk_class "mesh::wavefrontobj"
    [("geo_", geometry_t); ("fs_", (TVec face_t))]
    ["geo_"; "fs_"] [].

(** src/accel/accel_sahbvh.cpp:115-124. *)
Definition k_bvh : class :=
  mk_class "accel::sahbvh"
    [("nodes_", (TVec bvh_node_t)); ("trs_", (TVec tri_t)); ("indices_", (TVec int_t)); ("flattened_nodes_", (TVec flat_t))]
    ["nodes_"; "trs_"; "indices_"; "flattened_nodes_"] [].

(** src/material/material_diffuse.cpp:34-41. *)
Definition k_diffuse : class :=
  mk_class "material::diffuse"
    [("Kd_", vec3_t); ("mapKd_", ref_t)]
    ["Kd_"; "mapKd_"] [].

(** src/material/material_proxy.cpp:25-32. *)
Definition k_proxy : class :=
  mk_class "material::proxy"
    [("ref_", ref_t)]
    ["ref_"] [].

(** src/material/material_mixture.cpp:24-41. *)
Definition k_mix_rr : class :=
  mk_class "material::constant_weight_mixture_rr"
    [("materials_", (TVec entry_t)); ("dist_", dist_t)]
    ["materials_"; "dist_"] [].

(** src/material/material_mixture.cpp:119-145. *)
Definition k_mix_marginalized : class :=
  mk_class "material::constant_weight_mixture_marginalized"
    [("material_groups_", (TVec mix_group_t)); ("dist_", dist_t)]
    ["material_groups_"; "dist_"] [].

(** src/material/material_glass.cpp:66-81. *)
Definition k_glass : class :=
  mk_class "material::glass"
    [("Ni_", TF64)]
    ["Ni_"] [].

(** src/material/material_mirror.cpp:29. *)
Definition k_mirror : class :=
  mk_class "material::mirror"
    []
    [] [].

(** src/material/material_glossy.cpp:24-32. *)
Definition k_glossy : class :=
  mk_class "material::glossy"
    [("Ks_", vec3_t); ("ax_", TF64); ("ay_", TF64)]
    ["Ks_"; "ax_"; "ay_"] [].

(** src/material/material_mask.cpp:28. *)
Definition k_mask : class :=
  mk_class "material::mask"
    []
    [] [].

(** src/volume/volume_checker.cpp:23-30. *)
Definition k_checker : class :=
  mk_class "volume::checker"
    [("bound_", bound_t)]
    ["bound_"] [].

(** src/volume/volume_multi.cpp:22-33. *)
Definition k_multi : class :=
  mk_class "volume::multi"
    [("bound_", bound_t); ("volumes_den_", (TVec ref_t)); ("volumes_alb_", (TVec ref_t)); ("size_", uint_t); ("max_scalar_", TF64)]
    ["bound_"; "max_scalar_"; "size_"; "volumes_den_"; "volumes_alb_"] [].

(** src/volume/volume_constant.cpp:24-33. *)
Definition k_constant_volume : class :=
  mk_class "volume::constant"
    [("bound_", bound_t); ("color_", (TOpt vec3_t)); ("scalar_", (TOpt TF64))]
    ["bound_"] [].

(** src/volume/volume_sphere.cpp:23-34. *)
Definition k_sphere_volume : class :=
  mk_class "volume::sphere"
    [("bound_", bound_t); ("color_", (TOpt vec3_t)); ("scalar_", (TOpt TF64)); ("pos_", vec3_t); ("radius_", TF64)]
    ["bound_"; "pos_"; "radius_"; "color_"; "scalar_"] [].

(** src/volume/volume_gaussian.cpp:24-35. *)
Definition k_gaussian : class :=
  mk_class "volume::gaussian"
    [("bound_", bound_t); ("color_", (TOpt vec3_t)); ("scalar_", (TOpt TF64)); ("pos_", vec3_t); ("sigma_", vec3_t)]
    ["bound_"; "pos_"; "sigma_"; "scalar_"; "color_"] [].

(** src/phase/phase_isotropic.cpp:20. *)
Definition k_isotropic : class :=
  mk_class "phase::isotropic"
    []
    [] [].

(** src/phase/phase_hg.cpp:21-28. *)
Definition k_hg : class :=
  mk_class "phase::hg"
    [("g_", TF64)]
    ["g_"] [].

(** src/texture/texture_constant.cpp:22-30. *)
Definition k_constant_texture : class :=
  mk_class "texture::constant"
    [("color_", vec3_t); ("alpha_", (TOpt TF64))]
    ["color_"] [].

(** src/texture/texture_bitmap.cpp:32-42. *)
Definition k_bitmap : class :=
  mk_class "texture::bitmap"
    [("w_", int_t); ("h_", int_t); ("c_", int_t); ("data_", (TVec float_t))]
    ["w_"; "h_"; "c_"; "data_"] [].

(** src/light/light_envconst.cpp:21-29. *)
Definition k_envconst : class :=
  mk_class "light::envconst"
    [("Le_", vec3_t); ("sphere_bound_", sphere_t)]
    ["Le_"; "sphere_bound_"] [].

(** src/light/light_env.cpp:26-37. *)
Definition k_env : class :=
  mk_class "light::env"
    [("sphere_bound_", sphere_t); ("envmap_", own_t); ("rot_", TF64); ("scale_", TF64); ("dist_", dist2_t)]
    ["sphere_bound_"; "envmap_"; "rot_"; "dist_"] [].

(** src/light/light_point.cpp:22-30. *)
Definition k_point : class :=
  mk_class "light::point"
    [("Le_", vec3_t); ("position_", vec3_t)]
    ["Le_"; "position_"] [].

(** src/light/light_area.cpp:23-33. *)
Definition k_area : class :=
  mk_class "light::area"
    [("Ke_", vec3_t); ("dist_", dist_t); ("invA_", TF64); ("mesh_", ref_t)]
    ["Ke_"; "dist_"; "invA_"; "mesh_"] [].

(** src/light/light_directional.cpp:22-31. *)
Definition k_directional : class :=
  mk_class "light::directional"
    [("sphere_bound_", sphere_t); ("Le_", vec3_t); ("direction_", vec3_t)]
    ["sphere_bound_"; "Le_"; "direction_"] [].

(** src/camera/camera_pinhole.cpp:48-63. *)
Definition k_pinhole : class :=
  mk_class "camera::pinhole"
    [("position_", vec3_t); ("center_", vec3_t); ("up_", vec3_t); ("u_", vec3_t); ("v_", vec3_t); ("w_", vec3_t); ("vfov_", TF64); ("tf_", TF64); ("aspect_", TF64)]
    ["position_"; "center_"; "up_"; "u_"; "v_"; "w_"; "vfov_"; "tf_"; "aspect_"] [].

(** src/scheduler.cpp:18-25. *)
Definition k_spp_sample : class :=
  mk_class "scheduler::spp::sample"
    [("spp_", long_t); ("film_", ref_t)]
    ["spp_"; "film_"] [].

(** src/scheduler.cpp:58-65. *)
Definition k_spp_time : class :=
  mk_class "scheduler::spp::time"
    [("render_time_", TF64); ("film_", ref_t)]
    ["render_time_"; "film_"] [].

(** src/scheduler.cpp:115-121. *)
Definition k_spi_sample : class :=
  mk_class "scheduler::spi::sample"
    [("num_samples_", long_t)]
    ["num_samples_"] [].

(** src/scheduler.cpp:146-153. *)
Definition k_spi_time : class :=
  mk_class "scheduler::spi::time"
    [("render_time_", TF64); ("samples_per_iter_", long_t)]
    ["render_time_"; "samples_per_iter_"] [].

(** src/medium/medium_homogeneous.cpp:26-38. *)
Definition k_homogeneous : class :=
  mk_class "medium::homogeneous"
    [("density_", TF64); ("albedo_", vec3_t); ("muA_", vec3_t); ("muS_", vec3_t); ("phase_", ref_t); ("bound_", bound_t)]
    ["density_"; "muA_"; "muS_"; "phase_"; "bound_"] [].

(** src/medium/medium_heterogeneous.cpp:26-35. *)
Definition k_heterogeneous : class :=
  mk_class "medium::heterogeneous"
    [("volume_density_", ref_t); ("volme_albedo_", ref_t); ("phase_", ref_t)]
    ["volume_density_"; "volme_albedo_"; "phase_"] [].

(** All structures with a serialize member (files above). include/lm/math.h:82-91 and so on. *)
Definition structures : list class :=
  [s_bound; s_sphere; s_dist; s_dist2; s_transform; s_obj_geometry; s_obj_face; s_obj_material; s_light_index; s_node_primitive; s_node_group; s_node; s_flat; s_tri; s_bvh_node; s_raw_face; s_mix_entry; s_mix_group; s_obj_group].

(** All component classes of src/ that are created as assets or as their children (files above). The
    contexts (logger, progress, parallel, objloader) live outside of the hierarchy and the plugins are
    not modelled. src/assetgroup.cpp:14-20 and so on. *)
Definition components : list class :=
  [k_assets; k_scene; k_model_obj; k_mesh_ref; k_mat_obj; k_film; k_blank; k_pt; k_raycast; k_lt; k_volpt_naive; k_volpt; k_pt_naive_path; k_pt_nee_path; k_lt_nee_path; k_bdpt; k_bdptopt; k_mesh_raw; k_mesh_obj; k_bvh; k_diffuse; k_proxy; k_mix_rr; k_mix_marginalized; k_glass; k_mirror; k_glossy; k_mask; k_checker; k_multi; k_constant_volume; k_sphere_volume; k_gaussian; k_isotropic; k_hg; k_constant_texture; k_bitmap; k_envconst; k_env; k_point; k_area; k_directional; k_pinhole; k_spp_sample; k_spp_time; k_spi_sample; k_spi_time; k_homogeneous; k_heterogeneous].

(** Reading a member as a value of a given type.
    No counterpart, for the accessors of src/texture/texture_constant.cpp:42-56. *)
Definition ty_dec (a b : ty) : {a = b} + {a <> b}.
Proof. decide equality; (apply Bool.bool_dec || apply PeanoNat.Nat.eq_dec). Defined.
(** A value as one of the type [t], for src/texture/texture_constant.cpp:42-56. *)
Definition as_type (t : ty) (v : value) : option (den t) :=
  match ty_dec (projT1 v) t with
  | left e => Some (eq_rect (projT1 v) den (projT2 v) t e)
  | right _ => None
  end.
(** A member that is not of the expected type does not occur; the model answers UB.
    Used by [texture_has_alpha]: src/texture/texture_constant.cpp:50-56. *)
Definition read {t} (o : state) (n : string) : outcome (den t) :=
  match as_type t (o n) with Some v => Ok v | None => UB end.
(** *opt for a std::optional: undefined if there is no value.
    src/texture/texture_constant.cpp:55, src/volume/volume_constant.cpp:56-68. *)
Definition deref {A} (v : option A) : outcome A := match v with Some x => Ok x | None => UB end.
(** std::optional::has_value: src/texture/texture_constant.cpp:51. *)
Definition has_value {A} (v : option A) : bool := match v with Some _ => true | None => false end.

(** ** The methods that read members missing from the archive *)

(** src/texture/texture_constant.cpp:50-56. *)
Definition texture_has_alpha (o : state) : outcome bool :=
  obind (@read (TOpt TF64) o "alpha_") (fun a => Ok (has_value a)).
(** src/texture/texture_constant.cpp:54-56. *)
Definition texture_eval_alpha (o : state) : outcome Z := obind (@read (TOpt TF64) o "alpha_") deref.
(** src/texture/texture_constant.cpp:42-48. *)
Definition texture_eval (o : state) : outcome (list Z) := @read vec3_t o "color_".

(** src/volume/volume_constant.cpp:48-66. *)
Definition volume_has_scalar (o : state) : outcome bool :=
  obind (@read (TOpt TF64) o "scalar_") (fun a => Ok (has_value a)).
(** src/volume/volume_constant.cpp:55-57. *)
Definition volume_max_scalar (o : state) : outcome Z := obind (@read (TOpt TF64) o "scalar_") deref.
(** src/volume/volume_constant.cpp:63-65. *)
Definition volume_has_color (o : state) : outcome bool :=
  obind (@read (TOpt vec3_t) o "color_") (fun a => Ok (has_value a)).
(** src/volume/volume_constant.cpp:67-69. *)
Definition volume_eval_color (o : state) : outcome (list Z) := obind (@read (TOpt vec3_t) o "color_") deref.

(** src/scene.cpp:252-254. *)
Definition medium_node (o : state) : outcome Z :=
  obind (@read (TOpt int_t) o "medium_") (fun m => Ok match m with Some i => i | None => (-1)%Z end).

(** src/renderer/renderer_raycast.cpp:88: the color of a surface of the given reflectance. *)
Definition raycast_color (o : state) (reflectance : option (list Z)) : outcome (option (list Z)) :=
  obind (@read (TOpt vec3_t) o "color_") (fun c =>
    Ok match c with Some v => Some v | None => reflectance end).

(** src/renderer/renderer_pt.cpp:91, renderer_volpt.cpp:69 and others: the seed of a thread's generator;
    [None] stands for math::rng_seed(), a number from the device. *)
Definition thread_seed (o : state) (thread : Z) : outcome (option Z) :=
  obind (@read (TOpt uint_t) o "seed_") (fun s => Ok (option_map (fun s => (s + thread) mod 2 ^ 32)%Z s)).

(** src/light/light_env.cpp:201: the factor applied to the environment map. *)
Definition env_scale (o : state) : outcome Z := @read TF64 o "scale_".
(** src/medium/medium_homogeneous.cpp:71-77: the weight of a medium event. *)
Definition event_weight (o : state) : outcome (list Z) := @read vec3_t o "albedo_".
(** src/renderer/renderer_pt.cpp:97-111: does a sample stay in its pixel? (enumerator 0 is Pixel, 1 Image) *)
Definition per_pixel (o : state) : outcome bool :=
  obind (@read int_t o "primary_ray_sampling_mode_") (fun m => Ok (Z.eqb m 0)).
