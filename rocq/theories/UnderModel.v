(** What each component reports of the pointers it keeps: the foreach_underlying members of src/ over the
    members of ClassModel. Simplifications: a pointer is represented by the locator of its component, null
    is [None] (as in ClassModel); the dynamic_cast to the member's interface after a visit
    (include/lm/component.h:549) is in AssetModel. *)
From Coq Require Import List String ZArith Bool.
From Verif Require Import Base CodecModel ClassModel.
Import ListNotations.
Open Scope string_scope. Open Scope list_scope.

(** include/lm/component.h:246-266 [ComponentVisitor]: called with a pointer it may change and whether the
    pointer is weak. What it leaves in the pointer may depend on both. *)
Definition visitor := option string -> bool -> option string.
(** The calls made, in order. Used by [visit_weak]: include/lm/component.h:543-550. *)
Definition calls := list (option string * bool).
(** What foreach_underlying does, given the calls made so far: include/lm/component.h:266. *)
Definition action := state -> state * calls.
(** No call: include/lm/component.h:266. *)
Definition skip : action := fun o => (o, []).
(** Helper of [scene_under]: src/scene.cpp:35-45. *)
Definition both (a b : action) : action := fun o => let (o1, l1) := a o in let (o2, l2) := b o1 in (o2, l1 ++ l2).

(** include/lm/component.h:543-550 [comp::visit] on a weak reference: the pointer is written back. *)
Definition visit_weak (f : visitor) (p : option string) : option string * calls := (f p true, [(p, true)]).
(** include/lm/component.h:557-562 [comp::visit] on a unique pointer: the change is dropped. *)
Definition visit_owned (f : visitor) (p : option string) : option string * calls := (p, [(p, false)]).

(** A range-based for over a vector of elements.
    Used by [all_assets]: src/assetgroup.cpp:22-26, src/model/model_wavefrontobj.cpp:63-67. *)
Fixpoint each {A} (g : A -> A * calls) (l : list A) : list A * calls :=
  match l with
  | [] => ([], [])
  | a :: l' => let (a', c) := g a in let (r, d) := each g l' in (a' :: r, c ++ d)
  end.

(** A visit of (part of) the member [n] of type [t].
    Used by [all_assets]: src/assetgroup.cpp:22-26, src/model/model_wavefrontobj.cpp:63-67. *)
Definition at_member (n : string) (t : ty) (g : den t -> den t * calls) : action := fun o =>
  match as_type t (o n) with
  | Some x => let (y, l) := g x in (set o n (existT den t y), l)
  | None => (o, [])
  end.
(** Helper of [scene_under]: src/scene.cpp:35-45. *)
Definition weak (f : visitor) (n : string) : action := at_member n ref_t (visit_weak f).
(** Helper of [renderer_under]: src/renderer/renderer_pt.cpp:44-48, src/renderer/renderer_raycast.cpp:34-38, src/renderer/renderer_lt.cpp:31-35 and so on. *)
Definition owned (f : visitor) (n : string) : action := at_member n own_t (visit_owned f).

(** src/assetgroup.cpp:22-26 and src/model/model_wavefrontobj.cpp:63-67. *)
Definition all_assets (f : visitor) : action := at_member "assets_" (TVec own_t) (each (visit_owned f)).

(** src/scene.cpp:37-44: one node. SceneNodeType::Primitive is 0 (include/lm/scenenode.h:27-30). *)
Definition visit_node (f : visitor) (n : den node_t) : den node_t * calls :=
  match (n : Z * (Z * ((option string * (option string * (option string * (option string * (option string * unit))))) * den (TPair group_t TUnit)))) with
  | (ty, (ix, ((mesh, (material, (light, (camera, medium)))), rest))) =>
      if (ty =? 0)%Z then
        let (mesh, l1) := visit_weak f mesh in
        let (material, l2) := visit_weak f material in
        let (light, l3) := visit_weak f light in
        let (camera, l4) := visit_weak f camera in
        ((ty, (ix, ((mesh, (material, (light, (camera, medium)))), rest))), l1 ++ l2 ++ l3 ++ l4)
      else (n, [])
  end.
(** src/scene.cpp:35-45. *)
Definition scene_under (f : visitor) : action :=
  both (weak f "accel_") (at_member "nodes_" (TVec node_t) (each (visit_node f))).

(** src/material/material_mixture.cpp:44-46 and 149-151: the material of an entry. *)
Definition visit_entry (f : visitor) (e : den entry_t) : den entry_t * calls :=
  match (e : option string * (Z * unit)) with (m, w) => let (m, l) := visit_weak f m in ((m, w), l) end.
(** src/material/material_mixture.cpp:148-152: a group. *)
Definition visit_group (f : visitor) (g : den mix_group_t) : den mix_group_t * calls :=
  match (g : list (den entry_t) * (den dist_t * unit)) with (es, d) => let (es, l) := each (visit_entry f) es in ((es, d), l) end.

(** The renderers that report their references: src/renderer/renderer_pt.cpp:44-48, renderer_raycast.cpp:34-38,
    renderer_lt.cpp:31-35, renderer_volpt.cpp:33-37. *)
Definition renderer_under (f : visitor) : action := both (weak f "scene_") (both (weak f "film_") (owned f "sched_")).

(** The dynamic dispatch of foreach_underlying. Classes that are not named have the empty implementation
    of include/lm/component.h:266. *)
Definition foreach_underlying (c : class) (f : visitor) : action :=
  let is k := String.eqb (key c) k in
  if is "asset_group::default" || is "model::wavefrontobj" then all_assets f
  else if is "scene::default" then scene_under f
  else if is "mesh::wavefrontobj_ref" then weak f "model_"                       (* model_wavefrontobj.cpp:270-272 *)
  else if is "material::mixture_wavefrontobj" then                               (* model_wavefrontobj.cpp:350-354 *)
    both (owned f "diffuse_") (both (owned f "glossy_") (weak f "mask_tex_"))
  else if is "renderer::blank" then weak f "film_"                               (* renderer_blank.cpp:24-26 *)
  else if is "renderer::pt" || is "renderer::raycast" || is "renderer::lt"
       || is "renderer::volpt_naive" || is "renderer::volpt" then renderer_under f
  else if is "material::diffuse" then weak f "mapKd_"                            (* material_diffuse.cpp:50-52 *)
  else if is "material::proxy" then weak f "ref_"                                (* material_proxy.cpp:34-36 *)
  else if is "material::constant_weight_mixture_rr" then                         (* material_mixture.cpp:43-47 *)
    at_member "materials_" (TVec entry_t) (each (visit_entry f))
  else if is "material::constant_weight_mixture_marginalized" then               (* material_mixture.cpp:147-153 *)
    at_member "material_groups_" (TVec mix_group_t) (each (visit_group f))
  else if is "light::env" then owned f "envmap_"                                 (* light_env.cpp:39-41 *)
  else if is "light::area" then weak f "mesh_"                                   (* light_area.cpp:35-37 *)
  else if is "scheduler::spp::sample" || is "scheduler::spp::time" then weak f "film_" (* scheduler.cpp:27-29, 67-69 *)
  else skip.
