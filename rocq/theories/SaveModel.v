(** The name queries of the components that own other components (Component::underlying). *)
From Coq Require Import List String ZArith Bool.
From Verif Require Import Base Assoc CodecModel SerialModel.
Import ListNotations.
Open Scope string_scope. Open Scope list_scope.

(** A list of fields as the archive sees them: pairs nested to the right, ended by a unit. Field number [k]
    is at position DR^k DL. include/lm/serial.h:433-436. *)
Definition fields (l : list body) : body := fold_right BPair BUnit l.
(** Helper of [class_select]: src/assetgroup.cpp:28-35, src/model/model_wavefrontobj.cpp:70-72, src/model/model_wavefrontobj.cpp:356-362 and so on. *)
Definition field (k : nat) : list dir := repeat DR k ++ [DL].
(** Element number [i] of the vector in field [k].
    Used by [class_select]: src/assetgroup.cpp:28-35, src/model/model_wavefrontobj.cpp:70-72, src/model/model_wavefrontobj.cpp:356-362 and so on. *)
Definition element (k i : nat) : list dir := field k ++ DVec :: repeat DR i ++ [DL].

(** The map from names to indices in field [k]: std::unordered_map<std::string, int>.
    Used by [class_select]: src/assetgroup.cpp:28-35, src/model/model_wavefrontobj.cpp:70-72, src/model/model_wavefrontobj.cpp:356-362 and so on. *)
Definition index_in (k : nat) (b : body) (n : string) : option Z :=
  match sub_at b (field k) with
  | Some (BVal (TMapS (TInt 4 true)) m) => alookup n m
  | _ => None
  end.

(** Component::underlying by class. [erase b] are the fields of the component.
    - asset_group::default: src/assetgroup.cpp:28-35, fields (asset_index_map_, assets_), line 19;
    - model::wavefrontobj: src/model/model_wavefrontobj.cpp:70-72, fields (geo_, groups_, assets_map_, assets_),
      line 60: std::unordered_map::at throws std::out_of_range for an unknown name;
    - material::mixture_wavefrontobj: src/model/model_wavefrontobj.cpp:356-362, fields (diffuse_, glossy_,
      mask_tex_), line 347;
    - renderer::raycast: src/renderer/renderer_raycast.cpp:40-45, fields (scene_, film_, bg_color_,
      use_constant_color_, visualize_normal_, sched_), line 31;
    - light::env: src/light/light_env.cpp:43-48, fields (sphere_bound_, envmap_, rot_, dist_), line 36;
    - everything else: include/lm/component.h:252, null. This covers renderer::pt, renderer::lt,
      renderer::volpt and renderer::volpt_naive, which own a scheduler.
    material::diffuse answers "mapKd" with a weak pointer (src/material/material_diffuse.cpp:43-48), which is
    not modelled here. The bidirectional renderers are not serialised and are left out. *)
Definition class_select (key : string) (b : body) (n : string) : outcome (option (list dir)) :=
  if String.eqb key "asset_group::default" then
    Ok (option_map (fun i => element 1 (Z.to_nat i)) (index_in 0 b n))
  else if String.eqb key "model::wavefrontobj" then
    match index_in 2 b n with
    | Some i => Ok (Some (element 3 (Z.to_nat i)))
    | None => Throw ErrOutOfRange
    end
  else if String.eqb key "material::mixture_wavefrontobj" then
    Ok (if String.eqb n "diffuse" then Some (field 0) else if String.eqb n "glossy" then Some (field 1) else None)
  else if String.eqb key "renderer::raycast" then
    Ok (if String.eqb n "scheduler" then Some (field 5) else None)
  else if String.eqb key "light::env" then
    Ok (if String.eqb n "envmap" then Some (field 1) else None)
  else Ok None.
