(** Model of the scene graph (src/scene.cpp, include/lm/scene.h, include/lm/scenenode.h). *)
From Coq Require Import List String ZArith Bool.
From Verif Require Import Base JsonModel.
Import ListNotations.
Open Scope string_scope. Open Scope list_scope.

(** include/lm/scenenode.h:69-82: pointers to assets, None is nullptr; assets are numbered. *)
Record prim := mk_prim { p_mesh : option nat; p_material : option nat; p_light : option nat; p_camera : option nat; p_medium : option nat }.

(** include/lm/scenenode.h:62-148 SceneNode, by its type tag. The members that belong to the other type
    are never read and are left out (serialization of them is in FieldsModel). [M] is Mat4. *)
Inductive node (M : Type) :=
| NPrim (index : Z) (p : prim)
| NGroup (index : Z) (children : list Z) (instanced : bool) (local : option M).
Arguments NPrim {M} index p. Arguments NGroup {M} index children instanced local.

(** node.index: include/lm/scenenode.h:62-148. *)
Definition n_index {M} (n : node M) : Z := match n with NPrim i _ => i | NGroup i _ _ _ => i end.

(** nodes_.at(i): std::out_of_range unless 0 <= i < size. Used by [visit]: src/scene.cpp:216-230. *)
Definition node_at {M} (ns : list (node M)) (i : Z) : outcome (node M) :=
  if (i <? 0)%Z then Throw ErrOutOfRange
  else match nth_error ns (Z.to_nat i) with Some n => Ok n | None => Throw ErrOutOfRange end.

(** Replacing the element at position [i]. nodes_[i] = ...: src/scene.cpp:143-156. *)
Fixpoint put {A} (l : list A) (i : nat) (x : A) : list A :=
  match l, i with
  | [], _ => []
  | _ :: r, O => x :: r
  | y :: r, S i' => y :: put r i' x
  end.

(** src/scene.cpp:20-28, plus [logged]: the number of error messages written by LM_ERROR. The sizes of
    vectors are not limited to the range of int. *)
Record scene (M : Type) := mk_scene {
  s_accel : option nat;
  s_nodes : list (node M);
  s_camera : option Z;
  s_lights : list (M * Z);
  s_lmap : list (Z * Z);
  s_env : option Z;
  s_medium : option Z;
  logged : nat }.
Arguments mk_scene {M} _ _ _ _ _ _ _ _.
Arguments s_accel {M} _. Arguments s_nodes {M} _. Arguments s_camera {M} _. Arguments s_lights {M} _.
Arguments s_lmap {M} _. Arguments s_env {M} _. Arguments s_medium {M} _. Arguments logged {M} _.

(** The interfaces an asset may have (dynamic_cast). Used by [get_as]: include/lm/component.h:508-510. *)
Inductive kind := KMesh | KMaterial | KLight | KCamera | KMedium | KModel | KAccel.

Section W.
  Context {M F : Type}.
  Variable one : M.
  Variable mul : M -> M -> M.
  Notation scene := (scene M).
  Notation node := (node M).

  (** The assets around the scene. [get]: comp::get<Component>. [is_kind k c]: dynamic_cast succeeds.
      [is_env]: Light::is_env. [prims m]: the calls Model::create_primitives makes to its callback and
      the exception it ends with, if any. [mnodes m]: the same for Model::foreach_node. *)
  Variable get : string -> outcome (option nat).
  Variable is_kind : kind -> nat -> bool.
  Variable is_env : nat -> bool.
  Variable prims : nat -> list (option nat * option nat * option nat) * option error.
  Variable mnodes : nat -> list node * option error.

  (** dynamic_cast: include/lm/component.h:508-510. *)
  Definition cast (k : kind) (c : option nat) : option nat :=
    match c with Some i => if is_kind k i then Some i else None | None => None end.

  (** comp::get<T> (include/lm/component.h:508-510) *)
  Definition get_as (k : kind) (loc : string) : outcome (option nat) := obind (get loc) (fun c => Ok (cast k c)).

  (** Assignment to nodes_: src/scene.cpp:20-28. *)
  Definition set_nodes (s : scene) (ns : list node) : scene :=
    mk_scene (s_accel s) ns (s_camera s) (s_lights s) (s_lmap s) (s_env s) (s_medium s) (logged s).
  (** nodes_.push_back: src/scene.cpp:72-141. *)
  Definition push (s : scene) (n : node) : scene := set_nodes s (s_nodes s ++ [n]).
  (** Assignment to camera_: src/scene.cpp:72-129. *)
  Definition set_camera (s : scene) (c : option Z) : scene :=
    mk_scene (s_accel s) (s_nodes s) c (s_lights s) (s_lmap s) (s_env s) (s_medium s) (logged s).
  (** Assignment to env_light_: src/scene.cpp:72-129. *)
  Definition set_env (s : scene) (c : option Z) : scene :=
    mk_scene (s_accel s) (s_nodes s) (s_camera s) (s_lights s) (s_lmap s) c (s_medium s) (logged s).
  (** Assignment to medium_: src/scene.cpp:72-129. *)
  Definition set_medium (s : scene) (c : option Z) : scene :=
    mk_scene (s_accel s) (s_nodes s) (s_camera s) (s_lights s) (s_lmap s) (s_env s) c (logged s).
  (** Assignment to lights_ and light_indices_map_: src/scene.cpp:274-290. *)
  Definition set_lights (s : scene) (l : list (M * Z)) (m : list (Z * Z)) : scene :=
    mk_scene (s_accel s) (s_nodes s) (s_camera s) l m (s_env s) (s_medium s) (logged s).
  (** LM_ERROR: src/scene.cpp:143-156. *)
  Definition log_error (s : scene) : scene :=
    mk_scene (s_accel s) (s_nodes s) (s_camera s) (s_lights s) (s_lmap s) (s_env s) (s_medium s) (S (logged s)).

  (** nodes_.size(): src/scene.cpp:72-141. *)
  Definition size (s : scene) : Z := Z.of_nat (List.length (s_nodes s)).

  (** src/scene.cpp:54-62 reset, 48-51 construct *)
  Definition reset (s : scene) : scene := mk_scene (s_accel s) [NGroup 0 [] false None] None [] [] None None (logged s).
  (** src/scene.cpp:48-51. *)
  Definition construct (accel : option nat) : scene := reset (mk_scene accel [] None [] [] None None 0).

  (** src/scene.cpp:74-80 get_asset_ref_by: .get<std::string>() raises for non-strings. *)
  Definition asset_ref (prop : json F) (name : string) : outcome (option nat) :=
    match jfind name prop with
    | None => Ok None
    | Some (JStr loc) => get loc
    | Some _ => Throw ErrJsonType
    end.

  (** A pointer that is not null: src/scene.cpp:72-129. *)
  Definition isS {A} (o : option A) : bool := match o with Some _ => true | None => false end.

  (** src/scene.cpp:72-129. The state after the call is returned also when the call raises. *)
  Definition create_primitive_node (prop : json F) (s : scene) : outcome Z * scene :=
    let index := size s in
    match
      obind (asset_ref prop "mesh") (fun mesh =>
      obind (asset_ref prop "material") (fun material =>
      obind (asset_ref prop "light") (fun light =>
      obind (asset_ref prop "camera") (fun camera =>
      obind (asset_ref prop "medium") (fun medium =>
      Ok (mk_prim (cast KMesh mesh) (cast KMaterial material) (cast KLight light) (cast KCamera camera) (cast KMedium medium)))))))
    with
    | Throw e => (Throw e, s) | UB => (UB, s) | Fuel => (Fuel, s)
    | Ok p =>
      if negb (isS (p_mesh p)) && negb (isS (p_material p)) && negb (isS (p_light p)) && negb (isS (p_camera p)) && negb (isS (p_medium p))
      then (Throw ErrInvalidArgument, s)
      else if isS (p_camera p) && isS (p_light p) then (Throw ErrInvalidArgument, s)
      else if (negb (isS (p_mesh p)) && isS (p_material p)) || (isS (p_mesh p) && negb (isS (p_material p)))
      then (Throw ErrInvalidArgument, s)
      else
        let s := if isS (p_camera p) then set_camera s (Some index) else s in
        match
          match p_light p with
          | Some l => if is_env l then match s_env s with Some _ => None | None => Some (set_env s (Some index)) end else Some s
          | None => Some s
          end
        with
        | None => (Throw ErrInvalidArgument, s)
        | Some s =>
            let s := if isS (p_medium p) then set_medium s (Some index) else s in
            (Ok index, push s (NPrim index p))
        end
    end.

  (** src/scene.cpp:131-135, 137-141 *)
  Definition create_group_node (transform : M) (s : scene) : Z * scene :=
    (size s, push s (NGroup (size s) [] false (Some transform))).
  (** src/scene.cpp:137-141. *)
  Definition create_instance_group_node (s : scene) : Z * scene :=
    (size s, push s (NGroup (size s) [] true None)).

  (** src/scene.cpp:143-156: wrong parents are only logged; the child is not looked at. *)
  Definition add_child (parent child : Z) (s : scene) : scene :=
    if (parent <? 0)%Z || (size s <=? parent)%Z then log_error s
    else match nth_error (s_nodes s) (Z.to_nat parent) with
         | Some (NGroup i ch inst loc) => set_nodes s (put (s_nodes s) (Z.to_nat parent) (NGroup i (ch ++ [child]) inst loc))
         | _ => log_error s
         end.

  (** src/scene.cpp:169-179 *)
  Fixpoint add_prims (parent : Z) (l : list (option nat * option nat * option nat)) (s : scene) : scene :=
    match l with
    | [] => s
    | (mesh, material, light) :: r =>
        let index := size s in
        let s := push s (NPrim index (mk_prim (cast KMesh mesh) (cast KMaterial material) (cast KLight light) None None)) in
        add_prims parent r (add_child parent index s)
    end.

  (** src/scene.cpp:158-180 *)
  Definition add_child_from_model (parent : Z) (loc : string) (s : scene) : outcome unit * scene :=
    if (parent <? 0)%Z || (size s <=? parent)%Z then (Ok tt, log_error s)
    else match get_as KModel loc with
         | Ok None => (Ok tt, s)
         | Ok (Some m) =>
             let (l, e) := prims m in
             (match e with None => Ok tt | Some e => Throw e end, add_prims parent l s)
         | Throw e => (Throw e, s) | UB => (UB, s) | Fuel => (Fuel, s)
         end.

  (** src/scene.cpp:195-211: one model node *)
  Definition shift_node (off : Z) (n : node) : node :=
    match n with
    | NPrim i p => NPrim (i + off) p
    | NGroup i ch inst loc => NGroup (i + off) (map (fun c => (c + off)%Z) ch) inst loc
    end.
  (** src/scene.cpp:182-214: one node of the model. *)
  Definition import_node (off : Z) (s : scene) (n : node) : scene :=
    let n' := shift_node off n in
    let s := push s n' in
    match n' with
    | NPrim i p => if isS (p_camera p) then set_camera s (Some i) else s
    | NGroup _ _ _ _ => s
    end.

  (** src/scene.cpp:182-214 *)
  Definition create_group_from_model (loc : string) (s : scene) : outcome Z * scene :=
    match get_as KModel loc with
    | Ok None => (Ok (-1)%Z, log_error s)
    | Ok (Some m) =>
        let (l, e) := mnodes m in
        (match e with None => Ok (size s) | Some e => Throw e end, fold_left (import_node (size s)) l s)
    | Throw e => (Throw e, s) | UB => (UB, s) | Fuel => (Fuel, s)
    end.

  (** include/lm/scene.h:147-156. prop["model"] converts to std::string. *)
  Definition add_transformed_primitive (transform : M) (prop : json F) (s : scene) : outcome unit * scene :=
    let (t, s) := create_group_node transform s in
    match
      match jfind "model" prop with
      | Some (JStr loc) => add_child_from_model t loc s
      | Some _ => (Throw ErrJsonType, s)
      | None =>
          match create_primitive_node prop s with
          | (Ok i, s) => (Ok tt, add_child t i s)
          | (Throw e, s) => (Throw e, s) | (UB, s) => (UB, s) | (Fuel, s) => (Fuel, s)
          end
      end
    with
    | (Ok _, s) => (Ok tt, add_child 0 t s)
    | r => r
    end.

  (** src/scene.cpp:216-230: the calls of the visitor in order, and how the traversal ends. [fuel]
      bounds the recursion depth; the visitor itself is assumed not to raise. Recursion without end is
      [Fuel]. *)
  Fixpoint visit (ns : list node) (fuel : nat) (index : Z) (T : M) {struct fuel} : list (node * M) * outcome unit :=
    match fuel with
    | O => ([], Fuel)
    | S f =>
        match node_at ns index with
        | Ok (NPrim i p) => ([(NPrim i p, T)], Ok tt)
        | Ok (NGroup i ch inst loc) =>
            let T' := match loc with Some L => mul T L | None => T end in
            let r := (fix children (l : list Z) : list (node * M) * outcome unit :=
                match l with
                | [] => ([], Ok tt)
                | c :: r =>
                    let a := visit ns f c T' in
                    match snd a with
                    | Ok _ => let b := children r in (fst a ++ fst b, snd b)
                    | e => (fst a, e)
                    end
                end) ch in
            ((NGroup i ch inst loc, T) :: fst r, snd r)
        | Throw e => ([], Throw e) | UB => ([], UB) | Fuel => ([], Fuel)
        end
    end.
  (** src/scene.cpp:216-230: from the root. *)
  Definition traverse (fuel : nat) (s : scene) : list (node * M) * outcome unit := visit (s_nodes s) fuel 0 one.

  (** light_indices_map_[k] = v. src/scene.cpp:281-286. *)
  Fixpoint zset (k v : Z) (m : list (Z * Z)) : list (Z * Z) :=
    match m with
    | [] => [(k, v)]
    | (k', v') :: r => if (k =? k')%Z then (k, v) :: r else (k', v') :: zset k v r
    end.
  (** light_indices_map_.at: src/scene.cpp:393-395. *)
  Fixpoint zfind (k : Z) (m : list (Z * Z)) : option Z :=
    match m with [] => None | (k', v) :: r => if (k =? k')%Z then Some v else zfind k r end.

  (** src/scene.cpp:281-286: the visitor that collects the lights *)
  Definition collect (acc : list (M * Z) * list (Z * Z)) (c : node * M) : list (M * Z) * list (Z * Z) :=
    match c with
    | (NPrim i p, T) =>
        if isS (p_light p) then (fst acc ++ [(T, i)], zset i (Z.of_nat (List.length (fst acc))) (snd acc)) else acc
    | _ => acc
    end.

  (** src/scene.cpp:274-317 build. The scene bound and what the acceleration structure does are not
      modelled here; a missing acceleration structure is a null dereference. *)
  Definition build (fuel : nat) (s : scene) : outcome unit * scene :=
    let (calls, e) := traverse fuel s in
    let r := fold_left collect calls ([], []) in
    let s := set_lights s (fst r) (snd r) in
    (obind e (fun _ => match s_accel s with Some _ => Ok tt | None => UB end), s).

  (** src/scene.cpp:270-272 *)
  Definition set_accel (loc : string) (s : scene) : outcome unit * scene :=
    match get_as KAccel loc with
    | Ok a => (Ok tt, mk_scene a (s_nodes s) (s_camera s) (s_lights s) (s_lmap s) (s_env s) (s_medium s) (logged s))
    | Throw e => (Throw e, s) | UB => (UB, s) | Fuel => (Fuel, s)
    end.

  (** src/scene.cpp:236-258, 389-395 *)
  Definition camera_node (s : scene) : Z := match s_camera s with Some i => i | None => -1 end.
  (** src/scene.cpp:244-246. *)
  Definition env_light_node (s : scene) : Z := match s_env s with Some i => i | None => -1 end.
  (** src/scene.cpp:252-254. *)
  Definition medium_node (s : scene) : Z := match s_medium s with Some i => i | None => -1 end.
  (** src/scene.cpp:256-258. *)
  Definition num_lights (s : scene) : Z := Z.of_nat (List.length (s_lights s)).
  (** src/scene.cpp:389-391. *)
  Definition light_primitive_index_at (s : scene) (i : Z) : outcome (M * Z) :=
    if (i <? 0)%Z then Throw ErrOutOfRange
    else match nth_error (s_lights s) (Z.to_nat i) with Some l => Ok l | None => Throw ErrOutOfRange end.
  (** src/scene.cpp:393-395. *)
  Definition light_index_at (s : scene) (n : Z) : outcome Z :=
    match zfind n (s_lmap s) with Some i => Ok i | None => Throw ErrOutOfRange end.

  (** include/lm/scene.h:247-300 *)
  Definition require_renderable (s : scene) : outcome unit :=
    if negb (1 <? size s)%Z then Throw ErrUnsupported
    else if (camera_node s =? -1)%Z then Throw ErrUnsupported
    else if negb (0 <? num_lights s)%Z then Throw ErrUnsupported
    else match s_accel s with Some _ => Ok tt | None => Throw ErrUnsupported end.

  (** include/lm/scene.h:237-239 *)
  Definition camera (s : scene) : outcome (option nat) :=
    obind (node_at (s_nodes s) (camera_node s)) (fun n => match n with NPrim _ p => Ok (p_camera p) | NGroup _ _ _ _ => Ok None end).

  (** ** Histories of calls. Calls of the members of src/scene.cpp:54-317. *)
  Inductive op :=
  | OReset | OPrim (prop : json F) | OGroup (t : M) | OInstance | OChild (p c : Z) | OChildModel (p : Z) (loc : string)
  | OGroupModel (loc : string) | OAdd (t : M) (prop : json F) | OBuild (fuel : nat) | OAccel (loc : string).

  (** src/scene.cpp:54-317. *)
  Definition apply (s : scene) (o : op) : scene :=
    match o with
    | OReset => reset s
    | OPrim p => snd (create_primitive_node p s)
    | OGroup t => snd (create_group_node t s)
    | OInstance => snd (create_instance_group_node s)
    | OChild p c => add_child p c s
    | OChildModel p l => snd (add_child_from_model p l s)
    | OGroupModel l => snd (create_group_from_model l s)
    | OAdd t p => snd (add_transformed_primitive t p s)
    | OBuild f => snd (build f s)
    | OAccel l => snd (set_accel l s)
    end.
  (** A history of calls of src/scene.cpp:54-317. *)
  Definition run (accel : option nat) (h : list op) : scene := fold_left apply h (construct accel).
End W.
