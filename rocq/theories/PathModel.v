(** Model of the path functions (include/lm/path.h): sampling and evaluation dispatched over the scene.
    Float is the reals. The scene is that of SceneModel; the assets its primitives refer to by number are
    given by tables. Distances and transmittance (path.h:586-675) are in VisModel. *)
From Coq Require Import List Reals ZArith Bool.
From Verif Require Import Base RBase SceneModel SelectModel VecBase GeoModel SurfModel MatModel CamModel LightModel PhaseModel.
Import ListNotations.
Open Scope R_scope.

(** A result: an exception or undefined behaviour of the dispatch, or a result of the component called.
    include/lm/path.h:85-640. *)
Definition pm (A : Type) : Type := outcome (fl A).
(** One computation after another, for include/lm/path.h:85-640. *)
Definition pbind {A B} (x : pm A) (f : A -> pm B) : pm B :=
  match x with Ok (Val a) => f a | Ok NonFinite => Ok NonFinite | Ok Undefined => Ok Undefined | Throw e => Throw e | UB => UB | Fuel => Fuel end.
Notation "'let!' x := e 'in' f" := (pbind e (fun x => f)) (at level 200, x pattern, e at level 100, f at level 200).
Notation "'get!' x := e 'in' f" := (obind e (fun x => f)) (at level 200, x pattern, e at level 100, f at level 200).
(** A value returned, for include/lm/path.h:85-640. *)
Definition ret {A} (a : A) : pm A := Ok (Val a).

(** include/lm/surface.h:211-305. The type 0 (None) is not produced by any function and left out. The
    members of the geometry are those of [geom] and, for surface points, the texture coordinates. *)
Inductive itype := CameraEndpoint | LightEndpoint | SurfaceInteraction | MediumInteraction.
(** include/lm/surface.h:211-236. *)
Record interaction := mk_sp { it : itype; iprim : Z; igeom : geom; itc : vec2 }.
(** surface.h:238-242 *)
Definition as_type (x : interaction) (t : itype) : interaction := mk_sp t (iprim x) (igeom x) (itc x).
(** 272-278, 285-291 and, for a degenerated point, 259-265. Texture coordinates of these are not read. *)
Definition endpoint (t : itype) (i : Z) (g : geom) : interaction := mk_sp t i g (V2 0 0).
(** The surface point a material is called with; at other points it would read uninitialised members.
    Used by [sample_component]: include/lm/path.h:193-200. *)
Definition spoint_of (x : interaction) : fl spoint := match igeom x with OnSurface s => Val (mk_spoint s (itc x)) | _ => Undefined end.

(** path.h:50-66: random numbers for rays, and a ray sample with the position its end point has. *)
Record ray_u := mk_u { u_p : vec2; u_pc : vec2; u_d : vec2 }.
(** include/lm/path.h:26-36: RaySample. *)
Record path_ray := mk_path_ray { pr_sp : interaction; pr_origin : vec3; pr_wo : vec3; pr_weight : vec3 }.

Section P.
  Context {M : Type}.
  Variable tr : M -> transform.
  Variable mat : nat -> material.
  Variable lgt : nat -> light.
  Variable cam : nat -> camera.
  Variable pha : nat -> phase.

  (** scene->node_at(i).primitive; for a group all pointers are null (include/lm/scenenode.h:69-82). *)
  Definition prim_at (s : scene M) (i : Z) : outcome prim :=
    get! n := node_at (s_nodes s) i in
    Ok (match n with NPrim _ p => p | NGroup _ _ _ _ => mk_prim None None None None None end).
  (** Calls through the pointers of a primitive: a null pointer is undefined behaviour.
      Used by [sample_primary_ray]: include/lm/path.h:85-120. *)
  Definition deref {A} (t : nat -> A) (o : option nat) : outcome A := match o with Some k => Ok (t k) | None => UB end.
  (** A function of a component that is not supported raises: include/lm/light.h, include/lm/camera.h, as called in include/lm/path.h:267-300. *)
  Definition unsupported {A} (o : option A) : outcome A := match o with Some a => Ok a | None => Throw ErrUnsupported end.

  (** scene.cpp:374-391 on the scene: transform and node of the selected light, and the probability *)
  Definition select_light (s : scene M) (u : R) : outcome (transform * Z * fl R) :=
    let '(i, p) := sample_light_selection (length (s_lights s)) u in
    get! l := light_primitive_index_at s i in Ok (tr (fst l), snd l, of_num p).
  (** The transform and the probability of the light at a node: light_index_at, light_primitive_index_at
      and pdf_light_selection, as called in path.h:155-157, 337-339, 574-576 *)
  Definition find_light (s : scene M) (node : Z) : outcome (transform * fl R) :=
    get! i := light_index_at s node in
    get! l := light_primitive_index_at s i in
    Ok (tr (fst l), of_num (pdf_light_selection (length (s_lights s)) i)).

  (** path.h:85-120 *)
  Definition sample_primary_ray (u : ray_u) (s : scene M) (d : trans_dir) : pm (option path_ray) :=
    match d with
    | EL =>
        get! p := prim_at s (camera_node s) in get! k := deref cam (p_camera p) in
        let! r := Ok (cam_sample_ray k (u_d u)) in
        match r with
        | None => ret None
        | Some r => ret (Some (mk_path_ray (endpoint CameraEndpoint (camera_node s) (r_geom r)) (pos_of (r_geom r)) (r_wo r) (r_weight r)))
        end
    | LE =>
        get! (T, n, p_sel) := select_light s (v2x (u_pc u)) in
        get! p := prim_at s n in get! l := deref lgt (p_light p) in
        let! r := Ok (l_sample_ray l (u_p u) (v2y (u_pc u)) (u_d u) T) in
        match r with
        | None => ret None
        | Some (r, o) => let! q := Ok p_sel in let! w := Ok (vdiv (r_weight r) q) in
                         ret (Some (mk_path_ray (endpoint LightEndpoint n (r_geom r)) o (r_wo r) w))
        end
    end.
  (** path.h:149-162 *)
  Definition pdf_primary_ray (s : scene M) (x : interaction) (wo : vec3) (delta : bool) : pm R :=
    get! p := prim_at s (iprim x) in
    match it x with
    | CameraEndpoint => get! k := deref cam (p_camera p) in Ok (cam_pdf_ray k wo)
    | LightEndpoint =>
        get! (T, p_sel) := find_light s (iprim x) in
        get! l := deref lgt (p_light p) in
        let! a := Ok p_sel in let! b := Ok (l_pdf_ray l (igeom x) wo T delta) in ret (a * b)
    | _ => UB
    end.

  (** path.h:193-200; [uc] is the first component of the random numbers *)
  Definition sample_component (uc : R) (s : scene M) (x : interaction) (wi : vec3) : pm (Z * R) :=
    match it x with
    | SurfaceInteraction =>
        get! p := prim_at s (iprim x) in get! m := deref mat (p_material p) in
        let! g := Ok (spoint_of x) in Ok (MatModel.sample_component m uc g wi)
    | _ => ret (0%Z, 1)
    end.
  (** path.h:228-234 *)
  Definition pdf_component (s : scene M) (x : interaction) (wi : vec3) (c : Z) : pm R :=
    match it x with
    | SurfaceInteraction =>
        get! p := prim_at s (iprim x) in get! m := deref mat (p_material p) in
        let! g := Ok (spoint_of x) in Ok (MatModel.pdf_component m c g wi)
    | _ => ret 1
    end.

  (** path.h:267-300 *)
  Definition sample_position (up upc : vec2) (s : scene M) (d : trans_dir) : pm (option (interaction * vec3)) :=
    match d with
    | EL =>
        get! p := prim_at s (camera_node s) in get! k := deref cam (p_camera p) in
        let! r := Ok (cam_sample_position k) in
        ret (match r with None => None | Some (g, w) => Some (endpoint CameraEndpoint (camera_node s) g, w) end)
    | LE =>
        get! (T, n, _) := select_light s (v2x upc) in
        get! p := prim_at s n in get! l := deref lgt (p_light p) in
        get! f := unsupported (l_sample_position l) in
        let! r := Ok (f up (v2y upc) T) in
        ret (match r with None => None | Some (g, w) => Some (endpoint LightEndpoint n g, w) end)
    end.
  (** path.h:327-344 *)
  Definition pdf_position (s : scene M) (x : interaction) : pm R :=
    match it x with
    | CameraEndpoint => get! p := prim_at s (iprim x) in get! k := deref cam (p_camera p) in Ok (cam_pdf_position k)
    | LightEndpoint =>
        get! p := prim_at s (iprim x) in
        get! (T, p_sel) := find_light s (iprim x) in
        get! l := deref lgt (p_light p) in get! f := unsupported (l_pdf_position l) in
        let! a := Ok p_sel in let! b := Ok (f (igeom x) T) in ret (a * b)
    | _ => Throw ErrUnsupported
    end.

  (** path.h:378-422 *)
  Definition sample_direction (ud : vec2) (udc : R) (s : scene M) (x : interaction) (wi : vec3) (c : Z) (d : trans_dir) : pm (option (vec3 * vec3)) :=
    get! p := prim_at s (iprim x) in
    match it x with
    | CameraEndpoint => get! k := deref cam (p_camera p) in Ok (cam_sample_direction k ud)
    | LightEndpoint => get! l := deref lgt (p_light p) in get! f := unsupported (l_sample_direction l) in Ok (f ud (igeom x))
    | MediumInteraction => get! f := deref pha (p_medium p) in Ok (ph_sample f ud wi)
    | SurfaceInteraction =>
        get! m := deref mat (p_material p) in
        let! g := Ok (spoint_of x) in
        let! r := Ok (MatModel.sample_direction m ud udc g wi c d) in
        ret (match r with None => None | Some (wo, w) => Some (wo, vscale (shading_normal_correction (geo g) wi wo d) w) end)
    end.
  (** path.h:457-470 *)
  Definition pdf_direction (s : scene M) (x : interaction) (wi wo : vec3) (c : Z) (delta : bool) : pm R :=
    get! p := prim_at s (iprim x) in
    match it x with
    | CameraEndpoint => get! k := deref cam (p_camera p) in Ok (cam_pdf_direction k wo)
    | LightEndpoint => get! l := deref lgt (p_light p) in get! f := unsupported (l_pdf_direction l) in Ok (f (igeom x) wo)
    | MediumInteraction => get! f := deref pha (p_medium p) in Ok (ph_pdf f wi wo)
    | SurfaceInteraction =>
        get! m := deref mat (p_material p) in
        let! g := Ok (spoint_of x) in Ok (MatModel.pdf_direction m g wi wo c delta)
    end.

  (** path.h:493-530 *)
  Definition sample_direct (u : ray_u) (s : scene M) (x : interaction) (d : trans_dir) : pm (option (interaction * vec3 * vec3)) :=
    match d with
    | EL =>
        get! p := prim_at s (camera_node s) in get! k := deref cam (p_camera p) in
        let! r := Ok (cam_sample_direct k (igeom x)) in
        ret (match r with None => None | Some r => Some (endpoint CameraEndpoint (camera_node s) (r_geom r), r_wo r, r_weight r) end)
    | LE =>
        get! (T, n, p_sel) := select_light s (v2x (u_pc u)) in
        get! p := prim_at s n in get! l := deref lgt (p_light p) in
        let! r := Ok (l_sample_direct l (u_p u) (v2y (u_pc u)) (u_d u) (igeom x) T) in
        match r with
        | None => ret None
        | Some r => let! q := Ok p_sel in let! w := Ok (vdiv (r_weight r) q) in
                    ret (Some (endpoint LightEndpoint n (r_geom r), r_wo r, w))
        end
    end.
  (** path.h:563-583 *)
  Definition pdf_direct (s : scene M) (x e : interaction) (wo : vec3) (delta : bool) : pm R :=
    match it e with
    | CameraEndpoint => get! p := prim_at s (iprim e) in get! k := deref cam (p_camera p) in Ok (cam_pdf_direct k (igeom x) (igeom e))
    | LightEndpoint =>
        get! p := prim_at s (iprim e) in
        get! (T, p_sel) := find_light s (iprim e) in
        get! l := deref lgt (p_light p) in
        let! a := Ok p_sel in let! b := Ok (l_pdf_direct l (igeom x) (igeom e) T wo delta) in ret (a * b)
    | _ => Throw ErrUnsupported
    end.

  (** path.h:695-704 *)
  Definition is_specular_component (s : scene M) (x : interaction) (c : Z) : pm bool :=
    get! p := prim_at s (iprim x) in
    match it x with
    | SurfaceInteraction => get! m := deref mat (p_material p) in ret (is_specular m c)
    | LightEndpoint => get! l := deref lgt (p_light p) in ret (l_specular l)
    | _ => ret false
    end.
  (** path.h:716-725; the camera is always connectable (src/camera/camera_pinhole.cpp:228-230) *)
  Definition is_connectable_endpoint (s : scene M) (x : interaction) : pm bool :=
    get! p := prim_at s (iprim x) in
    match it x with
    | CameraEndpoint => get! _ := deref cam (p_camera p) in ret true
    | LightEndpoint => get! l := deref lgt (p_light p) in ret (l_connectable l)
    | _ => UB
    end.
  (** path.h:733-736 *)
  Definition path_raster_position (s : scene M) (wo : vec3) : pm (option vec2) :=
    get! p := prim_at s (camera_node s) in get! k := deref cam (p_camera p) in Ok (raster_position k wo).
  (** path.h:761-775 *)
  Definition eval_contrb_direction (s : scene M) (x : interaction) (wi wo : vec3) (c : Z) (d : trans_dir) (delta : bool) : pm vec3 :=
    get! p := prim_at s (iprim x) in
    match it x with
    | CameraEndpoint => match p_camera p with Some k => Ok (cam_eval (cam k) wo) | None => ret v0 end
    | LightEndpoint => match p_light p with Some l => Ok (l_eval (lgt l) (igeom x) wo delta) | None => ret v0 end
    | MediumInteraction => get! f := deref pha (p_medium p) in Ok (ph_eval f wi wo)
    | SurfaceInteraction =>
        get! m := deref mat (p_material p) in
        let! g := Ok (spoint_of x) in
        let! f := Ok (eval m g wi wo c d delta) in
        ret (vscale (shading_normal_correction (geo g) wi wo d) f)
    end.
  (** path.h:787-794 *)
  Definition path_reflectance (s : scene M) (x : interaction) : pm vec3 :=
    match it x with
    | SurfaceInteraction =>
        get! p := prim_at s (iprim x) in get! m := deref mat (p_material p) in
        let! g := Ok (spoint_of x) in ret (reflectance m g)
    | _ => Throw ErrUnsupported
    end.
  (** src/scene.cpp:353-362; [emitter]: Medium::is_emitter by number *)
  Definition is_light (emitter : nat -> bool) (s : scene M) (x : interaction) : outcome bool :=
    get! p := prim_at s (iprim x) in
    match it x with
    | MediumInteraction => deref emitter (p_medium p)
    | _ => Ok (isS (p_light p))
    end.
  (** src/scene.cpp:364-366: dereferences an optional *)
  Definition is_camera (s : scene M) (x : interaction) : outcome bool :=
    match s_camera s with Some c => Ok (iprim x =? c)%Z | None => UB end.
End P.
