(** Model of ray queries on a scene: flattening into triangles (src/accel/accel_sahbvh.cpp:128-151), the scene
    bound, intersection and visibility (src/scene.cpp:288-345, include/lm/scene.h:343-364), distances and
    transmittance (include/lm/path.h:586-675). Float is the reals. *)
From Coq Require Import List Reals ZArith Bool.
From Verif Require BvhModel.
From Verif Require Import Base SceneModel RBase VecBase MeshModel SurfModel MatModel LightModel PathModel GeoModel VolModel.
Import ListNotations.
Open Scope R_scope.

(** Mat4 with the last row 0 0 0 1, as all transforms made from translations, rotations and scalings; other
    matrices are not modelled. Linear part and translation; identity, product, image of a point. *)
Definition affine : Type := (mat3 * vec3)%type.
(** Mat4(1): src/scene.cpp:216-219. *)
Definition id_affine : affine := (M3 (V3 1 0 0) (V3 0 1 0) (V3 0 0 1), v0).
(** Mat4 * Vec4(p, 1): src/accel/accel_sahbvh.cpp:133-151. *)
Definition image (a : affine) (p : vec3) : vec3 := apply_point (fst a) (snd a) p.
(** Mat4 * Mat4: src/scene.cpp:216-230. *)
Definition after (a b : affine) : affine :=
  (M3 (mmul (fst a) (col0 (fst b))) (mmul (fst a) (col1 (fst b))) (mmul (fst a) (col2 (fst b))), image a (snd b)).

(** Members of the acceleration structure (accel_sahbvh.cpp:114-117). *)
Definition flat_node : Type := (transform * Z)%type.
(** src/accel/accel_sahbvh.cpp:114-117. *)
Record accel := mk_accel { a_nodes : nat -> BvhModel.node; a_trs : list tri; a_indices : list nat; a_flat : list flat_node }.

Section Vis.
  (** The meshes by number, and whether they treat missing attributes as OBJ meshes do. *)
  Variable mesh_of : nat -> bool * mesh.
  (** Sign bits of zero components: of a normal (see SurfModel.orthonormal_basis), of a direction. *)
  Variable neg0 : bool.
  Variable zs : vec3 -> nat -> bool.
  (** The media by number. *)
  Variable med : nat -> medium.
  Notation scene := (scene affine).

  (** accel_sahbvh.cpp:133-151: the visitor, on the calls of the traversal in order; [fns] and [trs] are what
      has been recorded. The index of the flattened node is an int. *)
  Fixpoint flatten (calls : list (node affine * affine)) (fns : list flat_node) (trs : list tri) : pm (list flat_node * list tri) :=
    match calls with
    | [] => ret (fns, trs)
    | (NPrim i p, M) :: r =>
        match p_mesh p with
        | None => flatten r fns trs
        | Some k =>
            let! T := Ok (make_transform (fst M) (snd M)) in
            get! l := foreach_triangle (fst (mesh_of k)) (snd (mesh_of k)) in
            flatten r (fns ++ [(T, i)])
              (trs ++ map (fun x => let '(f, (a, b, c)) := x in
                 new_tri (image M (v_p a)) (image M (v_p b)) (image M (v_p c)) (Z.of_nat (length fns)) (Z.of_nat f)) l)
        end
    | (NGroup _ _ _ _, _) :: r => flatten r fns trs
    end.

  (** src/scene.cpp:288-306: the scene bound, starting with [b] *)
  Fixpoint scene_bound (calls : list (node affine * affine)) (b : bound) : outcome bound :=
    match calls with
    | [] => Ok b
    | (NPrim i p, M) :: r =>
        match p_mesh p with
        | None => scene_bound r b
        | Some k =>
            get! l := foreach_triangle (fst (mesh_of k)) (snd (mesh_of k)) in
            scene_bound r (fold_left (fun b x => let '(_, (p1, p2, p3)) := x in
              merge_point (merge_point (merge_point b (image M (v_p p1))) (image M (v_p p2))) (image M (v_p p3))) l b)
        end
    | (NGroup _ _ _ _, _) :: r => scene_bound r b
    end.

  (** accel_sahbvh.cpp:269-300. The bound of the loop is not part of the code: the number of nodes visited is
      at most the number of nodes. *)
  Definition accel_intersect (a : accel) (r : ray) (tmin tmax : R) : outcome (option (R * vec2 * transform * Z * Z)) :=
    get! h := BvhModel.query (a_trs a) (a_nodes a) (2 * length (a_trs a) - 1) (a_indices a) r tmin (2 * length (a_trs a)) tmax in
    match h with
    | None => Ok None
    | Some (t, (u, v), fi, face) =>
        if (fi <? 0)%Z then Throw ErrOutOfRange else
        match nth_error (a_flat a) (Z.to_nat fi) with
        | None => Throw ErrOutOfRange
        | Some (T, i) => Ok (Some (t, V2 u v, T, i, face))
        end
    end.

  (** src/scene.cpp:319-345 *)
  Definition intersect (s : scene) (a : accel) (r : ray) (tmin tmax : R) : pm (option interaction) :=
    get! h := accel_intersect a r tmin tmax in
    match h with
    | None =>
        if Rlt_dec tmax Inf then ret None else
        match s_env s with
        | None => ret None
        | Some e => ret (Some (endpoint LightEndpoint e (Infinite (vneg (rd r)))))
        end
    | Some (t, uv, T, i, face) =>
        get! p := prim_at s i in
        get! m := deref mesh_of (p_mesh p) in
        get! q := surface_point (fst m) (snd m) (Z.to_nat face) uv in
        match ip_n q, ip_gn q with
        | Some n, Some gn =>
            let! n := Ok (fnormalize (mmul (t_normal T) n)) in
            let! gn := Ok (fnormalize (mmul (t_normal T) gn)) in
            ret (Some (mk_sp SurfaceInteraction i (OnSurface (make_on_surface neg0 (apply_point (t_lin T) (t_tr T) (ip_p q)) n gn)) (ip_t q)))
        | _, _ => Ok NonFinite
        end
    end.

  (** include/lm/scene.h:344-356; a point at infinity as the first argument fails the assertion *)
  Definition visible_from (s : scene) (a : accel) (x y : interaction) : pm bool :=
    let! o := Ok (position (igeom x)) in
    let! (wo, tmax) := match igeom y with
                       | Infinite w => ret (vneg w, Inf - 1)
                       | g => let d := vsub (pos_of g) o in let! w := Ok (fnormalize d) in ret (w, vlen d * (1 - Eps))
                       end in
    let! h := intersect s a (mk_ray o wo (zs wo)) Eps tmax in
    ret (match h with Some _ => false | None => true end).
  (** 357-363 *)
  Definition visible (s : scene) (a : accel) (x y : interaction) : pm bool :=
    match igeom x with Infinite _ => visible_from s a y x | _ => visible_from s a x y end.

  (** include/lm/path.h:610-638 *)
  Definition sample_distance (us : list R) (s : scene) (a : accel) (x : interaction) (wo : vec3) : pm (option (interaction * vec3) * list R) :=
    let! o := Ok (position (igeom x)) in
    let r := mk_ray o wo (zs wo) in
    let! h := intersect s a r Eps Inf in
    let dist := match h with Some y => match igeom y with Infinite _ => Inf | g => vlen (vsub (pos_of g) o) end | None => Inf end in
    get! p := prim_at s (medium_node s) in
    get! m := deref med (p_medium p) in
    let! (ds, us) := md_sample m us r 0 dist in
    match ds with
    | Some d =>
        if ds_medium d then ret (Some (endpoint MediumInteraction (medium_node s) (Degenerated (ds_p d)), ds_weight d), us)
        else ret (match h with Some y => Some (y, ds_weight d) | None => None end, us)
    | None => ret (match h with Some y => Some (y, grey 1) | None => None end, us)
    end.

  (** include/lm/path.h:655-675 *)
  Definition eval_transmittance (us : list R) (s : scene) (a : accel) (x y : interaction) : pm (vec3 * list R) :=
    let! v := visible s a x y in
    if negb v then ret (v0, us) else
    if (medium_node s =? -1)%Z then ret (grey 1, us) else
    let! o := Ok (position (igeom x)) in
    let! (wo, dist) := match igeom y with
                       | Infinite w => ret (vneg w, Inf)
                       | g => let! w := Ok (fnormalize (vsub (pos_of g) o)) in ret (w, vlen (vsub (pos_of g) o))
                       end in
    get! p := prim_at s (medium_node s) in
    get! m := deref med (p_medium p) in
    md_transmittance m us (mk_ray o wo (zs wo)) 0 dist.
End Vis.
