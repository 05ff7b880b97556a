(** Model of the OBJ loader that uses tinyobjloader (plugin/objloader_tinyobjloader/objloader_tinyobjloader.cpp). The library
    that parses the file is represented by its result; messages are left out. Indices are read as the library stores them. *)
From Coq Require Import List ZArith Bool.
From Verif Require Import Base LogModel.
Import ListNotations.
Local Open Scope Z_scope.

Section Tiny.
  Context {F : Type}.
  (** Vec3 and Vec2 of include/lm/objloader.h:22-32 *)
  Definition vec3 : Type := F * F * F.
  (** See [vec3]: include/lm/objloader.h:22-32. *)
  Definition vec2 : Type := F * F.
  (** 1 of Vec3(1) (plugin/objloader_tinyobjloader/objloader_tinyobjloader.cpp:98) *)
  Variable one : F.

  (** What tinyobj::LoadObj returns (plugin/objloader_tinyobjloader/objloader_tinyobjloader.cpp:30-38): the members of
      material_t that are read *)
  Record tmaterial := mk_tmaterial { t_name : text; t_illum : Z; t_diffuse : vec3; t_specular : vec3; t_emission : vec3; t_texname : text; t_ior : F; t_shininess : F; t_anisotropy : F }.
  (** index_t, read in plugin/objloader_tinyobjloader/objloader_tinyobjloader.cpp:131-136; OBJMeshFaceIndex of
      include/lm/objloader.h:37-47 has the same members. *)
  Record tindex := mk_tindex { i_vertex : Z; i_texcoord : Z; i_normal : Z }.
  (** mesh_t, read in plugin/objloader_tinyobjloader/objloader_tinyobjloader.cpp:110-136 *)
  Record tshape := mk_tshape { num_face_vertices : list Z; material_ids : list Z; indices : list tindex }.
  (** attrib_t, materials and shapes: plugin/objloader_tinyobjloader/objloader_tinyobjloader.cpp:30-32 *)
  Record tfile := mk_tfile { vertices : list F; normals : list F; texcoords : list F; materials : list tmaterial; shapes : list tshape }.

  (** include/lm/objloader.h:55-70; None: not initialised *)
  Record params := mk_params { p_name : text; p_illum : Z; p_Kd : vec3; p_Ks : option vec3; p_Ke : option vec3; p_mapKd : text; p_Ni : option F; p_Ns : option F; p_an : option F }.
  (** Calls of process_material and process_mesh (include/lm/objloader.h:75 and 80) *)
  Inductive event := Mat (p : params) | Mesh (fs : list tindex) (p : params).
  (** Their results may depend on the calls before. plugin/objloader_tinyobjloader/objloader_tinyobjloader.cpp:25-26 *)
  Variable accept : list event -> event -> bool.
  (** include/lm/objloader.h:22-32 *)
  Record geometry := mk_geometry { g_ps : list vec3; g_ns : list vec3; g_ts : list vec2 }.

  (** memcpy of [v] to a vector of size / 3 elements; beyond its end it is undefined. Used in
      plugin/objloader_tinyobjloader/objloader_tinyobjloader.cpp:51-52 and 56-57. *)
  Fixpoint triples (v : list F) : outcome (list vec3) :=
    match v with
    | [] => Ok []
    | x :: y :: z :: r => obind (triples r) (fun l => Ok ((x, y, z) :: l))
    | _ => UB
    end.
  (** The same for plugin/objloader_tinyobjloader/objloader_tinyobjloader.cpp:62-63. *)
  Fixpoint pairs (v : list F) : outcome (list vec2) :=
    match v with [] => Ok [] | x :: y :: r => obind (pairs r) (fun l => Ok ((x, y) :: l)) | _ => UB end.
  (** plugin/objloader_tinyobjloader/objloader_tinyobjloader.cpp:49-66; geo.ps[0] of an empty vector is undefined; normals
      and texture coordinates are left as they are if the file has none. *)
  Definition copy_geometry (a : tfile) (g : geometry) : outcome geometry :=
    match vertices a with
    | [] => UB
    | v => obind (triples v) (fun ps =>
           obind (match normals a with [] => Ok (g_ns g) | n => triples n end) (fun ns =>
           obind (match texcoords a with [] => Ok (g_ts g) | t => pairs t end) (fun ts => Ok (mk_geometry ps ns ts))))
    end.
  (** plugin/objloader_tinyobjloader/objloader_tinyobjloader.cpp:72-81 *)
  Definition convert (m : tmaterial) : params :=
    mk_params (t_name m) (t_illum m) (t_diffuse m) (Some (t_specular m)) (Some (t_emission m)) (t_texname m) (Some (t_ior m)) (Some (t_shininess m)) (Some (t_anisotropy m)).
  (** plugin/objloader_tinyobjloader/objloader_tinyobjloader.cpp:94-98; the rest of the members is not initialised. *)
  Definition default_params (name : text) : params := mk_params name (-1) (one, one, one) None None [] None None None.
  (** plugin/objloader_tinyobjloader/objloader_tinyobjloader.cpp:70-90 and 93-103: the calls for materials; false: load
      returns false *)
  Fixpoint process (tr : list event) (ps : list params) : list event * bool :=
    match ps with
    | [] => (tr, true)
    | p :: ps => if accept tr (Mat p) then process (tr ++ [Mat p]) ps else (tr ++ [Mat p], false)
    end.
  (** our_mat_params[prev_material_id < 0 ? 0 : prev_material_id] and the call (plugin/objloader_tinyobjloader/objloader_tinyobjloader.cpp:124
      and 140) *)
  Definition hand (ps : list params) (tr : list event) (fs : list tindex) (id : Z) : outcome (list event * bool) :=
    match nth_error ps (Z.to_nat id) with
    | None => UB
    | Some p => Ok (tr ++ [Mesh fs p], accept tr (Mesh fs p))
    end.
  (** plugin/objloader_tinyobjloader/objloader_tinyobjloader.cpp:112-138, from face [fi] on, [n] faces left; None: load returns
      false *)
  Fixpoint faces (sh : tshape) (ps : list params) (n fi : nat) (prev : Z) (fs : list tindex) (tr : list event) : outcome (list event * option (Z * list tindex)) :=
    match n with
    | O => Ok (tr, Some (prev, fs))
    | S n =>
        match nth_error (num_face_vertices sh) fi with
        | None => UB
        | Some k =>
        if negb (k =? 3) then Ok (tr, None) else
        match nth_error (material_ids sh) fi with
        | None => UB
        | Some cur =>
        if negb (cur =? prev) then
          obind (hand ps tr fs prev) (fun '(tr, ok) => if negb ok then Ok (tr, None) else faces sh ps n (S fi) cur [] tr)
        else
          match nth_error (indices sh) (3 * fi), nth_error (indices sh) (3 * fi + 1), nth_error (indices sh) (3 * fi + 2) with
          | Some i1, Some i2, Some i3 => faces sh ps n (S fi) prev (fs ++ [i1; i2; i3]) tr
          | _, _, _ => UB
          end
        end end
    end.
  (** plugin/objloader_tinyobjloader/objloader_tinyobjloader.cpp:107-144: one shape *)
  Definition one_shape (sh : tshape) (ps : list params) (tr : list event) : outcome (list event * bool) :=
    match nth_error (material_ids sh) 0 with
    | None => UB
    | Some m =>
        obind (faces sh ps (List.length (num_face_vertices sh)) 0 m [] tr) (fun '(tr, r) =>
        match r with
        | None => Ok (tr, false)
        | Some (prev, []) => Ok (tr, true)
        | Some (prev, fs) => hand ps tr fs prev
        end)
    end.
  (** plugin/objloader_tinyobjloader/objloader_tinyobjloader.cpp:106-145 *)
  Fixpoint all_shapes (l : list tshape) (ps : list params) (tr : list event) : outcome (list event * bool) :=
    match l with
    | [] => Ok (tr, true)
    | sh :: l => obind (one_shape sh ps tr) (fun '(tr, ok) => if ok then all_shapes l ps tr else Ok (tr, false))
    end.
  (** plugin/objloader_tinyobjloader/objloader_tinyobjloader.cpp:22-148; [file]: what the library returns, None: it fails. The
      result: the geometry, the calls and the result of load. *)
  Definition load (dflt : text) (file : option tfile) (g : geometry) : outcome (geometry * list event * bool) :=
    match file with
    | None => Ok (g, [], false)
    | Some a =>
        obind (copy_geometry a g) (fun g =>
        let ps := match materials a with [] => [default_params dflt] | l => map convert l end in
        let '(tr, ok) := process [] ps in
        if negb ok then Ok (g, tr, false) else
        obind (all_shapes (shapes a) ps tr) (fun '(tr, ok) => Ok (g, tr, ok)))
    end.
End Tiny.
Arguments params : clear implicits. Arguments event : clear implicits. Arguments geometry : clear implicits. Arguments tfile : clear implicits. Arguments tmaterial : clear implicits.
