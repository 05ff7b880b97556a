(** Model of the meshes: src/mesh/mesh_raw.cpp, src/mesh/mesh_wavefrontobj.cpp and Mesh_WavefrontObjRef of
    src/model/model_wavefrontobj.cpp:260-324 (the same code as mesh_wavefrontobj.cpp on the geometry of the
    model). *)
From Coq Require Import List ZArith Reals Bool.
From Verif Require Import Base LogModel ObjModel RBase VecBase SurfModel.
Import ListNotations.
Local Open Scope nat_scope.

(** Vec2 version of math::mix_barycentric (include/lm/math.h:573-575). *)
Definition mix2 (a b c u : vec2) : vec2 :=
  V2 (v2x a * (1 - v2x u - v2y u) + v2x b * v2x u + v2x c * v2y u)%R
     (v2y a * (1 - v2x u - v2y u) + v2y b * v2x u + v2y c * v2y u)%R.

(** glm::normalize; [None] for the zero vector (a division by zero). include/lm/math.h:560-562. *)
Definition normalize (v : vec3) : option vec3 := if Req_EM_T (vlen v) 0 then None else Some (vscale (/ vlen v) v).
(** include/lm/math.h:560-562. *)
Definition geometry_normal (p1 p2 p3 : vec3) : option vec3 := normalize (cross (vsub p2 p1) (vsub p3 p1)).

(** Subscript of a std::vector with an int: undefined outside of the vector. src/mesh/mesh_raw.cpp:81-83. *)
Definition at_ {A} (l : list A) (i : Z) : outcome A :=
  if (i <? 0)%Z then UB else match nth_error l (Z.to_nat i) with Some a => Ok a | None => UB end.

(** mesh_raw.cpp:39-42; mesh_wavefrontobj.cpp:25-26. *)
Record mesh := mk_mesh { m_ps : list vec3; m_ns : list vec3; m_ts : list vec2; m_fs : list findex }.

(** include/lm/mesh.h: a vertex of a triangle: position, normal, texture coordinates. *)
Record vertex := mk_vertex { v_p : vec3; v_n : vec3; v_t : vec2 }.
(** include/lm/mesh.h:48-53: Mesh::Tri. *)
Definition tri3 := (vertex * vertex * vertex)%type.
(** include/lm/mesh.h:85-91: Mesh::InterpolatedPoint. *)
Record interpolated := mk_interp { ip_p : vec3; ip_n : option vec3; ip_gn : option vec3; ip_t : vec2 }.

(** Vec2(): src/mesh/mesh_wavefrontobj.cpp:63-65. *)
Definition v2zero : vec2 := V2 0%R 0%R.

(** mesh_raw.cpp:81-83: all attributes are read. mesh_wavefrontobj.cpp:63-65 ([obj]): a missing normal or
    texture coordinate is zero. *)
Definition vertex_of (obj : bool) (m : mesh) (f : findex) : outcome vertex :=
  obind (at_ (m_ps m) (fp f)) (fun p =>
  obind (if obj && (fn f <? 0)%Z then Ok v0 else at_ (m_ns m) (fn f)) (fun n =>
  obind (if obj && (ft f <? 0)%Z then Ok v2zero else at_ (m_ts m) (ft f)) (fun t => Ok (mk_vertex p n t)))).

(** mesh_raw.cpp:76-85, mesh_wavefrontobj.cpp:58-67. *)
Definition triangle_at (obj : bool) (m : mesh) (face : nat) : outcome tri3 :=
  obind (at_ (m_fs m) (Z.of_nat (3 * face))) (fun f1 =>
  obind (at_ (m_fs m) (Z.of_nat (3 * face + 1))) (fun f2 =>
  obind (at_ (m_fs m) (Z.of_nat (3 * face + 2))) (fun f3 =>
  obind (vertex_of obj m f1) (fun a =>
  obind (vertex_of obj m f2) (fun b =>
  obind (vertex_of obj m f3) (fun c => Ok (a, b, c))))))).

(** mesh_raw.cpp:99-101, mesh_wavefrontobj.cpp:91-93. *)
Definition num_triangles (m : mesh) : nat := length (m_fs m) / 3.

(** mesh_raw.cpp:70-74, mesh_wavefrontobj.cpp:52-56: the calls of process_triangle, in order. *)
Fixpoint foreach_from (obj : bool) (m : mesh) (fi k : nat) : outcome (list (nat * tri3)) :=
  match k with
  | O => Ok []
  | S k' => obind (triangle_at obj m fi) (fun t => obind (foreach_from obj m (S fi) k') (fun l => Ok ((fi, t) :: l)))
  end.
(** src/mesh/mesh_raw.cpp:70-74, src/mesh/mesh_wavefrontobj.cpp:52-56. *)
Definition foreach_triangle (obj : bool) (m : mesh) : outcome (list (nat * tri3)) := foreach_from obj m 0 (length (m_fs m) / 3).

(** mesh_raw.cpp:87-97; mesh_wavefrontobj.cpp:69-89, where only the first vertex is checked for missing
    attributes. *)
Definition surface_point (obj : bool) (m : mesh) (face : nat) (uv : vec2) : outcome interpolated :=
  obind (at_ (m_fs m) (Z.of_nat (3 * face))) (fun i1 =>
  obind (at_ (m_fs m) (Z.of_nat (3 * face + 1))) (fun i2 =>
  obind (at_ (m_fs m) (Z.of_nat (3 * face + 2))) (fun i3 =>
  obind (at_ (m_ps m) (fp i1)) (fun p1 =>
  obind (at_ (m_ps m) (fp i2)) (fun p2 =>
  obind (at_ (m_ps m) (fp i3)) (fun p3 =>
  obind (if obj && (fn i1 <? 0)%Z then Ok (geometry_normal p1 p2 p3) else
         obind (at_ (m_ns m) (fn i1)) (fun n1 => obind (at_ (m_ns m) (fn i2)) (fun n2 => obind (at_ (m_ns m) (fn i3)) (fun n3 =>
         Ok (normalize (mix_barycentric n1 n2 n3 uv)))))) (fun n =>
  obind (if obj && (ft i1 <? 0)%Z then Ok v2zero else
         obind (at_ (m_ts m) (ft i1)) (fun t1 => obind (at_ (m_ts m) (ft i2)) (fun t2 => obind (at_ (m_ts m) (ft i3)) (fun t3 =>
         Ok (mix2 t1 t2 t3 uv))))) (fun t =>
  Ok (mk_interp (mix_barycentric p1 p2 p3 uv) n (geometry_normal p1 p2 p3) t))))))))).

(** mesh_raw.cpp:50-68: the arrays of the parameters; a subscript outside of a const JSON array is undefined. *)
Fixpoint group3 (l : list R) : outcome (list vec3) :=
  match l with
  | [] => Ok []
  | x :: y :: z :: l' => obind (group3 l') (fun r => Ok (V3 x y z :: r))
  | _ => UB
  end.
(** src/mesh/mesh_raw.cpp:50-68: pairs. *)
Fixpoint group2 (l : list R) : outcome (list vec2) :=
  match l with
  | [] => Ok []
  | x :: y :: l' => obind (group2 l') (fun r => Ok (V2 x y :: r))
  | _ => UB
  end.
(** src/mesh/mesh_raw.cpp:60-68: the indices of positions, texture coordinates and normals. *)
Fixpoint group_fs (p t n : list Z) : outcome (list findex) :=
  match p with
  | [] => Ok []
  | i :: p' => match t, n with
               | j :: t', k :: n' => obind (group_fs p' t' n') (fun r => Ok (mk_findex i j k :: r))
               | _, _ => UB
               end
  end.
(** src/mesh/mesh_raw.cpp:46-68. *)
Definition construct_raw (ps ns ts : list R) (fp ft fn : list Z) : outcome mesh :=
  obind (group3 ps) (fun a => obind (group3 ns) (fun b => obind (group2 ts) (fun c => obind (group_fs fp ft fn) (fun f => Ok (mk_mesh a b c f))))).

(** mesh_wavefrontobj.cpp:34-50: the geometry of the file and the faces of all its meshes. *)
Definition vec_of (v : R * R * R) : vec3 := let '(x, y, z) := v in V3 x y z.
(** src/mesh/mesh_wavefrontobj.cpp:34-50. *)
Definition vec2_of (v : R * R) : vec2 := V2 (fst v) (snd v).
(** src/mesh/mesh_wavefrontobj.cpp:34-50. *)
Definition construct_obj (open : text -> option text) (file : option text) (num : text -> R) : outcome mesh :=
  obind (load R 0%R num 1%R open file) (fun r =>
    match r with
    | None => Throw ErrIOError
    | Some (geo, _, meshes) =>
        Ok (mk_mesh (map vec_of (ps R geo)) (map vec_of (ns R geo)) (map vec2_of (ts R geo)) (mesh_faces R meshes))
    end).
