(** Model of the meshes and transformations of imported PBRT scenes: plugin/model_pbrt/model_pbrt.cpp:14-105. The mesh of the
    parser is four arrays (pbrtParser/Scene.h: TriangleMesh); its numbers are float, converted to Float without change. *)
From Coq Require Import List ZArith Reals Bool.
From Verif Require Import Base ObjModel RBase VecBase SurfModel MeshModel.
Import ListNotations.
Local Open Scope nat_scope.

(** pbrt::TriangleMesh: vertex, normal, texcoord, index. Used in plugin/model_pbrt/model_pbrt.cpp:41-105. *)
Record pmesh := mk_pmesh { pm_vertex : list vec3; pm_normal : list vec3; pm_texcoord : list vec2; pm_index : list (Z * Z * Z) }.
(** std::vector::empty: plugin/model_pbrt/model_pbrt.cpp:57-67. *)
Definition empty {A} (l : list A) : bool := match l with [] => true | _ => false end.

(** 57-67: pointByFace *)
Definition ppoint (m : pmesh) (i : Z) : outcome vertex :=
  obind (at_ (pm_vertex m) i) (fun p =>
  obind (if empty (pm_normal m) then Ok v0 else at_ (pm_normal m) i) (fun n =>
  obind (if empty (pm_texcoord m) then Ok v2zero else at_ (pm_texcoord m) i) (fun t => Ok (mk_vertex p n t)))).
(** 56-74 *)
Definition ptriangle_at (m : pmesh) (face : nat) : outcome tri3 :=
  obind (at_ (pm_index m) (Z.of_nat face)) (fun '(i, j, k) =>
  obind (ppoint m i) (fun a => obind (ppoint m j) (fun b => obind (ppoint m k) (fun c => Ok (a, b, c))))).
(** 102-104 *)
Definition pnum_triangles (m : pmesh) : nat := List.length (pm_index m).
(** 50-54: the calls of process_triangle, in order *)
Fixpoint pforeach_from (m : pmesh) (fi k : nat) : outcome (list (nat * tri3)) :=
  match k with
  | O => Ok []
  | S k' => obind (ptriangle_at m fi) (fun t => obind (pforeach_from m (S fi) k') (fun l => Ok ((fi, t) :: l)))
  end.
(** plugin/model_pbrt/model_pbrt.cpp:50-54. *)
Definition pforeach_triangle (m : pmesh) : outcome (list (nat * tri3)) := pforeach_from m 0 (List.length (pm_index m)).
(** 76-100 *)
Definition psurface_point (m : pmesh) (face : nat) (uv : vec2) : outcome interpolated :=
  obind (at_ (pm_index m) (Z.of_nat face)) (fun '(i, j, k) =>
  obind (at_ (pm_vertex m) i) (fun p1 =>
  obind (at_ (pm_vertex m) j) (fun p2 =>
  obind (at_ (pm_vertex m) k) (fun p3 =>
  let gn := normalize (cross (vsub p2 p1) (vsub p3 p1)) in
  obind (if empty (pm_normal m) then Ok gn else
         obind (at_ (pm_normal m) i) (fun n1 => obind (at_ (pm_normal m) j) (fun n2 => obind (at_ (pm_normal m) k) (fun n3 =>
         Ok (normalize (mix_barycentric n1 n2 n3 uv)))))) (fun n =>
  obind (if empty (pm_texcoord m) then Ok v2zero else
         obind (at_ (pm_texcoord m) i) (fun t1 => obind (at_ (pm_texcoord m) j) (fun t2 => obind (at_ (pm_texcoord m) k) (fun t3 =>
         Ok (mix2 t1 t2 t3 uv))))) (fun t =>
  Ok (mk_interp (mix_barycentric p1 p2 p3 uv) n gn t))))))).

Local Open Scope R_scope.
(** Mat4 by its columns, each a Vec3 and a last component. plugin/model_pbrt/model_pbrt.cpp:22-33. *)
Definition col := (vec3 * R)%type.
(** Mat4, plugin/model_pbrt/model_pbrt.cpp:29-33. *)
Record mat4 := M4 { c0 : col; c1 : col; c2 : col; c3 : col }.
(** Helper of [convert_xfm]: plugin/model_pbrt/model_pbrt.cpp:29-33. *)
Definition cscale (k : R) (c : col) : col := (vscale k (fst c), k * snd c).
(** Helper of [convert_xfm]: plugin/model_pbrt/model_pbrt.cpp:29-33. *)
Definition cadd (a b : col) : col := (vadd (fst a) (fst b), snd a + snd b).
(** glm: matrix times vector, matrix times matrix, identity.
    Used by [convert_xfm]: plugin/model_pbrt/model_pbrt.cpp:29-33. *)
Definition mulv (m : mat4) (v : col) : col :=
  cadd (cadd (cadd (cscale (vx (fst v)) (c0 m)) (cscale (vy (fst v)) (c1 m))) (cscale (vz (fst v)) (c2 m))) (cscale (snd v) (c3 m)).
(** Helper of [convert_xfm]: plugin/model_pbrt/model_pbrt.cpp:29-33. *)
Definition mulm (a b : mat4) : mat4 := M4 (mulv a (c0 b)) (mulv a (c1 b)) (mulv a (c2 b)) (mulv a (c3 b)).
(** Mat4(1), src/scene.cpp:216-219. *)
Definition ident : mat4 := M4 (V3 1 0 0, 0) (V3 0 1 0, 0) (V3 0 0 1, 0) (V3 0 0 0, 1).
(** pbrt::affine3f: the columns vx, vy, vz of l, and p. Used by [rotM]: plugin/model_pbrt/model_pbrt.cpp:22-27. *)
Record affine := mk_affine { l_x : vec3; l_y : vec3; l_z : vec3; a_p : vec3 }.
(** 22-27 then Mat4(Mat3) *)
Definition rotM (a : affine) : mat4 := M4 (l_x a, 0) (l_y a, 0) (l_z a, 0) (V3 0 0 0, 1).
(** glm::translate(v). Used by [convert_xfm]: plugin/model_pbrt/model_pbrt.cpp:29-33. *)
Definition translate (v : vec3) : mat4 := M4 (V3 1 0 0, 0) (V3 0 1 0, 0) (V3 0 0 1, 0) (v, 1).
(** 29-33 *)
Definition convert_xfm (a : affine) : mat4 := mulm (translate (a_p a)) (rotM a).
(** The operations of the parser's library (not in the repository) that 196 uses: identity and product of affine maps.
    plugin/model_pbrt/model_pbrt.cpp:196. *)
Definition aff_apply_l (a : affine) (v : vec3) : vec3 := vadd (vadd (vscale (vx v) (l_x a)) (vscale (vy v) (l_y a))) (vscale (vz v) (l_z a)).
(** pbrt::affine3f::identity, plugin/model_pbrt/model_pbrt.cpp:196. *)
Definition aff_one : affine := mk_affine (V3 1 0 0) (V3 0 1 0) (V3 0 0 1) (V3 0 0 0).
(** The product of two pbrt::affine3f, plugin/model_pbrt/model_pbrt.cpp:196. *)
Definition aff_mul (a b : affine) : affine :=
  mk_affine (aff_apply_l a (l_x b)) (aff_apply_l a (l_y b)) (aff_apply_l a (l_z b)) (vadd (aff_apply_l a (a_p b)) (a_p a)).
