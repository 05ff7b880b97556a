(** Vocabulary for meshes of PBRT scenes. *)
From Coq Require Import List ZArith Reals.
From Verif Require Import Base RBase VecBase SurfModel MeshModel MeshSpec PMeshModel.
Import ListNotations.

(** The arrays of a mesh as the parser leaves them: every index is one of a vertex; normals and texture coordinates are given
    for all vertices or for none. *)
Definition per_vertex {A B} (vs : list A) (l : list B) : Prop := l = [] \/ List.length l = List.length vs.
Definition well_formed (m : pmesh) : Prop :=
  per_vertex (pm_vertex m) (pm_normal m) /\ per_vertex (pm_vertex m) (pm_texcoord m) /\
  forall i j k, In (i, j, k) (pm_index m) -> forall x, In x [i; j; k] -> (0 <= x < Z.of_nat (List.length (pm_vertex m)))%Z.
(** Vertex number [i]: its position, and its normal and texture coordinates, zero if the mesh has none *)
Definition given_or {A} (z : A) (l : list A) (i : Z) (a : A) : Prop := (l = [] /\ a = z) \/ (l <> [] /\ elem l i a).
Definition is_vertex (m : pmesh) (i : Z) (v : vertex) : Prop :=
  elem (pm_vertex m) i (v_p v) /\ given_or v0 (pm_normal m) i (v_n v) /\ given_or v2zero (pm_texcoord m) i (v_t v).
(** The vertices of face number [f] *)
Definition pface (m : pmesh) (f : nat) (t : tri3) : Prop :=
  exists i j k, nth_error (pm_index m) f = Some (i, j, k) /\ is_vertex m i (fst (fst t)) /\ is_vertex m j (snd (fst t)) /\ is_vertex m k (snd t).
(** Where an affine map takes a point: l x + p *)
Definition image (a : affine) (x : vec3) : vec3 :=
  vadd (vadd (vadd (vscale (vx x) (l_x a)) (vscale (vy x) (l_y a))) (vscale (vz x) (l_z a))) (a_p a).
