(** Independent vocabulary for ray queries on a scene. *)
From Coq Require Import List Reals ZArith Permutation.
From Verif Require BvhModel BvhSpec.
From Verif Require Import Base ObjModel SceneModel SceneSpec RBase VecBase MeshModel MeshSpec SurfModel SurfSpec MatModel LightModel PathModel GeoModel GeoSpec VolModel VisModel.
Import ListNotations.
Open Scope R_scope.

Section S.
  Variable mesh_of : nat -> bool * mesh.

  (** A primitive with a mesh, reached from the root on path [p] with the composed transform [M] *)
  Definition instance (s : scene affine) (p : list nat) (i : Z) (k : nat) (M : affine) : Prop :=
    exists Ls pr, path (s_nodes s) 0 p i Ls /\ has_node (s_nodes s) i (NPrim i pr) /\ p_mesh pr = Some k /\ M = fold_left after Ls id_affine.
  (** A, B, C: the corners, in the world, of face [f] of an instance of primitive [i]. *)
  Definition world_triangle (s : scene affine) (i : Z) (f : nat) (A B C : vec3) : Prop :=
    exists p k M t, instance s p i k M /\ face_vertices (fst (mesh_of k)) (snd (mesh_of k)) f t /\
      A = image M (v_p (fst (fst t))) /\ B = image M (v_p (snd (fst t))) /\ C = image M (v_p (snd t)).

  (** The ray meets the triangle ABC at distance [t], and not along its plane: the triple product of the
      direction and two edges is at least 10^-8. (For smaller ones see C36.) *)
  Definition meets (r : ray) (t : R) (A B C : vec3) : Prop :=
    (exists u v, in_simplex u v /\ ray_at r t = bary A B C u v) /\ / 100000000 <= Rabs (dot (vsub B A) (cross (rd r) (vsub C A))).
  (** The ray meets a surface of the scene at [t]. *)
  Definition meets_scene (s : scene affine) (r : ray) (t : R) : Prop := exists i f A B C, world_triangle s i f A B C /\ meets r t A B C.

  (** A corner of a triangle of the scene *)
  Definition corner (s : scene affine) (p : vec3) : Prop := exists i f A B C, world_triangle s i f A B C /\ (p = A \/ p = B \/ p = C).

  (** [x] is the nearest surface point on the ray between [tmin] and [tmax], with unit normals, the second of
      which is perpendicular to the triangle. *)
  Definition surface_hit (s : scene affine) (r : ray) (tmin tmax : R) (x : interaction) : Prop :=
    exists t f A B C g, tmin <= t <= tmax /\ world_triangle s (iprim x) f A B C /\ meets r t A B C /\
      (forall t', tmin <= t' <= tmax -> meets_scene s r t' -> t <= t') /\
      it x = SurfaceInteraction /\ igeom x = OnSurface g /\ sp g = ray_at r t /\ unit (sn g) /\ unit (sgn g) /\
      dot (sgn g) (vsub B A) = 0 /\ dot (sgn g) (vsub C A) = 0.

  (** Meshes without errors: indices are in range, the attributes of a face are complete, and interpolated
      normals are not zero. *)
  Definition sound_mesh (obj : bool) (m : mesh) : Prop :=
    valid obj m /\ (obj = true -> forall i, uniform m i) /\
    forall i f1 f2 f3 a b c u v, face_indices m i f1 f2 f3 -> names_vertex obj m f1 a -> names_vertex obj m f2 b -> names_vertex obj m f3 c ->
      in_simplex u v -> obj = false \/ (0 <= fn f1)%Z -> combine3 (v_n a) (v_n b) (v_n c) (V2 u v) <> v0.
  (** A scene that can be rendered: the graph has no cycle, transforms can be inverted, meshes are sound. *)
  Definition sound_scene (s : scene affine) : Prop :=
    numbered (s_nodes s) /\ traversable (s_nodes s) 0 /\
    forall p i k M, instance s p i k M -> det3 (fst M) <> 0 /\ sound_mesh (fst (mesh_of k)) (snd (mesh_of k)).

  (** [a] is an acceleration structure as the build leaves it, in any execution of its threads, for the scene;
      it is not deeper than the stack of a query (C35). *)
  Definition built_for (s : scene affine) (a : accel) : Prop :=
    exists fuel calls sort T l st,
      traverse id_affine after fuel s = (calls, Ok tt) /\ flatten mesh_of calls [] [] = ret (a_flat a, a_trs a) /\
      (forall x y, Permutation (sort x y) y) /\ (Z.of_nat (length (a_trs a)) <= 2147483647)%Z /\
      BvhModel.reach (a_trs a) sort T l st /\ (0 < T)%nat /\ BvhModel.finished T st /\
      a_nodes a = BvhModel.nodes st /\ a_indices a = BvhModel.indices st.
  Definition shallow (a : accel) : Prop :=
    forall d u, BvhSpec.tree (a_trs a) (a_nodes a) (a_indices a) 0 0 (length (a_trs a)) d u -> (d <= 98)%nat.

  (** The events a medium samples on the ray are on the asked segment. *)
  Definition sound_medium (m : medium) (r : ray) : Prop :=
    forall us t0 t1 ds us', Forall (fun u => 0 <= u < 1) us -> t0 <= t1 -> md_sample m us r t0 t1 = ret (Some ds, us') -> ds_medium ds = true ->
      exists t, t0 <= t <= t1 /\ ds_p ds = ray_at r t.
End S.

(** Position of a point that is not at infinity *)
Definition at_position (x : interaction) (p : vec3) : Prop :=
  match igeom x with OnSurface g => sp g = p | Degenerated q => q = p | Infinite _ => False end.
Definition direction_to (p q : vec3) : vec3 := vscale (/ vlen (vsub q p)) (vsub q p).
