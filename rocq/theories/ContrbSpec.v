(** Independent vocabulary for the measurement contribution of a path: the product of what its vertices scatter
    and of the geometry terms of its edges. *)
From Coq Require Import List Reals ZArith.
From Verif Require Import Base VecBase SceneModel SurfModel SurfSpec MatModel MatSpec LightModel LightSpec PhaseModel PhaseProps VisModel PathModel BidirModel BdptSpec.
Import ListNotations.
Open Scope R_scope.

(** The neighbours of vertex [k], counted from the light *)
Definition before (p : fullpath) (k : nat) : option vert := match k with O => None | S k => nth_error p k end.
Definition after (p : fullpath) (k : nat) : option vert := nth_error p (S k).
(** [f] is what vertex [k] scatters between its neighbours, in transport direction [d]: light comes from the
    vertex before it (importance from the vertex after it). *)
Definition scattered (A : api) (p : fullpath) (k : nat) (d : trans_dir) (delta : bool) (f : vec3) : Prop :=
  exists v a b, nth_error p k = Some v /\ direction (Some v) (before p k) = Val a /\ direction (Some v) (after p k) = Val b /\
    match d with LE => a_contrb A (vs_sp v) a b (vs_comp v) LE delta | EL => a_contrb A (vs_sp v) b a (vs_comp v) EL delta end = ret f.
(** [g] is the geometry term of the edge from vertex [k] to the next. *)
Definition edge (p : fullpath) (k : nat) (g : R) : Prop :=
  exists v w, nth_error p k = Some v /\ nth_error p (S k) = Some w /\ geometry_term (igeom (vs_sp v)) (igeom (vs_sp w)) = Some g.
(** Strategy [s] of a path of [n] vertices takes the first [s] from the light, the others from the camera; but
    the emission of the light and the response of the camera are always its ends'. *)
Definition side (n s k : nat) : trans_dir := if (k =? 0)%nat then LE else if (k =? n - 1)%nat then EL else if (k <? s)%nat then LE else EL.
(** The vertices that strategy [s] connects; if all come from one side, the end that was hit *)
Definition joint (s k : nat) : bool := (S k =? s)%nat || (k =? s)%nat.
(** The component-wise product of f i, ..., f (i+k-1) *)
Fixpoint vproduct (f : nat -> vec3) (i k : nat) : vec3 := match k with O => grey 1 | S k => vmul (f i) (vproduct f (S i) k) end.
(** The measurement contribution of a path of [n] vertices that scatter [f] with the geometry terms [g] *)
Definition measured (f : nat -> vec3) (g : nat -> R) (n : nat) : vec3 := vscale (product g 0 (n - 1)) (vproduct f 0 n).

(** Vertex [k] scatters the same in both directions; ends have only one. *)
Definition symmetric_at (A : api) (p : fullpath) (k : nat) : Prop :=
  forall d d' b b' f f', (k = 0%nat -> d = LE /\ d' = LE) -> (S k = length p -> d = EL /\ d' = EL) -> scattered A p k d b f -> scattered A p k d' b' f' -> f = f'.
(** The factor by which the interpolated normal of a surface favours light from [a] to [b] *)
Definition tilt (g : surf) (a b : vec3) : R := (dot a (sn g) * dot b (sgn g)) / (dot b (sn g) * dot a (sgn g)).
Definition tilt_at (p : fullpath) (k : nat) (c : R) : Prop :=
  exists v, nth_error p k = Some v /\
    match igeom (vs_sp v) with
    | OnSurface g => exists a b, direction (Some v) (before p k) = Val a /\ direction (Some v) (after p k) = Val b /\ c = tilt g a b
    | _ => c = 1
    end.

(** Vertices of a path in a scene whose scattering is no delta: an end on a light or the camera, a point of a
    reflecting surface, a point in a medium *)
Section Scene.
  Variables (mat : nat -> material) (lgt : nat -> light) (pha : nat -> PhaseModel.phase) (s : scene affine).
  Definition plain_vertex (v : vert) : Prop :=
    exists p, prim_at s (iprim (vs_sp v)) = Ok p /\
      match it (vs_sp v) with
      | CameraEndpoint => True
      | LightEndpoint => exists l, SceneModel.p_light p = Some l /\ LightSpec.light_made (lgt l) /\ l_specular (lgt l) = false
      | MediumInteraction => exists m x, p_medium p = Some m /\ PhaseProps.phase_made (pha m) /\ igeom (vs_sp v) = Degenerated x
      | SurfaceInteraction => exists m g, p_material p = Some m /\ MatSpec.reflecting (mat m) /\ is_specular (mat m) (vs_comp v) = false /\
          spoint_of (vs_sp v) = Val g /\ MatSpec.surface_point g
      end.
  (** A path from a light to the camera over such vertices *)
  Definition plain_path (p : fullpath) : Prop :=
    (forall v, In v p -> plain_vertex v /\ forall w, igeom (vs_sp v) = Infinite w -> SurfSpec.unit w) /\
    (forall v, nth_error p 0 = Some v -> it (vs_sp v) = LightEndpoint) /\ (forall v, nth_error p (length p - 1) = Some v -> it (vs_sp v) = CameraEndpoint) /\
    (forall k v, (0 < k < length p - 1)%nat -> nth_error p k = Some v -> it (vs_sp v) = SurfaceInteraction \/ it (vs_sp v) = MediumInteraction).
End Scene.
