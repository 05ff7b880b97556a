(** What C54 means: which vertices the faces of a mesh have. *)
From Coq Require Import List ZArith Reals Bool.
From Verif Require Import Base ObjModel RBase VecBase SurfModel MeshModel.
Import ListNotations.
Local Open Scope nat_scope.

(** [a] is element number [i] of [l]. *)
Definition elem {A} (l : list A) (i : Z) (a : A) : Prop := (0 <= i)%Z /\ nth_error l (Z.to_nat i) = Some a.
(** In an OBJ mesh a missing attribute (negative index) has the value zero. *)
Definition attribute {A} (obj : bool) (z : A) (l : list A) (i : Z) (a : A) : Prop :=
  (obj = true /\ (i < 0)%Z /\ a = z) \/ ((obj = true -> (0 <= i)%Z) /\ elem l i a).

(** Vertex [v] is the one that index triple [f] names. *)
Definition names_vertex (obj : bool) (m : mesh) (f : findex) (v : vertex) : Prop :=
  elem (m_ps m) (fp f) (v_p v) /\ attribute obj v0 (m_ns m) (fn f) (v_n v) /\ attribute obj v2zero (m_ts m) (ft f) (v_t v).

(** Every index triple of the mesh names a vertex. *)
Definition valid (obj : bool) (m : mesh) : Prop := forall f, In f (m_fs m) -> exists v, names_vertex obj m f v.

(** Face number [i]: the index triples 3i, 3i+1, 3i+2. *)
Definition face_indices (m : mesh) (i : nat) (f1 f2 f3 : findex) : Prop :=
  nth_error (m_fs m) (3 * i) = Some f1 /\ nth_error (m_fs m) (3 * i + 1) = Some f2 /\ nth_error (m_fs m) (3 * i + 2) = Some f3.
Definition face_vertices (obj : bool) (m : mesh) (i : nat) (t : tri3) : Prop :=
  exists f1 f2 f3, face_indices m i f1 f2 f3
    /\ names_vertex obj m f1 (fst (fst t)) /\ names_vertex obj m f2 (snd (fst t)) /\ names_vertex obj m f3 (snd t).

(** The vertices of a face of an OBJ mesh all have a normal or all have none, and so for texture
    coordinates (the format requires it). *)
Definition uniform (m : mesh) (i : nat) : Prop :=
  forall f1 f2 f3, face_indices m i f1 f2 f3 ->
    ((fn f1 < 0)%Z <-> (fn f2 < 0)%Z) /\ ((fn f1 < 0)%Z <-> (fn f3 < 0)%Z)
    /\ ((ft f1 < 0)%Z <-> (ft f2 < 0)%Z) /\ ((ft f1 < 0)%Z <-> (ft f3 < 0)%Z).

(** Barycentric combination. *)
Definition combine3 (a b c : vec3) (u : vec2) : vec3 :=
  vadd (vadd (vscale (1 - v2x u - v2y u) a) (vscale (v2x u) b)) (vscale (v2y u) c).
Definition unit_of (v : vec3) (n : option vec3) : Prop :=
  match n with
  | Some n => (vlen n = 1)%R /\ exists k, (0 < k)%R /\ v = vscale k n
  | None => v = v0
  end.
