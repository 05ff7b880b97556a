(** Independent vocabulary for the path functions. *)
From Coq Require Import List Reals ZArith.
From Verif Require Import Base SceneModel SceneSpec VecBase SurfModel MatModel MatSpec CamModel CamSpec LightModel LightSpec PhaseModel PhaseProps PathModel.
Import ListNotations.

(** A scene ready for rendering: the result of a completed build of a scene with numbered nodes (C16), in
    which no light is instanced more than once. *)
Definition ready {M : Type} (s : scene M) : Prop :=
  exists one mul fuel s0, numbered (s_nodes s0) /\ snd (traverse one mul fuel s0) = Ok tt
    /\ s = snd (build one mul fuel s0) /\ NoDup (map snd (s_lights s)).
(** Node [i] is a primitive with the given asset. *)
Definition carries {M : Type} (s : scene M) (i : Z) (f : prim -> option nat) (k : nat) : Prop :=
  exists x p, has_node (s_nodes s) i (NPrim x p) /\ f p = Some k.
(** An interaction as the library makes them: the primitive carries what the type of the interaction needs;
    a light end point belongs to a light found by the build, a surface interaction is on a surface. *)
Definition valid {M : Type} (s : scene M) (x : interaction) : Prop :=
  match it x with
  | CameraEndpoint => exists k, carries s (iprim x) p_camera k
  | LightEndpoint => exists i T, light_primitive_index_at s i = Ok (T, iprim x)
  | SurfaceInteraction => (exists k, carries s (iprim x) p_material k) /\ exists g, igeom x = OnSurface g
  | MediumInteraction => exists k, carries s (iprim x) p_medium k
  end.
(** A call ends without an exception and without undefined behaviour of the dispatch; or else raises that
    the operation is not supported. *)
Definition fine {A} (r : outcome A) : Prop := exists a, r = Ok a.
Definition fine_or_unsupported {A} (r : outcome A) : Prop := fine r \/ r = Throw ErrUnsupported.
