(** What an acceleration structure has to report about a scene. *)
From Coq Require Import List ZArith.
From Verif Require Import SceneModel.
Import ListNotations.

Section S.
  Variables (M P : Type).
  Variable act : M -> P -> P.
  Variable mesh_of : nat -> list (P * P * P).
  (** The triangles of a scene, given the calls that Scene::traverse_primitive_nodes makes: for every primitive with
      a mesh, and every face of it, the transform, node and face, and where the corners are. *)
  Definition world (calls : list (node M * M)) : list ((M * Z * nat) * (P * P * P)) :=
    flat_map (fun call =>
      match call with
      | (NPrim i p, T) =>
          match p_mesh p with
          | Some k => map (fun x => ((T, i, fst x), let '(a, b, c) := snd x in (act T a, act T b, act T c)))
                          (combine (seq 0 (List.length (mesh_of k))) (mesh_of k))
          | None => []
          end
      | (NGroup _ _ _ _, _) => []
      end) calls.
End S.
