(** What a PBRT scene shows: its meshes and where they are. *)
From Coq Require Import List ZArith String.
From Verif Require Import SceneModel PbrtModel.
Import ListNotations.

Section S.
  Variables (A M : Type).
  Variable amul : A -> A -> A.
  Definition meshes (l : list (option nat)) : list nat := flat_map (fun s => match s with Some m => [m] | None => [] end) l.
  (** An object at [X] shows its meshes at [X] and each instance [x] of an object shows that object at [X * x]. *)
  Fixpoint placed (o : pobj A) (X : A) {struct o} : list (A * nat) :=
    let '(PObj _ _ shapes insts) := o in
    map (fun m => (X, m)) (meshes shapes) ++
    flat_map (fun i => placed (snd i) (amul X (fst i))) insts.
  (** The meshes in a scene, given the calls of the traversal: where they are, and which *)
  Definition drawn (calls : list (node M * M)) : list (M * nat) :=
    flat_map (fun c => match c with
                       | (NPrim _ p, T) => match p_mesh p with Some m => [(T, m)] | None => [] end
                       | (NGroup _ _ _ _, _) => [] end) calls.
End S.
