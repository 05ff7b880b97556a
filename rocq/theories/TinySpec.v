(** Vocabulary for the loader that uses tinyobjloader. *)
From Coq Require Import List ZArith Bool.
From Verif Require Import Base LogModel TinyModel.
Import ListNotations.
Local Open Scope Z_scope.

(** A triangle of a file: three corners and the number of its material (negative: none) *)
Definition triangle : Type := (tindex * tindex * tindex) * Z.
(** A shape of the library that has these triangles *)
Definition shape_of (l : list triangle) : tshape :=
  mk_tshape (map (fun _ => 3) l) (map snd l) (flat_map (fun t => let '(a, b, c, _) := t in [a; b; c]) l).
(** The materials are numbered from 0; faces without one get the first. *)
Definition material_of {F} (ps : list (params F)) (m : Z) : option (params F) := nth_error ps (Z.to_nat (Z.max 0 m)).
Definition known {F} (ps : list (params F)) (l : list triangle) : Prop := forall t, In t l -> Z.max 0 (snd t) < Z.of_nat (List.length ps).
(** The triangles of a mesh *)
Fixpoint tris (fs : list tindex) : list (tindex * tindex * tindex) :=
  match fs with a :: b :: c :: r => (a, b, c) :: tris r | _ => [] end.
(** The triangles that the calls hand over, each with its material *)
Definition handed {F} (tr : list (event F)) : list ((tindex * tindex * tindex) * params F) :=
  flat_map (fun e => match e with Mat _ => [] | Mesh fs p => map (fun t => (t, p)) (tris fs) end) tr.
(** The materials that the calls hand over *)
Definition declared {F} (tr : list (event F)) : list (params F) := flat_map (fun e => match e with Mat p => [p] | Mesh _ _ => [] end) tr.
(** All triangles of the shapes, each with its material *)
Definition wanted {F} (ps : list (params F)) (ls : list (list triangle)) : list ((tindex * tindex * tindex) * option (params F)) :=
  flat_map (map (fun t => (fst t, material_of ps (snd t)))) ls.
(** The triangles whose material is that of the triangle before *)
Fixpoint repeated (prev : Z) (l : list triangle) : list triangle :=
  match l with [] => [] | t :: l => if snd t =? prev then t :: repeated (snd t) l else repeated (snd t) l end.
(** The same and the first one *)
Definition kept (l : list triangle) : list triangle := match l with [] => [] | t :: _ => repeated (snd t) l end.
