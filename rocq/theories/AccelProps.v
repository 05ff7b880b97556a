(** C80: the acceleration structures of the plugins show their libraries exactly the triangles of the scene. *)
From Coq Require Import List ZArith Bool Lia.
From Verif Require Import Base SceneModel SceneSpec AccelModel AccelSpec AccelProofs.
Import ListNotations.

(** NanoRT: in order, the library's triangles are those of the scene, and a hit on each of them is handed to the scene
    as the transform, node and face that it comes from. *)
Theorem C80_nanort : forall M P (act : M -> P -> P) mesh_of (calls : list (node M * M)),
  let s := nano_build M P act mesh_of calls in
  map (fun k => (nano_hit M P s k, nano_triangle M P s k)) (seq 0 (nano_count M P s)) =
  map (fun x => (Ok (fst x), Some (snd x))) (world M P act mesh_of calls).
Proof. intros. apply nano_all. Qed.
Print Assumptions C80_nanort.

(** Embree: likewise, with the numbers by which it reports triangles *)
Theorem C80_embree : forall M P (act : M -> P -> P) mesh_of (calls : list (node M * M)),
  let s := embree_build M P act mesh_of calls in
  map (fun x => let '(_, geomID, primID, t) := x in (embree_hit M (fst s) geomID primID, t)) (embree_listing P (snd s)) =
  map (fun x => (Ok (fst x), Some (snd x))) (world M P act mesh_of calls).
Proof. intros. apply embree_all. Qed.
Print Assumptions C80_embree.

(** Embree with instances: whatever groups are instanced, nested or shared, if the scene can be traversed then the
    structure is built without reaching an assertion or an unmade scene, and Embree sees the same triangles at the same
    places and in the same order as without instances, reported as the same hits. *)
Theorem C80_instanced : forall M P (one : M) mul (act : M -> P -> P) mesh_of,
  (forall T, mul T one = T) -> (forall A B C, mul A (mul B C) = mul (mul A B) C) ->
  (forall A B p, act (mul A B) p = act A (act B p)) ->
  forall s fuel calls, numbered (s_nodes s) -> traverse one mul fuel s = (calls, Ok tt) ->
  exists fs l, inst_build M P one mul act mesh_of (S fuel) (s_nodes s) = Ok (fs, l) /\
    map (fun x => let '(instID, geomID, primID, t) := x in (inst_hit M mul (fl_scenes M fs) instID geomID primID, t)) (inst_listing M P act l) =
    map (fun x => (Ok (fst x), Some (snd x))) (world M P act mesh_of calls).
Proof. intros. now apply (instanced_all M P one mul act mesh_of). Qed.
Print Assumptions C80_instanced.

(** Transforms and points are words. Root -> two transform groups -> one instanced group, which holds a mesh and
    another instanced group with a transform of its own; and a plain primitive without a mesh. *)
Definition x_inst : scene (list nat) :=
  mk_scene None [NGroup 0 [1; 6; 2]%Z false None; NGroup 1 [3]%Z false (Some [1]); NGroup 2 [3]%Z false (Some [2]);
            NGroup 3 [4; 5]%Z true None; NPrim 4 (mk_prim (Some 0) (Some 9) None None None); NGroup 5 [4]%Z true (Some [3]);
            NPrim 6 (mk_prim None None None (Some 8) None)] None [] [] None None 0.
Definition x_tris (k : nat) : list (list nat * list nat * list nat) := [([10], [11], [12]); ([20], [21], [22])].
Example C80_example : numbered (s_nodes x_inst) /\
  (let c := fst (traverse [] (@app nat) 5 x_inst) in
   traverse [] (@app nat) 5 x_inst = (c, Ok tt) /\
   world (list nat) (list nat) (@app nat) x_tris c =
   [([1], 4%Z, 0, ([1; 10], [1; 11], [1; 12])); ([1], 4%Z, 1, ([1; 20], [1; 21], [1; 22]));
    ([1; 3], 4%Z, 0, ([1; 3; 10], [1; 3; 11], [1; 3; 12])); ([1; 3], 4%Z, 1, ([1; 3; 20], [1; 3; 21], [1; 3; 22]));
    ([2], 4%Z, 0, ([2; 10], [2; 11], [2; 12])); ([2], 4%Z, 1, ([2; 20], [2; 21], [2; 22]));
    ([2; 3], 4%Z, 0, ([2; 3; 10], [2; 3; 11], [2; 3; 12])); ([2; 3], 4%Z, 1, ([2; 3; 20], [2; 3; 21], [2; 3; 22]))]) /\
  exists fs l, inst_build _ _ [] (@app nat) (@app nat) x_tris 6 (s_nodes x_inst) = Ok (fs, l) /\
    fl_scenes _ fs = [[FInst _ [1] 3 1; FPrim _ [] 6; FInst _ [2] 3 1]; [FPrim _ [] 4; FPrim _ [3] 4]].
Proof.
  split; [|split].
  - intros k n H. do 7 (destruct k; [now injection H as <-|]). cbn in H. now destruct k.
  - now split.
  - cbv -[Z.of_nat]. do 2 eexists. split; reflexivity.
Qed.
