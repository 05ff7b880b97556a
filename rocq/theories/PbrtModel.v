(** Model of the import of PBRT scenes: Model_PBRT in plugin/model_pbrt/model_pbrt.cpp. The parsed scene is a tree of
    objects (shared objects are repeated in the tree: the code compares them by name only). A mesh that the model
    creates is identified with the triangle mesh of the parser that it wraps. Creating the camera, the material and
    the meshes is not modelled (they are in this library or plugin and cannot fail to be created). *)
From Coq Require Import List ZArith Bool String.
From Verif Require Import Base SceneModel.
Import ListNotations.
Local Notation "'get!' x := a 'in' b" := (obind a (fun x => b)) (at level 200, x pattern, a at level 100, b at level 200).

Section Pbrt.
  (** pbrt::affine3f and Mat4; convertPbrtXfm (29-33) *)
  Variables (A M : Type).
  Variable aone : A.
  Variable amul : A -> A -> A.
  Variable one : M.
  Variable conv : A -> M.
  (** defaultMaterial_ (162-164) *)
  Variable material : nat.
  Notation node := (node M).

  (** pbrt::Object: name, shapes (None: not a triangle mesh) and instances. plugin/model_pbrt/model_pbrt.cpp:170-235. *)
  Inductive pobj := PObj (name : string) (shapes : list (option nat)) (insts : list (A * pobj)).
  (** plugin/model_pbrt/model_pbrt.cpp:205. *)
  Definition po_name (o : pobj) : string := let '(PObj n _ _) := o in n.

  (** nodes_, meshes_ and visited. plugin/model_pbrt/model_pbrt.cpp:109-122, 168. *)
  Record pst := mk_pst { ps_nodes : list node; ps_meshes : list nat; ps_visited : list (string * Z) }.
  (** 119-122 *)
  Definition pst0 : pst := mk_pst [NGroup 0 [] false None] [] [].
  (** Helper of [add_camera]: plugin/model_pbrt/model_pbrt.cpp:133-159. *)
  Definition psize (s : pst) : Z := Z.of_nat (List.length (ps_nodes s)).
  (** Helper of [add_camera]: plugin/model_pbrt/model_pbrt.cpp:133-159. *)
  Definition push (n : node) (s : pst) : pst := mk_pst (ps_nodes s ++ [n]) (ps_meshes s) (ps_visited s).
  (** nodes_[parent].group.children.push_back(index). Used by [add_camera]: plugin/model_pbrt/model_pbrt.cpp:133-159. *)
  Definition link (parent index : Z) (s : pst) : outcome pst :=
    if (parent <? 0)%Z then UB else
    match nth_error (ps_nodes s) (Z.to_nat parent) with
    | Some (NGroup i ch inst loc) => Ok (mk_pst (put (ps_nodes s) (Z.to_nat parent) (NGroup i (ch ++ [index]) inst loc)) (ps_meshes s) (ps_visited s))
    | Some (NPrim _ _) | None => UB
    end.
  (** Helper of [visit_object]: plugin/model_pbrt/model_pbrt.cpp:170-235. *)
  Fixpoint lookup (n : string) (l : list (string * Z)) : option Z :=
    match l with [] => None | (m, g) :: r => if String.eqb n m then Some g else lookup n r end.

  (** 133-159 *)
  Definition add_camera (cam : option nat) (s : pst) : outcome pst :=
    match cam with
    | None => Ok s
    | Some c => link 0 (psize s) (push (NPrim (psize s) (mk_prim None None None (Some c) None)) s)
    end.
  (** 172-198 *)
  Fixpoint add_shapes (parent : Z) (l : list (option nat)) (s : pst) : outcome pst :=
    match l with
    | [] => Ok s
    | None :: r => add_shapes parent r s
    | Some m :: r =>
        let i := psize s in
        let s1 := mk_pst (ps_nodes s ++ [NPrim i (mk_prim (Some m) (Some material) None None None)]) (ps_meshes s ++ [m]) (ps_visited s) in
        get! s2 := link parent i s1 in add_shapes parent r s2
    end.
  (** 170-235 *)
  Fixpoint visit_object (o : pobj) (parent : Z) (X : A) (s : pst) {struct o} : outcome pst :=
    match o with
    | PObj _ shapes insts =>
        get! s1 := add_shapes parent shapes s in
        (fix each (l : list (A * pobj)) (s : pst) {struct l} : outcome pst :=
           match l with
           | [] => Ok s
           | (x, o') :: r =>
               let G := amul X x in
               let t := psize s in
               get! s2 := link parent t (push (NGroup t [] false (Some (conv G))) s) in
               get! s3 :=
                 match lookup (po_name o') (ps_visited s2) with
                 | Some g => link t g s2
                 | None =>
                     let g := psize s2 in
                     get! s' := visit_object o' g G (push (NGroup g [] true (Some one)) s2) in
                     Ok (mk_pst (ps_nodes s') (ps_meshes s') ((po_name o', g) :: ps_visited s'))
                 end in
               each r s3
           end) insts s1
    end.
  (** 125-237, after the file has been parsed *)
  Definition pbrt_construct (cam : option nat) (world : pobj) : outcome pst :=
    get! s := add_camera cam pst0 in visit_object world 0 aone s.
  (** 239-243: what create_primitives hands out: mesh, material and light *)
  Definition pbrt_primitives (s : pst) : list (option nat * option nat * option nat) :=
    map (fun m => (Some m, Some material, None)) (ps_meshes s).
End Pbrt.
