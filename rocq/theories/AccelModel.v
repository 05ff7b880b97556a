(** Model of how the acceleration structures of the plugins present a scene to their libraries, and of how they
    turn a reported hit back: plugin/accel_nanort/accel_nanort.cpp, plugin/accel_embree/accel_embree.cpp and
    plugin/accel_embree/accel_embree_instanced.cpp. (For accel_sahbvh.cpp see VisModel.flatten.) Transforms and
    points are abstract; single precision inside of Embree is not modelled. *)
From Coq Require Import List ZArith Bool.
From Verif Require Import Base SceneModel.
Import ListNotations.
Local Notation "'get!' x := a 'in' b" := (obind a (fun x => b)) (at level 200, x pattern, a at level 100, b at level 200).

(** Reading elements [i], [j], [k] of a buffer.
    nanort and Embree read their buffers so (plugin/accel_nanort/accel_nanort.cpp:70-72, plugin/accel_embree/accel_embree.cpp:103-117). *)
Definition read3 {P} (get : nat -> option P) (i j k : nat) : option (P * P * P) :=
  match get i, get j, get k with Some a, Some b, Some c => Some (a, b, c) | _, _, _ => None end.

Section Accel.
  (** Mat4, and points: the image of a point under a transform *)
  Variables (M P : Type).
  Variable one : M.
  Variable mul : M -> M -> M.
  Variable act : M -> P -> P.
  (** The triangles of a mesh; Mesh::foreach_triangle hands them out with their numbers, in order (MeshModel) *)
  Variable mesh_of : nat -> list (P * P * P).
  Notation node := (node M).

  (** The transformed corners of a triangle: plugin/accel_nanort/accel_nanort.cpp:52, plugin/accel_embree/accel_embree.cpp:112-114, plugin/accel_embree/accel_embree_instanced.cpp:203-205. *)
  Definition corners (T : M) (t : P * P * P) : P * P * P := let '(a, b, c) := t in (act T a, act T b, act T c).
  (** (number, triangle) as the callback of foreach_triangle gets them.
      include/lm/mesh.h: foreach_triangle, as called in plugin/accel_nanort/accel_nanort.cpp:50, plugin/accel_embree/accel_embree.cpp:110. *)
  Definition faces (k : nat) : list (nat * (P * P * P)) := combine (seq 0 (List.length (mesh_of k))) (mesh_of k).

  (** A hit as it is handed to the scene: transform, node and face.
      Used by [nano_hit]: plugin/accel_nanort/accel_nanort.cpp:94-96. *)
  Definition hit : Type := (M * Z * nat)%type.

  (** ** accel_nanort.cpp *)
  Record nano := mk_nano { nr_vs : list P; nr_fs : list nat; nr_per : list (nat * nat); nr_flat : list (M * Z) }.
  (** 52, 56-64; vs_ holds three coordinates for each vertex and the library reads it with that stride *)
  Definition nano_face (n : nat) (T : M) (s : nano) (x : nat * (P * P * P)) : nano :=
    let '(a, b, c) := corners T (snd x) in
    let k := List.length (nr_fs s) in
    mk_nano (nr_vs s ++ [a; b; c]) (nr_fs s ++ [k; k + 1; k + 2]) (nr_per s ++ [(n, fst x)]) (nr_flat s).
  (** plugin/accel_nanort/accel_nanort.cpp:38-65: the visitor of traverse_primitive_nodes; a primitive without mesh is left out. *)
  Definition nano_node (s : nano) (c : node * M) : nano :=
    match c with
    | (NPrim i p, T) =>
        match p_mesh p with
        | None => s
        | Some k =>
            let n := List.length (nr_flat s) in
            fold_left (nano_face n T) (faces k) (mk_nano (nr_vs s) (nr_fs s) (nr_per s) (nr_flat s ++ [(T, i)]))
        end
    | (NGroup _ _ _ _, _) => s
    end.
  (** 36-65, on the calls of the traversal *)
  Definition nano_build (calls : list (node * M)) : nano := fold_left nano_node calls (mk_nano [] [] [] []).
  (** The triangles that the library sees: number [k] has the vertices fs[3k], fs[3k+1], fs[3k+2] (70-72) *)
  Definition nano_triangle (s : nano) (k : nat) : option (P * P * P) :=
    match nth_error (nr_fs s) (3 * k), nth_error (nr_fs s) (3 * k + 1), nth_error (nr_fs s) (3 * k + 2) with
    | Some a, Some b, Some c => read3 (nth_error (nr_vs s)) a b c
    | _, _, _ => None
    end.
  (** plugin/accel_nanort/accel_nanort.cpp:72: fs_.size() / 3, the number of triangles. *)
  Definition nano_count (s : nano) : nat := List.length (nr_fs s) / 3.
  (** 94-96: the hit for triangle [prim_id]; vector::at *)
  Definition nano_hit (s : nano) (prim_id : nat) : outcome hit :=
    match nth_error (nr_per s) prim_id with
    | None => Throw ErrOutOfRange
    | Some (n, face) => match nth_error (nr_flat s) n with None => Throw ErrOutOfRange | Some (T, i) => Ok (T, i, face) end
    end.

  (** ** Geometries of Embree: buffers of vertices and of the indices of triangles.
      Used by [geom_face]: plugin/accel_embree/accel_embree.cpp:103-117, plugin/accel_embree/accel_embree_instanced.cpp:194-208. *)
  Record geometry := mk_geometry { g_size : nat; g_vs : nat -> option P; g_fs : nat -> option (nat * nat * nat) }.
  (** Assignment to an element of a buffer: plugin/accel_embree/accel_embree.cpp:112-117. *)
  Definition write {A} (b : nat -> option A) (i : nat) (x : A) : nat -> option A := fun j => if Nat.eqb j i then Some x else b j.
  (** accel_embree.cpp:103-117, accel_embree_instanced.cpp:194-208 *)
  Definition geom_face (T : M) (g : geometry) (x : nat * (P * P * P)) : geometry :=
    let f := fst x in
    let '(a, b, c) := corners T (snd x) in
    mk_geometry (g_size g) (write (write (write (g_vs g) (3 * f) a) (3 * f + 1) b) (3 * f + 2) c)
                (write (g_fs g) f (3 * f, 3 * f + 1, 3 * f + 2)).
  (** plugin/accel_embree/accel_embree.cpp:103-117, plugin/accel_embree/accel_embree_instanced.cpp:194-208: the buffers filled by all calls of the callback. *)
  Definition make_geometry (T : M) (k : nat) : geometry :=
    fold_left (geom_face T) (faces k) (mk_geometry (List.length (mesh_of k)) (fun _ => None) (fun _ => None)).
  (** The triangle that Embree takes from the buffers of plugin/accel_embree/accel_embree.cpp:105-106; None if it was not written. *)
  Definition geom_triangle (g : geometry) (f : nat) : option (P * P * P) :=
    if f <? g_size g then match g_fs g f with Some (a, b, c) => read3 (g_vs g) a b c | None => None end else None.

  (** ** accel_embree.cpp *)
  (** 91-121: flattened nodes, and attached geometries by number *)
  Definition embree_node (s : list (M * Z) * list (nat * geometry)) (c : node * M) : list (M * Z) * list (nat * geometry) :=
    match c with
    | (NPrim i p, T) =>
        match p_mesh p with
        | None => s
        | Some k => (fst s ++ [(T, i)], snd s ++ [(List.length (fst s), make_geometry T k)])
        end
    | (NGroup _ _ _ _, _) => s
    end.
  (** plugin/accel_embree/accel_embree.cpp:80-124: all calls of the visitor. *)
  Definition embree_build (calls : list (node * M)) : list (M * Z) * list (nat * geometry) := fold_left embree_node calls ([], []).
  (** 156-163 *)
  Definition embree_hit (flat : list (M * Z)) (geomID primID : nat) : outcome hit :=
    match nth_error flat geomID with None => Throw ErrOutOfRange | Some (T, i) => Ok (T, i, primID) end.

  (** ** accel_embree_instanced.cpp *)
  (** 16-29; the index of a flattened node is its position *)
  Inductive fnode := FPrim (T : M) (i : Z) | FInst (T : M) (i : Z) (child : nat).
  (** flattened_scenes_ and node_to_flattened_scene_map. plugin/accel_embree/accel_embree_instanced.cpp:41, 94. *)
  Record flat := mk_flat { fl_scenes : list (list fnode); fl_map : list (Z * nat) }.
  (** plugin/accel_embree/accel_embree_instanced.cpp:164: one empty scene. *)
  Definition no_flat : flat := mk_flat [[]] [].
  (** plugin/accel_embree/accel_embree_instanced.cpp:126. *)
  Fixpoint find_scene (i : Z) (m : list (Z * nat)) : option nat :=
    match m with [] => None | (j, c) :: r => if (i =? j)%Z then Some c else find_scene i r end.
  (** flattened_scenes_.at(k).push_back(x). plugin/accel_embree/accel_embree_instanced.cpp:100, 139. *)
  Definition push_node (k : nat) (x : fnode) (s : flat) : flat * outcome unit :=
    match nth_error (fl_scenes s) k with
    | None => (s, Throw ErrOutOfRange)
    | Some l => (mk_flat (put (fl_scenes s) k (l ++ [x])) (fl_map s), Ok tt)
    end.
  (** One visit after another. plugin/accel_embree/accel_embree_instanced.cpp:96-160: the recursion over the children. *)
  Fixpoint in_turn (f : Z -> flat -> flat * outcome unit) (l : list Z) (s : flat) : flat * outcome unit :=
    match l with
    | [] => (s, Ok tt)
    | c :: r => let a := f c s in match snd a with Ok _ => in_turn f r (fst a) | e => (fst a, e) end
    end.
  (** 96-163: visit_scene_node on nodes_.at(index), see Scene::visit_node (src/scene.cpp:232-234). [k] is the
      flattened scene that is filled; [ignore] is ignoreInstanceGroup. [fuel] bounds the depth as in
      SceneModel.visit. *)
  Fixpoint inst_visit (ns : list node) (fuel : nat) (index : Z) (T : M) (k : nat) (ignore : bool) (s : flat) {struct fuel} : flat * outcome unit :=
    match fuel with
    | O => (s, Fuel)
    | S f =>
        match node_at ns index with
        | Throw e => (s, Throw e) | UB => (s, UB) | Fuel => (s, Fuel)
        | Ok (NPrim i p) => push_node k (FPrim T i) s
        | Ok (NGroup i ch inst loc) =>
            if negb ignore && inst then
              match find_scene i (fl_map s) with
              | Some c => push_node k (FInst T i c) s
              | None =>
                  let c := List.length (fl_scenes s) in
                  let a := inst_visit ns f i one c true (mk_flat (fl_scenes s ++ [[]]) ((i, c) :: fl_map s)) in
                  match snd a with Ok _ => push_node k (FInst T i c) (fst a) | e => (fst a, e) end
              end
            else
              let T' := match loc with Some L => mul T L | None => T end in
              in_turn (fun c s => inst_visit ns f c T' k ignore s) ch s
        end
    end.
  (** 164-165 *)
  Definition inst_flatten (fuel : nat) (ns : list node) : flat * outcome unit := inst_visit ns fuel 0 one 0 false no_flat.

  (** 172-232: the scenes of Embree. Geometries and instances are attached with the index of their flattened node;
      the instance of a scene that has not been made (rtcscenes.at gives null) is undefined. [done]: the scenes
      made so far, those with greater numbers. *)
  Inductive attached := AGeom (g : geometry) | AInst (T : M) (content : list (nat * geometry)).
  (** The content of a scene that is used as instance: plugin/accel_embree/accel_embree_instanced.cpp:220-225. *)
  Definition geoms_only (l : list (nat * attached)) : option (list (nat * geometry)) :=
    fold_right (fun x r => match snd x, r with AGeom g, Some r => Some ((fst x, g) :: r) | _, _ => None end) (Some []) l.
  (** plugin/accel_embree/accel_embree_instanced.cpp:182-228: the nodes of one flattened scene, from [index] on. *)
  Fixpoint attach (ns : list node) (scenes : nat -> option (list (nat * attached))) (i : nat) (l : list fnode) (index : nat) : outcome (list (nat * attached)) :=
    match l with
    | [] => Ok []
    | FPrim T j :: r =>
        get! n := node_at ns j in
        match n with
        | NGroup _ _ _ _ => UB (* the assertion on line 188 *)
        | NPrim _ p =>
            get! rest := attach ns scenes i r (S index) in
            match p_mesh p with None => Ok rest | Some k => Ok ((index, AGeom (make_geometry T k)) :: rest) end
        end
    | FInst T j c :: r =>
        if negb (Nat.eqb i 0) then UB (* the assertion on line 217 *) else
        match scenes c with
        | None => UB
        | Some content =>
            match geoms_only content with
            | None => UB
            | Some g => get! rest := attach ns scenes i r (S index) in Ok ((index, AInst T g) :: rest)
            end
        end
    end.
  (** The loop from the last scene down to the root: scenes [i - 1], ..., 0.
      plugin/accel_embree/accel_embree_instanced.cpp:172-232. *)
  Fixpoint make_scenes (ns : list node) (fs : list (list fnode)) (i : nat) (made : nat -> option (list (nat * attached))) : outcome (nat -> option (list (nat * attached))) :=
    match i with
    | O => Ok made
    | S i => get! a := attach ns made i (nth i fs []) 0 in make_scenes ns fs i (write made i a)
    end.
  (** plugin/accel_embree/accel_embree_instanced.cpp:84-235. *)
  Definition inst_build (fuel : nat) (ns : list node) : outcome (flat * list (nat * attached)) :=
    let a := inst_flatten fuel ns in
    get! _ := snd a in
    get! made := make_scenes ns (fl_scenes (fst a)) (List.length (fl_scenes (fst a))) (fun _ => None) in
    match made 0 with Some l => Ok (fst a, l) | None => UB end.
  (** 274-296; None is RTC_INVALID_GEOMETRY_ID *)
  Definition inst_hit (fs : list (list fnode)) (instID : option nat) (geomID primID : nat) : outcome hit :=
    let at_ k n := match nth_error fs k with Some l => match nth_error l n with Some x => Ok x | None => Throw ErrOutOfRange end | None => Throw ErrOutOfRange end in
    match instID with
    | Some n =>
        get! x := at_ 0 n in
        match x with
        | FInst T1 _ c => get! y := at_ c geomID in match y with FPrim T2 i => Ok (mul T1 T2, i, primID) | FInst T2 i _ => Ok (mul T1 T2, i, primID) end
        | FPrim _ _ => UB (* flattened_scene_index is not initialised *)
        end
    | None => get! x := at_ 0 geomID in match x with FPrim T i => Ok (T, i, primID) | FInst T i _ => Ok (T, i, primID) end
    end.

  (** What Embree sees: the triangles with the numbers by which it reports them (instID, geomID, primID), and where
      they are. An instance moves the geometries of its scene.
      No code of the repository: the view of the library on plugin/accel_embree/accel_embree.cpp:119, plugin/accel_embree/accel_embree_instanced.cpp:210, 225. *)
  Definition geom_listing (inst : option nat) (move : P -> P) (x : nat * geometry) : list (option nat * nat * nat * option (P * P * P)) :=
    map (fun f => (inst, fst x, f, option_map (fun t => let '(a, b, c) := t in (move a, move b, move c)) (geom_triangle (snd x) f))) (seq 0 (g_size (snd x))).
  (** The view of the library on the scene of plugin/accel_embree/accel_embree.cpp:80-124. *)
  Definition embree_listing (l : list (nat * geometry)) := flat_map (geom_listing None (fun p => p)) l.
  (** The view of the library on the root scene of plugin/accel_embree/accel_embree_instanced.cpp:172-232. *)
  Definition inst_listing (l : list (nat * attached)) :=
    flat_map (fun x => match snd x with
                       | AGeom g => geom_listing None (fun p => p) (fst x, g)
                       | AInst T content => flat_map (geom_listing (Some (fst x)) (act T)) content
                       end) l.
End Accel.
