(** Model of the OBJ and MTL parser (src/objloader/objloader_simple.cpp). A line is the list of its
    characters without the terminating zero; a pointer into it is the rest of the line. *)
From Coq Require Import List ZArith Bool Ascii String.
From Verif Require Import Base LogModel.
Import ListNotations.
Open Scope Z_scope.

(** A literal, as in src/objloader/objloader_simple.cpp:51-141. *)
Definition str (s : string) : text := list_ascii_of_string s.
(** Helper of [whitespace]: src/objloader/objloader_simple.cpp:170. *)
Definition tab : ascii := ascii_of_nat 9.
(** Helper of [stop]: src/objloader/objloader_simple.cpp:179. *)
Definition slash : ascii := ascii_of_nat 47.
(** Helper of [parse_indices]: src/objloader/objloader_simple.cpp:208-220. *)
Definition minus : ascii := ascii_of_nat 45.
(** Helper of [parse_indices]: src/objloader/objloader_simple.cpp:208-220. *)
Definition plus : ascii := ascii_of_nat 43.

(** 170. *)
Definition whitespace (c : ascii) : bool := Ascii.eqb c blank || Ascii.eqb c tab.

(** isspace in the C locale, as used by atoi and sscanf: blank, \t \n \v \f \r.
    Used by [next_string]: src/objloader/objloader_simple.cpp:222-230. *)
Definition isspace (c : ascii) : bool := let n := nat_of_ascii c in Nat.eqb n 32 || (Nat.leb 9 n && Nat.leb n 13).

(** Helper of [skip_spaces]: src/objloader/objloader_simple.cpp:176. *)
Fixpoint drop_while (p : ascii -> bool) (t : text) : text :=
  match t with [] => [] | c :: t' => if p c then drop_while p t' else t end.
(** Helper of [next_string]: src/objloader/objloader_simple.cpp:222-230. *)
Fixpoint take_while (p : ascii -> bool) (t : text) : text :=
  match t with [] => [] | c :: t' => if p c then c :: take_while p t' else [] end.

(** 176: strspn(t, " \t"). *)
Definition skip_spaces (t : text) : text := drop_while whitespace t.

(** 179: strcspn(t, "/ \t"). *)
Definition stop (c : ascii) : bool := Ascii.eqb c slash || whitespace c.
(** src/objloader/objloader_simple.cpp:179. *)
Definition skip_spaces_or_comments (t : text) : text := drop_while (fun c => negb (stop c)) t.

(** 173: whether the text begins with command [c] followed by a blank or tab; the result is the text after
    that character, which is where every use of [command] goes on (57, 62, 67, 83, 110, 131, 245, 255-262;
    259 goes on one character earlier, at the blank, which 183 skips). *)
Fixpoint command (t c : text) : option text :=
  match c, t with
  | [], x :: t' => if whitespace x then Some t' else None
  | a :: c', x :: t' => if Ascii.eqb a x then command t' c' else None
  | _, [] => None
  end.

(** atoi: white space, a sign, digits. Values outside of int are undefined in C; not modelled.
    Used in src/objloader/objloader_simple.cpp:208-220. *)
Definition digit (c : ascii) : option Z :=
  let n := Z.of_nat (nat_of_ascii c) in if (48 <=? n) && (n <=? 57) then Some (n - 48) else None.
(** Helper of [parse_indices]: src/objloader/objloader_simple.cpp:208-220. *)
Fixpoint digits (acc : Z) (t : text) : Z :=
  match t with
  | [] => acc
  | c :: t' => match digit c with Some d => digits (10 * acc + d) t' | None => acc end
  end.
(** Used in src/objloader/objloader_simple.cpp:208-220. *)
Definition atoi (t : text) : Z :=
  match drop_while isspace t with
  | [] => 0
  | c :: t' => if Ascii.eqb c minus then - digits 0 t' else if Ascii.eqb c plus then digits 0 t' else digits 0 (c :: t')
  end.

(** 207. *)
Definition parse_index (i vn : Z) : Z := if i <? 0 then vn + i else if i >? 0 then i - 1 else -1.

(** include/lm/objloader.h:36-45. *)
Record findex := mk_findex { fp : Z; ft : Z; fn : Z }.
(** Helper of [face_vertices]: src/objloader/objloader_simple.cpp:94-105. *)
Definition no_index : findex := mk_findex (-1) (-1) (-1).

(** 208-220; [np], [nt], [nn] are the numbers of positions, texture coordinates and normals read so far. *)
Definition parse_indices (np nt nn : Z) (t : text) : findex * text :=
  let t := skip_spaces t in
  let p := parse_index (atoi t) np in
  match skip_spaces_or_comments t with
  | [] => (mk_findex p (-1) (-1), [])
  | c :: t =>
      if negb (Ascii.eqb c slash) then (mk_findex p (-1) (-1), t) else
      let ti := parse_index (atoi t) nt in
      match skip_spaces_or_comments t with
      | [] => (mk_findex p ti (-1), [])
      | c :: t =>
          if negb (Ascii.eqb c slash) then (mk_findex p ti (-1), t) else
          let ni := parse_index (atoi t) nn in
          (mk_findex p ti ni, skip_spaces_or_comments t)
      end
  end.

(** 94-105: at most four vertices of a face; what is appended to the faces of the primitive. *)
Fixpoint face_vertices (k : nat) (np nt nn : Z) (t : text) : list findex :=
  match k with
  | O => []
  | S k' =>
      match t with
      | [] => no_index :: face_vertices k' np nt nn t
      | _ => let '(i, t') := parse_indices np nt nn t in i :: face_vertices k' np nt nn t'
      end
  end.
(** src/objloader/objloader_simple.cpp:94-112: one or two triangles. *)
Definition parse_face (np nt nn : Z) (t : text) : list findex :=
  match face_vertices 4 np nt nn t with
  | [a; b; c; d] => if fp d =? -1 then [a; b; c] else [a; b; c; a; c; d]
  | _ => []
  end.

(** 222-230: sscanf("%s") into a buffer of 256 characters; without a word the buffer keeps what it held
    ([old]; [None]: not yet written). *)
Definition next_string (old : option text) (t : text) : outcome text :=
  match take_while (fun c => negb (isspace c)) (drop_while isspace t) with
  | [] => match old with Some n => Ok n | None => UB end
  | w => if Nat.ltb (List.length w) 256 then Ok w else UB
  end.

Section Floats.

(** [num] stands for atof (184): a function of the characters up to the next blank, tab or slash, none of
    which can be part of a number. [zero] is the number 0. *)
Variable F : Type.
Variable zero : F.
Variable num : text -> F.

(** 182-187. *)
Definition next_float (t : text) : F * text :=
  let t := skip_spaces t in (num (take_while (fun c => negb (stop c)) t), skip_spaces_or_comments t).
(** 190-195. *)
Definition next_int (t : text) : Z := atoi (skip_spaces t).
(** 198-204. *)
Definition next_vec3 (t : text) : F * F * F :=
  let '(x, t) := next_float t in let '(y, t) := next_float t in let '(z, _) := next_float t in (x, y, z).

(** include/lm/objloader.h:55-65. *)
Record mtl := mk_mtl {
  m_name : text; m_illum : Z; m_Kd : F * F * F; m_Ks : F * F * F; m_Ke : F * F * F; m_map : text;
  m_Ni : F; m_Ns : F; m_an : F
}.
(** Helper of [new_mtl]: src/objloader/objloader_simple.cpp:247-248. *)
Definition zero3 : F * F * F := (zero, zero, zero).

(** 247-248: value-initialised, then named. *)
Definition new_mtl (n : text) : mtl := mk_mtl n 0 zero3 zero3 zero3 [] zero zero zero.

(** Materials with the map from names to their indices (16-17); in the map the latest entry for a name
    comes first. *)
Record mats := mk_mats { ms : list mtl; msmap : list (text * nat) }.
(** Helper of [obj_line]: src/objloader/objloader_simple.cpp:51-141. *)
Definition text_eqb (a b : text) : bool := if list_eq_dec ascii_dec a b then true else false.
(** Helper of [obj_line]: src/objloader/objloader_simple.cpp:51-141. *)
Fixpoint lookup (n : text) (l : list (text * nat)) : option nat :=
  match l with [] => None | (k, v) :: l' => if text_eqb k n then Some v else lookup n l' end.

(** ms_.back() = f(ms_.back()). Used by [mtl_line]: src/objloader/objloader_simple.cpp:242-262. *)
Fixpoint upd_last (f : mtl -> mtl) (l : list mtl) : list mtl :=
  match l with [] => [] | [m] => [f m] | m :: l' => m :: upd_last f l' end.

(** Helper of [mtl_line]: src/objloader/objloader_simple.cpp:242-262. *)
Definition set_Kd v m := mk_mtl (m_name m) (m_illum m) v (m_Ks m) (m_Ke m) (m_map m) (m_Ni m) (m_Ns m) (m_an m).
(** Helper of [mtl_line]: src/objloader/objloader_simple.cpp:242-262. *)
Definition set_Ks v m := mk_mtl (m_name m) (m_illum m) (m_Kd m) v (m_Ke m) (m_map m) (m_Ni m) (m_Ns m) (m_an m).
(** Helper of [mtl_line]: src/objloader/objloader_simple.cpp:242-262. *)
Definition set_Ke v m := mk_mtl (m_name m) (m_illum m) (m_Kd m) (m_Ks m) v (m_map m) (m_Ni m) (m_Ns m) (m_an m).
(** Helper of [mtl_line]: src/objloader/objloader_simple.cpp:242-262. *)
Definition set_Ni v m := mk_mtl (m_name m) (m_illum m) (m_Kd m) (m_Ks m) (m_Ke m) (m_map m) v (m_Ns m) (m_an m).
(** Helper of [mtl_line]: src/objloader/objloader_simple.cpp:242-262. *)
Definition set_Ns v m := mk_mtl (m_name m) (m_illum m) (m_Kd m) (m_Ks m) (m_Ke m) (m_map m) (m_Ni m) v (m_an m).
(** Helper of [mtl_line]: src/objloader/objloader_simple.cpp:242-262. *)
Definition set_an v m := mk_mtl (m_name m) (m_illum m) (m_Kd m) (m_Ks m) (m_Ke m) (m_map m) (m_Ni m) (m_Ns m) v.
(** Helper of [mtl_line]: src/objloader/objloader_simple.cpp:242-262. *)
Definition set_illum v m := mk_mtl (m_name m) v (m_Kd m) (m_Ks m) (m_Ke m) (m_map m) (m_Ni m) (m_Ns m) (m_an m).
(** Helper of [mtl_line]: src/objloader/objloader_simple.cpp:242-262. *)
Definition set_map v m := mk_mtl (m_name m) (m_illum m) (m_Kd m) (m_Ks m) (m_Ke m) v (m_Ni m) (m_Ns m) (m_an m).

(** 242-262: one line of an MTL file; the second component is the name buffer of 240. *)
Definition mtl_line (s : mats * option text) (l : text) : outcome (mats * option text) :=
  let '(d, name) := s in
  let t := skip_spaces l in
  match command t (str "newmtl") with
  | Some t => obind (next_string name t) (fun n =>
      Ok (mk_mats (ms d ++ [new_mtl n]) ((n, List.length (ms d)) :: msmap d), Some n))
  | None =>
  match ms d with
  | [] => Ok s
  | _ =>
      let upd f := Ok (mk_mats (upd_last f (ms d)) (msmap d), name) in
      match command t (str "Kd") with Some t => upd (set_Kd (next_vec3 t)) | None =>
      match command t (str "Ks") with Some t => upd (set_Ks (next_vec3 t)) | None =>
      match command t (str "Ni") with Some t => upd (set_Ni (fst (next_float t))) | None =>
      match command t (str "Ns") with Some t => upd (set_Ns (fst (next_float t))) | None =>
      match command t (str "aniso") with Some t => upd (set_an (fst (next_float t))) | None =>
      match command t (str "Ke") with Some t => upd (set_Ke (next_vec3 t)) | None =>
      match command t (str "illum") with Some t => upd (set_illum (next_int t)) | None =>
      match command t (str "map_Kd") with
      | Some t => obind (next_string name t) (fun n => Ok (mk_mats (upd_last (set_map n) (ms d)) (msmap d), Some n))
      | None => Ok s
      end end end end end end end end
  end end.

(** 51, 241: istream::getline with a buffer of 4096 characters. A longer line sets failbit: the loop ends
    there, without an error. *)
Fixpoint read_lines (ls : list text) : list text :=
  match ls with
  | [] => []
  | l :: ls' => if Nat.ltb (List.length l) 4096 then l :: read_lines ls' else []
  end.
(** f.getline until it fails: src/objloader/objloader_simple.cpp:51, 241. *)
Definition lines (content : text) : list text := read_lines (getlines [] content).

(** Helper of [loadmtl]: src/objloader/objloader_simple.cpp:233-265. *)
Fixpoint ofold {S A} (f : S -> A -> outcome S) (s : S) (l : list A) : outcome S :=
  match l with [] => Ok s | a :: l' => obind (f s a) (fun s' => ofold f s' l') end.

(** 233-265: [None] means that the file is missing. *)
Definition loadmtl (file : option text) (d : mats) : outcome (option mats) :=
  match file with
  | None => Ok None
  | Some content => obind (ofold mtl_line (d, None) (lines content)) (fun r => Ok (Some (fst r)))
  end.

(** 41-48 and the geometry. *)
Record prim := mk_prim { material_index : nat; fs : list findex }.
(** include/lm/objloader.h:22-31. *)
Record geom := mk_geom { ps : list (F * F * F); ns : list (F * F * F); ts : list (F * F) }.
(** The variables of load: src/objloader/objloader_simple.cpp:29-50. *)
Record obj := mk_obj { g : geom; prims : list prim; curr : nat; mt : mats; name : option text }.

(** Helper of [obj_line]: src/objloader/objloader_simple.cpp:51-141. *)
Definition zlen {A} (l : list A) : Z := Z.of_nat (List.length l).

(** 75-77, 115-117: a new primitive unless the last one is empty. *)
Definition fresh (l : list prim) : list prim :=
  match rev l with
  | [] => [mk_prim 0 []]
  | p :: _ => match fs p with [] => l | _ => l ++ [mk_prim 0 []] end
  end.
(** primitives.back() = f(primitives.back()). Used by [obj_line]: src/objloader/objloader_simple.cpp:51-141. *)
Fixpoint upd_back (f : prim -> prim) (l : list prim) : list prim :=
  match l with [] => [] | [p] => [f p] | p :: l' => p :: upd_back f l' end.

(** 51-141: one line; [open] gives the content of an MTL file, relative to the directory of the OBJ file.
    [Ok None]: load returns false. *)
Definition obj_line (open : text -> option text) (s : obj) (l : text) : outcome (option obj) :=
  let t := skip_spaces l in
  let geo := g s in
  match command t (str "v") with Some t => Ok (Some (mk_obj (mk_geom (ps geo ++ [next_vec3 t]) (ns geo) (ts geo)) (prims s) (curr s) (mt s) (name s))) | None =>
  match command t (str "vn") with Some t => Ok (Some (mk_obj (mk_geom (ps geo) (ns geo ++ [next_vec3 t]) (ts geo)) (prims s) (curr s) (mt s) (name s))) | None =>
  match command t (str "vt") with Some t => Ok (Some (mk_obj (mk_geom (ps geo) (ns geo) (ts geo ++ [fst (next_vec3 t)])) (prims s) (curr s) (mt s) (name s))) | None =>
  match command t (str "g") with Some t =>
    Ok (Some (mk_obj geo (upd_back (fun p => mk_prim (curr s) (fs p)) (fresh (prims s))) (curr s) (mt s) (name s))) | None =>
  match command t (str "f") with Some t =>
    let l := match prims s with [] => [mk_prim 0 []] | l => l end in
    let is := parse_face (zlen (ps geo)) (zlen (ts geo)) (zlen (ns geo)) t in
    Ok (Some (mk_obj geo (upd_back (fun p => mk_prim (material_index p) (fs p ++ is)) l) (curr s) (mt s) (name s))) | None =>
  match command t (str "usemtl") with Some t =>
    obind (next_string (name s) t) (fun n =>
      match lookup n (msmap (mt s)) with
      | None => Ok None
      | Some i => Ok (Some (mk_obj geo (upd_back (fun p => mk_prim i (fs p)) (fresh (prims s))) i (mt s) (Some n)))
      end) | None =>
  match command t (str "mtllib") with Some t =>
    obind (next_string (name s) t) (fun n =>
      obind (loadmtl (open n) (mt s)) (fun r =>
        match r with
        | None => Ok None
        | Some d => Ok (Some (mk_obj geo (prims s) (curr s) d (Some n)))
        end)) | None => Ok (Some s)
  end end end end end end end.

(** src/objloader/objloader_simple.cpp:51-141; None: the loader has given up. *)
Fixpoint obj_lines (open : text -> option text) (s : obj) (ls : list text) : outcome (option obj) :=
  match ls with
  | [] => Ok (Some s)
  | l :: ls' => obind (obj_line open s l) (fun r => match r with None => Ok None | Some s' => obj_lines open s' ls' end)
  end.

(** 145: the default material. *)
Variable one : F.
(** src/objloader/objloader_simple.cpp:143-146: the material used if the file has none. *)
Definition default_mtl : mtl := mk_mtl (str "default") (-1) (one, one, one) zero3 zero3 [] zero zero zero.

(** 20-163. The result is [None] if load returns false, otherwise the geometry, the calls of
    process_material and the calls of process_mesh, in order. The callbacks are taken to return true (a
    callback that returns false makes load return false). *)
Definition load (open : text -> option text) (file : option text)
  : outcome (option (geom * list mtl * list (list findex * mtl))) :=
  match file with
  | None => Ok None
  | Some content =>
      obind (obj_lines open (mk_obj (mk_geom [] [] []) [] 0 (mk_mats [] []) None) (lines content)) (fun r =>
        match r with
        | None => Ok None
        | Some s =>
            let m := match ms (mt s) with [] => [default_mtl] | l => l end in
            (fix go (l : list prim) (acc : list (list findex * mtl)) : outcome (option (geom * list mtl * list (list findex * mtl))) :=
               match l with
               | [] => Ok (Some (g s, m, acc))
               | p :: l' => match nth_error m (material_index p) with
                            | None => Throw ErrOutOfRange
                            | Some x => go l' (acc ++ [(fs p, x)])
                            end
               end) (prims s) []
        end)
  end.

(** src/mesh/mesh_wavefrontobj.cpp:37-46: the faces of all meshes in one list. *)
Definition mesh_faces (meshes : list (list findex * mtl)) : list findex := List.concat (map fst meshes).

End Floats.

(** plugin/objloader_tinyobjloader/objloader_tinyobjloader.cpp:105-143: the faces of a shape, each with
    its material number, are handed over in meshes of one material. A face is a triple of indices; the
    result is the list of calls of process_mesh with the material number. The library that parses the file
    is not modelled; a shape has at least one face (111 reads the material of the first one). *)
Fixpoint tiny_faces {A} (prev : Z) (acc : list A) (faces : list (A * Z)) : list (list A * Z) :=
  match faces with
  | [] => match acc with [] => [] | _ => [(acc, prev)] end
  | (f, m) :: rest => if m =? prev then tiny_faces prev (acc ++ [f]) rest else (acc, prev) :: tiny_faces m [] rest
  end.
(** plugin/objloader_tinyobjloader/objloader_tinyobjloader.cpp:105-143; the first face is read without check. *)
Definition tiny_shape {A} (faces : list (A * Z)) : outcome (list (list A * Z)) :=
  match faces with [] => UB | (_, m) :: _ => Ok (tiny_faces m [] faces) end.
