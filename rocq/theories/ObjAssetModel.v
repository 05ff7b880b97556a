(** The components an OBJ model makes: src/model/model_wavefrontobj.cpp:74-247. Line numbers refer to this file
    unless another one is given. *)
From Coq Require Import List ZArith Bool Ascii String Reals DecimalString.
From Verif Require Import Base LogModel ObjModel SurfModel.
Import ListNotations.
Local Open Scope nat_scope. Local Open Scope list_scope.

Notation mtlR := (mtl R).
(** Vec3, include/lm/objloader.h: the members Kd, Ks, Ke. *)
Definition color := (R * R * R)%type.

(** fmt::format("{}", n). Used in src/model/model_wavefrontobj.cpp:80. *)
Definition decimal_text (n : nat) : text := str (NilZero.string_of_uint (Nat.to_uint n)).

(** std::filesystem::path::stem on a POSIX system: the last component of the path without its last extension. A
    file name that is "." or "..", or whose only dot is its first character, has no extension.
    Used in src/model/model_wavefrontobj.cpp:136. *)
Definition point : ascii := ascii_of_nat 46.
(** The last component of a path, for the stem of src/model/model_wavefrontobj.cpp:136. *)
Fixpoint after_last_slash (acc t : text) : text :=
  match t with [] => acc | c :: t' => if Ascii.eqb c slash then after_last_slash t' t' else after_last_slash acc t' end.
(** The part before the last point, for the stem of src/model/model_wavefrontobj.cpp:136. *)
Fixpoint before_last_point (t : text) : option text :=
  match t with
  | [] => None
  | c :: t' => match before_last_point t' with
               | Some b => Some (c :: b)
               | None => if Ascii.eqb c point then Some [] else None
               end
  end.
(** Used in src/model/model_wavefrontobj.cpp:136. *)
Definition stem (path : text) : text :=
  let f := after_last_slash path path in
  if text_eqb f (str ".") || text_eqb f (str "..") then f
  else match before_last_point f with None | Some [] => f | Some b => b end.

(** A material as it is created. The numbers are those handed to the constructor of the material.
    Used by [make_material]: src/model/model_wavefrontobj.cpp:156-216. *)
Inductive material :=
| MProxy (ref : text)
| MBlack
| MGlass (Ni : R)
| MMirror
| MMixture (Kd : color) (mapKd : option text) (Ks : color) (ax ay : R) (no_alpha_mask : bool).

(** The components of the model. A texture has the path of its file relative to that of the OBJ file, a light its
    emission and the name of its mesh, a mixture the name of its texture.
    Used by [model]: src/model/model_wavefrontobj.cpp:41-56. *)
Inductive asset :=
| AMesh (fs : list findex)
| ALight (Ke : color) (mesh : text)
| ATexture (path : text)
| AMaterial (m : material).

(** The parameters base_material (119) and skip_specular_mat (157). The keys "light" and "texture" choose the
    class of lights and textures and have no effect here. *)
Record options := mk_options { base_material : option text; skip_specular : bool }.

(** assets_, assets_map_ (latest entry first) and groups_ (41-56): mesh, material and light (-1 is None). *)
Record model := mk_model { assets : list asset; names : list (text * nat); groups : list (nat * nat * option nat) }.
(** src/model/model_wavefrontobj.cpp:41-56: the members at the beginning. *)
Definition new_model : model := mk_model [] [] [].
(** assets_.push_back and the entry of assets_map_: src/model/model_wavefrontobj.cpp:78-114. *)
Definition push (n : text) (a : asset) (s : model) : model :=
  mk_model (assets s ++ [a]) ((n, List.length (assets s)) :: names s) (groups s).
(** std::unordered_map::operator[]: a name that is not there is added with the value 0. *)
Definition index_of (n : text) (s : model) : nat * model :=
  match lookup n (names s) with
  | Some i => (i, s)
  | None => (0, mk_model (assets s) ((n, 0) :: names s) (groups s))
  end.

Section Make.
  (** comp::create gives a component or null; [makes a] says which. *)
  Variable makes : asset -> bool.
  Variable o : options.

  (** Helper of [process_mesh]: src/model/model_wavefrontobj.cpp:78-114. *)
  Definition mesh_name (n : nat) : text := str "mesh_" ++ decimal_text n.
  (** Helper of [process_mesh]: src/model/model_wavefrontobj.cpp:78-114. *)
  Definition light_name (n : nat) : text := mesh_name n ++ str "_light".
  (** Helper of [process_material]: src/model/model_wavefrontobj.cpp:117-224. *)
  Definition texture_name (path : text) : text := str "texture_" ++ stem path.

  (** glm::compMax(Ke) > 0 (96). *)
  Definition emits (Ke : color) : bool :=
    let '(x, y, z) := Ke in if Rlt_dec 0 (Rmax (Rmax x y) z) then true else false.

  (** Helper of [process_mesh]: src/model/model_wavefrontobj.cpp:78-114. *)
  Definition add (n : text) (a : asset) (s : model) : option model := if makes a then Some (push n a s) else None.

  (** 78-114. [None]: the callback returns false. *)
  Definition process_mesh (fs : list findex) (m : mtlR) (s : model) : option model :=
    let k := List.length (assets s) in
    match add (mesh_name k) (AMesh fs) s with
    | None => None
    | Some s1 =>
        let kl := List.length (assets s1) in
        let r := if emits (m_Ke R m)
                 then match add (light_name k) (ALight (m_Ke R m) (mesh_name k)) s1 with
                      | None => None
                      | Some s2 => Some (s2, Some kl)
                      end
                 else Some (s1, None) in
        match r with
        | None => None
        | Some (s2, light) =>
            let '(mesh, s3) := index_of (mesh_name k) s2 in
            let '(mat, s4) := index_of (m_name R m) s3 in
            Some (mk_model (assets s4) (names s4) (groups s4 ++ [(mesh, mat, light)]))
        end
    end.

  (** 199-200, 212-213: roughness from the exponent and the anisotropy. Division by zero (Ns = -2 or an of 10/9 and
      more) is not modelled. *)
  Definition rough (m : mtlR) : R := (2 / (2 + m_Ns R m))%R.
  (** Helper of [make_material]: src/model/model_wavefrontobj.cpp:156-216. *)
  Definition stretch (m : mtlR) : R := safe_sqrt (1 - m_an R m * (9 / 10)).
  (** Helper of [make_material]: src/model/model_wavefrontobj.cpp:156-216. *)
  Definition rough_x (m : mtlR) : R := Rmax (1 / 1000) (rough m / stretch m).
  (** Helper of [make_material]: src/model/model_wavefrontobj.cpp:156-216. *)
  Definition rough_y (m : mtlR) : R := Rmax (1 / 1000) (rough m * stretch m).

  (** 156-216 with NO_MIXTURE_MATERIAL switched off (line 17). *)
  Definition make_material (m : mtlR) (mapKd : option text) : material :=
    if (m_illum R m =? 5)%Z || (m_illum R m =? 7)%Z then
      if skip_specular o then MBlack
      else if (m_illum R m =? 7)%Z then MGlass (m_Ni R m) else MMirror
    else MMixture (m_Kd R m) mapKd (m_Ks R m) (rough_x m) (rough_y m) (skip_specular o).

  (** 117-224 *)
  Definition process_material (m : mtlR) (s : model) : option model :=
    match base_material o with
    | Some ref => add (m_name R m) (AMaterial (MProxy ref)) s
    | None =>
        let r := match m_map R m with
                 | [] => Some (s, None)
                 | path =>
                     let id := texture_name path in
                     match lookup id (names s) with
                     | Some _ => Some (s, Some id)
                     | None => match add id (ATexture path) s with None => None | Some s' => Some (s', Some id) end
                     end
                 end in
        match r with
        | None => None
        | Some (s', mapKd) => add (m_name R m) (AMaterial (make_material m mapKd)) s'
        end
    end.

  (** The loops over the meshes and materials: src/objloader/objloader_simple.cpp:148-160. *)
  Fixpoint all {A} (f : A -> model -> option model) (l : list A) (s : model) : option model :=
    match l with [] => Some s | x :: l' => match f x s with None => None | Some s' => all f l' s' end end.

  (** The calls of the loader: all materials, then all meshes (src/objloader/objloader_simple.cpp:148-160). A
      callback that returns false ends it and the constructor throws (225-227). *)
  Definition process (ms : list mtlR) (meshes : list (list findex * mtlR)) : outcome model :=
    match all process_material ms new_model with
    | None => Throw ErrIOError
    | Some s => match all (fun x => process_mesh (fst x) (snd x)) meshes s with
                | None => Throw ErrIOError
                | Some s => Ok s
                end
    end.

  (** 74-228 for a file with this content, read with the loader of objloader_simple.cpp. *)
  Definition construct (zero one : R) (num : text -> R) (open : text -> option text) (file : option text) : outcome model :=
    obind (load R zero num one open file) (fun r =>
      match r with
      | None => Throw ErrIOError
      | Some (_, ms, meshes) => process ms meshes
      end).
End Make.

(** 230-240: the components handed to the scene for each group; vector::at throws. *)
Definition create_primitives (s : model) : outcome (list (asset * asset * option asset)) :=
  (fix go (l : list (nat * nat * option nat)) : outcome (list (asset * asset * option asset)) :=
     match l with
     | [] => Ok []
     | (mesh, mat, light) :: l' =>
         match nth_error (assets s) mesh, nth_error (assets s) mat, (match light with None => Some None | Some i => option_map Some (nth_error (assets s) i) end) with
         | Some a, Some b, Some c => obind (go l') (fun r => Ok ((a, b, c) :: r))
         | _, _, _ => Throw ErrOutOfRange
         end
     end) (groups s).
