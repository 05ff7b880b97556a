(** The Python package around the binding: lightmetrica/__init__.py and the notebook components of lightmetrica_jupyter/__init__.py.
    Simplifications: numbers on a progress bar are reals; headers of log lines (type, time, file) are parameters as in LogModel;
    tqdm and matplotlib are represented by their counter, resp. left out. *)
From Coq Require Import List String Ascii ZArith Reals.
From Verif Require Import Base Assoc RegModel LogModel PyModel.
Import ListNotations.

(** ** Names *)
(** Python's AttributeError, raised by an attribute reference as in lightmetrica/__init__.py:32. *)
Definition attribute_error : error := ErrUser 7.
(** Names of the module pylm: src/pylm.cpp:17-1230. *)
Definition pylm_names : list string := [
  "Debug"; "Release"; "RelWithDebInfo"; "FloatType"; "FloatT"; "exception"; "version"; "major_version"; "minor_version"; "patch_version";
  "revision"; "build_timestamp"; "platform"; "architecture"; "formatted"; "Inf"; "Eps"; "Pi"; "Ray"; "Rng"; "identity"; "rotate"; "translate";
  "scale"; "rad"; "v3"; "math"; "Component"; "comp"; "init"; "shutdown"; "reset"; "info"; "assets"; "save_state_to_file";
  "load_state_from_file"; "load"; "load_serialized"; "get"; "load_plugin"; "load_mesh"; "get_mesh"; "load_texture"; "get_texture";
  "load_material"; "get_material"; "load_camera"; "get_camera"; "load_light"; "get_light"; "load_medium"; "get_medium"; "load_phase";
  "get_phase"; "load_volume"; "get_volume"; "load_film"; "get_film"; "load_model"; "get_model"; "load_asset_group"; "get_asset_group";
  "load_accel"; "get_accel"; "load_scene"; "get_scene"; "load_renderer"; "get_renderer"; "AssetGroup"; "log"; "parallel"; "objloader";
  "progress"; "debug"; "FilmSize"; "FilmBuffer"; "Film"; "PointGeometry"; "SceneInteraction"; "SceneInteractionType"; "surface";
  "SceneNodeType"; "SceneNode_Primitive"; "SceneNode_Group"; "SceneNode"; "Scene"; "Accel_Hit"; "Accel"; "Renderer"; "TextureSize";
  "Texture"; "Mesh_Point"; "Mesh_InterpolatedPoint"; "Mesh_Tri"; "Mesh"; "Material_DirectionSample"; "Material"; "Phase_DirectionSample";
  "Phase"; "Medium_DistanceSample"; "Medium"; "Volume"; "Model"; "Camera_RaySample"; "Camera_DirectionSample"; "Camera_PositionSample";
  "Camera"; "Light_RaySample"; "Light"]%string.
(** Names of the package lightmetrica: lightmetrica/__init__.py:3-33 (from pylm import * and the definitions). *)
Definition package_names : list string := (pylm_names ++ ["os"; "np"; "pylm_component"; "array"; "registered_components"]%string)%list.
(** Names of the submodule comp: src/pylm.cpp:159-167. *)
Definition comp_names : list string := ["get"; "load_plugin"; "load_plugin_directory"; "unload_plugin"; "unload_all_plugins"; "foreach_registered"]%string.
(** An attribute reference, as in lightmetrica/__init__.py:32 and lightmetrica_jupyter/__init__.py:119. *)
Definition getattr (names : list string) (x : string) : outcome Datatypes.unit :=
  if in_dec string_dec x names then Ok tt else Throw attribute_error.

(** lightmetrica/__init__.py:27-33; [which] is the name referred to in line 32. *)
Definition registered_with (which : string) (s : registry) : outcome (list string) :=
  obind (getattr comp_names which) (fun _ => Ok (foreach_registered s)).
(** lightmetrica/__init__.py:27-33. *)
Definition registered_components (s : registry) : outcome (list string) := registered_with "foreachRegistered" s.

(** Element types of numpy arrays: lightmetrica/__init__.py:24. *)
Inductive dtype := Float32 | Float64.
(** lightmetrica/__init__.py:22-25: array(l, dtype=d) for a list of numbers; the element type of C++ is double
    (include/lm/common.h:280). Simplification: the rounding to float32 is left out. *)
Definition array {T} (d : option dtype) (l : list T) : ndarray T :=
  let d := match d with Some d => d | None => Float32 end in
  mk_ndarray (match d with Float64 => true | Float32 => false end) [List.length l] [1%Z]
    (fun i => if (i <? 0)%Z then None else nth_error l (Z.to_nat i)).

(** ** Logger *)
(** lightmetrica_jupyter/__init__.py:42-44. *)
Record jlogger := mk_jlogger { jseverity : Z; jn : Z }.
(** lightmetrica_jupyter/__init__.py:42-44. *)
Definition new_jlogger : jlogger := mk_jlogger 0 0.
(** Where a line is printed: lightmetrica_jupyter/__init__.py:54-66. *)
Inductive stream := Stdout | Stderr.
(** lightmetrica_jupyter/__init__.py:51-75; the header (68-73) is a parameter. *)
Definition jlog (s : jlogger) (level sev : Z) (header msg : text) : list (stream * text) :=
  if (jseverity s >? sev)%Z then []
  else
    let out := if ((level =? level_warn) || (level =? level_err))%Z%bool then Stderr else Stdout in
    let spaces := repeat dot (Z.to_nat (jn s * 2)) ++ (if (jn s >? 0)%Z then [blank] else []) in
    [(out, header ++ spaces ++ msg ++ [newline])].
(** lightmetrica_jupyter/__init__.py:76-77. *)
Definition jupdate_indentation (s : jlogger) (n : Z) : jlogger := mk_jlogger (jseverity s) (jn s + n).
(** lightmetrica_jupyter/__init__.py:78-79. *)
Definition jset_severity (s : jlogger) (v : Z) : jlogger := mk_jlogger v (jn s).
(** Calls of a logger: lightmetrica_jupyter/__init__.py:51-79. *)
Inductive lop := LLog (level sev : Z) (header msg : text) | LIndent (n : Z) | LSeverity (v : Z).
(** A history of calls of lightmetrica_jupyter/__init__.py:51-79: what is printed. *)
Fixpoint jrun (l : list lop) (s : jlogger) : list (stream * text) :=
  match l with
  | [] => []
  | LLog level sev h m :: r => jlog s level sev h m ++ jrun r s
  | LIndent n :: r => jrun r (jupdate_indentation s n)
  | LSeverity v :: r => jrun r (jset_severity s v)
  end.

(** ** Progress bar *)
Local Open Scope R_scope.
(** The attributes of JupyterProgress (lightmetrica_jupyter/__init__.py:86-91): the bar of tqdm with its counter and total. *)
Record bar := mk_bar { shown : R; total : R; closed : bool }.
(** Mode of a report: src/pylm.cpp:371-373. *)
Inductive mode := Samples | Time.
(** Calls of a reporter: lightmetrica_jupyter/__init__.py:86-98. *)
Inductive pop := PStart (m : mode) (tot : R) (time : R) | PUpdate (x : R) | PUpdateTime (x : R) | PEnd.
(** tqdm.update, called in lightmetrica_jupyter/__init__.py:93: adds to the counter. *)
Definition tqdm_update (b : bar) (k : R) : bar := mk_bar (shown b + k) (total b) (closed b).
(** lightmetrica_jupyter/__init__.py:86-98; None: no bar yet, an attribute error. *)
Definition pstep (o : pop) (s : option bar) : outcome (option bar) :=
  match o, s with
  | PStart Samples t _, _ => Ok (Some (mk_bar 0 t false))
  | PStart Time _ t, _ => Ok (Some (mk_bar 0 t false))
  | _, None => Throw attribute_error
  | PUpdate x, Some b => Ok (Some (tqdm_update b (Rmax 0 (x - shown b))))
  | PUpdateTime x, Some b => Ok (Some (tqdm_update b (Rmax 0 (x - shown b))))
  | PEnd, Some b => let b := tqdm_update b (Rmax 0 (total b - shown b)) in Ok (Some (mk_bar (shown b) (total b) true))
  end.
(** A history of calls of lightmetrica_jupyter/__init__.py:86-98, with the counter after each. *)
Fixpoint prun (l : list pop) (s : option bar) : outcome (list R * option bar) :=
  match l with
  | [] => Ok ([], s)
  | o :: r => obind (pstep o s) (fun s' => obind (prun r s') (fun '(h, e) => Ok (match s' with Some b => shown b :: h | None => h end, e)))
  end.

(** lightmetrica_jupyter/__init__.py:117-121: a report to the film reporter; the drawing is left out. *)
Definition film_update (names : list string) : outcome Datatypes.unit := getattr names "buffer".
