(** Model of the OpenVDB volume (plugin/volume_openvdb/volume_openvdb.cpp). Float is the reals. The library that reads
    the files and evaluates the grids is an argument. Members that are not set are None; reading one is undefined. *)
From Coq Require Import List Reals ZArith Bool String.
From Verif Require Import Base RBase VecBase GeoModel MatModel PathModel VolModel MarchModel.
Import ListNotations.
Open Scope R_scope.

(** What the library knows of a file (vdbloader.h, used in plugin/volume_openvdb/volume_openvdb.cpp:41-96): the bound of
    the grid, its largest value, the value at a point, and the distances at which a march stops for a ray, a range and a
    step. *)
Record grid := mk_grid { g_lo : vec3; g_hi : vec3; g_max : R; g_eval : vec3 -> R; g_stops : vec3 -> vec3 -> R -> R -> R -> list R }.

(** plugin/volume_openvdb/volume_openvdb.cpp:13-17: the grid that the context holds, and the other members *)
Record vdb := mk_vdb { context : option grid; scale : option R; vbound : option bound; vmax : option R }.
(** plugin/volume_openvdb/volume_openvdb.cpp:20-34: a new instance. The default constructor of Bound is part of GeoModel;
    here a bound that no file has set yet counts as not set. *)
Definition new_vdb : vdb := mk_vdb None None None None.

(** A property of the JSON object given to construct: absent, of a type that cannot be converted, or a value.
    json::value (include/lm/json.h:192-212), which JsonModel has in full. *)
Inductive prop (A : Type) := Absent | Wrong | Given (a : A).
Arguments Absent {A}.
Arguments Wrong {A}.
Arguments Given {A} a.

(** plugin/volume_openvdb/volume_openvdb.cpp:41-63, the new members and the result. A file that cannot be loaded is taken
    to leave the context as it is. *)
Definition construct (files : string -> option grid) (path : prop string) (sc : prop R) (i : vdb) : vdb * outcome Datatypes.unit :=
  match path with
  | Absent => (i, Throw ErrInvalidArgument)
  | Wrong => (i, Throw ErrJsonType)
  | Given path =>
      match files path with                                                        (* 45-47 *)
      | None => (i, Throw ErrIOError)
      | Some g =>
          let i := mk_vdb (Some g) (scale i) (vbound i) (vmax i) in
          match (match sc with Absent => Some 1 | Wrong => None | Given s => Some s end) with   (* 50 *)
          | None => (i, Throw ErrJsonType)
          | Some s => (mk_vdb (Some g) (Some s) (Some (mk_bound (g_lo g) (g_hi g))) (Some (g_max g * s)), Ok tt)   (* 53-58 *)
          end
      end
  end.

(** plugin/volume_openvdb/volume_openvdb.cpp:74-77 *)
Definition eval_scalar (i : vdb) (p : vec3) : pm R :=
  match context i, scale i with Some g, Some s => ret (g_eval g p * s) | _, _ => UB end.
(** plugin/volume_openvdb/volume_openvdb.cpp:61-81: the volume that a medium sees; eval_color is not implemented
    (include/lm/volume.h) *)
Definition as_volume (i : vdb) : outcome volume :=
  match vbound i with
  | None => UB
  | Some b => Ok (mk_volume b true (read (vmax i)) (eval_scalar i) false (fun _ => Throw ErrUnimplemented))
  end.
(** plugin/volume_openvdb/volume_openvdb.cpp:83-96: the march calls the function where the library stops *)
Definition vdb_march {A} (i : vdb) (o d : vec3) (tmin tmax step : R) (body : R -> A -> fl (A * bool)) (a : A) : outcome (fl A) :=
  match context i with None => UB | Some g => Ok (march body (g_stops g o d tmin tmax step) a) end.
