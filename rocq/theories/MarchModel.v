(** The ray marching renderer: plugin/volume_openvdb/renderer_volraycast.cpp:56-110, for one pixel.
    Simplifications: Float is R; the loop over pixels is C21 and path::primary_ray CamModel's. *)
From Coq Require Import Reals List Bool.
From Verif Require Import Base VecBase MatModel.
Import ListNotations.
Open Scope R_scope.

(** Volume::march (include/lm/volume.h:93, plugin/volume_openvdb/volume_openvdb.cpp:82-95): the library calls the
    function with distances along the ray in some order until it returns false. [ts] are the distances of the
    uninterrupted march, [body] returns the new state of the captured variables and whether to go on. *)
Fixpoint march {A} (body : R -> A -> fl (A * bool)) (ts : list R) (a : A) : fl A :=
  match ts with
  | [] => Val a
  | t :: ts' => do r <- body t a; if snd r then march body ts' (fst r) else Val (fst r)
  end.

(** glm::exp of a vector, and the componentwise quotient of two vectors.
    Used by [transmittance]: plugin/volume_openvdb/renderer_volraycast.cpp:74-77. *)
Definition vexp (v : vec3) : vec3 := V3 (exp (vx v)) (exp (vy v)) (exp (vz v)).
(** Helper of [primary_body]: plugin/volume_openvdb/renderer_volraycast.cpp:72-104. *)
Definition vdivv (a b : vec3) : fl vec3 :=
  do x <- rdiv (vx a) (vx b); do y <- rdiv (vy a) (vy b); do z <- rdiv (vz a) (vz b); Val (V3 x y z).
(** Helper of [primary_body]: plugin/volume_openvdb/renderer_volraycast.cpp:72-104. *)
Definition vone : vec3 := V3 1 1 1.

(** plugin/volume_openvdb/renderer_volraycast.cpp:22-33: the members. *)
Record config := mk_config {
  step : R; step_shadow : R;      (* 25-26 *)
  light_dir : vec3; Le : vec3;    (* 27-28 *)
  muA : vec3; muS : vec3;         (* 29-30 *)
  cutoff : R }.                   (* 32 *)
(** Used by [transmittance]: plugin/volume_openvdb/renderer_volraycast.cpp:74-77. *)
Definition muT (c : config) : vec3 := vadd (muA c) (muS c).   (* 46 *)

Section Pixel.
  Variable c : config.
  (** Volume::eval_scalar, and where the library stops on a ray. *)
  Variable density : vec3 -> R.
  Variable stops : vec3 -> vec3 -> R -> list R.   (* origin, direction, step *)

  (** 74-77 and 84-87: transmittance over one step. *)
  Definition transmittance (p : vec3) (h : R) : vec3 := vexp (vneg (vscale h (vscale (density p) (muT c)))).

  (** 80-93: transmittance towards the light. *)
  Definition shadow_body (o d : vec3) (t : R) (Tr : vec3) : fl (vec3 * bool) :=
    let T := transmittance (vadd o (vscale t d)) (step_shadow c) in
    let Tr := vmul Tr T in
    Val (Tr, negb (if Rlt_dec (dot Tr Tr) (cutoff c) then true else false)).
  (** plugin/volume_openvdb/renderer_volraycast.cpp:79-92: the transmittance towards the light. *)
  Definition shadow (p : vec3) : fl vec3 :=
    march (shadow_body p (light_dir c)) (stops p (light_dir c) (step_shadow c)) vone.

  (** 72-104. *)
  Definition primary_body (o d : vec3) (t : R) (s : vec3 * vec3) : fl ((vec3 * vec3) * bool) :=
    let (L, Tr) := s in
    let p := vadd o (vscale t d) in
    let T := transmittance p (step c) in
    do Ts <- shadow p;
    do a <- vdivv (muS c) (muT c);
    let C := vmul (vmul (vmul (vmul a (Le c)) Tr) Ts) (vsub vone T) in
    let L := vadd L C in
    let Tr := vmul Tr T in
    Val ((L, Tr), negb (if Rlt_dec (dot Tr Tr) (cutoff c) then true else false)).
  (** 69-107: what is stored in the pixel of the primary ray [o], [d], and the transmittance left. *)
  Definition pixel (o d : vec3) : fl (vec3 * vec3) :=
    march (primary_body o d) (stops o d (step c)) (v0, vone).
End Pixel.
