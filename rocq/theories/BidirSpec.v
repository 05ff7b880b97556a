(** Independent vocabulary for bidirectional paths. *)
From Coq Require Import List Reals ZArith.
From Verif Require Import Base VecBase SurfModel PathModel BidirModel.
Import ListNotations.
Open Scope R_scope.

(** Equal up to the type of the interaction *)
Definition same_place (v w : vert) : Prop :=
  iprim (vs_sp v) = iprim (vs_sp w) /\ igeom (vs_sp v) = igeom (vs_sp w) /\ itc (vs_sp v) = itc (vs_sp w) /\ vs_comp v = vs_comp w.
(** Path [p] consists of the first [s] vertices of [pL] and then the first [t] of [pE] in reverse order; only the
    types of the first and the last vertex have changed. *)
Definition joined (pL pE : fullpath) (s t : nat) (p : fullpath) : Prop :=
  (s <= length pL)%nat /\ (t <= length pE)%nat /\ length p = (s + t)%nat /\
  (forall k v, (k < s)%nat -> nth_error pL k = Some v -> exists w, nth_error p k = Some w /\ same_place v w /\ ((0 < k < s + t - 1)%nat -> w = v)) /\
  (forall k v, (k < t)%nat -> nth_error pE k = Some v -> exists w, nth_error p (s + t - 1 - k) = Some w /\ same_place v w /\ ((0 < s + t - 1 - k < s + t - 1)%nat -> w = v)) /\
  (forall v, (2 <= s + t)%nat -> nth_error p 0 = Some v -> it (vs_sp v) = LightEndpoint) /\
  (forall v, nth_error p (s + t - 1) = Some v -> it (vs_sp v) = CameraEndpoint).

(** The sum of f 0, ..., f (n-1) *)
Fixpoint total (n : nat) (f : nat -> R) : R := match n with O => 0 | S n => total n f + f n end.

(** The first and the last vertex of the connected path *)
Definition light_end (pL pE : fullpath) (s t : nat) : option vert := if (0 <? s)%nat then nth_error pL 0 else nth_error pE (t - 1).
Definition camera_end (pL pE : fullpath) (s t : nat) : option vert := if (0 <? t)%nat then nth_error pE 0 else nth_error pL (s - 1).
(** The strategy applies: the ends are on a light and on the camera; a complete subpath ends at a point that a
    ray can hit; else the two ends of the subpaths are at finite positions and see each other. *)
Definition joinable (A : api) (pL pE : fullpath) (s t : nat) : Prop :=
  (forall v, light_end pL pE s t = Some v -> a_is_light A (vs_sp v) = Ok true) /\
  (forall v, camera_end pL pE s t = Some v -> a_is_camera A (vs_sp v) = Ok true) /\
  (forall v, s = 0%nat -> nth_error pE (t - 1) = Some v -> forall x, igeom (vs_sp v) <> Degenerated x) /\
  (forall v, t = 0%nat -> nth_error pL (s - 1) = Some v -> forall x, igeom (vs_sp v) <> Degenerated x) /\
  (forall v w, (0 < s)%nat -> (0 < t)%nat -> nth_error pL (s - 1) = Some v -> nth_error pE (t - 1) = Some w ->
     (forall x, igeom (vs_sp v) <> Infinite x) /\ (forall x, igeom (vs_sp w) <> Infinite x) /\ a_visible A (vs_sp v) (vs_sp w) = ret true).

(** A walk can end at this vertex: it is not a point and does not scatter (or emit) in single directions. *)
Definition hittable (A : api) (v : vert) : Prop := (forall x, igeom (vs_sp v) <> Degenerated x) /\ a_specular A (vs_sp v) (vs_comp v) = ret false.
(** The strategy that takes [s] vertices of the path from the light can sample it: if one side makes the whole
    path, its last vertex can be hit; otherwise neither of the two vertices it connects is specular, and one that
    is an end of the path can be connected to. *)
Definition usable (A : api) (p : fullpath) (s : nat) : Prop :=
  (s = 0%nat -> exists v, nth_error p 0 = Some v /\ hittable A v) /\
  (s = length p -> exists v, nth_error p (length p - 1) = Some v /\ hittable A v) /\
  ((0 < s < length p)%nat -> exists v w, nth_error p (s - 1) = Some v /\ nth_error p s = Some w /\
    (s = 1%nat -> a_connectable A (vs_sp v) = ret true) /\ (S s = length p -> a_connectable A (vs_sp w) = ret true) /\
    a_specular A (vs_sp v) (vs_comp v) = ret false /\ a_specular A (vs_sp w) (vs_comp w) = ret false).
