(** Independent vocabulary for volumes and media. *)
From Coq Require Import List Reals.
From Verif Require Import Base VecBase GeoModel GeoSpec MatModel PathModel VolModel.
Import ListNotations.
Open Scope R_scope.

(** Volumes that can be constructed from meaningful parameters: scalars and radii are not negative, boxes
    have a volume, standard deviations are positive. *)
Definition not_negative (s : option R) : Prop := forall x, s = Some x -> 0 <= x.
Definition positive (v : vec3) : Prop := 0 < vx v /\ 0 < vy v /\ 0 < vz v.
Inductive made : volume -> Prop :=
| made_checker lo hi : positive (vsub hi lo) -> made (checker (mk_bound lo hi))
| made_constant lo hi c s v : not_negative s -> constant lo hi c s = Ok v -> made v
| made_sphere c p s r v : not_negative s -> 0 <= r -> sphere_vol c p s r = Ok v -> made v
| made_gaussian c s p sigma v : not_negative s -> positive sigma -> gaussian c s p sigma = ret v -> made v
| made_multi alb den v : (forall w, In (Some w) alb -> made w) -> (forall w, In (Some w) den -> made w) ->
    multi alb den = ret v -> made v.

(** All components between two numbers *)
Definition within (lo hi : R) (c : vec3) : Prop := lo <= vx c <= hi /\ lo <= vy c <= hi /\ lo <= vz c <= hi.
(** Random numbers *)
Definition draws (us : list R) : Prop := Forall (fun u => 0 <= u < 1) us.
(** No direction component is zero for an origin in the plane of a face of the box (C33). *)
Definition general (b : bound) (r : ray) : Prop :=
  forall i, comp (rd r) i <> 0 \/ (comp (ro r) i <> comp (bmin b) i /\ comp (ro r) i <> comp (bmax b) i).
Definition box (lo hi : option vec3) : bound :=
  mk_bound (match lo with Some v => v | None => V3 (- Inf) (- Inf) (- Inf) end) (match hi with Some v => v | None => V3 Inf Inf Inf end).
