(** Vocabulary for boxes and rays of binary64 numbers. *)
From Coq Require Import Reals List.
From Verif Require Import RngModel FltModel FBoundModel.
Local Open Scope R_scope.

Definition vec_ok (v : fvec) : Prop := forall i, finite (fcomp v i) = true.
Definition box_ok (b : fbound) : Prop := vec_ok (fbmin b) /\ vec_ok (fbmax b).
Definition ray_ok (r : fray) : Prop := vec_ok (fo r) /\ vec_ok (fd r).
(** The box [a] is inside of the box [b]. *)
Definition inside (a b : fbound) : Prop := forall i,
  val (fcomp (fbmin b) i) <= val (fcomp (fbmin a) i) /\ val (fcomp (fbmax a) i) <= val (fcomp (fbmax b) i).
Definition point_in (b : fbound) (p : fvec) : Prop := forall i,
  val (fcomp (fbmin b) i) <= val (fcomp p i) <= val (fcomp (fbmax b) i).
(** The ray does not run within a face of the box: for each axis along which it does not move (or so slowly that
    the reciprocal is infinite), its origin is on neither face. *)
Definition off_faces (b : fbound) (r : fray) : Prop := forall i,
  finite (fdivide fone (fcomp (fd r) i)) = true \/
  (val (fcomp (fo r) i) <> val (fcomp (fbmin b) i) /\ val (fcomp (fo r) i) <> val (fcomp (fbmax b) i)).

(** Where the exact ray, a line of real numbers, passes the planes of the lower and upper face along axis i. *)
Definition cross_lower (b : fbound) (r : fray) (i : nat) : R := (val (fcomp (fbmin b) i) - val (fcomp (fo r) i)) / val (fcomp (fd r) i).
Definition cross_upper (b : fbound) (r : fray) (i : nat) : R := (val (fcomp (fbmax b) i) - val (fcomp (fo r) i)) / val (fcomp (fd r) i).
(** The slack around a distance [x]: four roundings, and the smallest Float. *)
Definition slack (x : R) : R := 4 * / 2 ^ 53 * Rabs x + / 2 ^ 1074.
(** At distance [t] the exact ray is between the two faces along axis i, and not too close to either. *)
Definition clearly_between (b : fbound) (r : fray) (t : R) (i : nat) : Prop :=
  let dir := val (fcomp (fd r) i) in
  if Req_EM_T dir 0 then val (fcomp (fbmin b) i) < val (fcomp (fo r) i) < val (fcomp (fbmax b) i)
  else if Rlt_dec 0 dir then cross_lower b r i + slack (cross_lower b r i) <= t /\ t <= cross_upper b r i - slack (cross_upper b r i)
  else cross_upper b r i + slack (cross_upper b r i) <= t /\ t <= cross_lower b r i - slack (cross_lower b r i).
(** Coordinates that are not absurdly large, and components of the direction that are zero or not absurdly small. *)
Definition moderate (x : flt) : Prop := finite x = true /\ Rabs (val x) <= 2 ^ 1022.
Definition vec_moderate (v : fvec) : Prop := forall i, moderate (fcomp v i).
Definition dir_moderate (v : fvec) : Prop := forall i, moderate (fcomp v i) /\ (val (fcomp v i) = 0 \/ / 2 ^ 1022 <= Rabs (val (fcomp v i))).
