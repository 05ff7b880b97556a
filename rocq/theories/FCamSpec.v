(** Vocabulary for the pinhole camera in binary64. *)
From Coq Require Import Reals.
From Verif Require Import RngModel FltModel FBoundModel FDistSpec FDirSpec.
Local Open Scope R_scope.

(** Three vectors that are orthonormal up to rounding: exact products within 128 half units of the last place of those of an
    orthonormal basis *)
Definition near_one (x : R) : Prop := Rabs (x - 1) <= 128 * eps.
Definition near_zero (x : R) : Prop := Rabs x <= 128 * eps.
Definition finite_vec (v : fvec) : Prop := forall i, finite (fcomp v i) = true.
Definition orthonormal (u v w : fvec) : Prop :=
  (finite_vec u /\ finite_vec v /\ finite_vec w) /\
  (near_one (rdot3 u u) /\ near_one (rdot3 v v) /\ near_one (rdot3 w w)) /\
  (near_zero (rdot3 u v) /\ near_zero (rdot3 u w) /\ near_zero (rdot3 v w)).
(** Usual proportions: the half height of the screen, the ratio of its sides and the half width are between 1/16 and 16. *)
Definition sixteen (x : R) : Prop := / 16 <= x <= 16.
Definition usual_screen (tf aspect : flt) : Prop :=
  finite tf = true /\ finite aspect = true /\ sixteen (val tf) /\ sixteen (val aspect) /\ sixteen (val aspect * val tf).
(** The vectors that the camera is placed with are not degenerate: [up] has components between -1 and 1 and is not close
    to the direction of view [w]: the sine of the angle, times the length of [up], is at least 1/4. *)
Definition cross2 (a b : fvec) : R := rdot3 a a * rdot3 b b - rdot3 a b * rdot3 a b.
(** The position on the film of a direction, exactly: camera coordinates divided by depth and by the half sides of the screen *)
Definition exact_x (u w : fvec) (tf aspect : flt) (wo : fvec) : R := rdot3 u wo / (- rdot3 w wo) / (val aspect * val tf) / 2 + / 2.
Definition exact_y (v w : fvec) (tf : flt) (wo : fvec) : R := rdot3 v wo / (- rdot3 w wo) / val tf / 2 + / 2.
(** A number that keeps distance d from both ends of [0,1] *)
Definition within (d x : R) : Prop := d <= x <= 1 - d.
