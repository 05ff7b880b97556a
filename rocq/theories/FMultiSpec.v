(** Vocabulary for densities of volumes. *)
From Coq Require Import Reals List ZArith Bool.
From Verif Require Import RngModel FltModel FBoundModel FBoundSpec FMultiModel.
Local Open Scope R_scope.

(** A volume whose reported maximum bounds its density everywhere, also at points that are not numbers *)
Definition bounded (v : fvolume) : Prop :=
  finite (fv_max v) = true /\ forall p, finite (fv_scalar v p) = true /\ 0 <= val (fv_scalar v p) <= val (fv_max v).
(** Volumes as users build them: constant ones, spheres, and combinations nested to any depth whose maximum is a number *)
Inductive built : fvolume -> Prop :=
| Built_constant b s : finite s = true -> 0 <= val s -> built (fconstant b s)
| Built_sphere b pos r s : finite s = true -> 0 <= val s -> built (fsphere b pos r s)
| Built_multi l : (forall v, In v l -> built v) -> finite (fv_max (fmulti l)) = true -> built (fmulti l).
(** Maxima that are not absurdly small or large *)
Definition usual_max (m : flt) : Prop := finite m = true /\ / 2 ^ 1022 <= val m <= 2 ^ 1022.
(** The exact sum of the densities at [p] of the volumes that [inn] selects *)
Definition exact_density (inn : fvolume -> bool) (l : list fvolume) (p : fvec) : R := fold_right (fun v r => (if inn v then val (fv_scalar v p) else 0) + r) 0 l.
