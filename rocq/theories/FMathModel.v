(** Model of weights and refraction with Float as it is (include/lm/math.h). *)
From Coq Require Import ZArith Bool.
From Flocq Require Import IEEE754.BinarySingleNaN.
From Verif Require Import RngModel FltModel FBoundModel FDirModel.
Local Open Scope Z_scope.

(** x == y and x <= y of IEEE 754: false if one is not a number *)
Definition flt_eqb (x y : flt) : bool := Beqb x y.
(** x <= y on Float; false if one is NaN: include/lm/math.h:517-524. *)
Definition flt_leb (x y : flt) : bool := Bleb x y.
(** include/lm/math.h:697-702 *)
Definition fbalance (p1 p2 : flt) : flt :=
  if flt_eqb p1 fzero && flt_eqb p2 fzero then fzero else fdivide p1 (fplus p1 p2).
(** include/lm/math.h:517-524; None: total internal reflection *)
Definition frefraction (wi n : fvec) (eta : flt) : option fvec :=
  let t := fdot wi n in
  let t2 := fminus fone (fmult (fmult eta eta) (fminus fone (fmult t t))) in
  if flt_leb t2 fzero then None
  else Some (fvsub (fvmul (fvsub (fvmul n t) wi) eta) (fvmul n (fsafe_sqrt t2))).
