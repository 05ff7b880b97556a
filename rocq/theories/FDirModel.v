(** Model of the arithmetic on directions with Float as it is: normalisation, reflection, basis, sampling
    (include/lm/math.h). *)
From Coq Require Import ZArith Bool.
From Flocq Require Import IEEE754.BinarySingleNaN.
From Verif Require Import RngModel FltModel FBoundModel.
Local Open Scope Z_scope.

(** std::sqrt is correctly rounded (IEEE 754). *)
Definition fsqrt (x : flt) : flt := Bsqrt (prec_gt_0_ := prec64) (prec_lt_emax_ := emax64) mode_NE x.
(** std::max(a, b) = (a < b) ? b : a. Used by [fsafe_sqrt]: include/lm/math.h:478-480. *)
Definition fsmax (a b : flt) : flt := if flt_ltb a b then b else a.
(** include/lm/math.h:478-480 *)
Definition fsafe_sqrt (v : flt) : flt := fsqrt (fsmax fzero v).
(** Vector times number. Used by [fnormalize]: detail/func_geometric.inl. *)
Definition fvmul (v : fvec) (s : flt) : fvec := FV (fmult (fx v) s) (fmult (fy v) s) (fmult (fz v) s).
(** glm::normalize: v * inversesqrt(dot(v, v)), inversesqrt(x) = 1 / sqrt(x) (ext/glm, detail/func_geometric.inl,
    func_exponential.inl) *)
Definition fnormalize (v : fvec) : fvec := fvmul v (fdivide fone (fsqrt (fdot v v))).
(** 2_f. Used by [freflection]: include/lm/math.h:497-499. *)
Definition ftwo : flt := fmake 2 0.
(** include/lm/math.h:497-499: 2_f * glm::dot(w, n) * n - w *)
Definition freflection (w n : fvec) : fvec := fvsub (fvmul n (fmult ftwo (fdot w n))) w.

(** include/lm/math.h:540-547: u and v for the normal n *)
Definition fcopysign1 (x : flt) : flt := if Bsign x then Bopp fone else fone.
(** include/lm/math.h:540-547. *)
Definition fbasis (n : fvec) : fvec * fvec :=
  let s := fcopysign1 (fz n) in
  let a := fdivide (Bopp fone) (fplus s (fz n)) in
  let b := fmult (fmult (fx n) (fy n)) a in
  (FV (fplus fone (fmult (fmult (fmult s (fx n)) (fx n)) a)) (fmult s b) (fmult (Bopp s) (fx n)),
   FV b (fplus s (fmult (fmult (fy n) (fy n)) a)) (Bopp (fy n))).

(** include/lm/math.h:653-659 with [c] and [s] for the results of std::cos and std::sin *)
Definition fcosine_weighted (u0 c s : flt) : fvec :=
  let r := fsafe_sqrt u0 in
  let x := fmult r c in
  let y := fmult r s in
  FV x y (fsafe_sqrt (fminus (fminus fone (fmult x x)) (fmult y y))).
(** include/lm/math.h:674-681 *)
Definition funiform_sphere (u0 c s : flt) : fvec :=
  let z := fminus fone (fmult ftwo u0) in
  let r := fsafe_sqrt (fminus fone (fmult z z)) in
  FV (fmult r c) (fmult r s) z.
