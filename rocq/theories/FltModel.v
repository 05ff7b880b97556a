(** The arithmetic of Float as the code is compiled: include/lm/common.h:279-285 chooses double, whose operations
    are those of IEEE 754 binary64 with rounding to nearest, ties to even (the default of the processor; the
    compiler is taken not to contract or reorder them: no -ffast-math in the build files). Infinities, NaN, signed
    zeros and subnormal numbers are all there. *)
From Coq Require Import Reals ZArith Bool.
From Flocq Require Import Core.Core IEEE754.BinarySingleNaN.
From Verif Require Import RngModel.
Local Open Scope Z_scope.

(** include/lm/common.h:279-285 *)
Notation flt := f64.
(** + - * / on Float. include/lm/common.h:279-285. *)
Definition fplus (x y : flt) : flt := Bplus (prec_gt_0_ := prec64) (prec_lt_emax_ := emax64) mode_NE x y.
(** include/lm/common.h:279-285. *)
Definition fminus (x y : flt) : flt := Bminus (prec_gt_0_ := prec64) (prec_lt_emax_ := emax64) mode_NE x y.
(** include/lm/common.h:279-285. *)
Definition fmult (x y : flt) : flt := Bmult (prec_gt_0_ := prec64) (prec_lt_emax_ := emax64) mode_NE x y.
(** include/lm/common.h:279-285. *)
Definition fdivide (x y : flt) : flt := Bdiv (prec_gt_0_ := prec64) (prec_lt_emax_ := emax64) mode_NE x y.
(** x < y; false if one is NaN. include/lm/common.h:279-285. *)
Definition flt_ltb (x y : flt) : bool := Bltb x y.
(** The literals 0_f and 1_f, and the Float nearest to an integer times a power of two. include/lm/common.h:279-285. *)
Definition fzero : flt := B754_zero false.
(** include/lm/common.h:279-285. *)
Definition fone : flt := Bone (prec_gt_0_ := prec64) (prec_lt_emax_ := emax64).
(** include/lm/common.h:279-285. *)
Definition fmake (m e : Z) : flt := binary_normalize 53 1024 prec64 emax64 mode_NE m e false.
(** glm::max(x, y) = (x < y) ? y : x and glm::min(x, y) = (y < x) ? y : x (ext/glm, detail/func_common.inl) *)
Definition fmax (x y : flt) : flt := if flt_ltb x y then y else x.
(** glm::min, used in include/lm/math.h:144-178. *)
Definition fmin (x y : flt) : flt := if flt_ltb y x then y else x.
(** The number that a Float stands for, and whether it stands for one.
    No counterpart; relates the Float of include/lm/common.h:279-285 to the reals. *)
Definition val (x : flt) : R := B2R x.
(** No counterpart; the Float of include/lm/common.h:279-285 that are numbers. *)
Definition finite (x : flt) : bool := is_finite x.
