(** Model of the density of a Gaussian volume (src/volume/volume_gaussian.cpp) with the arithmetic of Float as it is (binary64).
    The bound, the color and the missing scalar are left out (VolModel). *)
From Coq Require Import ZArith.
From Verif Require Import FltModel FBoundModel.
Local Open Scope Z_scope.

Section Gauss.
  (** exp (src/volume/volume_gaussian.cpp:80) *)
  Variable exp : flt -> flt.
  (** -0.5_f (src/volume/volume_gaussian.cpp:80) *)
  Definition fmhalf : flt := fmake (-1) (-1).
  (** One of the three quotients, (p.x * p.x) / (s.x * s.x): src/volume/volume_gaussian.cpp:80-82 *)
  Definition fgauss_term (p s : flt) : flt := fdivide (fmult p p) (fmult s s).
  (** The argument of exp: src/volume/volume_gaussian.cpp:80-82 *)
  Definition fgauss_arg (p s : fvec) : flt :=
    fmult fmhalf (fplus (fplus (fgauss_term (fx p) (fx s)) (fgauss_term (fy p) (fy s))) (fgauss_term (fz p) (fz s))).
  (** src/volume/volume_gaussian.cpp:78-84 *)
  Definition fgauss (pos sigma : fvec) (m : flt) (p : fvec) : flt := fmult m (exp (fgauss_arg (fvsub pos p) sigma)).
End Gauss.
