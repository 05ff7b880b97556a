(** Model of the arithmetic on pixels with Float as it is: splatting (src/film/film_bitmap.cpp:46-49, 236-238),
    the running average (include/lm/film.h:180-184) and rescaling (src/film/film_bitmap.cpp:244-248). *)
From Coq Require Import List ZArith Bool.
From Coq Require Import Floats.SpecFloat.
From Flocq Require Import IEEE754.BinarySingleNaN.
From Verif Require Import RngModel FltModel FBoundModel.
Import ListNotations.
Local Open Scope Z_scope.

(** glm: the sum of two vectors, component by component.
    Used by [FCamModel.fto_world]: src/camera/camera_pinhole.cpp:127. *)
Definition fvadd (a b : fvec) : fvec := FV (fplus (fx a) (fx b)) (fplus (fy a) (fy b)) (fplus (fz a) (fz b)).
(** compare_exchange compares the bytes. src/film/film_bitmap.cpp:40-55 (std::atomic of Vec3). *)
Definition bits_eq (x y : flt) : bool :=
  match B2SF x, B2SF y with
  | S754_zero s, S754_zero t => Bool.eqb s t
  | S754_infinity s, S754_infinity t => Bool.eqb s t
  | S754_nan, S754_nan => true
  | S754_finite s m e, S754_finite t n f => Bool.eqb s t && Pos.eqb m n && Z.eqb e f
  | _, _ => false
  end.
(** All three components equal byte by byte: src/film/film_bitmap.cpp:40-55. *)
Definition fvec_eq (a b : fvec) : bool := bits_eq (fx a) (fx b) && bits_eq (fy a) (fy b) && bits_eq (fz a) (fz b).
(** Vec3(): src/film/film_bitmap.cpp:250-254. *)
Definition fv0 : fvec := FV fzero fzero fzero.

(** include/lm/film.h:182, one channel: curr + (v - curr) / (Float)(index + 1) *)
Definition fave1 (index : Z) (v curr : flt) : flt := fplus curr (fdivide (fminus v curr) (fmake (index + 1) 0)).
(** include/lm/film.h:180-184: the function applied to the pixel *)
Definition fave_step (index : Z) (v curr : fvec) : fvec :=
  FV (fave1 index (fx v) (fx curr)) (fave1 index (fy v) (fy curr)) (fave1 index (fz v) (fz curr)).
(** Samples given to inc_ave with the indices from [k] on. include/lm/film.h:180-184. *)
Fixpoint fave (k : Z) (vs : list fvec) (curr : fvec) : fvec :=
  match vs with [] => curr | v :: r => fave (k + 1) r (fave_step k v curr) end.

(** src/film/film_bitmap.cpp:246 *)
Definition fvscale (v : fvec) (s : flt) : fvec := FV (fmult (fx v) s) (fmult (fy v) s) (fmult (fz v) s).
