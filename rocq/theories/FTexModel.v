(** Model of the lookup in an image texture (src/texture/texture_bitmap.cpp) with the arithmetic of Float as it is
    (binary64), conversions to int as they are and index arithmetic in int. *)
From Coq Require Import List ZArith Bool.
From Flocq Require Import Core.Core IEEE754.BinarySingleNaN.
From Verif Require Import Base RBase RngModel FltModel FRasterModel.
Import ListNotations.
Local Open Scope Z_scope.

(** src/texture/texture_bitmap.cpp:34-37: width, height, number of components and values. The values are float there;
    here they are the Float that each converts to (exactly) when a Vec3 is made of them. *)
Record fbitmap := mk_fbitmap { tw : Z; th : Z; tc : Z; tdata : list flt }.

(** The function floor of the C library on double, used in src/texture/texture_bitmap.cpp:69-70. *)
Definition ffloor (x : flt) : flt := Bnearbyint (prec_lt_emax_ := emax64) mode_DN x.
(** src/texture/texture_bitmap.cpp:69-70 and 83-84: t - floor(t) *)
Definition fwrap (t : flt) : flt := fminus t (ffloor t).
(** The result of an operation on int: undefined if it does not fit. src/texture/texture_bitmap.cpp:73-74. *)
Definition as_int (z : Z) : outcome Z := if (- 2 ^ 31 <=? z) && (z <? 2 ^ 31) then Ok z else UB.
(** src/texture/texture_bitmap.cpp:71-72: int(u * w) clamped to 0 and w - 1; std::clamp is undefined if these are not in
    order. *)
Definition findex (u : flt) (w : Z) : outcome Z := if w - 1 <? 0 then UB else fcoord u w.
(** src/texture/texture_bitmap.cpp:73 and 87: w_ * y + x *)
Definition ftexel (b : fbitmap) (x y : Z) : outcome Z := obind (as_int (tw b * y)) (fun k => as_int (k + x)).
(** data_[c_*i + k] (src/texture/texture_bitmap.cpp:74, 88), without check *)
Definition fat (b : fbitmap) (i k : Z) : outcome flt :=
  obind (as_int (tc b * i)) (fun j => obind (as_int (j + k)) (fun j =>
  if j <? 0 then UB else match nth_error (tdata b) (Z.to_nat j) with Some x => Ok x | None => UB end)).
(** src/texture/texture_bitmap.cpp:74 *)
Definition fcolor (b : fbitmap) (i : Z) : outcome (flt * flt * flt) :=
  obind (fat b i 0) (fun r => obind (fat b i 1) (fun g => obind (fat b i 2) (fun bl => Ok (r, g, bl)))).
(** src/texture/texture_bitmap.cpp:69-73 and 83-87: the texel of a coordinate *)
Definition flocate (b : fbitmap) (tx ty : flt) : outcome Z :=
  obind (findex (fwrap tx) (tw b)) (fun x => obind (findex (fwrap ty) (th b)) (fun y => ftexel b x y)).
(** src/texture/texture_bitmap.cpp:68-75 *)
Definition feval (b : fbitmap) (tx ty : flt) : outcome (flt * flt * flt) := obind (flocate b tx ty) (fcolor b).
(** src/texture/texture_bitmap.cpp:77-80 *)
Definition feval_pixel (b : fbitmap) (x y : Z) : outcome (flt * flt * flt) := obind (ftexel b x y) (fcolor b).
(** src/texture/texture_bitmap.cpp:82-89 *)
Definition falpha (b : fbitmap) (tx ty : flt) : outcome flt := obind (flocate b tx ty) (fun i => fat b i 3).
