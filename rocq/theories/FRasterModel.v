(** Model of raster positions, of the pixels that they fall in, and of two-dimensional tables, with the arithmetic of
    Float as it is (binary64) and conversions to int as they are: truncation, undefined if the result is not an int. *)
From Coq Require Import List ZArith Bool.
From Flocq Require Import Core.Core IEEE754.BinarySingleNaN.
From Verif Require Import Base RBase RngModel FltModel FDistModel.
Import ListNotations.
Local Open Scope Z_scope.

(** (int)x for a Float: the value truncated; undefined for NaN, the infinities and results that do not fit.
    Used by [fcoord]: include/lm/film.h:168. *)
Definition fint (x : flt) : outcome Z :=
  if negb (is_finite x) then UB else
  let z := Btrunc x in
  if (- 2 ^ 31 <=? z) && (z <? 2 ^ 31) then Ok z else UB.
(** An int as operand of an operation on Float. Used by [fcoord]: include/lm/film.h:168. *)
Definition fofint (z : Z) : flt := fmake z 0.

(** include/lm/film.h:168: one coordinate, [w] the size in its direction *)
Definition fcoord (rp : flt) (w : Z) : outcome Z := obind (fint (fmult rp (fofint w))) (fun i => Ok (zclamp i 0 (w - 1))).
(** include/lm/film.h:166-171 *)
Definition fraster_to_pixel (rx ry : flt) (w h : Z) : outcome (Z * Z) :=
  obind (fcoord rx w) (fun x => obind (fcoord ry h) (fun y => Ok (x, y))).

(** (x + u) / w as in include/lm/math.h:430 and src/renderer/renderer_raycast.cpp:73 *)
Definition fcell (x : Z) (u : flt) (w : Z) : flt := fdivide (fplus (fofint x) u) (fofint w).
(** src/renderer/renderer_raycast.cpp:71-73: the position of the ray for pixel (x, y), with .5_f *)
Definition fcentre (x y w h : Z) : flt * flt := (fcell x (fmake 1 (-1)) w, fcell y (fmake 1 (-1)) h).
(** One direction of the window of a pixel (src/renderer/renderer_pt.cpp:97-102, src/renderer/renderer_volpt.cpp:217-222)
    and of the position sampled in it (renderer_pt.cpp:200-201, renderer_volpt.cpp:286-287): dx * x + dx * u *)
Definition fwindow (x : Z) (u : flt) (w : Z) : flt :=
  let dx := fdivide fone (fofint w) in
  fplus (fmult dx (fofint x)) (fmult dx u).

(** include/lm/math.h:378-381 *)
Record fdist2 := mk_fdist2 { fds : list fdist; fmarg : fdist; fcols : Z; frows : Z }.
(** The inner loop (402-404); the table is read without check. *)
Fixpoint fadd_row (v : list flt) (base : Z) (n : nat) (d : fdist) : outcome fdist :=
  match n with
  | O => Ok d
  | S k => match nth_error v (Z.to_nat base) with None => UB | Some x => fadd_row v (base + 1) k (fadd d x) end
  end.
(** The outer loop (400-407) from row [i], [n] rows left *)
Fixpoint fadd_rows (v : list flt) (w i : Z) (n : nat) (rows : list fdist) (mm : fdist) : outcome (list fdist * fdist) :=
  match n with
  | O => Ok (rows, mm)
  | S k => obind (fadd_row v (i * w) (Z.to_nat w) fempty) (fun d =>
             fadd_rows v w (i + 1) k (rows ++ [fnorm d]) (fadd mm (fback d)))
  end.
(** include/lm/math.h:396-409 on a new object. i * w + j is taken not to overflow int. *)
Definition finit (v : list flt) (cols rows : Z) : outcome fdist2 :=
  if rows <? 0 then Throw ErrLength else
  obind (fadd_rows v cols 0 (Z.to_nat rows) [] fempty) (fun '(l, mm) => Ok (mk_fdist2 l (fnorm mm) cols rows)).

(** include/lm/math.h:417-420 *)
Definition fpdf2 (o : fdist2) (u v : flt) : outcome flt :=
  obind (fint (fmult v (fofint (frows o)))) (fun yi =>
  let y := Z.min yi (frows o - 1) in
  if y <? 0 then UB else
  match nth_error (fds o) (Z.to_nat y) with
  | None => UB
  | Some d => obind (fint (fmult u (fofint (fcols o)))) (fun x =>
      Ok (fmult (fmult (fmult (fpmf (fmarg o) y) (fpmf d x)) (fofint (fcols o))) (fofint (frows o))))
  end).

(** include/lm/math.h:427-431 *)
Definition fsample2 (o : fdist2) (u0 u1 u2 u3 : flt) : outcome (flt * flt) :=
  obind (fsample (fmarg o) u0) (fun y =>
  match nth_error (fds o) (Z.to_nat y) with
  | None => UB
  | Some d => obind (fsample d u1) (fun x => Ok (fcell x u2 (fcols o), fcell y u3 (frows o)))
  end).
