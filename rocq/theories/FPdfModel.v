(** Model of the conversions of densities (include/lm/surface.h:377-409) with the arithmetic of Float as it is (binary64). *)
From Coq Require Import ZArith Bool.
From Flocq Require Import IEEE754.BinarySingleNaN.
From Verif Require Import RngModel FltModel FBoundModel FDirModel FMathModel FGtermModel.
Local Open Scope Z_scope.

(** include/lm/surface.h:377-390 *)
Definition fconvert_projSA (pdf_SA : flt) (geom : fgeom) (d : fvec) : flt :=
  if fg_degenerated geom then pdf_SA
  else let J := Babs (fdot (fg_n geom) d) in
       if flt_eqb J fzero then fzero else fdivide pdf_SA J.
(** include/lm/surface.h:406-409 *)
Definition fconvert_area (pdf_in : flt) (geom1 geom2 : fgeom) : flt := fmult pdf_in (fgeometry_term geom1 geom2).
