(** Model of the geometry term and the distance of two points (include/lm/surface.h:329-363) with the arithmetic of Float
    as it is (binary64). *)
From Coq Require Import ZArith Bool.
From Flocq Require Import IEEE754.BinarySingleNaN.
From Verif Require Import RngModel FltModel FBoundModel FDirModel.
Local Open Scope Z_scope.

(** include/lm/surface.h:52-58: what geometry_term and distance read of PointGeometry *)
Record fgeom := mk_fgeom { fg_degenerated : bool; fg_infinite : bool; fg_p : fvec; fg_n : fvec; fg_wo : fvec }.
(** -v, used in include/lm/surface.h:337 and 346 *)
Definition fvneg (v : fvec) : fvec := FV (Bopp (fx v)) (Bopp (fy v)) (Bopp (fz v)).
(** d / std::sqrt(L2), include/lm/surface.h:343: a division for each component (ext/glm, detail/type_vec3.inl) *)
Definition fvdiv (v : fvec) (s : flt) : fvec := FV (fdivide (fx v) s) (fdivide (fy v) s) (fdivide (fz v) s).
(** include/lm/surface.h:334-344: d and L2 *)
Definition fgeom_dir (s1 s2 : fgeom) : fvec * flt :=
  if fg_infinite s1 || fg_infinite s2 then (if fg_infinite s1 then fg_wo s1 else fvneg (fg_wo s2), fone)
  else let d := fvsub (fg_p s2) (fg_p s1) in
       let l2 := fdot d d in
       (fvdiv d (fsqrt l2), l2).
(** include/lm/surface.h:345 and 346: 1 or |dot(n, d)| *)
Definition fgeom_cos (s : fgeom) (d : fvec) : flt :=
  if fg_degenerated s || fg_infinite s then fone else Babs (fdot (fg_n s) d).
(** include/lm/surface.h:329-348 *)
Definition fgeometry_term (s1 s2 : fgeom) : flt :=
  if fg_infinite s1 && fg_infinite s2 then fzero
  else let '(d, l2) := fgeom_dir s1 s2 in
       fdivide (fmult (fgeom_cos s1 d) (fgeom_cos s2 (fvneg d))) l2.
(** include/lm/surface.h:361-363; glm::distance(p0, p1) = length(p1 - p0) = sqrt(dot(d, d)) (ext/glm,
    detail/func_geometric.inl) *)
Definition fgeom_distance (s1 s2 : fgeom) : flt :=
  if fg_infinite s1 || fg_infinite s2 then fInf
  else let d := fvsub (fg_p s2) (fg_p s1) in fsqrt (fdot d d).
