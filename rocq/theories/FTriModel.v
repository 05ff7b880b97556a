(** Model of points on triangles with the arithmetic of Float as it is (binary64): interpolation with barycentric
    coordinates (include/lm/math.h:573-575, used by every mesh for the position of a hit) and the position sampled on an
    area light (src/light/light_area.cpp:47-57, 62-73). *)
From Coq Require Import List ZArith.
From Flocq Require Import IEEE754.BinarySingleNaN.
From Verif Require Import Base RBase RngModel FltModel FDistModel FBoundModel FFilmModel FDirModel FCamModel.
Import ListNotations.
Local Open Scope Z_scope.

(** include/lm/math.h:573-575: a * (1_f - uv.x - uv.y) + b * uv.x + c * uv.y *)
Definition fmix (a b c : fvec) (u v : flt) : fvec :=
  fvadd (fvadd (fvmul a (fminus (fminus fone u) v)) (fvmul b u)) (fvmul c v).
(** src/light/light_area.cpp:49 and 54: s = safe_sqrt(up[0]), Vec2(1_f - s, up[1]*s) *)
Definition fsample_bary (u1 u2 : flt) : flt * flt :=
  let s := fsafe_sqrt u1 in (fminus fone s, fmult u2 s).
(** The three positions of Mesh::Tri (include/lm/mesh.h:48-52) *)
Record ftriangle := mk_ftriangle { tp1 : fvec; tp2 : fvec; tp3 : fvec }.
(** src/light/light_area.cpp:69-70: safe_sqrt(glm::dot(cr, cr)) * .5_f *)
Definition farea (t : ftriangle) : flt :=
  let cr := fcross (fvsub (tp2 t) (tp1 t)) (fvsub (tp3 t) (tp1 t)) in
  fmult (fsafe_sqrt (fdot cr cr)) fhalf.
(** src/light/light_area.cpp:68-71: the areas of the triangles in the order of the mesh, before norm() *)
Definition fareas (ts : list ftriangle) : fdist := fold_left (fun d t => fadd d (farea t)) ts fempty.
(** src/light/light_area.cpp:72: invA_ = 1_f / dist_.c.back() *)
Definition finvA (ts : list ftriangle) : flt := fdivide fone (fback (fareas ts)).
(** src/light/light_area.cpp:47-54: the position before the transformation. [upc] chooses the triangle. *)
Definition flight_point (ts : list ftriangle) (u1 u2 upc : flt) : outcome fvec :=
  obind (fsample (fnorm (fareas ts)) upc) (fun i =>
  match nth_error ts (Z.to_nat i) with
  | Some t => let '(u, v) := fsample_bary u1 u2 in Ok (fmix (tp1 t) (tp2 t) (tp3 t) u v)
  | None => UB
  end).
