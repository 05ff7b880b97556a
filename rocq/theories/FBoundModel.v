(** Model of bounding boxes (include/lm/math.h:64-179) and of the triangle test (src/accel/accel_sahbvh.cpp:26-76)
    with the arithmetic of Float as it is: the same functions as in GeoModel, on binary64 numbers instead of reals. *)
From Coq Require Import List ZArith Bool.
From Flocq Require Import IEEE754.BinarySingleNaN.
From Verif Require Import RngModel FltModel.
Import ListNotations.
Local Open Scope Z_scope.

(** include/lm/common.h:293: Vec3 *)
Record fvec := FV { fx : flt; fy : flt; fz : flt }.
(** v[i] of a glm vector, for include/lm/math.h:146-148. *)
Definition fcomp (v : fvec) (i : nat) : flt := match i with O => fx v | 1%nat => fy v | _ => fz v end.
(** include/lm/math.h:67-69 *)
Record fray := mk_fray { fo : fvec; fd : fvec }.
(** include/lm/math.h:54 and 82-84 *)
Definition fInf : flt := fmake 10000000000 0.
(** include/lm/math.h:82-85. *)
Record fbound := mk_fbound { fbmin : fvec; fbmax : fvec }.
(** include/lm/math.h:83-84. *)
Definition new_fbound : fbound := mk_fbound (FV fInf fInf fInf) (FV (Bopp fInf) (Bopp fInf) (Bopp fInf)).
(** glm::min and glm::max on vectors. Used by [fmerge_point]: include/lm/math.h:166-168, 176-178. *)
Definition fvmin (a b : fvec) : fvec := FV (fmin (fx a) (fx b)) (fmin (fy a) (fy b)) (fmin (fz a) (fz b)).
(** Helper of [fmerge_point]: include/lm/math.h:166-168, 176-178. *)
Definition fvmax (a b : fvec) : fvec := FV (fmax (fx a) (fx b)) (fmax (fy a) (fy b)) (fmax (fz a) (fz b)).
(** include/lm/math.h:166-168, 176-178 *)
Definition fmerge_point (b : fbound) (p : fvec) : fbound := mk_fbound (fvmin (fbmin b) p) (fvmax (fbmax b) p).
(** include/lm/math.h:176-178. *)
Definition fmerge (a b : fbound) : fbound := mk_fbound (fvmin (fbmin a) (fbmin b)) (fvmax (fbmax a) (fbmax b)).

(** One iteration of the loop of isect_range (144-156): the new tmin and tmax, and whether to go on. *)
Definition fslab (b : fbound) (r : fray) (i : nat) (tmin tmax : flt) : flt * flt * bool :=
  let vd := fdivide fone (fcomp (fd r) i) in
  let t1 := fmult (fminus (fcomp (fbmin b) i) (fcomp (fo r) i)) vd in
  let t2 := fmult (fminus (fcomp (fbmax b) i) (fcomp (fo r) i)) vd in
  let '(t1, t2) := if flt_ltb vd fzero then (t2, t1) else (t1, t2) in
  let tmin := fmax t1 tmin in
  let tmax := fmin t2 tmax in
  (tmin, tmax, negb (flt_ltb tmax tmin)).
(** include/lm/math.h:143-158: result, tmin, tmax *)
Definition fisect_range (b : fbound) (r : fray) (tmin tmax : flt) : bool * flt * flt :=
  let '(l0, h0, go0) := fslab b r 0 tmin tmax in
  if negb go0 then (false, l0, h0) else
  let '(l1, h1, go1) := fslab b r 1 l0 h0 in
  if negb go1 then (false, l1, h1) else
  let '(l2, h2, go2) := fslab b r 2 l1 h1 in
  if negb go2 then (false, l2, h2) else (true, l2, h2).
(** include/lm/math.h:127-129 *)
Definition fisect (b : fbound) (r : fray) (tmin tmax : flt) : bool := fst (fst (fisect_range b r tmin tmax)).

(** glm: difference, cross and dot product (ext/glm, detail/func_geometric.inl) *)
Definition fvsub (a b : fvec) : fvec := FV (fminus (fx a) (fx b)) (fminus (fy a) (fy b)) (fminus (fz a) (fz b)).
(** glm::cross: src/accel/accel_sahbvh.cpp:58-75. *)
Definition fcross (x y : fvec) : fvec :=
  FV (fminus (fmult (fy x) (fz y)) (fmult (fy y) (fz x)))
     (fminus (fmult (fz x) (fx y)) (fmult (fz y) (fx x)))
     (fminus (fmult (fx x) (fy y)) (fmult (fx y) (fy x))).
(** glm::dot: src/accel/accel_sahbvh.cpp:58-75. *)
Definition fdot (a b : fvec) : flt := fplus (fplus (fmult (fx a) (fx b)) (fmult (fy a) (fy b))) (fmult (fz a) (fz b)).

(** src/accel/accel_sahbvh.cpp:26-49; the center and the two indices are left out. *)
Record ftri := mk_ftri { fp1 : fvec; fe1 : fvec; fe2 : fvec; ftb : fbound }.
(** src/accel/accel_sahbvh.cpp:38-49. *)
Definition new_ftri (p1 p2 p3 : fvec) : ftri :=
  mk_ftri p1 (fvsub p2 p1) (fvsub p3 p1) (fmerge_point (fmerge_point (fmerge_point new_fbound p1) p2) p3).
(** 1e-8_f (67) *)
Definition ftri_eps : flt := fmake 6189700196426902 (-79).
(** src/accel/accel_sahbvh.cpp:58-75: t, u and v *)
Definition ftri_isect (k : ftri) (r : fray) (tl th : flt) : option (flt * flt * flt) :=
  let p := fcross (fd r) (fe2 k) in
  let tv := fvsub (fo r) (fp1 k) in
  let q := fcross tv (fe1 k) in
  let d := fdot (fe1 k) p in
  let ad := Babs d in
  let s := if Bsign d then Bopp fone else fone in
  let u := fmult (fdot tv p) s in
  let v := fmult (fdot (fd r) q) s in
  if flt_ltb ad ftri_eps || flt_ltb u fzero || flt_ltb v fzero || flt_ltb ad (fplus u v) then None else
  let t := fdivide (fdot (fe2 k) q) d in
  if flt_ltb t tl || flt_ltb th t then None else
  Some (t, fdivide u ad, fdivide v ad).

(** The box of a node: those of its triangles merged one after the other (src/accel/accel_sahbvh.cpp:192-195). *)
Definition fnode_box (ks : list fbound) : fbound := fold_left fmerge ks new_fbound.
