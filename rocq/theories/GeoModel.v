(** Model of rays, bounding boxes (include/lm/math.h:64-179) and the triangle test
    (src/accel/accel_sahbvh.cpp:26-76). Floats are reals; the slab test, which relies on infinities and
    NaN, uses extended reals. *)
From Coq Require Import Reals ZArith Bool List.
From Verif Require Import Base RBase VecBase.
Import ListNotations.
Open Scope R_scope.

(** include/lm/math.h:54: Inf, and the threshold of the triangle test (67). *)
Definition Inf : R := 10000000000.
(** 1e-8_f: src/accel/accel_sahbvh.cpp:67. *)
Definition tri_eps : R := / 100000000.

(** include/lm/math.h:67-69. [neg0 i]: the sign bit of component i of the direction where that is
    zero. *)
Record ray := mk_ray { ro : vec3; rd : vec3; neg0 : nat -> bool }.

(** include/lm/math.h:82-84 *)
Record bound := mk_bound { bmin : vec3; bmax : vec3 }.
(** include/lm/math.h:83-84. *)
Definition new_bound : bound := mk_bound (V3 Inf Inf Inf) (V3 (- Inf) (- Inf) (- Inf)).

(** glm::min, glm::max on vectors. Used by [merge_point]: include/lm/math.h:166-168, 176-178. *)
Definition vmin (a b : vec3) : vec3 := V3 (Rmin (vx a) (vx b)) (Rmin (vy a) (vy b)) (Rmin (vz a) (vz b)).
(** Helper of [merge_point]: include/lm/math.h:166-168, 176-178. *)
Definition vmax (a b : vec3) : vec3 := V3 (Rmax (vx a) (vx b)) (Rmax (vy a) (vy b)) (Rmax (vz a) (vz b)).

(** include/lm/math.h:103 *)
Definition center (b : bound) : vec3 := vscale (/ 2) (vadd (bmin b) (bmax b)).

(** include/lm/math.h:109-112 *)
Definition surface_area (b : bound) : R :=
  let d := vsub (bmax b) (bmin b) in 2 * (vx d * vy d + vy d * vz d + vz d * vx d).

(** include/lm/math.h:166-168, 176-178 *)
Definition merge_point (b : bound) (p : vec3) : bound := mk_bound (vmin (bmin b) p) (vmax (bmax b) p).
(** include/lm/math.h:176-178. *)
Definition merge (a b : bound) : bound := mk_bound (vmin (bmin a) (bmin b)) (vmax (bmax a) (bmax b)).

(** ** Extended reals. Used by [slab]: include/lm/math.h:144-156. *)
Inductive xr := Fin (r : R) | PInf | NInf | NaN.

(** x < y; false if one is NaN. Used by [slab]: include/lm/math.h:144-156. *)
Definition xlt (x y : xr) : bool :=
  match x, y with
  | Fin a, Fin b => if Rlt_dec a b then true else false
  | Fin _, PInf | NInf, Fin _ | NInf, PInf => true
  | _, _ => false
  end.
(** glm::max(x, y) = (x < y) ? y : x and glm::min(x, y) = (y < x) ? y : x. Used by [slab]: include/lm/math.h:144-156. *)
Definition xmax (x y : xr) : xr := if xlt x y then y else x.
(** Helper of [slab]: include/lm/math.h:144-156. *)
Definition xmin (x y : xr) : xr := if xlt y x then y else x.

(** 1 / d. Used by [slab]: include/lm/math.h:144-156. *)
Definition recip (d : R) (neg : bool) : xr := if Req_EM_T d 0 then (if neg then NInf else PInf) else Fin (/ d).
(** Helper of [slab]: include/lm/math.h:144-156. *)
Definition xneg (v : xr) : xr := match v with Fin b => Fin (- b) | PInf => NInf | NInf => PInf | NaN => NaN end.
(** a * v. Used by [slab]: include/lm/math.h:144-156. *)
Definition xscale (a : R) (v : xr) : xr :=
  match v with
  | Fin b => Fin (a * b)
  | NaN => NaN
  | _ => if Req_EM_T a 0 then NaN else if Rlt_dec a 0 then xneg v else v
  end.

(** One iteration of the loop of isect_range (144-156): the new tmin and tmax, and whether to go on. *)
Definition slab (b : bound) (r : ray) (i : nat) (tmin tmax : xr) : xr * xr * bool :=
  let vd := recip (comp (rd r) i) (neg0 r i) in
  let t1 := xscale (comp (bmin b) i - comp (ro r) i) vd in
  let t2 := xscale (comp (bmax b) i - comp (ro r) i) vd in
  let '(t1, t2) := if xlt vd (Fin 0) then (t2, t1) else (t1, t2) in
  let tmin := xmax t1 tmin in
  let tmax := xmin t2 tmax in
  (tmin, tmax, negb (xlt tmax tmin)).

(** include/lm/math.h:143-158: result, tmin, tmax *)
Definition isect_range (b : bound) (r : ray) (tmin tmax : R) : bool * xr * xr :=
  let '(l0, h0, go0) := slab b r 0 (Fin tmin) (Fin tmax) in
  if negb go0 then (false, l0, h0) else
  let '(l1, h1, go1) := slab b r 1 l0 h0 in
  if negb go1 then (false, l1, h1) else
  let '(l2, h2, go2) := slab b r 2 l1 h1 in
  if negb go2 then (false, l2, h2) else (true, l2, h2).

(** include/lm/math.h:127-129 *)
Definition isect (b : bound) (r : ray) (tmin tmax : R) : bool := fst (fst (isect_range b r tmin tmax)).

(** ** Triangles *)
(** src/accel/accel_sahbvh.cpp:26-49 *)
Record tri := mk_tri { tp1 : vec3; te1 : vec3; te2 : vec3; tb : bound; tc : vec3; tflat : Z; tface : Z }.
(** src/accel/accel_sahbvh.cpp:38-49. *)
Definition new_tri (p1 p2 p3 : vec3) (flattened_node face : Z) : tri :=
  let b := merge_point (merge_point (merge_point new_bound p1) p2) p3 in
  mk_tri p1 (vsub p2 p1) (vsub p3 p1) b (center b) flattened_node face.

(** src/accel/accel_sahbvh.cpp:52-55 *)
Record hit := mk_hit { ht : R; hu : R; hv : R }.

(** src/accel/accel_sahbvh.cpp:58-75. copysign(1, d) for d = 0 depends on the sign of zero; that case
    is rejected by the first comparison (67). *)
Definition tri_isect (k : tri) (r : ray) (tl th : R) : option hit :=
  let p := cross (rd r) (te2 k) in
  let tv := vsub (ro r) (tp1 k) in
  let q := cross tv (te1 k) in
  let d := dot (te1 k) p in
  let ad := Rabs d in
  let s := if Rlt_dec d 0 then -1 else 1 in
  let u := dot tv p * s in
  let v := dot (rd r) q * s in
  if Rlt_dec ad tri_eps then None else
  if Rlt_dec u 0 then None else
  if Rlt_dec v 0 then None else
  if Rlt_dec ad (u + v) then None else
  let t := dot (te2 k) q / d in
  if Rlt_dec t tl then None else
  if Rlt_dec th t then None else
  Some (mk_hit t (u / ad) (v / ad)).
