(** Model of local frames, reflection and refraction, the geometry term and sampling warps
    (include/lm/math.h:463-702, include/lm/surface.h). Float is the reals and the literal Pi is PI. A
    division by zero gives None where it can occur. *)
From Coq Require Import Reals ZArith Bool.
From Verif Require Import Base RBase VecBase GeoModel.
Open Scope R_scope.

(** include/lm/math.h:478-480 *)
Definition safe_sqrt (v : R) : R := sqrt (Rmax 0 v).

(** copysign(1, z); [neg0]: the sign bit of a zero. *)
Definition copysign1 (neg0 : bool) (z : R) : R :=
  if Rlt_dec z 0 then -1 else if Rlt_dec 0 z then 1 else if neg0 then -1 else 1.

(** include/lm/math.h:497-499 *)
Definition reflection (w n : vec3) : vec3 := vsub (vscale (2 * dot w n) n) w.

(** include/lm/math.h:505-508, 517-524: None is total internal reflection (wt is then zero). *)
Definition refraction (wi n : vec3) (eta : R) : option vec3 :=
  let t := dot wi n in
  let t2 := 1 - eta * eta * (1 - t * t) in
  if Rle_dec t2 0 then None
  else Some (vsub (vscale eta (vsub (vscale t n) wi)) (vscale (safe_sqrt t2) n)).

(** include/lm/math.h:540-547 *)
Definition orthonormal_basis (neg0 : bool) (n : vec3) : vec3 * vec3 :=
  let s := copysign1 neg0 (vz n) in
  let a := -1 / (s + vz n) in
  let b := vx n * vy n * a in
  (V3 (1 + s * vx n * vx n * a) (s * b) (- s * vx n), V3 b (s + vy n * vy n * a) (- vy n)).

(** include/lm/math.h:573-575 *)
Definition mix_barycentric (a b c : vec3) (u : vec2) : vec3 :=
  vadd (vadd (vscale (1 - v2x u - v2y u) a) (vscale (v2x u) b)) (vscale (v2y u) c).

(** Mat3 by its columns; product with a vector; transpose. glm, used in include/lm/surface.h:52-62. *)
Record mat3 := M3 { col0 : vec3; col1 : vec3; col2 : vec3 }.
(** Mat3 * Vec3: include/lm/surface.h:124-136. *)
Definition mmul (m : mat3) (w : vec3) : vec3 := vadd (vadd (vscale (vx w) (col0 m)) (vscale (vy w) (col1 m))) (vscale (vz w) (col2 m)).
(** glm::transpose: include/lm/surface.h:124-136. *)
Definition transpose (m : mat3) : mat3 :=
  M3 (V3 (vx (col0 m)) (vx (col1 m)) (vx (col2 m))) (V3 (vy (col0 m)) (vy (col1 m)) (vy (col2 m))) (V3 (vz (col0 m)) (vz (col1 m)) (vz (col2 m))).

(** include/lm/surface.h:52-62. The three kinds of points; members that a constructor leaves
    uninitialised (73-110) are absent. *)
Record surf := mk_surf { sp : vec3; sn : vec3; sgn : vec3; su : vec3; sv : vec3; to_world : mat3; to_local : mat3 }.
(** include/lm/surface.h:52-62: PointGeometry by its flags. *)
Inductive geom := OnSurface (s : surf) | Degenerated (p : vec3) | Infinite (wo : vec3).

(** include/lm/surface.h:124-136 (without texture coordinates) *)
Definition make_on_surface (neg0 : bool) (p n gn : vec3) : surf :=
  let '(u, v) := orthonormal_basis neg0 n in
  let m := M3 u v n in mk_surf p n gn u v m (transpose m).

(** include/lm/surface.h:178-180 *)
Definition opposite (s : surf) (w1 w2 : vec3) : bool := if Rle_dec (dot w1 (sn s) * dot w2 (sn s)) 0 then true else false.

(** include/lm/surface.h:192-195: normal and tangents *)
Definition basis_twosided (s : surf) (wi : vec3) : vec3 * vec3 * vec3 :=
  if Rlt_dec 0 (dot wi (sn s)) then (sn s, su s, sv s) else (vneg (sn s), su s, vneg (sv s)).

(** The cosine factor of a point in the geometry term (345-346) *)
Definition cos_at (g : geom) (d : vec3) : R := match g with OnSurface s => Rabs (dot (sn s) d) | _ => 1 end.
(** geom.p: include/lm/surface.h:52-62. *)
Definition pos_of (g : geom) : vec3 := match g with OnSurface s => sp s | Degenerated p => p | Infinite _ => v0 end.

(** include/lm/surface.h:329-348; None: the points coincide (0/0). *)
Definition geometry_term (s1 s2 : geom) : option R :=
  match s1, s2 with
  | Infinite _, Infinite _ => Some 0
  | Infinite wo, _ => fdiv (cos_at s1 wo * cos_at s2 (vneg wo)) 1
  | _, Infinite wo => let d := vneg wo in fdiv (cos_at s1 d * cos_at s2 (vneg d)) 1
  | _, _ =>
      let d := vsub (pos_of s2) (pos_of s1) in
      let L2 := dot d d in
      match fdiv 1 (sqrt L2) with
      | None => None
      | Some i => let d := vscale i d in fdiv (cos_at s1 d * cos_at s2 (vneg d)) L2
      end
  end.

(** include/lm/surface.h:361-363 *)
Definition distance (s1 s2 : geom) : R :=
  match s1, s2 with Infinite _, _ | _, Infinite _ => Inf | _, _ => vlen (vsub (pos_of s1) (pos_of s2)) end.

(** include/lm/surface.h:377-390; None: n is not initialised at a point at infinity. *)
Definition convert_projSA (pdf : R) (g : geom) (d : vec3) : option R :=
  match g with
  | Degenerated _ => Some pdf
  | Infinite _ => None
  | OnSurface s => let J := Rabs (dot (sn s) d) in if Req_EM_T J 0 then Some 0 else Some (pdf / J)
  end.

(** include/lm/surface.h:406-409 *)
Definition convert_to_area (pdf : R) (g1 g2 : geom) : option R :=
  match geometry_term g1 g2 with Some G => Some (pdf * G) | None => None end.

(** include/lm/material.h: MaterialTransDir. *)
Inductive trans_dir := LE | EL.

(** include/lm/surface.h:424-438 with math.h:599-601 *)
Definition shading_normal_correction (s : surf) (wi wo : vec3) (d : trans_dir) : R :=
  let wi_ng := dot wi (sgn s) in let wo_ng := dot wo (sgn s) in
  let wi_ns := vz (mmul (to_local s) wi) in let wo_ns := vz (mmul (to_local s) wo) in
  if Rle_dec (wi_ng * wi_ns) 0 then 0 else
  if Rle_dec (wo_ng * wo_ns) 0 then 0 else
  match d with LE => wi_ns * wo_ng / (wo_ns * wi_ng) | EL => 1 end.

(** ** Warps *)
(** include/lm/math.h:632-638, 644-646 *)
Definition sample_uniform_disk (u : vec2) : vec2 :=
  let r := safe_sqrt (v2x u) in let t := 2 * PI * v2y u in V2 (r * cos t) (r * sin t).
(** include/lm/math.h:644-646. *)
Definition pdf_uniform_disk : R := 1 / PI.

(** include/lm/math.h:653-659, 665-667 *)
Definition sample_cosine_weighted (u : vec2) : vec3 :=
  let r := safe_sqrt (v2x u) in let t := 2 * PI * v2y u in
  let x := r * cos t in let y := r * sin t in V3 x y (safe_sqrt (1 - x * x - y * y)).
(** include/lm/math.h:665-667. *)
Definition pdf_cosine_weighted_projSA : R := 1 / PI.

(** include/lm/math.h:674-681, 687-689 *)
Definition sample_uniform_sphere (u : vec2) : vec3 :=
  let z := 1 - 2 * v2x u in let r := safe_sqrt (1 - z * z) in let t := 2 * PI * v2y u in V3 (r * cos t) (r * sin t) z.
(** include/lm/math.h:687-689. *)
Definition pdf_uniform_sphere : R := 1 / (4 * PI).

(** src/light/light_area.cpp:49-54: the position on a triangle *)
Definition sample_triangle (a b c : vec3) (u : vec2) : vec3 :=
  let s := safe_sqrt (v2x u) in mix_barycentric a b c (V2 (1 - s) (v2y u * s)).
(** src/light/light_area.cpp:69-70: the area of a triangle *)
Definition triangle_area (a b c : vec3) : R := let cr := cross (vsub b a) (vsub c a) in safe_sqrt (dot cr cr) * / 2.
(** src/light/light_area.cpp:40-45; J: include/lm/math.h:744 *)
Definition transformed_invA (invA J : R) : R := invA / J.
(** The linear part of a transform applied to a point with the translation [t] (light_area.cpp:56) and
    J = |det| (include/lm/math.h:742-745). *)
Definition apply_point (m : mat3) (t p : vec3) : vec3 := vadd (mmul m p) t.
(** include/lm/math.h:742-745. *)
Definition jacobian (m : mat3) : R := Rabs (dot (col0 m) (cross (col1 m) (col2 m))).
(** src/light/light_area.cpp:66-72: the inverse of the total area of the triangles before transformation *)
Definition total_area (ts : list (vec3 * vec3 * vec3)) : R := List.fold_right (fun t s => let '(a, b, c) := t in triangle_area a b c + s) 0 ts.
