(** Model of the lights (src/light). Float is the reals. *)
From Coq Require Import List Reals ZArith Bool.
From Verif Require Import Base RBase VecBase GeoModel DistModel MeshModel SurfModel MatModel CamModel TexModel.
Import ListNotations.
Open Scope R_scope.

(** include/lm/math.h:724-746 for an affine matrix: the linear part, the translation, the matrix of
    normals (transposed inverse) and |det|. *)
Record transform := mk_tr { t_lin : mat3; t_tr : vec3; t_normal : mat3; t_J : R }.
(** glm::determinant: include/lm/math.h:742-745. *)
Definition det3 (m : mat3) : R := dot (col0 m) (cross (col1 m) (col2 m)).
(** include/lm/math.h:736-746; a singular matrix has no inverse. *)
Definition make_transform (m : mat3) (t : vec3) : fl transform :=
  do k <- rdiv 1 (det3 m);
  Val (mk_tr m t (M3 (vscale k (cross (col1 m) (col2 m))) (vscale k (cross (col2 m) (col0 m))) (vscale k (cross (col0 m) (col1 m)))) (jacobian m)).

(** include/lm/light.h: the interface. The methods get the random numbers, the point and the transform.
    A light ray carries the position of its end point separately, since a point at infinity made for a
    ray has one (include/lm/surface.h:94-104). The optional methods raise Unsupported if absent. *)
Record light := mk_light {
  l_sample_ray : vec2 -> R -> vec2 -> transform -> fl (option (ray_sample * vec3));
  l_pdf_ray : geom -> vec3 -> transform -> bool -> fl R;
  l_sample_direction : option (vec2 -> geom -> fl (option (vec3 * vec3)));
  l_pdf_direction : option (geom -> vec3 -> fl R);
  l_sample_position : option (vec2 -> R -> transform -> fl (option (geom * vec3)));
  l_pdf_position : option (geom -> transform -> fl R);
  l_sample_direct : vec2 -> R -> vec2 -> geom -> transform -> fl (option ray_sample);
  l_pdf_direct : geom -> geom -> transform -> vec3 -> bool -> fl R;
  l_eval : geom -> vec3 -> bool -> fl vec3;
  l_specular : bool;
  l_infinite : bool;
  l_connectable : bool }.

(** Reading members of a point. A point at infinity has no normal, and a position only in a light ray:
    both are treated as uninitialised. include/lm/surface.h:52-62. *)
Definition position (g : geom) : fl vec3 := match g with Infinite _ => Undefined | _ => Val (pos_of g) end.
(** geom.n: include/lm/surface.h:52-62. *)
Definition normal (g : geom) : fl vec3 := match g with OnSurface s => Val (sn s) | _ => Undefined end.
(** geom.wo: include/lm/surface.h:52-62. *)
Definition direction (g : geom) : fl vec3 := match g with Infinite w => Val w | _ => Undefined end.
(** surface::convert_pdf_SA_to_projSA (include/lm/surface.h:377-385); undefined if it reads an uninitialised member. *)
Definition to_projSA (pdf : R) (g : geom) (d : vec3) : fl R :=
  match convert_projSA pdf g d with Some r => Val r | None => Undefined end.

(** * Point light (src/light/light_point.cpp) *)
Section Point.
  Variables (Le pos : vec3).
  (** 99-102 *)
  Definition point_pdf_direct (g gL : geom) : fl R :=
    do G <- of_num (geometry_term g gL); if Req_EM_T G 0 then Val 0 else rdiv 1 G.
  (** src/light/light_point.cpp:38-120; the lines of each method are given. *)
  Definition point_light : light :=
    mk_light
      (* 38-48 *)
      (fun up upc ud T => do w <- vdiv Le pdf_uniform_sphere; Val (Some (mk_ray (Degenerated pos) (sample_uniform_sphere ud) w, pos)))
      (* 50-52 *)
      (fun g wo T delta => Val pdf_uniform_sphere)
      (* 56-63, 65-67 *)
      (Some (fun ud g => do w <- vdiv Le pdf_uniform_sphere; Val (Some (sample_uniform_sphere ud, w))))
      (Some (fun g wo => Val pdf_uniform_sphere))
      (* 71-76, 78-80 *)
      (Some (fun up upc T => Val (Some (Degenerated pos, grey 1))))
      (Some (fun g T => Val 1))
      (* 84-97 *)
      (fun up upc ud g T =>
         do p <- position g; do wo <- fnormalize (vsub p pos);
         let gL := Degenerated pos in
         do pL <- point_pdf_direct g gL;
         if Req_EM_T pL 0 then Val None else do w <- vdiv Le pL; Val (Some (mk_ray gL wo w)))
      (fun g gL T wo delta => point_pdf_direct g gL)
      (* 118-120, 106-116 *)
      (fun g wo delta => Val Le) false false true.
End Point.

(** * Area light (src/light/light_area.cpp) *)
Section Area.
  Variables (neg0 : bool) (Ke : vec3) (ts : list (vec3 * vec3 * vec3)).
  (** 66-71: the distribution before normalisation *)
  Definition area_sums : dist := fold_left (fun d t => let '(a, b, c) := t in add d (Some (triangle_area a b c))) ts empty_dist.
  (** 72. src/light/light_area.cpp. *)
  Definition area_inv : num := ndiv (Some 1) (back area_sums).
  (** 73. src/light/light_area.cpp. *)
  Definition area_dist : dist := norm area_sums.
  (** 40-45 *)
  Definition area_invA (T : transform) : fl R := do a <- of_num area_inv; rdiv a (t_J T).
  (** 47-59 *)
  Definition area_position (up : vec2) (upc : R) (T : transform) : fl surf :=
    do i <- of_outcome (sample area_dist (Some upc));
    do t <- at_index ts i;
    let '(a, b, c) := t in
    let p := sample_triangle a b c up in
    match geometry_normal a b c with
    | None => NonFinite
    | Some gn => do n <- fnormalize (mmul (t_normal T) gn); Val (make_on_surface neg0 (apply_point (t_lin T) (t_tr T) p) n n)
    end.
  (** 185-187 *)
  Definition area_eval (g : geom) (wo : vec3) : fl vec3 := do n <- normal g; Val (if Rle_dec (dot wo n) 0 then v0 else Ke).
  (** 124-129 *)
  Definition area_pdf_direction (g : geom) (wo : vec3) : fl R :=
    do n <- normal g; Val (if Rle_dec (dot wo n) 0 then 0 else pdf_cosine_weighted_projSA).
  (** 84-87, 111-114 *)
  Definition area_wo (n : vec3) (ud : vec2) : vec3 :=
    let '(u, v) := orthonormal_basis neg0 n in mmul (M3 u v n) (sample_cosine_weighted ud).
  (** 163-169 *)
  Definition area_pdf_direct (g gL : geom) (T : transform) (wo : vec3) : fl R :=
    do n <- normal gL;
    if Rle_dec (dot wo n) 0 then Val 0 else
    do G <- of_num (geometry_term g gL);
    if Req_EM_T G 0 then Val 0 else do a <- area_invA T; rdiv a G.
  (** src/light/light_area.cpp:78-190; the lines of each method are given. *)
  Definition area_light : light :=
    mk_light
      (* 78-100 *)
      (fun up upc ud T =>
         do s <- area_position up upc T;
         do pA <- area_invA T;
         let wo := area_wo (sn s) ud in
         do Le <- area_eval (OnSurface s) wo;
         do w <- vdiv Le (pA * pdf_cosine_weighted_projSA);
         Val (Some (mk_ray (OnSurface s) wo w, sp s)))
      (* 102-106 *)
      (fun g wo T delta => do pA <- area_invA T; do pD <- area_pdf_direction g wo; Val (pA * pD))
      (* 110-122 *)
      (Some (fun ud g =>
         do n <- normal g;
         let wo := area_wo n ud in
         do Le <- area_eval g wo;
         do w <- vdiv Le pdf_cosine_weighted_projSA; Val (Some (wo, w))))
      (Some area_pdf_direction)
      (* 133-140, 142-144 *)
      (Some (fun up upc T =>
         do s <- area_position up upc T; do pA <- area_invA T; do w <- rdiv 1 pA; Val (Some (OnSurface s, grey w))))
      (Some (fun g T => area_invA T))
      (* 148-161 *)
      (fun up upc ud g T =>
         do s <- area_position up upc T;
         do p <- position g; do wo <- fnormalize (vsub p (sp s));
         do pL <- area_pdf_direct g (OnSurface s) T wo;
         if Req_EM_T pL 0 then Val None else
         do Le <- area_eval (OnSurface s) wo;
         do w <- vdiv Le pL; Val (Some (mk_ray (OnSurface s) wo w)))
      (fun g gL T wo delta => area_pdf_direct g gL T wo)
      (fun g wo delta => area_eval g wo) false false true.
End Area.

(** * The lights at infinity *)
(** set_scene_bound (light_directional.cpp:41-46, light_envconst.cpp:38-43, light_env.cpp:77-82): the
    sphere around the box; None before the scene is built. *)
Notation sphere := (option (vec3 * R)).
(** src/light/light_directional.cpp:41-47, src/light/light_envconst.cpp:38-44, src/light/light_env.cpp:77-83. *)
Definition scene_sphere (mn mx : vec3) : vec3 * R :=
  let c := vscale (/ 2) (vadd mx mn) in (c, vlen (vsub mx c) * (101 / 100)).
(** light_directional.cpp:53-55, light_envconst.cpp:53-55, light_env.cpp:92-94 *)
Definition disk_origin (neg0 : bool) (b : sphere) (d : vec3) (up : vec2) : fl vec3 :=
  match b with
  | None => Undefined
  | Some (c, r) =>
      let q := sample_uniform_disk up in
      let '(u, v) := orthonormal_basis neg0 d in
      Val (vadd (vadd c (vscale r (vneg d))) (vadd (vscale (v2x q * r) u) (vscale (v2y q * r) v)))
  end.
(** light_directional.cpp:71, light_envconst.cpp:72, light_env.cpp:111 *)
Definition disk_pdf (b : sphere) : fl R := match b with None => Undefined | Some (_, r) => rdiv 1 (PI * r * r) end.

(** * Directional light (src/light/light_directional.cpp); [d]: the direction as given (36) *)
Section Directional.
  Variables (neg0 : bool) (Le d : vec3) (b : sphere).
  (** 110-113 *)
  Definition dir_pdf_direct (g gL : geom) (delta : bool) : fl R :=
    do w <- direction gL; if delta then Val 0 else to_projSA 1 g (vneg w).
  (** 70-73 *)
  Definition dir_pdf_ray (delta : bool) : fl R := do pA <- disk_pdf b; Val (if delta then 1 else pA).
  (** 129-131 *)
  Definition dir_eval (delta : bool) : fl vec3 := Val (if delta then v0 else Le).
  (** src/light/light_directional.cpp:34-132; the lines of each method are given. *)
  Definition directional_light : fl light :=
    do n <- fnormalize d;
    Val (mk_light
      (* 50-68 *)
      (fun up upc ud T =>
         do p <- disk_origin neg0 b n up;
         do L <- dir_eval false; do q <- dir_pdf_ray false; do w <- vdiv L q;
         Val (Some (mk_ray (Infinite n) n w, p)))
      (fun g wo T delta => dir_pdf_ray delta)
      (* 77-93 *) None None None None
      (* 97-108 *)
      (fun up upc ud g T =>
         let gL := Infinite n in
         do pL <- dir_pdf_direct g gL false;
         if Req_EM_T pL 0 then Val None else do w <- vdiv Le pL; Val (Some (mk_ray gL n w)))
      (fun g gL T wo delta => dir_pdf_direct g gL delta)
      (fun g wo delta => dir_eval delta) true true false).
End Directional.

(** * Constant environment (src/light/light_envconst.cpp) *)
Section EnvConst.
  Variables (neg0 : bool) (Le : vec3) (b : sphere).
  (** 116-119 *)
  Definition envconst_pdf_direct (g gL : geom) : fl R := do w <- direction gL; to_projSA pdf_uniform_sphere g (vneg w).
  (** 70-74; light_env.cpp:109-113 *)
  Definition env_pdf_ray : fl R := do pA <- disk_pdf b; Val (pdf_uniform_sphere * pA).
  (** src/light/light_envconst.cpp:47-142; the lines of each method are given. *)
  Definition envconst_light : light :=
    mk_light
      (* 47-68 *)
      (fun up upc ud T =>
         let d := sample_uniform_sphere ud in
         do p <- disk_origin neg0 b d up;
         do q <- env_pdf_ray; do w <- vdiv Le q;
         Val (Some (mk_ray (Infinite d) d w, p)))
      (fun g wo T delta => env_pdf_ray)
      (* 78-96 *) None None None None
      (* 100-114 *)
      (fun up upc ud g T =>
         let wo := sample_uniform_sphere ud in
         let gL := Infinite wo in
         do pL <- envconst_pdf_direct g gL;
         if Req_EM_T pL 0 then Val None else do w <- vdiv Le pL; Val (Some (mk_ray gL wo w)))
      (fun g gL T wo delta => envconst_pdf_direct g gL)
      (fun g wo delta => Val Le) false true false.
End EnvConst.

(** * Environment map (src/light/light_env.cpp) *)
(** std::atan2 over the reals; the value at the origin depends on the signs of the zeros: taken as 0. *)
Definition atan2 (y x : R) : R :=
  if Rlt_dec 0 x then atan (y / x)
  else if Rlt_dec x 0 then (if Rle_dec 0 y then atan (y / x) + PI else atan (y / x) - PI)
  else if Rlt_dec 0 y then PI / 2 else if Rlt_dec y 0 then - (PI / 2) else 0.
(** std::acos; NaN outside of its domain. src/light/light_env.cpp:201. *)
Definition facos (x : R) : fl R := if Rlt_dec x (-1) then NonFinite else if Rlt_dec 1 x then NonFinite else Val (acos x).

(** The weight of a pixel (64-71). The division [Float(i) / w] is not an integer division. *)
Definition env_weight (img : bitmap) (scale : R) (i : Z) : fl R :=
  let w := bw img in let h := bh img in
  do v <- bitmap_pixel img (Z.rem i w) (Z.quot i w);
  Val (comp_max (vscale scale v) * sin (PI * (IZR i / IZR w + / 2) / IZR h)).
(** The weights of the pixels from [i] on. src/light/light_env.cpp:64-71. *)
Fixpoint env_weights (img : bitmap) (scale : R) (i : Z) (n : nat) : fl (list num) :=
  match n with
  | O => Val []
  | S k => do x <- env_weight img scale i; do l <- env_weights img scale (i + 1) k; Val (Some x :: l)
  end.
(** 64-72 *)
Definition env_dist (img : bitmap) (scale : R) : fl dist2 :=
  do l <- env_weights img scale 0 (Z.to_nat (bw img * bh img));
  of_outcome (init new_dist2 l (bw img) (bh img)).

Section Env.
  Variables (neg0 : bool) (img : bitmap) (rot scale : R) (o : dist2) (b : sphere).
  (** 161-166, 196-201: the first coordinate in the map *)
  Definition env_u (d : vec3) : R :=
    let at0 := atan2 (vx d) (vz d) in
    let at1 := if Rlt_dec at0 0 then at0 + 2 * PI else at0 in
    let t := (at1 - rot) * / 2 / PI in fract t.
  (** 159-174 *)
  Definition env_pdf_direct (g gL : geom) : fl R :=
    do w <- direction gL;
    let d := vneg w in
    let u := env_u d in
    do v <- facos (vy d);
    let st := safe_sqrt (1 - vy d * vy d) in
    if Req_EM_T st 0 then Val 0 else
    do q <- of_outcome (pdf2 o u (v / PI));
    do q <- of_num q;
    do p <- rdiv q (2 * PI * PI * st);
    to_projSA p g d.
  (** 194-202 *)
  Definition env_eval (g : geom) : fl vec3 :=
    do w <- direction g;
    let d := vneg w in
    do v <- facos (vy d);
    do c <- bitmap_eval img (V2 (env_u d) (v / PI));
    Val (vscale scale c).
  (** 141-144 *)
  Definition env_wo (x y : R) : vec3 :=
    let t := PI * y in let st := sin t in let p := 2 * PI * x + rot in
    vneg (V3 (st * sin p) (cos t) (st * cos p)).
  (** src/light/light_env.cpp:86-203; the lines of each method are given. *)
  Definition env_light_of : light :=
    mk_light
      (* 86-107 *)
      (fun up upc ud T =>
         let d := sample_uniform_sphere ud in
         do p <- disk_origin neg0 b d up;
         do L <- env_eval (Infinite d);
         do q <- env_pdf_ray b; do w <- vdiv L q;
         Val (Some (mk_ray (Infinite d) d w, p)))
      (fun g wo T delta => env_pdf_ray b)
      (* 117-135 *) None None None None
      (* 139-157 *)
      (fun up upc ud g T =>
         do u <- of_outcome (sample2 o (v2x ud) (v2y ud) (v2x up) (v2y up));
         let wo := env_wo (fst u) (snd u) in
         let gL := Infinite wo in
         do pL <- env_pdf_direct g gL;
         if Req_EM_T pL 0 then Val None else
         do L <- env_eval gL;
         do w <- vdiv L pL; Val (Some (mk_ray gL wo w)))
      (fun g gL T wo delta => env_pdf_direct g gL)
      (fun g wo delta => env_eval g) false true false.
End Env.
(** 51-73; [rot] in degrees *)
Definition env_light (neg0 : bool) (img : bitmap) (rot scale : R) (b : sphere) : fl light :=
  do o <- env_dist img scale; Val (env_light_of neg0 img (rot * PI / 180) scale o b).
