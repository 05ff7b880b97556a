(** Independent vocabulary for lights. *)
From Coq Require Import List Reals ZArith.
From Verif Require Import Base VecBase DistModel SurfModel SurfSpec MatModel CamModel TexModel LightModel.
Import ListNotations.
Open Scope R_scope.

(** The lights one can construct. *)
Inductive light_made : light -> Prop :=
| lm_point Le p : light_made (point_light Le p)
| lm_area neg0 Ke ts : light_made (area_light neg0 Ke ts)
| lm_directional neg0 Le d b l : directional_light neg0 Le d b = Val l -> light_made l
| lm_envconst neg0 Le b : light_made (envconst_light neg0 Le b)
| lm_env neg0 img rot scale b l : env_light neg0 img rot scale b = Val l -> light_made l.

(** Weight times density is the contribution: for rays, for directions at a point of the light, for
    positions (contribution one) and for connections to a given point. *)
Definition ray_weights (l : light) : Prop :=
  forall up upc ud T r p, l_sample_ray l up upc ud T = Val (Some (r, p)) ->
  exists f q, l_eval l (r_geom r) (r_wo r) false = Val f /\ l_pdf_ray l (r_geom r) (r_wo r) T false = Val q /\ vscale q (r_weight r) = f.
Definition direction_weights (l : light) : Prop :=
  forall s, l_sample_direction l = Some s -> exists pdf, l_pdf_direction l = Some pdf
  /\ forall ud g wo w, s ud g = Val (Some (wo, w)) ->
     exists f q, l_eval l g wo false = Val f /\ pdf g wo = Val q /\ vscale q w = f.
Definition position_weights (l : light) : Prop :=
  forall s, l_sample_position l = Some s -> exists pdf, l_pdf_position l = Some pdf
  /\ forall up upc T g w, s up upc T = Val (Some (g, w)) -> exists q, pdf g T = Val q /\ vscale q w = V3 1 1 1.
Definition direct_weights (l : light) : Prop :=
  forall up upc ud g T r, l_sample_direct l up upc ud g T = Val (Some r) ->
  exists f q, l_eval l (r_geom r) (r_wo r) false = Val f /\ l_pdf_direct l g (r_geom r) T (r_wo r) false = Val q
    /\ 0 <> q /\ vscale q (r_weight r) = f.

(** The box from [mn] to [mx]. *)
Definition in_box (mn mx q : vec3) : Prop := vx mn <= vx q <= vx mx /\ vy mn <= vy q <= vy mx /\ vz mn <= vz q <= vz mx.
(** The point after distance [t] from [p] in direction [d]. *)
Definition ray_at (p d : vec3) (t : R) : vec3 := vadd p (vscale t d).
(** The direction of the point (x, y) of an equirectangular map, the poles at y = 0 (up) and y = 1, turned
    by [rot] about the vertical axis. *)
Definition sky (rot : R) (u : vec2) : vec3 :=
  V3 (sin (PI * v2y u) * sin (2 * PI * v2x u + rot)) (cos (PI * v2y u)) (sin (PI * v2y u) * cos (2 * PI * v2x u + rot)).
Definition sky_domain (u : vec2) : Prop := 0 <= v2x u < 1 /\ 0 < v2y u < 1.
(** Directions but the poles. *)
Definition off_poles (w : vec3) : Prop := unit w /\ -1 < vy w < 1.
