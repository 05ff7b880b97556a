(** Model of the phase functions (src/phase). Float is the reals. The points passed to them are not used. *)
From Coq Require Import Reals ZArith Bool.
From Verif Require Import Base RBase VecBase GeoModel SurfModel MatModel.
Open Scope R_scope.

(** include/lm/phase.h: the interface *)
Record phase := mk_phase {
  ph_sample : vec2 -> vec3 -> fl (option (vec3 * vec3));
  ph_pdf : vec3 -> vec3 -> fl R;
  ph_eval : vec3 -> vec3 -> fl vec3 }.

(** src/phase/phase_isotropic.cpp:22-29, 31-35, 37-40 *)
Definition isotropic : phase :=
  mk_phase (fun ud wi => Val (Some (sample_uniform_sphere ud, grey 1)))
           (fun wi wo => Val pdf_uniform_sphere)
           (fun wi wo => Val (grey pdf_uniform_sphere)).

(** The reciprocal square root of a number: NaN or infinite unless it is positive. src/phase/phase_hg.cpp:55-58. *)
Definition pow32 (t : R) : fl R := if Rlt_dec t 0 then NonFinite else Val (t * sqrt t).
(** src/phase/phase_hg.cpp:36-44 *)
Definition hg_cos (g u : R) : fl R :=
  if Rlt_dec (Rabs g) Eps then Val (1 - 2 * u) else
  do sq <- rdiv (1 - g * g) (1 - g + 2 * g * u);
  rdiv (1 + g * g - sq * sq) (2 * g).
(** src/phase/phase_hg.cpp:45-51 *)
Definition hg_direction (neg0 : bool) (wi : vec3) (cosT u : R) : vec3 :=
  let sinT := safe_sqrt (1 - cosT * cosT) in
  let phi := 2 * PI * u in
  let lo := V3 (sinT * cos phi) (sinT * sin phi) cosT in
  let '(a, b) := orthonormal_basis neg0 (vneg wi) in mmul (M3 a b (vneg wi)) lo.
(** src/phase/phase_hg.cpp:55-58 *)
Definition hg_pdf (g : R) (wi wo : vec3) : fl R :=
  let t := 1 + g * g + 2 * g * dot wi wo in
  do d <- pow32 t; do q <- rdiv (1 - g * g) d; rdiv q (PI * 4).
(** 35-53, 60-62 *)
Definition henyey_greenstein (neg0 : bool) (g : R) : phase :=
  mk_phase (fun ud wi => do c <- hg_cos g (v2x ud); Val (Some (hg_direction neg0 wi c (v2y ud), grey 1)))
           (hg_pdf g)
           (fun wi wo => do p <- hg_pdf g wi wo; Val (grey p)).
