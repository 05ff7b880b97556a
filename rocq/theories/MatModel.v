(** Model of the materials (src/material, src/model/model_wavefrontobj.cpp:339-515): the functions of the
    interface include/lm/material.h for every material. Float is the reals. Points are points on a surface
    (at other points the materials would read members that are not initialised). *)
From Coq Require Import List Reals ZArith Bool.
From Verif Require Import Base RBase VecBase GeoModel SurfModel DistModel.
Import ListNotations.
Open Scope R_scope.

(** The result of a computation: a value; [NonFinite] if a division by zero gives an infinity or NaN on
    the way; [Undefined] for a subscript outside of a container. Comparisons with a NaN, which C++
    decides, are taken to be NonFinite too.
    For the divisions and unchecked accesses of include/lm/material.h:32-163's implementations. *)
Inductive fl (A : Type) := Val (a : A) | NonFinite | Undefined.
Arguments Val {A}. Arguments NonFinite {A}. Arguments Undefined {A}.
(** One computation after another; no counterpart (sequencing in src/material/*.cpp, for example src/material/material_glossy.cpp:43-46). *)
Definition fbind {A B} (x : fl A) (f : A -> fl B) : fl B :=
  match x with Val a => f a | NonFinite => NonFinite | Undefined => Undefined end.
Notation "'do' x <- e ; f" := (fbind e (fun x => f)) (at level 200, x pattern, e at level 100, f at level 200).

(** / on Float, for example src/material/material_glossy.cpp:43-46. *)
Definition rdiv (a b : R) : fl R := match fdiv a b with Some r => Val r | None => NonFinite end.
(** Vec3 / Float, for example src/material/material_diffuse.cpp:33-98. *)
Definition vdiv (v : vec3) (p : R) : fl vec3 := if Req_EM_T p 0 then NonFinite else Val (vscale (/ p) v).
(** A Float of DistModel (include/lm/math.h:310-371) as a result. *)
Definition of_num (x : num) : fl R := match x with Some r => Val r | None => NonFinite end.
(** An outcome of DistModel (include/lm/math.h:310-371) as a result. *)
Definition of_outcome {A} (x : outcome A) : fl A := match x with Ok a => Val a | _ => Undefined end.
(** Unchecked subscript: src/material/material_mixture.cpp:24-104. *)
Definition at_index {A} (l : list A) (i : Z) : fl A :=
  if (i <? 0)%Z then Undefined else match nth_error l (Z.to_nat i) with Some a => Val a | None => Undefined end.
(** glm::normalize. Used in src/material/material_glossy.cpp:92-99. *)
Definition fnormalize (v : vec3) : fl vec3 := vdiv v (vlen v).
(** Vec3(r). Used in src/material/material_mirror.cpp:31-65. *)
Definition grey (r : R) : vec3 := V3 r r r.
(** include/lm/math.h:55 *)
Definition Eps : R := / 1000.
(** glm::compMax. Used in src/model/model_wavefrontobj.cpp:428-429. *)
Definition comp_max (v : vec3) : R := Rmax (Rmax (vx v) (vy v)) (vz v).

(** A surface point with its texture coordinates (include/lm/surface.h:52-62). *)
Record spoint := mk_spoint { geo : surf; tc : vec2 }.
(** A texture (include/lm/texture.h): color, and alpha if it has one. *)
Record tex := mk_tex { tex_eval : vec2 -> vec3; tex_alpha : option (vec2 -> R) }.

(** include/lm/material.h:32-163. The random numbers: [uc] (only its first component is used by the
    materials), [ud] and [udc]. *)
Record material := mk_material {
  sample_component : R -> spoint -> vec3 -> fl (Z * R);
  pdf_component : Z -> spoint -> vec3 -> fl R;
  sample_direction : vec2 -> R -> spoint -> vec3 -> Z -> trans_dir -> fl (option (vec3 * vec3));
  pdf_direction : spoint -> vec3 -> vec3 -> Z -> bool -> fl R;
  eval : spoint -> vec3 -> vec3 -> Z -> trans_dir -> bool -> fl vec3;
  reflectance : spoint -> vec3;
  is_specular : Z -> bool
}.

(** Component sampling of the materials with one component, e.g. material_diffuse.cpp:60-66. *)
Definition one_component (u : R) (g : spoint) (wi : vec3) : fl (Z * R) := Val (0%Z, 1).
(** pdf_component of a material with one component: src/material/material_diffuse.cpp:33-98. *)
Definition one_pdf (c : Z) (g : spoint) (wi : vec3) : fl R := Val 1.

(** src/material/material_diffuse.cpp:33-98 *)
Definition diffuse (Kd : vec3) (map : option tex) : material :=
  let color (g : spoint) := match map with Some t => tex_eval t (tc g) | None => Kd end in
  {| sample_component := one_component;
     pdf_component := one_pdf;
     sample_direction := fun ud udc g wi c dir =>
       let '(n, u, v) := basis_twosided (geo g) wi in
       let d := sample_cosine_weighted ud in
       Val (Some (vadd (vadd (vscale (vx d) u) (vscale (vy d) v)) (vscale (vz d) n), color g));
     pdf_direction := fun g wi wo c delta => if opposite (geo g) wi wo then Val 0 else Val (1 / PI);
     eval := fun g wi wo c dir delta => if opposite (geo g) wi wo then Val v0 else Val (vscale (/ PI) (color g));
     reflectance := color;
     is_specular := fun _ => false |}.

(** src/material/material_mirror.cpp:31-65 *)
Definition mirror : material :=
  {| sample_component := one_component;
     pdf_component := one_pdf;
     sample_direction := fun ud udc g wi c dir => Val (Some (reflection wi (sn (geo g)), grey 1));
     pdf_direction := fun g wi wo c delta => Val (if delta then 0 else 1);
     eval := fun g wi wo c dir delta => Val (if delta then v0 else grey 1);
     reflectance := fun _ => v0;
     is_specular := fun _ => true |}.

(** src/material/material_mask.cpp:28-62 *)
Definition mask : material :=
  {| sample_component := one_component;
     pdf_component := one_pdf;
     sample_direction := fun ud udc g wi c dir => Val (Some (vneg wi, grey 1));
     pdf_direction := fun g wi wo c delta => Val (if delta then 0 else 1);
     eval := fun g wi wo c dir delta => Val (if delta then v0 else grey 1);
     reflectance := fun _ => v0;
     is_specular := fun _ => true |}.

(** src/material/material_glossy.cpp:43-46 *)
Definition normal_dist (ax ay : R) (wh u v n : vec3) : fl R :=
  do a <- rdiv (dot wh u) ax;
  do b <- rdiv (dot wh v) ay;
  let s := a * a + b * b + dot wh n * dot wh n in
  rdiv 1 (PI * ax * ay * (s * s)).
(** 50-57 *)
Definition G1 (ax ay : R) (u v n w : vec3) : fl R :=
  let c := dot w n in
  let s := Rmax Eps (safe_sqrt (1 - c * c)) in
  do cp <- rdiv (dot w u) s;
  do cs <- rdiv (dot w v) s;
  let a2 := (cp * ax) * (cp * ax) + (cs * ay) * (cs * ay) in
  if Req_EM_T c 0 then Val 0 else
  do q <- rdiv s c;
  rdiv 2 (1 + safe_sqrt (1 + a2 * (q * q))).
(** 49-59 *)
Definition shadowG (ax ay : R) (wi wo u v n : vec3) : fl R :=
  do a <- G1 ax ay u v n wi; do b <- G1 ax ay u v n wo; Val (a * b).
(** 92-99 *)
Definition glossy_pdf (ax ay : R) (g : spoint) (wi wo : vec3) : fl R :=
  if opposite (geo g) wi wo then Val 0 else
  do wh <- fnormalize (vadd wi wo);
  let '(n, u, v) := basis_twosided (geo g) wi in
  do D <- normal_dist ax ay wh u v n;
  rdiv (D * dot wh n) (4 * dot wo wh * dot wo n).
(** 101-109: Fr = Ks + (1 - Ks) (1 - wo.wh)^5 *)
Definition glossy_eval (Ks : vec3) (ax ay : R) (g : spoint) (wi wo : vec3) : fl vec3 :=
  if opposite (geo g) wi wo then Val v0 else
  do wh <- fnormalize (vadd wi wo);
  let '(n, u, v) := basis_twosided (geo g) wi in
  let Fr := vadd Ks (vscale (pow (1 - dot wo wh) 5) (vsub (grey 1) Ks)) in
  do D <- normal_dist ax ay wh u v n;
  do G <- shadowG ax ay wi wo u v n;
  do k <- rdiv (D * G) (4 * dot wi n * dot wo n);
  Val (vscale k (vmul Ks Fr)).
(** src/material/material_glossy.cpp:24-116 *)
Definition glossy (Ks : vec3) (ax ay : R) : material :=
  {| sample_component := one_component;
     pdf_component := one_pdf;
     sample_direction := fun ud udc g wi c dir =>
       let '(n, u, v) := basis_twosided (geo g) wi in
       let u1 := v2x ud * 2 * PI in
       let u2 := v2y ud in
       do q <- rdiv u2 (1 - u2);
       do wh <- fnormalize (vadd (vscale (safe_sqrt q) (vadd (vscale (ax * cos u1) u) (vscale (ay * sin u1) v))) n);
       let wo := reflection wi wh in
       if opposite (geo g) wi wo then Val None else
       do f <- glossy_eval Ks ax ay g wi wo;
       do p <- glossy_pdf ax ay g wi wo;
       do w <- vdiv f p;
       Val (Some (wo, w));
     pdf_direction := fun g wi wo c delta => glossy_pdf ax ay g wi wo;
     eval := fun g wi wo c dir delta => glossy_eval Ks ax ay g wi wo;
     reflectance := fun _ => Ks;
     is_specular := fun _ => false |}.

(** src/material/material_glass.cpp (MATERIAL_GLASS_USE_COMPONENT_SAMPLING is 1, line 11): the side of the
    surface, its normal and the relative index (126-128 and repeated). *)
Definition glass_side (Ni : R) (g : spoint) (wi : vec3) : fl (bool * vec3 * R) :=
  let n := sn (geo g) in
  if Rlt_dec 0 (dot wi n) then do eta <- rdiv 1 Ni; Val (true, n, eta) else Val (false, vneg n, Ni).
(** 90-98 *)
Definition fresnel (Ni : R) (g : spoint) (wi wt : vec3) : fl R :=
  let n := sn (geo g) in
  let c := if Rlt_dec 0 (dot wi n) then dot wi n else dot wt n in
  do r <- rdiv (1 - Ni) (1 + Ni);
  let r2 := r * r in Val (r2 + (1 - r2) * pow (1 - c) 5).
(** 129-130 and repeated: the refracted direction (zero for total reflection: include/lm/math.h:521) and
    the Fresnel term. *)
Definition glass_fr (Ni : R) (g : spoint) (wi : vec3) : fl (vec3 * R * R) :=
  do (_, n, eta) <- glass_side Ni g wi;
  match refraction wi n eta with
  | None => Val (v0, 1, eta)
  | Some wt => do Fr <- fresnel Ni g wi wt; Val (wt, Fr, eta)
  end.
(** 85-87 *)
Definition refr_correction (eta : R) (dir : trans_dir) : R := match dir with EL => eta * eta | LE => 1 end.
(** 248-266 *)
Definition glass_eval (Ni : R) (g : spoint) (wi : vec3) (c : Z) (dir : trans_dir) (delta : bool) : fl vec3 :=
  if delta then Val v0 else
  do (_, Fr, eta) <- glass_fr Ni g wi;
  if (c =? 0)%Z then Val (grey Fr) else Val (grey ((1 - Fr) * refr_correction eta dir)).
(** src/material/material_glass.cpp:66-289: the density of a delta distribution. *)
Definition glass_pdf (delta : bool) : R := if delta then 0 else 1.
(** 66-289 *)
Definition glass (Ni : R) : material :=
  {| sample_component := fun uc g wi =>
       do (_, Fr, _) <- glass_fr Ni g wi;
       let c := if Rlt_dec uc Fr then 0%Z else 1%Z in
       do w <- rdiv 1 (if (c =? 0)%Z then Fr else 1 - Fr);
       Val (c, w);
     pdf_component := fun c g wi =>
       do (_, Fr, _) <- glass_fr Ni g wi;
       Val (if (c =? 0)%Z then Fr else 1 - Fr);
     sample_direction := fun ud udc g wi c dir =>
       if (c =? 0)%Z then
         let wo := reflection wi (sn (geo g)) in
         do f <- glass_eval Ni g wi c dir false;
         do w <- vdiv f (glass_pdf false);
         Val (Some (wo, w))
       else
         do (wt, _, _) <- glass_fr Ni g wi;
         do f <- glass_eval Ni g wi c dir false;
         do w <- vdiv f (glass_pdf false);
         Val (Some (wt, w));
     pdf_direction := fun g wi wo c delta => Val (glass_pdf delta);
     eval := fun g wi wo c dir delta => glass_eval Ni g wi c dir delta;
     reflectance := fun _ => v0;
     is_specular := fun _ => true |}.

(** src/material/material_proxy.cpp:25-72 *)
Definition proxy (m : material) : material :=
  {| sample_component := fun uc g wi => sample_component m uc g wi;
     pdf_component := fun c g wi => pdf_component m c g wi;
     sample_direction := fun ud udc g wi c dir => sample_direction m ud udc g wi c dir;
     pdf_direction := fun g wi wo c delta => pdf_direction m g wi wo c delta;
     eval := fun g wi wo c dir delta => eval m g wi wo c dir delta;
     reflectance := fun g => reflectance m g;
     is_specular := fun c => is_specular m c |}.

(** An entry of the mixture: src/material/material_mixture.cpp:24-35. *)
Definition entry_ := (material * R)%type.
(** The distribution over weights (material_mixture.cpp:51-57, 178-182). *)
Definition weights_dist (ws : list R) : dist := norm (fold_left (fun d w => add d (Some w)) ws empty_dist).
(** Component selection by a distribution (60-68, 188-196). *)
Definition select (d : dist) (uc : R) : fl (Z * R) :=
  do c <- of_outcome (sample d (Some uc)); do p <- of_num (pmf d c); do w <- rdiv 1 p; Val (c, w).

(** src/material/material_mixture.cpp:24-104 *)
Definition mixture_rr (es : list entry_) : material :=
  let d := weights_dist (map snd es) in
  {| sample_component := fun uc g wi => select d uc;
     pdf_component := fun c g wi => of_num (pmf d c);
     sample_direction := fun ud udc g wi c dir =>
       do (m, w) <- at_index es c;
       do s <- sample_direction m ud udc g wi 0 dir;
       match s with None => Val None | Some (wo, sw) => Val (Some (wo, vscale w sw)) end;
     pdf_direction := fun g wi wo c delta => do (m, w) <- at_index es c; pdf_direction m g wi wo 0 delta;
     eval := fun g wi wo c dir delta => do (m, w) <- at_index es c; do f <- eval m g wi wo 0 dir delta; Val (vscale w f);
     reflectance := fun g => fold_left (fun s e => vadd s (vscale (snd e) (reflectance (fst e) g))) es v0;
     is_specular := fun c => match at_index es c with Val (m, _) => is_specular m 0 | _ => false end |}.

(** src/material/material_mixture.cpp:161-173: the groups; group 0 gets the entries that are not
    specular. *)
Definition add_entry (gs : list (list entry_)) (e : entry_) : list (list entry_) :=
  if is_specular (fst e) 0 then gs ++ [[e]] else match gs with [] => [] | g0 :: gs' => (g0 ++ [e]) :: gs' end.
(** src/material/material_mixture.cpp:161-173. *)
Definition groups (es : list entry_) : list (list entry_) := fold_left add_entry es [[]].
(** 177-179: weight_sum *)
Definition weight_sum (grp : list entry_) : R := fold_left (fun s e => s + snd e) grp 0.
(** 232-242, from entry [i] on *)
Fixpoint marginal_pdf (d : dist) (grp : list entry_) (i : Z) (g : spoint) (wi wo : vec3) (delta : bool) (acc : R) : fl R :=
  match grp with
  | [] => Val acc
  | (m, _) :: grp' =>
      do ps <- of_num (pmf d i); do p <- pdf_direction m g wi wo 0 delta;
      marginal_pdf d grp' (i + 1) g wi wo delta (acc + ps * p)
  end.
(** 244-252 *)
Fixpoint group_eval (grp : list entry_) (g : spoint) (wi wo : vec3) (dir : trans_dir) (delta : bool) (acc : vec3) : fl vec3 :=
  match grp with
  | [] => Val acc
  | (m, w) :: grp' => do f <- eval m g wi wo 0 dir delta; group_eval grp' g wi wo dir delta (vadd acc (vscale w f))
  end.
(** 119-260 *)
Definition mixture_marginalized (es : list entry_) : material :=
  let gs := groups es in
  let gd (grp : list entry_) := weights_dist (map snd grp) in
  let d := weights_dist (map weight_sum gs) in
  {| sample_component := fun uc g wi => select d uc;
     pdf_component := fun c g wi => of_num (pmf d c);
     sample_direction := fun ud udc g wi c dir =>
       do grp <- at_index gs c;
       do i <- of_outcome (sample (gd grp) (Some udc));
       do (m, _) <- at_index grp i;
       do s <- sample_direction m ud udc g wi 0 dir;
       match s with
       | None => Val None
       | Some (wo, _) =>
           do f <- group_eval grp g wi wo dir false v0;
           do p <- marginal_pdf (gd grp) grp 0 g wi wo false 0;
           do w <- vdiv f p;
           Val (Some (wo, w))
       end;
     pdf_direction := fun g wi wo c delta => do grp <- at_index gs c; marginal_pdf (gd grp) grp 0 g wi wo delta 0;
     eval := fun g wi wo c dir delta => do grp <- at_index gs c; group_eval grp g wi wo dir delta v0;
     reflectance := fun g => fold_left (fun s grp => fold_left (fun s e => vadd s (vscale (snd e) (reflectance (fst e) g))) grp s) gs v0;
     is_specular := fun c => negb (c =? 0)%Z |}.

(** src/model/model_wavefrontobj.cpp:339-515. [use_mask]: no_alpha_mask is false (404-410). *)
Definition mixture_obj (Kd : vec3) (map : option tex) (Ks : vec3) (ax ay : R) (use_mask : bool) : material :=
  let df := diffuse Kd map in
  let gl := glossy Ks ax ay in
  (* 366-368, 404-410 *)
  let alpha (g : spoint) := if use_mask then match map with Some (mk_tex _ (Some a)) => a (tc g) | _ => 1 end else 1 in
  (* 427-435 *)
  let prob (g : spoint) :=
    let wd := comp_max (reflectance df g) in let wg := comp_max (reflectance gl g) in
    if Req_EM_T wd 0 then if Req_EM_T wg 0 then Val 1 else rdiv wd (wd + wg) else rdiv wd (wd + wg) in
  (* 484-495 *)
  let pdf g wi wo (c : Z) (delta : bool) :=
    if (c =? 0)%Z then
      do w <- prob g; do pd <- pdf_direction df g wi wo 0 delta; do pg <- pdf_direction gl g wi wo 0 delta;
      Val (0 + w * pd + (1 - w) * pg)
    else Val (if delta then 0 else 1) in
  (* 497-508 *)
  let ev g wi wo (c : Z) dir (delta : bool) :=
    if (c =? 0)%Z then
      do a <- eval df g wi wo 0 dir delta; do b <- eval gl g wi wo 0 dir delta;
      Val (vscale (alpha g) (vadd (vadd v0 a) b))
    else Val (if delta then v0 else grey (1 - alpha g)) in
  {| (* 413-420 *)
     sample_component := fun uc g wi =>
       if Rlt_dec uc (alpha g) then do w <- rdiv 1 (alpha g); Val (0%Z, w)
       else do w <- rdiv 1 (1 - alpha g); Val (1%Z, w);
     (* 422-425 *)
     pdf_component := fun c g wi => Val (if (c =? 0)%Z then alpha g else 1 - alpha g);
     (* 437-477 *)
     sample_direction := fun ud udc g wi c dir =>
       if (c =? 0)%Z then
         do w <- prob g;
         do s <- sample_direction (if Rlt_dec udc w then df else gl) ud udc g wi 0 dir;
         match s with
         | None => Val None
         | Some (wo, _) => do f <- ev g wi wo c dir false; do p <- pdf g wi wo c false; do k <- vdiv f p; Val (Some (wo, k))
         end
       else Val (Some (vneg wi, grey 1));
     pdf_direction := pdf;
     eval := ev;
     reflectance := fun g => reflectance df g;
     is_specular := fun c => negb (c =? 0)%Z |}.
