(** Independent vocabulary for expected values of the volumetric path tracers and the light tracer. *)
From Coq Require Import List Reals ZArith Bool.
From Verif Require Import Base RBase VecBase SurfModel MatModel LightModel PathModel BidirModel RenderModel ExpSpec.
Import ListNotations.
Open Scope R_scope.

Section Media.
  Variable A : rapi.
  Notation api := (r_api A).
  Variable E : (round -> R) -> R.
  Variable i : nat.
  (** The next point along a ray, in the medium or on a surface, and the weight with which it was chosen *)
  Definition next_along (r : round) (sp : interaction) (wo : vec3) : option (interaction * vec3) := got (r_sample_distance A (rn_dist r) sp wo).
  Definition emitted_next (r : round) (sp : interaction) (wo : vec3) (c : Z) : R :=
    match next_along r sp wo with Some (y, wd) => comp wd i * emitted A i y wo c | None => 0 end.
  (** Scattered at the next point, given the scattered radiance [L] *)
  Definition scattered_next (L : interaction -> vec3 -> Z -> R) (r : round) (sp : interaction) (wo : vec3) : R :=
    match next_along r sp wo with
    | Some (y, wd) => if infinite (igeom y) then 0 else let '(c, w) := value (0%Z, 0) (a_sample_component api (rn_draw r) y (vneg wo)) in comp wd i * (w * L y (vneg wo) c)
    | None => 0
    end.
  (** The light that a connection to a light brings through the medium, for the lights in [g] *)
  Definition connected_through (g : interaction -> bool) (r : round) (sp : interaction) (wi : vec3) (c : Z) : R :=
    match got (r_sample_direct A (rn_draw r) sp LE) with
    | None => 0
    | Some (spL, woL, wL) =>
        if g spL then comp (value v0 (r_transmittance A (rn_tr r) sp spL)) i * (comp (value v0 (a_contrb api sp wi (vneg woL) c EL true)) i * comp wL i) else 0
    end.
  Definition hidden_light (spL : interaction) : bool := negb (hittable A spL).

  (** The radiance that leaves [sp] towards [wi] after scattering there, along paths with up to [k] further
      edges. [hidden]: also from lights that no ray can hit, except at specular points *)
  Fixpoint scattered (hidden : bool) (k : nat) (sp : interaction) (wi : vec3) (c : Z) : R :=
    match k with
    | O => 0
    | S k =>
        (if hidden && smooth A sp c then E (fun r => connected_through hidden_light r sp wi c) else 0)
        + E (fun r => continued A i (fun _ => 1) r sp wi c (fun wo => emitted_next r sp wo c + scattered_next (scattered hidden k) r sp wo))
    end.
  (** The light that arrives at the camera [sp] through a window of the image along paths with up to [k] edges,
      weighted by a function of the raster position *)
  Definition seen (hidden : bool) (win : R * R * R * R) (k : nat) (sp : interaction) (c : Z) (phi : vec2 -> R) : R :=
    match k with
    | O => 0
    | S k => E (fun r => match got (a_sample_direction api (windowed win (rn_draw r)) sp v0 c EL) with
                         | None => 0
                         | Some (wo, w) => of_raster A phi wo * (comp w i * (emitted_next r sp wo c + scattered_next (scattered hidden k) r sp wo))
                         end)
    end.
  (** Connections and continued paths bring the same light on average from lights that rays can hit. *)
  Definition balanced (sp : interaction) (wi : vec3) (c : Z) : Prop :=
    E (fun r => connected_through (hittable A) r sp wi c) = E (fun r => continued A i (fun _ => 1) r sp wi c (fun wo => emitted_next r sp wo c)).
End Media.

(** The calls that a walk makes at a point succeed, and weights are not negative. *)
Record vwalkable (A : rapi) (sp : interaction) (wi : vec3) (c : Z) (u : draw) (r : round) (next : interaction -> vec3 -> Z -> Prop) : Prop := {
  vw_dir : gives (a_sample_direction (r_api A) u sp wi c EL);
  vw_next : forall wo w, a_sample_direction (r_api A) u sp wi c EL = ret (Some (wo, w)) -> (forall j, 0 <= comp w j) /\ gives (r_sample_distance A (rn_dist r) sp wo)
    /\ forall y wd, r_sample_distance A (rn_dist r) sp wo = ret (Some (y, wd)) -> (forall j, 0 <= comp wd j)
       /\ (exists b, a_is_light (r_api A) y = Ok b) /\ gives (a_contrb (r_api A) (as_type y LightEndpoint) v0 (vneg wo) c LE true)
       /\ (infinite (igeom y) = false -> exists c' wc, a_sample_component (r_api A) (rn_draw r) y (vneg wo) = ret (c', wc) /\ 0 <= wc /\ next y (vneg wo) c') }.
Record vconnectable (A : rapi) (sp : interaction) (wi : vec3) (c : Z) (r : round) : Prop := {
  vc_direct : gives (r_sample_direct A (rn_draw r) sp LE);
  vc_calls : forall spL woL wL, r_sample_direct A (rn_draw r) sp LE = ret (Some (spL, woL, wL)) ->
    gives (r_transmittance A (rn_tr r) sp spL) /\ gives (a_contrb (r_api A) sp wi (vneg woL) c EL true) }.
Definition vsafe (A : rapi) (good : round -> Prop) (P : interaction -> vec3 -> Z -> Prop) : Prop := forall sp wi c r, P sp wi c -> good r ->
  gives (a_specular (r_api A) sp c) /\ vconnectable A sp wi c r /\ vwalkable A sp wi c (rn_draw r) r P.
(** The first vertex of a sample *)
Record vcamera_at (A : rapi) (good : round -> Prop) (P : interaction -> vec3 -> Z -> Prop) (win : R * R * R * R) (u0 : draw) (sp : interaction) (c : Z) (wE : vec3) (wc : R) : Prop := {
  va_position : r_sample_position A u0 EL = ret (Some (sp, wE));
  va_component : a_sample_component (r_api A) u0 sp v0 = ret (c, wc);
  va_weight : forall j, 0 <= comp (vscale wc wE) j;
  va_specular : gives (a_specular (r_api A) sp c);
  va_starts : forall r, good r ->
    vwalkable A sp v0 c (windowed win (rn_draw r)) r P
    /\ forall wo w, a_sample_direction (r_api A) (windowed win (rn_draw r)) sp v0 c EL = ret (Some (wo, w)) -> exists rp, a_raster (r_api A) wo = ret (Some rp) }.

(** ** Light tracing *)
Section LightTracing.
  Variable A : rapi.
  Notation api := (r_api A).
  Variable E : (round -> R) -> R.
  Variable i : nat.
  Variable phi : vec2 -> R.
  (** What the camera receives of light that arrives at [sp] from direction [wi] and is scattered once, by a connection *)
  Definition received (r : round) (sp : interaction) (wi : vec3) (c : Z) : R :=
    match got (r_sample_direct A (rn_draw r) sp EL) with
    | None => 0
    | Some (spE, woE, wE) =>
        if value false (a_visible api sp spE) then of_raster A phi woE * (comp (value v0 (a_contrb api sp wi (vneg woE) c LE true)) i * comp wE i) else 0
    end.
  (** ... and scattered up to [k] times *)
  Fixpoint importance (k : nat) (sp : interaction) (wi : vec3) (c : Z) : R :=
    match k with
    | O => 0
    | S k =>
        E (fun r => received r sp wi c)
        + E (fun r => match got (a_sample_direction api (rn_draw r) sp wi c LE) with
                      | None => 0
                      | Some (wo, w) => comp w i * reflected_along A (importance k) r sp wo
                      end)
    end.
  (** What the camera receives of the light emitted along a sampled ray *)
  Definition received_from (u0 : draw) (k : nat) (s : path_ray) : R :=
    match got (a_intersect api (pr_origin s) (pr_wo s)) with
    | None => 0
    | Some y => if infinite (igeom y) then 0 else
        let '(c, wc) := value (0%Z, 0) (a_sample_component api u0 y (vneg (pr_wo s))) in comp (pr_weight s) i * (wc * importance k y (vneg (pr_wo s)) c)
    end.
End LightTracing.
(** The calls of a light tracer's walk succeed, and weights are not negative. *)
Record lwalkable (A : rapi) (sp : interaction) (wi : vec3) (c : Z) (u : draw) (next : interaction -> vec3 -> Z -> Prop) : Prop := {
  lw_direct : gives (r_sample_direct A u sp EL);
  lw_calls : forall spE woE wE, r_sample_direct A u sp EL = ret (Some (spE, woE, wE)) ->
    gives (a_visible (r_api A) sp spE) /\ gives (a_raster (r_api A) woE) /\ gives (a_contrb (r_api A) sp wi (vneg woE) c LE true);
  lw_dir : gives (a_sample_direction (r_api A) u sp wi c LE);
  lw_pos : exists o, position (igeom sp) = Val o;
  lw_hit : forall wo w o, a_sample_direction (r_api A) u sp wi c LE = ret (Some (wo, w)) -> position (igeom sp) = Val o ->
    (forall j, 0 <= comp w j) /\ gives (a_intersect (r_api A) o wo)
    /\ forall y, a_intersect (r_api A) o wo = ret (Some y) -> infinite (igeom y) = false ->
       exists c' wc, a_sample_component (r_api A) u y (vneg wo) = ret (c', wc) /\ 0 <= wc /\ next y (vneg wo) c' }.
Definition lsafe (A : rapi) (good : round -> Prop) (P : interaction -> vec3 -> Z -> Prop) : Prop := forall sp wi c r, P sp wi c -> good r -> lwalkable A sp wi c (rn_draw r) P.
(** The first ray of a sample *)
Record emits_at (A : rapi) (P : interaction -> vec3 -> Z -> Prop) (u0 : draw) (s : path_ray) : Prop := {
  em_ray : a_sample_ray (r_api A) u0 LE = ret (Some s);
  em_weight : forall j, 0 <= comp (pr_weight s) j;
  em_hit : gives (a_intersect (r_api A) (pr_origin s) (pr_wo s));
  em_next : forall y, a_intersect (r_api A) (pr_origin s) (pr_wo s) = ret (Some y) -> infinite (igeom y) = false ->
    exists c wc, a_sample_component (r_api A) u0 y (vneg (pr_wo s)) = ret (c, wc) /\ 0 <= wc /\ P y (vneg (pr_wo s)) c }.
