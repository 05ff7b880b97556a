(** Independent vocabulary for expected values of renderings: averages over random numbers, the radiance that
    arrives along a ray. *)
From Coq Require Import List Reals ZArith Bool.
From Coquelicot Require Import Coquelicot.
From Verif Require Import Base RBase VecBase SurfModel MatModel LightModel PathModel BidirModel RenderModel.
Import ListNotations.
Open Scope R_scope.

(** An average over the random numbers of a round: a linear functional that only depends on the values at the
    numbers in [good] *)
Record average (good : round -> Prop) (E : (round -> R) -> R) : Prop := {
  av_one : E (fun _ => 1) = 1;
  av_add : forall f g, E (fun r => f r + g r) = E f + E g;
  av_scale : forall c f, E (fun r => c * f r) = c * E f;
  av_ext : forall f g, (forall r, good r -> f r = g r) -> E f = E g }.
Definition set_rr (r : round) (v : R) : round := mk_round (rn_draw r) v (rn_dist r) (rn_tr r).
Definition first (r : round) (rng : nat -> round) : nat -> round := fun j => match j with O => r | S j => rng j end.
(** The expected value over [k] independent rounds: the number for Russian roulette is uniform in (0,1), the
    others are averaged by [E]. [r0] stands for the numbers of later rounds, which are not drawn. *)
Fixpoint expect (E : (round -> R) -> R) (r0 : round) (k : nat) (F : (nat -> round) -> R) : R :=
  match k with
  | O => F (fun _ => r0)
  | S k => E (fun r => RInt (fun v => expect E r0 k (fun rng => F (first (set_rr r v) rng))) 0 1)
  end.

(** The results of calls that succeed *)
Definition gives {X} (x : pm X) : Prop := exists v, x = ret v.
Definition value {X} (d : X) (x : pm X) : X := match x with Ok (Val v) => v | _ => d end.
Definition got {X} (x : pm (option X)) : option X := value None x.

(** The sum of the splats, weighted by a function of the raster position; one color component *)
Fixpoint total_of (phi : vec2 -> R) (i : nat) (l : splats) : R := match l with [] => 0 | (rp, v) :: l => phi rp * comp v i + total_of phi i l end.
Definition total (phi : vec2 -> R) (i : nat) (x : pm splats) : R := total_of phi i (value [] x).

(** Random numbers whose direction lies in a window of the image *)
Definition windowed (win : R * R * R * R) (u : draw) : draw := mk_draw (dw_ray u) (in_window win (dw_d u)) (dw_dc u) (dw_c u).

Section Radiance.
  Variable A : rapi.
  Notation api := (r_api A).
  Variable E : (round -> R) -> R.
  Variable i : nat.

  Definition hit_from (sp : interaction) (wo : vec3) : option interaction :=
    match position (igeom sp) with Val o => got (a_intersect api o wo) | _ => None end.
  (** Emitted at [y] towards where the ray with direction [wo] came from *)
  Definition emitted (y : interaction) (wo : vec3) (c : Z) : R :=
    match a_is_light api y with Ok true => comp (value v0 (a_contrb api (as_type y LightEndpoint) v0 (vneg wo) c LE true)) i | _ => 0 end.
  Definition emitted_along (sp : interaction) (wo : vec3) (c : Z) : R :=
    match hit_from sp wo with Some y => emitted y wo c | None => 0 end.
  (** Reflected at the end of the ray, given the reflected radiance [L] and the numbers [r] that choose the component *)
  Definition reflected_along (L : interaction -> vec3 -> Z -> R) (r : round) (sp : interaction) (wo : vec3) : R :=
    match hit_from sp wo with
    | Some y => if infinite (igeom y) then 0 else let '(c, w) := value (0%Z, 0) (a_sample_component api (rn_draw r) y (vneg wo)) in w * L y (vneg wo) c
    | None => 0
    end.
  (** A light that a ray can hit *)
  Definition hittable (spL : interaction) : bool := negb (value true (a_specular api spL 0)) && negb (degenerated (igeom spL)).
  (** The light that the connection to a light brings, weighted by [g] *)
  Definition connected (g : interaction -> vec3 -> R) (r : round) (sp : interaction) (wi : vec3) (c : Z) : R :=
    match got (r_sample_direct A (rn_draw r) sp LE) with
    | None => 0
    | Some (spL, woL, wL) =>
        if value false (a_visible api sp spL) then g spL woL * (comp (value v0 (a_contrb api sp wi (vneg woL) c EL true)) i * comp wL i) else 0
    end.
  Definition only_hidden (g : vec3 -> R) (spL : interaction) (woL : vec3) : R := if hittable spL then 0 else g (vneg woL).
  Definition only_hittable (g : vec3 -> R) (spL : interaction) (woL : vec3) : R := if hittable spL then g (vneg woL) else 0.
  (** The light that the continuation of the path brings, weighted by [g] *)
  Definition continued (g : vec3 -> R) (r : round) (sp : interaction) (wi : vec3) (c : Z) (f : vec3 -> R) : R :=
    match got (a_sample_direction api (rn_draw r) sp wi c EL) with
    | None => 0
    | Some (wo, w) => g wo * (comp w i * f wo)
    end.
  Definition smooth (sp : interaction) (c : Z) : bool := negb (value true (a_specular api sp c)).

  (** The radiance that leaves [sp] towards [wi] after scattering there, along paths with up to [k] further
      edges. [hidden]: also from lights that no ray can hit, except at specular points *)
  Fixpoint radiance (hidden : bool) (k : nat) (sp : interaction) (wi : vec3) (c : Z) : R :=
    match k with
    | O => 0
    | S k =>
        (if hidden && smooth sp c then E (fun r => connected (only_hidden (fun _ => 1)) r sp wi c) else 0)
        + E (fun r => continued (fun _ => 1) r sp wi c (fun wo => emitted_along sp wo c + reflected_along (radiance hidden k) r sp wo))
    end.

  (** A function of the raster position, at the end of a direction from the camera *)
  Definition of_raster (phi : vec2 -> R) (wo : vec3) : R := match got (a_raster api wo) with Some rp => phi rp | None => 0 end.
  (** The light that arrives at the camera [sp] through a window of the image along paths with up to [k] edges,
      weighted by a function of the raster position. [point]: also from lights that no ray can hit, directly *)
  Definition measured (hidden point : bool) (win : R * R * R * R) (k : nat) (sp : interaction) (c : Z) (phi : vec2 -> R) : R :=
    match k with
    | O => 0
    | S k =>
        (if hidden && point && smooth sp c then E (fun r => connected (only_hidden (of_raster phi)) r sp v0 c) else 0)
        + E (fun r => match got (a_sample_direction api (windowed win (rn_draw r)) sp v0 c EL) with
                      | None => 0
                      | Some (wo, w) => of_raster phi wo * (comp w i * (emitted_along sp wo c + reflected_along (radiance hidden k) r sp wo))
                      end)
    end.

  (** The two ways to reach a light from a point agree: the density of connections depends on the direction
      only, and both estimate the same integral for every weight [g] of the direction *)
  Definition unbiased_direct (good : round -> Prop) (sp : interaction) (wi : vec3) (c : Z) : Prop := exists pl : vec3 -> R,
    (forall r spL woL wL, good r -> r_sample_direct A (rn_draw r) sp LE = ret (Some (spL, woL, wL)) -> a_visible api sp spL = ret true -> hittable spL = true ->
       r_pdf_direct A sp spL woL true = ret (pl (vneg woL)))
    /\ (forall r wo w y, good r -> a_sample_direction api (rn_draw r) sp wi c EL = ret (Some (wo, w)) -> hit_from sp wo = Some y -> a_is_light api y = Ok true ->
       r_pdf_direct A sp (as_type y LightEndpoint) (vneg wo) true = ret (pl wo))
    /\ forall g : vec3 -> R, E (fun r => connected (only_hittable g) r sp wi c) = E (fun r => continued g r sp wi c (fun wo => emitted_along sp wo c)).
End Radiance.

(** The calls that a walk makes at a point, from the random numbers [u] for the direction and [uc] for the
    next component: they succeed, and
    weights and densities are not negative. [next]: what holds at the next point *)
Record walkable (A : rapi) (sp : interaction) (wi : vec3) (c : Z) (u uc : draw) (next : interaction -> vec3 -> Z -> Prop) : Prop := {
  wk_dir : gives (a_sample_direction (r_api A) u sp wi c EL);
  wk_pos : exists o, position (igeom sp) = Val o;
  wk_hit : forall wo w o, a_sample_direction (r_api A) u sp wi c EL = ret (Some (wo, w)) -> position (igeom sp) = Val o ->
    (forall j, 0 <= comp w j) /\ gives (a_intersect (r_api A) o wo)
    /\ forall y, a_intersect (r_api A) o wo = ret (Some y) ->
       (exists b, a_is_light (r_api A) y = Ok b) /\ gives (a_contrb (r_api A) (as_type y LightEndpoint) v0 (vneg wo) c LE true)
       /\ (exists q, a_pdf_direction (r_api A) sp wi wo c true = ret q /\ 0 <= q /\ (a_specular (r_api A) sp c = ret false -> 0 < q))
       /\ (exists q, r_pdf_direct A sp (as_type y LightEndpoint) (vneg wo) true = ret q /\ 0 <= q)
       /\ (infinite (igeom y) = false -> exists c' wc, a_sample_component (r_api A) uc y (vneg wo) = ret (c', wc) /\ 0 <= wc /\ next y (vneg wo) c') }.
(** The calls for a connection to a light *)
Record connectable (A : rapi) (sp : interaction) (wi : vec3) (c : Z) (u : draw) : Prop := {
  cn_direct : gives (r_sample_direct A u sp LE);
  cn_calls : forall spL woL wL, r_sample_direct A u sp LE = ret (Some (spL, woL, wL)) ->
    gives (a_visible (r_api A) sp spL) /\ gives (a_raster (r_api A) (vneg woL)) /\ gives (a_contrb (r_api A) sp wi (vneg woL) c EL true) /\ gives (a_specular (r_api A) spL 0)
    /\ (exists q, r_pdf_direct A sp spL woL true = ret q /\ 0 <= q) /\ exists q, a_pdf_direction (r_api A) sp wi (vneg woL) c true = ret q /\ 0 <= q }.
(** A set of points that walks do not leave and at which no call fails *)
Definition safe (A : rapi) (good : round -> Prop) (P : interaction -> vec3 -> Z -> Prop) : Prop := forall sp wi c r, P sp wi c -> good r ->
  gives (a_specular (r_api A) sp c) /\ connectable A sp wi c (rn_draw r) /\ walkable A sp wi c (rn_draw r) (rn_draw r) P.

(** The first vertex of a sample: position and component on the camera, from the numbers [u0] *)
Record camera_at (A : rapi) (good : round -> Prop) (P : interaction -> vec3 -> Z -> Prop) (win : R * R * R * R) (u0 : draw) (sp : interaction) (c : Z) (wE : vec3) (wc : R) : Prop := {
  ca_position : r_sample_position A u0 EL = ret (Some (sp, wE));
  ca_component : a_sample_component (r_api A) u0 sp v0 = ret (c, wc);
  ca_weight : forall j, 0 <= comp (vscale wc wE) j;
  ca_safe : P sp v0 c;
  (** the ray through every point of the window has a raster position, and the calls along it succeed *)
  ca_starts : forall r, good r ->
    walkable A sp v0 c (windowed win (rn_draw r)) (rn_draw r) P
    /\ forall wo w, a_sample_direction (r_api A) (windowed win (rn_draw r)) sp v0 c EL = ret (Some (wo, w)) -> exists rp, a_raster (r_api A) wo = ret (Some rp) }.
(** The window a sample of pixel [index] draws from *)
Definition window_of (pmd : pmode) (w h index : Z) (win : R * R * R * R) : Prop :=
  match pmd with PixelMode => window w h index = Val win | ImageMode => win = (0, 0, 1, 1) end.
(** Random numbers for rounds that are drawn *)
Definition drawn (good : round -> Prop) (r0 : round) : Prop := exists r v, good r /\ 0 < v < 1 /\ r0 = set_rr r v.
