(** Independent vocabulary for the optimised bidirectional path tracer. *)
From Coq Require Import List Reals ZArith.
From Verif Require Import Base RBase VecBase SurfModel MatModel LightModel PathModel BidirModel BidirSpec SurfSpec.
Import ListNotations.
Open Scope R_scope.

Section Density.
  Variable A : api.
  (** Area density at [y] of continuing from [x], where the walk came from [w] *)
  Definition hop (w x y : vert) : pm R :=
    let! wi := Ok (direction (Some x) (Some w)) in
    let! wo := Ok (direction (Some x) (Some y)) in
    let! q := a_pdf_direction A (vs_sp x) wi wo (vs_comp x) false in
    Ok (of_option (convert_to_area q (igeom (vs_sp x)) (igeom (vs_sp y)))).
  (** Density of the first vertex; an end point that cannot be connected to counts with the second vertex *)
  Definition first_vertex (x : vert) : pm R :=
    let! c := a_connectable A (vs_sp x) in if c then a_pdf_position A (vs_sp x) else ret 1.
  Definition second_vertex (x y : vert) : pm R :=
    let! c := a_connectable A (vs_sp x) in
    let! wo := Ok (direction (Some x) (Some y)) in
    let! q := (if c then a_pdf_direction A (vs_sp x) v0 wo (vs_comp x) false else a_pdf_ray A (vs_sp x) wo false) in
    Ok (of_option (convert_to_area q (igeom (vs_sp x)) (igeom (vs_sp y)))).
  (** Density of vertex [i] of a walk along [q], given the vertices before it *)
  Definition density (q : fullpath) (i : nat) : pm R :=
    match i, nth_error q (i - 2), nth_error q (i - 1), nth_error q i with
    | O, _, _, Some x => first_vertex x
    | S O, _, Some x, Some y => second_vertex x y
    | S (S _), Some w, Some x, Some y => hop w x y
    | _, _, _, _ => UB
    end.
End Density.

(** The product of f i, ..., f (i+k-1) *)
Fixpoint product (f : nat -> R) (i k : nat) : R := match k with O => 1 | S k => f i * product f (S i) k end.
(** Density of the strategy that takes [s] of [n] vertices from the light: [F i] and [B i] are the densities of
    vertex [i] of the path when the walk comes from the light and from the camera. *)
Definition strategy (F B : nat -> R) (n s : nat) : R := product F 0 s * product B s (n - s).

(** A component that a random number selects *)
Definition picked (A : api) (U : draw -> Prop) (x : interaction) (wi : vec3) (c : Z) : Prop := exists u k, U u /\ a_sample_component A u x wi = ret (c, k).
(** The scene functions return directions of length one, given random numbers in their range ([U]); rays hit
    points on the ray, or points at infinity in its direction; [V] holds at the points returned. *)
Record sane (A : api) (U : draw -> Prop) (V : interaction -> Prop) : Prop := {
  sane_ray : forall u d r, U u -> a_sample_ray A u d = ret (Some r) ->
    V (pr_sp r) /\ unit (pr_wo r) /\ it (pr_sp r) = match d with LE => LightEndpoint | EL => CameraEndpoint end /\
    (forall w, igeom (pr_sp r) = Infinite w -> pr_wo r = w) /\
    (forall o, position (igeom (pr_sp r)) = Val o -> pr_origin r = o);
  sane_direction : forall u x wi c d wo w, U u -> V x -> unit wi -> picked A U x wi c -> a_sample_direction A u x wi c d = ret (Some (wo, w)) -> unit wo;
  sane_hit : forall o w h, unit w -> a_intersect A o w = ret (Some h) ->
    V h /\ (igeom h = Infinite (vneg w) \/ exists g t, igeom h = OnSurface g /\ 0 < t /\ pos_of (OnSurface g) = vadd o (vscale t w)) }.
(** The weights of samples are value over density. An end point has one component; where it can be connected
    to, the density of a ray is that of its origin times that of its direction. *)
Record honest (A : api) (U : draw -> Prop) (V : interaction -> Prop) : Prop := {
  honest_ray : forall u d r f q, U u -> a_sample_ray A u d = ret (Some r) ->
    a_contrb A (pr_sp r) v0 (pr_wo r) 0 d false = ret f -> a_pdf_ray A (pr_sp r) (pr_wo r) false = ret q -> f = vscale q (pr_weight r);
  honest_direction : forall u x wi c d wo w f q, U u -> V x -> unit wi -> picked A U x wi c -> a_sample_direction A u x wi c d = ret (Some (wo, w)) ->
    a_contrb A x wi wo c d false = ret f -> a_pdf_direction A x wi wo c false = ret q -> f = vscale q w;
  honest_component : forall u x wi c w q, U u -> V x -> unit wi -> a_sample_component A u x wi = ret (c, w) -> a_pdf_component A x wi c = ret q -> q * w = 1;
  honest_end : forall x wi c q, it x = LightEndpoint \/ it x = CameraEndpoint -> a_pdf_component A x wi c = ret q -> q = 1;
  honest_contrb : forall x wi wi' wo c c' d b, it x = LightEndpoint \/ it x = CameraEndpoint -> a_contrb A x wi wo c d b = a_contrb A x wi' wo c' d b;
  honest_split : forall x w a b, it x = LightEndpoint \/ it x = CameraEndpoint -> a_connectable A x = ret true ->
    a_pdf_position A x = ret a -> a_pdf_direction A x v0 w 0 false = ret b -> a_pdf_ray A x w false = ret (a * b) }.
