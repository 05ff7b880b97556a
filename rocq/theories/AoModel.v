(** Model of the ambient occlusion renderer of the examples (example/custom_renderer.cpp:20-50, the same class is in
    functest/renderer_ao.cpp:20-46). Float is the reals. The numbers that a call draws from the generator of its thread are
    an argument. *)
From Coq Require Import List Reals ZArith Bool.
From Verif Require Import Base RBase SceneModel VecBase SurfModel MatModel CamModel LightModel PathModel BidirModel RenderModel.
From Verif Require FilmModel.
Import ListNotations.
Open Scope R_scope.

Section Ao.
  (** path::primary_ray; Scene::intersect with the default range; whether Scene::intersect with the range Eps to .2 finds something *)
  Variable primary : vec2 -> pm (vec3 * vec3).
  Variable hit : vec3 -> vec3 -> pm (option interaction).
  Variable near : vec3 -> vec3 -> pm bool.
  Variable spp : Z.
  (** 40-42: direction of a sample at a hit; the basis of points that are not on surfaces is not initialised *)
  Definition ao_direction (g : geom) (d : vec3) (r : vec2) : fl vec3 :=
    match g with
    | OnSurface s =>
        let '(n, u, v) := basis_twosided s (vneg d) in
        let w := sample_cosine_weighted r in
        Val (vadd (vadd (vscale (vx w) u) (vscale (vy w) v)) (vscale (vz w) n))
    | _ => Undefined
    end.
  (** 38-43: the loop over samples, one pair of random numbers each *)
  Fixpoint ao_loop (g : geom) (d : vec3) (rs : list vec2) (V : R) : pm R :=
    match rs with
    | [] => ret V
    | r :: rs =>
        let! w := Ok (ao_direction g d r) in
        let! p := Ok (position g) in
        let! b := near p w in
        ao_loop g d rs (V + if b then 0 else 1)
    end.
  (** 31-44: None if nothing is hit *)
  Definition ao_value (rp : vec2) (rs : list vec2) : pm (option R) :=
    let! (o, d) := primary rp in
    let! sp := hit o d in
    match sp with
    | None => ret None
    | Some sp => let! V := ao_loop (igeom sp) d rs 0 in let! V := Ok (rdiv V (IZR spp)) in ret (Some V)
    end.
  (** 27-46: one call of the function of the parallel loop *)
  Definition ao_call (f : FilmModel.film) (c : Z * list vec2) : pm FilmModel.film :=
    let '(x, y) := FilmModel.pixel_of_index (FilmModel.fw f) (fst c) in
    let! rp := Ok (pixel_center (FilmModel.fw f) (FilmModel.fh f) x y) in
    let! V := ao_value rp (snd c) in
    match V with None => ret f | Some V => get! f := FilmModel.set_pixel f x y (V3 V V V) in ret f end.
  (** 25-48; [calls]: index and random numbers of the calls in the order in which they are made *)
  Definition ao_render (f : FilmModel.film) (calls : list (Z * list vec2)) : pm FilmModel.film :=
    fold_left (fun acc c => let! f := acc in ao_call f c) calls (ret f).
End Ao.
