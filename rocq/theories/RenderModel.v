(** Model of the renderers (src/renderer): blank, ray casting, path tracing, light tracing, volumetric path
    tracing. Float is the reals. A sample is a function of the random numbers it may draw; its result is the
    list of its splats (raster position and value) in order. *)
From Coq Require Import List Reals ZArith Bool.
From Verif Require Import Base RBase SceneModel VecBase SurfModel MatModel CamModel LightModel PathModel BidirModel GeoModel MeshModel VolModel VisModel.
From Verif Require FilmModel PhaseModel.
Import ListNotations.
Open Scope R_scope.

(** The random numbers of one round of a walk: those of [draw] (a direct connection uses the numbers for rays),
    for Russian roulette, for the distance and for the transmittance.
    For rng.u in src/renderer/renderer_pt.cpp:80-313. *)
Record round := mk_round { rn_draw : draw; rn_rr : R; rn_dist : list R; rn_tr : list R }.
(** The contributions to the film: src/renderer/renderer_pt.cpp:80-313. *)
Definition splats : Type := list (vec2 * vec3).

(** The functions of include/lm/path.h and include/lm/scene.h that renderers call, for one scene. *)
Record rapi := mk_rapi {
  r_api : api;
  r_sample_position : draw -> trans_dir -> pm (option (interaction * vec3));
  r_sample_direct : draw -> interaction -> trans_dir -> pm (option (interaction * vec3 * vec3));
  r_pdf_direct : interaction -> interaction -> vec3 -> bool -> pm R;
  r_sample_distance : list R -> interaction -> vec3 -> pm (option (interaction * vec3));
  r_transmittance : list R -> interaction -> interaction -> pm vec3 }.
(** These functions as PathModel and VisModel have them. *)
Section Instance.
  Variables (tr : affine -> transform) (mat : nat -> material) (lgt : nat -> light) (cam : nat -> camera) (pha : nat -> PhaseModel.phase).
  Variables (mesh_of : nat -> bool * mesh) (neg0 : bool) (zs : vec3 -> nat -> bool) (emitter : nat -> bool) (med : nat -> medium) (s : scene affine) (a : accel).
  (** The functions of one scene: include/lm/path.h:85-640, include/lm/scene.h (BidirModel, VisModel). *)
  Definition scene_rapi : rapi := {|
    r_api := scene_api tr mat lgt cam pha mesh_of neg0 zs emitter s a;
    r_sample_position := fun u d => sample_position tr lgt cam (u_p (dw_ray u)) (u_pc (dw_ray u)) s d;
    r_sample_direct := fun u x d => sample_direct tr lgt cam (dw_ray u) s x d;
    r_pdf_direct := pdf_direct tr lgt cam s;
    r_sample_distance := fun us x wo => let! r := sample_distance mesh_of neg0 zs med us s a x wo in ret (fst r);
    r_transmittance := fun us x y => let! r := eval_transmittance mesh_of neg0 zs med us s a x y in ret (fst r) |}.
End Instance.

(** ** renderer_blank.cpp:35-45 *)
Definition blank_pixels (w h : Z) : list (Z * Z) := flat_map (fun y => map (fun x => (x, y)) (ParSpec.upto w)) (ParSpec.upto h).
(** src/renderer/renderer_blank.cpp:35-45. *)
Definition blank_render (f : FilmModel.film) (color : vec3) : outcome FilmModel.film :=
  get! f := FilmModel.clear f in
  fold_left (fun acc p => get! f := acc in FilmModel.set_pixel f (fst p) (snd p) color) (blank_pixels (FilmModel.fw f) (FilmModel.fh f)) (Ok f).

(** ** renderer_raycast.cpp:70-101 *)
Record raycast := mk_raycast { rc_bg : vec3; rc_constant : bool; rc_normal : bool; rc_color : option vec3 }.
(** glm::abs: src/renderer/renderer_raycast.cpp:75-100. *)
Definition vabs (v : vec3) : vec3 := V3 (Rabs (vx v)) (Rabs (vy v)) (Rabs (vz v)).
Section Raycast.
  (** path::primary_ray (origin and direction), Scene::intersect, the eval of the light of a primitive, path::reflectance *)
  Variable primary : vec2 -> pm (vec3 * vec3).
  Variable hit : vec3 -> vec3 -> pm (option interaction).
  Variable light_eval : Z -> geom -> vec3 -> pm vec3.
  Variable refl : interaction -> pm vec3.
  Variable cfg : raycast.
  (** 71-73: (x + .5) / size.w *)
  Definition pixel_center (w h x y : Z) : fl vec2 := do a <- rdiv (IZR x + / 2) (IZR w); do b <- rdiv (IZR y + / 2) (IZR h); Val (V2 a b).
  (** 75-100: the color of the pixel; the normal of a point at infinity is not initialised *)
  Definition shade (rp : vec2) : pm vec3 :=
    let! (o, d) := primary rp in
    let! sp := hit o d in
    match sp with
    | None => ret (rc_bg cfg)
    | Some sp =>
        if rc_normal cfg then let! n := Ok (normal (igeom sp)) in ret (vabs n) else
        match igeom sp with
        | Infinite w => light_eval (iprim sp) (igeom sp) w
        | g =>
            let! c := match rc_color cfg with Some c => ret c | None => refl sp end in
            if rc_constant cfg then ret c else
            let! n := Ok (normal g) in ret (vscale (2 / 10 + 8 / 10 * Rabs (dot n (vneg d))) c)
        end
    end.
  (** One call of the scheduler's callback. src/renderer/renderer_raycast.cpp:70-101. *)
  Definition raycast_call (f : FilmModel.film) (index : Z) : outcome (fl FilmModel.film) :=
    let '(x, y) := FilmModel.pixel_of_index (FilmModel.fw f) index in
    let! rp := Ok (pixel_center (FilmModel.fw f) (FilmModel.fh f) x y) in
    let! c := shade rp in
    get! f := FilmModel.set_pixel f x y c in ret f.
  (** 66-102; [calls]: the pixel indices of the calls in the order in which they are made *)
  Definition raycast_render (f : FilmModel.film) (calls : list Z) : outcome (fl FilmModel.film) :=
    get! f := FilmModel.clear f in fold_left (fun acc i => let! f := acc in raycast_call f i) calls (ret f).
End Raycast.

(** ** Pieces shared by the path tracers *)
(** glm::compMax. Used by [roulette]: src/renderer/renderer_pt.cpp:281-287. *)
Definition comp_max (v : vec3) : R := Rmax (Rmax (vx v) (vy v)) (vz v).
(** include/lm/math.h:697-702 *)
Definition balance_heuristic (p1 p2 : R) : fl R :=
  if Req_EM_T p1 0 then if Req_EM_T p2 0 then Val 0 else rdiv p1 (p1 + p2) else rdiv p1 (p1 + p2).
(** renderer_pt.cpp:97-102: lower corner and size of the window of a pixel *)
Definition window (w h index : Z) : fl (R * R * R * R) :=
  let '(x, y) := FilmModel.pixel_of_index w index in
  do dx <- rdiv 1 (IZR w); do dy <- rdiv 1 (IZR h); Val (dx * IZR x, dy * IZR y, dx, dy).
(** The sample position in the window: src/renderer/renderer_pt.cpp:95-110. *)
Definition in_window (w : R * R * R * R) (u : vec2) : vec2 := let '(x, y, a, b) := w in V2 (x + a * v2x u) (y + b * v2y u).
(** Russian roulette (renderer_pt.cpp:281-287): None if the path ends *)
Definition roulette (num_verts : Z) (floor u : R) (thr : vec3) : fl (option vec3) :=
  if (5 <? num_verts)%Z then
    let q := Rmax floor (1 - comp_max thr) in
    if Rlt_dec u q then Val None else do t <- vdiv thr (1 - q); Val (Some t)
  else Val (Some thr).

(** ** renderer_pt.cpp *)
Inductive smode := Naive | NEE | MIS.
(** PrimaryRaySampleMode: src/renderer/renderer_pt.cpp:25-28. *)
Inductive pmode := PixelMode | ImageMode.
Section PT.
  Variable A : rapi.
  Notation api := (r_api A).
  Variables (sm : smode) (pmd : pmode).

  (** 126-140 *)
  Definition samplable_by_nee (num_verts : Z) (sp : interaction) (c : Z) : pm bool :=
    match sm with
    | Naive => ret false
    | _ =>
        let! b := a_specular api sp c in
        match pmd with PixelMode => ret ((1 <? num_verts)%Z && negb b) | ImageMode => ret (negb b) end
    end.
  (** 168-188 *)
  Definition nee_weight (sp : interaction) (wi : vec3) (c : Z) (spL : interaction) (woL : vec3) : pm R :=
    match sm with
    | NEE => ret 1
    | _ =>
        let! b := a_specular api spL 0 in
        if b || degenerated (igeom spL) then ret 1 else
        let! pL := r_pdf_direct A sp spL woL true in
        let! pB := a_pdf_direction api sp wi (vneg woL) c true in
        Ok (balance_heuristic pL pB)
    end.
  (** 142-193 *)
  Definition pt_nee (num_verts : Z) (sp : interaction) (wi : vec3) (c : Z) (thr : vec3) (rp : vec2) (u : draw) : pm splats :=
    let! sL := r_sample_direct A u sp LE in
    match sL with
    | None => ret []
    | Some (spL, woL, wL) =>
        let! v := a_visible api sp spL in
        if negb v then ret [] else
        let! rp := (if (num_verts =? 1)%Z then a_raster api (vneg woL) else ret (Some rp)) in
        match rp with
        | None => ret []
        | Some rp =>
            let! fs := a_contrb api sp wi (vneg woL) c EL true in
            if is_zero fs then ret [] else
            let! w := nee_weight sp wi c spL woL in
            ret [(rp, vscale w (vmul (vmul thr fs) wL))]
        end
    end.
  (** 250-265 *)
  Definition hit_weight (nee : bool) (sp : interaction) (wi wo : vec3) (c : Z) (spL : interaction) : pm R :=
    match sm with
    | Naive => ret 1
    | _ =>
        if negb nee then ret 1 else
        let! pB := a_pdf_direction api sp wi wo c true in
        let! pL := r_pdf_direct A sp spL (vneg wo) true in
        Ok (balance_heuristic pB pL)
    end.
  (** 232-271 *)
  Definition pt_hit (nee : bool) (sp : interaction) (wi wo : vec3) (c : Z) (thr : vec3) (rp : vec2) (hit : interaction) : pm splats :=
    if match sm with NEE => negb nee | _ => true end then
      get! l := a_is_light api hit in
      if l then
        let spL := as_type hit LightEndpoint in
        let! fs := a_contrb api spL v0 (vneg wo) c LE true in
        let! w := hit_weight nee sp wi wo c spL in
        ret [(rp, vscale w (vmul thr fs))]
      else ret []
    else ret [].
  (** 196-206 *)
  Definition pt_direction (win : R * R * R * R) (num_verts : Z) (sp : interaction) (wi : vec3) (c : Z) (u : draw) : pm (option (vec3 * vec3)) :=
    a_sample_direction api (if (num_verts =? 1)%Z then mk_draw (dw_ray u) (in_window win (dw_d u)) (dw_dc u) (dw_c u) else u) sp wi c EL.

  (** 122-301: the rounds from [num_verts] on, [k] of them; [rng j] are the numbers of the j-th of these rounds *)
  Fixpoint pt_walk (win : R * R * R * R) (k : nat) (num_verts : Z) (rng : nat -> round) (sp : interaction) (wi : vec3) (c : Z) (thr : vec3) (rp : vec2) : pm splats :=
    match k with
    | O => ret []
    | S k =>
        let u := rn_draw (rng O) in
        let! nee := samplable_by_nee num_verts sp c in
        let! direct := (if nee then pt_nee num_verts sp wi c thr rp u else ret []) in
        let! s := pt_direction win num_verts sp wi c u in
        match s with
        | None => ret direct
        | Some (wo, w) =>
            (* 215-217; the result is dereferenced unchecked *)
            let! rp := (if (num_verts =? 1)%Z then let! r := a_raster api wo in match r with Some r => ret r | None => UB end else ret rp) in
            let! o := Ok (position (igeom sp)) in
            let! hit := a_intersect api o wo in
            match hit with
            | None => ret direct
            | Some hit =>
                let thr := vmul thr w in
                let! emitted := pt_hit nee sp wi wo c thr rp hit in
                if infinite (igeom hit) then ret (direct ++ emitted) else
                let! t := Ok (roulette num_verts (2 / 10) (rn_rr (rng O)) thr) in
                match t with
                | None => ret (direct ++ emitted)
                | Some thr =>
                    let! (c', wc) := a_sample_component api u hit (vneg wo) in
                    let! rest := pt_walk win k (num_verts + 1) (fun j => rng (S j)) hit (vneg wo) c' (vscale wc thr) rp in
                    ret (direct ++ emitted ++ rest)
                end
            end
        end
    end.
  (** 88-302: one sample. [u0]: the numbers drawn for the initial vertex, whose position is dereferenced unchecked *)
  Definition pt_sample (max_verts w h index : Z) (u0 : draw) (rng : nat -> round) : pm splats :=
    let! win := match pmd with PixelMode => Ok (window w h index) | ImageMode => ret (0, 0, 1, 1) end in
    let! sE := r_sample_position A u0 EL in
    match sE with
    | None => UB
    | Some (sp, wE) =>
        let! (c, wc) := a_sample_component api u0 sp v0 in
        pt_walk win (Z.to_nat (max_verts - 1)) 1 rng sp v0 c (vscale wc wE) (V2 0 0)
    end.
End PT.

(** Splatting to the film, and a rendering: [calls] are the pixel indices of the scheduler's calls, in the order
    in which they are made, with the random numbers they draw. Splats of different calls commute and are atomic
    (CasModel). [processed] is the number returned by the scheduler; [order] that of the parallel rescaling.
    src/renderer/renderer_pt.cpp:80-313. *)
Definition splat_all (f : FilmModel.film) (l : splats) : outcome FilmModel.film :=
  fold_left (fun acc x => get! f := acc in FilmModel.splat f (fst x) (snd x)) l (Ok f).
(** A call of the scheduler's callback with its random numbers: src/renderer/renderer_pt.cpp:80-313. *)
Definition call : Type := (Z * draw * (nat -> round))%type.
(** src/renderer/renderer_pt.cpp:80-313: the calls in the order in which they are made. *)
Fixpoint run_calls (sample : Z -> draw -> (nat -> round) -> pm splats) (f : FilmModel.film) (calls : list call) : pm FilmModel.film :=
  match calls with
  | [] => ret f
  | (i, u0, rng) :: r => let! l := sample i u0 rng in get! f := splat_all f l in run_calls sample f r
  end.
(** renderer_pt.cpp:80-313 *)
Definition pt_render (A : rapi) (sm : smode) (pmd : pmode) (max_verts : Z) (f : FilmModel.film) (calls : list call) (processed : Z) (order : list Z) : pm FilmModel.film :=
  let w := FilmModel.fw f in let h := FilmModel.fh f in
  get! f := FilmModel.clear f in
  let! f := run_calls (pt_sample A sm pmd max_verts w h) f calls in
  let! s := Ok (rdiv (match pmd with PixelMode => 1 | ImageMode => IZR (w * h) end) (IZR processed)) in
  get! f := FilmModel.rescale f s order in ret f.

(** ** renderer_lt.cpp *)
Section LT.
  Variable A : rapi.
  Notation api := (r_api A).
  (** 91-115 *)
  Definition lt_connect (sp : interaction) (wi : vec3) (c : Z) (thr : vec3) (u : draw) : pm splats :=
    let! sE := r_sample_direct A u sp EL in
    match sE with
    | None => ret []
    | Some (spE, woE, wE) =>
        let! v := a_visible api sp spE in
        if negb v then ret [] else
        let! rp := a_raster api woE in
        match rp with
        | None => ret []
        | Some rp => let! fs := a_contrb api sp wi (vneg woE) c LE true in ret [(rp, vmul (vmul thr fs) wE)]
        end
    end.
  (** 89-162 *)
  Fixpoint lt_walk (k : nat) (num_verts : Z) (rng : nat -> round) (sp : interaction) (wi : vec3) (c : Z) (thr : vec3) : pm splats :=
    match k with
    | O => ret []
    | S k =>
        let u := rn_draw (rng O) in
        let! direct := lt_connect sp wi c thr u in
        let! s := a_sample_direction api u sp wi c LE in
        match s with
        | None => ret direct
        | Some (wo, w) =>
            let! o := Ok (position (igeom sp)) in
            let! hit := a_intersect api o wo in
            match hit with
            | None => ret direct
            | Some hit =>
                let thr := vmul thr w in
                if infinite (igeom hit) then ret direct else
                let! t := Ok (roulette num_verts (2 / 10) (rn_rr (rng O)) thr) in
                match t with
                | None => ret direct
                | Some thr =>
                    let! (c', wc) := a_sample_component api u hit (vneg wo) in
                    let! rest := lt_walk k (num_verts + 1) (fun j => rng (S j)) hit (vneg wo) c' (vscale wc thr) in
                    ret (direct ++ rest)
                end
            end
        end
    end.
  (** 58-163: one sample; the primary ray is dereferenced unchecked *)
  Definition lt_sample (max_verts : Z) (u0 : draw) (rng : nat -> round) : pm splats :=
    let! s := a_sample_ray api u0 LE in
    match s with
    | None => UB
    | Some s =>
        let! hit := a_intersect api (pr_origin s) (pr_wo s) in
        match hit with
        | None => ret []
        | Some hit =>
            if infinite (igeom hit) then ret [] else
            let! (c, wc) := a_sample_component api u0 hit (vneg (pr_wo s)) in
            lt_walk (Z.to_nat (max_verts - 2)) 2 rng hit (vneg (pr_wo s)) c (vscale wc (pr_weight s))
        end
    end.
End LT.

(** ** renderer_volpt.cpp (VOLPT_IMAGE_SAMPLING is 0) *)
Section VolPT.
  Variable A : rapi.
  Notation api := (r_api A).
  Variable rr_prob : R.
  (** renderer::volpt if [direct] (194-366), renderer::volpt_naive otherwise (59-186) *)
  Variable direct : bool.
  (** 243-275 *)
  Definition vol_nee (num_verts : Z) (sp : interaction) (wi : vec3) (c : Z) (thr : vec3) (rp : vec2) (u : round) : pm splats :=
    let! sL := r_sample_direct A (rn_draw u) sp LE in
    match sL with
    | None => ret []
    | Some (spL, woL, wL) =>
        let! rp := (if (num_verts =? 1)%Z then a_raster api (vneg woL) else ret (Some rp)) in
        match rp with
        | None => ret []
        | Some rp =>
            let! Tr := r_transmittance A (rn_tr u) sp spL in
            if is_zero Tr then ret [] else
            let! fs := a_contrb api sp wi (vneg woL) c EL true in
            if is_zero fs then ret [] else
            ret [(rp, vmul (vmul (vmul thr Tr) fs) wL)]
        end
    end.
  (** 98-175, 235-356 *)
  Fixpoint vol_walk (win : R * R * R * R) (k : nat) (num_verts : Z) (rng : nat -> round) (sp : interaction) (wi : vec3) (c : Z) (thr : vec3) (rp : vec2) : pm splats :=
    match k with
    | O => ret []
    | S k =>
        let u := rn_draw (rng O) in
        let! nee := (if direct then (if (1 <? num_verts)%Z then let! b := a_specular api sp c in ret (negb b) else ret false) else ret false) in
        let! lit := (if nee then vol_nee num_verts sp wi c thr rp (rng O) else ret []) in
        let! s := pt_direction A win num_verts sp wi c u in
        match s with
        | None => ret lit
        | Some (wo, w) =>
            let! rp := (if (num_verts =? 1)%Z then let! r := a_raster api wo in match r with Some r => ret r | None => UB end else ret rp) in
            let! sd := r_sample_distance A (rn_dist (rng O)) sp wo in
            match sd with
            | None => ret lit
            | Some (hit, wd) =>
                let thr := vmul thr (vmul w wd) in
                let! emitted :=
                  (if nee then ret [] else
                   get! l := a_is_light api hit in
                   if l then let! Le := a_contrb api (as_type hit LightEndpoint) v0 (vneg wo) c LE true in ret [(rp, vmul thr Le)] else ret []) in
                if infinite (igeom hit) then ret (lit ++ emitted) else
                let! t := Ok (roulette num_verts rr_prob (rn_rr (rng O)) thr) in
                match t with
                | None => ret (lit ++ emitted)
                | Some thr =>
                    let! (c', wc) := a_sample_component api u hit (vneg wo) in
                    let! rest := vol_walk win k (num_verts + 1) (fun j => rng (S j)) hit (vneg wo) c' (vscale wc thr) rp in
                    ret (lit ++ emitted ++ rest)
                end
            end
        end
    end.
  (** 66-176, 203-357: one sample *)
  Definition vol_sample (max_verts w h index : Z) (u0 : draw) (rng : nat -> round) : pm splats :=
    let! win := Ok (window w h index) in
    let! sE := r_sample_position A u0 EL in
    match sE with
    | None => UB
    | Some (sp, wE) =>
        let! (c, wc) := a_sample_component api u0 sp v0 in
        vol_walk win (Z.to_nat (max_verts - 1)) 1 rng sp v0 c (vscale wc wE) (V2 0 0)
    end.
End VolPT.
