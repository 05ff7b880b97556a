(** Model of bidirectional paths (include/lm/bidir.h): full paths with their densities, contributions and
    weights, random walks and connections. Float is the reals. *)
From Coq Require Import List Reals ZArith Bool.
From Verif Require Import Base RBase SceneModel VecBase SurfModel MatModel CamModel LightModel PathModel MeshModel GeoModel VisModel.
Import ListNotations.
Open Scope R_scope.

(** The random numbers that one round of a random walk may draw: for a primary ray, a direction, a component.
    Names the arguments of the calls of rng.u in include/lm/bidir.h:514-555. *)
Record draw := mk_draw { dw_ray : ray_u; dw_d : vec2; dw_dc : R; dw_c : R }.

(** The functions of include/lm/path.h and include/lm/scene.h that paths are built on, for one scene. *)
Record api := mk_api {
  a_specular : interaction -> Z -> pm bool;
  a_connectable : interaction -> pm bool;
  a_pdf_position : interaction -> pm R;
  a_pdf_component : interaction -> vec3 -> Z -> pm R;
  a_contrb : interaction -> vec3 -> vec3 -> Z -> trans_dir -> bool -> pm vec3;
  a_pdf_ray : interaction -> vec3 -> bool -> pm R;
  a_pdf_direction : interaction -> vec3 -> vec3 -> Z -> bool -> pm R;
  a_sample_ray : draw -> trans_dir -> pm (option path_ray);
  a_sample_direction : draw -> interaction -> vec3 -> Z -> trans_dir -> pm (option (vec3 * vec3));
  a_sample_component : draw -> interaction -> vec3 -> pm (Z * R);
  a_intersect : vec3 -> vec3 -> pm (option interaction);
  a_visible : interaction -> interaction -> pm bool;
  a_is_light : interaction -> outcome bool;
  a_is_camera : interaction -> outcome bool;
  a_raster : vec3 -> pm (option vec2) }.

(** These functions as PathModel and VisModel have them. *)
Section Instance.
  Variables (tr : affine -> transform) (mat : nat -> material) (lgt : nat -> light) (cam : nat -> camera) (pha : nat -> PhaseModel.phase).
  Variables (mesh_of : nat -> bool * mesh) (neg0 : bool) (zs : vec3 -> nat -> bool) (emitter : nat -> bool) (s : scene affine) (a : accel).
  (** The functions of one scene: include/lm/path.h:85-640 (PathModel, VisModel). *)
  Definition scene_api : api := {|
    a_specular := is_specular_component mat lgt s;
    a_connectable := is_connectable_endpoint lgt cam s;
    a_pdf_position := pdf_position tr lgt cam s;
    a_pdf_component := pdf_component mat s;
    a_contrb := eval_contrb_direction mat lgt cam pha s;
    a_pdf_ray := pdf_primary_ray tr lgt cam s;
    a_pdf_direction := pdf_direction mat lgt cam pha s;
    a_sample_ray := fun d t => sample_primary_ray tr lgt cam (dw_ray d) s t;
    a_sample_direction := fun d x wi c t => sample_direction mat lgt cam pha (dw_d d) (dw_dc d) s x wi c t;
    a_sample_component := fun d x wi => sample_component mat (dw_c d) s x wi;
    a_intersect := fun o w => intersect mesh_of neg0 s a (mk_ray o w (zs w)) Eps Inf;
    a_visible := visible mesh_of neg0 zs s a;
    a_is_light := is_light emitter s;
    a_is_camera := is_camera s;
    a_raster := path_raster_position cam s |}.
End Instance.

(** bidir.h:25-27, 48-50 *)
Record vert := mk_vert { vs_sp : interaction; vs_comp : Z }.
(** include/lm/bidir.h:48-50. *)
Definition fullpath : Type := list vert.

(** 55-57, 79-81 *)
Definition num_verts (p : fullpath) : Z := Z.of_nat (length p).
(** include/lm/bidir.h:79-81. *)
Definition index (p : fullpath) (i : Z) (d : trans_dir) : Z := match d with LE => i | EL => num_verts p - 1 - i end.
(** 95-97; None: nullptr *)
Definition vertex_at (p : fullpath) (i : Z) (d : trans_dir) : option vert :=
  if ((0 <=? i) && (i <? num_verts p))%Z then nth_error p (Z.to_nat (index p i d)) else None.
(** 109-125 *)
Definition subpath_vertex_at (p : fullpath) (i : Z) : option vert :=
  if ((0 <=? i) && (i <? num_verts p))%Z then nth_error p (Z.to_nat i) else None.
(** Reading through such a pointer. include/lm/bidir.h:185-216 and the other members do so. *)
Definition at_vert (o : option vert) : outcome vert := match o with Some v => Ok v | None => UB end.

(** 140-154; two points at infinity fail the assertion *)
Definition direction (a b : option vert) : fl vec3 :=
  match a, b with
  | Some a, Some b =>
      match igeom (vs_sp a), igeom (vs_sp b) with
      | Infinite _, Infinite _ => Undefined
      | Infinite w, _ => Val w
      | _, Infinite w => Val (vneg w)
      | g, h => fnormalize (vsub (pos_of h) (pos_of g))
      end
  | _, _ => Val v0
  end.
(** include/lm/math.h:469-471 *)
Definition is_zero (v : vec3) : bool :=
  if Req_EM_T (vx v) 0 then if Req_EM_T (vy v) 0 then if Req_EM_T (vz v) 0 then true else false else false else false.
(** geom.degenerated: include/lm/surface.h:52-62. *)
Definition degenerated (g : geom) : bool := match g with Degenerated _ => true | _ => false end.
(** geom.infinite: include/lm/surface.h:52-62. *)
Definition infinite (g : geom) : bool := match g with Infinite _ => true | _ => false end.
(** An undefined result as such, for include/lm/bidir.h:365-373. *)
Definition of_option {A} (o : option A) : fl A := match o with Some a => Val a | None => NonFinite end.

Section Path.
  Variable A : api.
  Variable p : fullpath.
  Notation n := (num_verts p).

  (** 167-171; the result of raster_position is dereferenced unchecked *)
  Definition raster_of_path : pm vec2 :=
    let! w := Ok (direction (vertex_at p 0 EL) (vertex_at p 1 EL)) in
    let! r := a_raster A w in
    match r with Some r => ret r | None => UB end.

  (** 185-216 *)
  Definition samplable_end (v : option vert) : pm bool :=
    get! v := at_vert v in
    if degenerated (igeom (vs_sp v)) then ret false else
    let! b := a_specular A (vs_sp v) (vs_comp v) in ret (negb b).
  (** include/lm/bidir.h:185-216. *)
  Definition is_samplable_bidir (s : Z) : pm bool :=
    let t := (n - s)%Z in
    if (s =? 0)%Z then samplable_end (vertex_at p 0 LE)
    else if (t =? 0)%Z then samplable_end (vertex_at p 0 EL)
    else
      get! vL := at_vert (vertex_at p (s - 1) LE) in
      get! vE := at_vert (vertex_at p (t - 1) EL) in
      let! cL := (if (s =? 1)%Z then a_connectable A (vs_sp vL) else ret true) in
      if negb cL then ret false else
      let! cE := (if (t =? 1)%Z then a_connectable A (vs_sp vE) else ret true) in
      if negb cE then ret false else
      let! bL := a_specular A (vs_sp vL) (vs_comp vL) in
      if bL then ret false else
      let! bE := a_specular A (vs_sp vE) (vs_comp vE) in
      ret (negb bE).

  (** 261-274: the remaining factors of a subpath with [l] vertices, from vertex [i] on; [k] is the number of
      rounds left *)
  Fixpoint weight_loop (d : trans_dir) (i : Z) (k : nat) (alpha : vec3) : pm vec3 :=
    match k with
    | O => ret alpha
    | S k =>
        get! v := at_vert (vertex_at p i d) in
        let! wi := Ok (direction (Some v) (vertex_at p (i - 1) d)) in
        let! wo := Ok (direction (Some v) (vertex_at p (i + 1) d)) in
        let! f := a_contrb A (vs_sp v) wi wo (vs_comp v) d false in
        if is_zero f then ret v0 else
        get! v' := at_vert (vertex_at p (i + 1) d) in
        let! pc := a_pdf_component A (vs_sp v') (vneg wo) (vs_comp v') in
        let! pd := a_pdf_direction A (vs_sp v) wi wo (vs_comp v) false in
        let! q := Ok (vdiv f pd) in let! q := Ok (vdiv q pc) in
        weight_loop d (i + 1) k (vmul alpha q)
    end.
  (** 233-276; the missing direction of an end point is the zero vector *)
  Definition eval_subpath_sampling_weight (l : Z) (d : trans_dir) : pm vec3 :=
    if (l =? 0)%Z then ret (grey 1) else
    get! v := at_vert (vertex_at p 0 d) in
    let! c := a_connectable A (vs_sp v) in
    if c then
      let! pa := a_pdf_position A (vs_sp v) in
      let! pc := a_pdf_component A (vs_sp v) v0 (vs_comp v) in
      let! alpha := Ok (vdiv (grey 1) (pa * pc)) in
      weight_loop d 0 (Z.to_nat (l - 1)) alpha
    else if (l =? 1)%Z then Ok Undefined
    else
      let! w := Ok (direction (Some v) (vertex_at p 1 d)) in
      let! f := a_contrb A (vs_sp v) v0 w (vs_comp v) d false in
      if is_zero f then ret v0 else
      let! pc0 := a_pdf_component A (vs_sp v) v0 (vs_comp v) in
      get! v1 := at_vert (vertex_at p 1 d) in
      let! pc1 := a_pdf_component A (vs_sp v1) (vneg w) (vs_comp v1) in
      let! pr := a_pdf_ray A (vs_sp v) w false in
      let! alpha := Ok (vdiv f (pr * pc0 * pc1)) in
      weight_loop d 1 (Z.to_nat (l - 2)) alpha.

  (** 288-313 *)
  Definition end_term (d : trans_dir) : pm vec3 :=
    get! v := at_vert (vertex_at p 0 d) in
    let! w := Ok (direction (Some v) (vertex_at p 1 d)) in
    a_contrb A (vs_sp v) v0 w (vs_comp v) d true.
  (** include/lm/bidir.h:288-314. *)
  Definition eval_connection_term (s : Z) : pm vec3 :=
    let t := (n - s)%Z in
    if ((s =? 0) && (0 <? t))%Z then end_term LE
    else if ((0 <? s) && (t =? 0))%Z then end_term EL
    else if ((0 <? s) && (0 <? t))%Z then
      get! vL := at_vert (vertex_at p (s - 1) LE) in
      get! vE := at_vert (vertex_at p (t - 1) EL) in
      let! a := Ok (direction (Some vL) (vertex_at p (s - 2) LE)) in
      let! b := Ok (direction (Some vL) (Some vE)) in
      let! fL := a_contrb A (vs_sp vL) a b (vs_comp vL) LE true in
      let! c := Ok (direction (Some vE) (vertex_at p (t - 2) EL)) in
      let! e := Ok (direction (Some vE) (Some vL)) in
      let! fE := a_contrb A (vs_sp vE) c e (vs_comp vE) EL true in
      let! G := Ok (of_option (geometry_term (igeom (vs_sp vL)) (igeom (vs_sp vE)))) in
      ret (vmul (vscale G fL) fE)
    else ret v0.

  (** 325-343 *)
  Definition eval_sampling_weight_bidir (s : Z) : pm vec3 :=
    let! aL := eval_subpath_sampling_weight s LE in
    if is_zero aL then ret v0 else
    let! aE := eval_subpath_sampling_weight (n - s) EL in
    if is_zero aE then ret v0 else
    let! c := eval_connection_term s in
    ret (vmul (vmul aL c) aE).

  (** 365-373 *)
  Fixpoint contrb_loop (d : trans_dir) (i : Z) (k : nat) (f : vec3) : pm vec3 :=
    match k with
    | O => ret f
    | S k =>
        get! v := at_vert (vertex_at p i d) in
        let! wi := Ok (direction (Some v) (vertex_at p (i - 1) d)) in
        let! wo := Ok (direction (Some v) (vertex_at p (i + 1) d)) in
        let! g := a_contrb A (vs_sp v) wi wo (vs_comp v) d false in
        get! v' := at_vert (vertex_at p (i + 1) d) in
        let! G := Ok (of_option (geometry_term (igeom (vs_sp v)) (igeom (vs_sp v')))) in
        contrb_loop d (i + 1) k (vscale G (vmul f g))
    end.
  (** 355-385 *)
  Definition eval_measurement_contrb_bidir (s : Z) : pm vec3 :=
    let sub l d := if (l =? 0)%Z then ret (grey 1) else contrb_loop d 0 (Z.to_nat (l - 1)) (grey 1) in
    let! fL := sub s LE in
    let! fE := sub (n - s)%Z EL in
    let! c := eval_connection_term s in
    ret (vmul (vmul fL c) fE).

  (** 430-439 *)
  Fixpoint pdf_loop (d : trans_dir) (i : Z) (k : nat) (q : R) : pm R :=
    match k with
    | O => ret q
    | S k =>
        get! v := at_vert (vertex_at p i d) in
        let! wi := Ok (direction (Some v) (vertex_at p (i - 1) d)) in
        let! wo := Ok (direction (Some v) (vertex_at p (i + 1) d)) in
        get! v' := at_vert (vertex_at p (i + 1) d) in
        let! pc := a_pdf_component A (vs_sp v') (vneg wo) (vs_comp v') in
        let! pd := a_pdf_direction A (vs_sp v) wi wo (vs_comp v) false in
        let! pa := Ok (of_option (convert_to_area pd (igeom (vs_sp v)) (igeom (vs_sp v')))) in
        pdf_loop d (i + 1) k (q * (pc * pa))
    end.
  (** 407-441 *)
  Definition pdf_subpath (l : Z) (d : trans_dir) : pm R :=
    if (l =? 0)%Z then ret 1 else
    get! v := at_vert (vertex_at p 0 d) in
    let! c := a_connectable A (vs_sp v) in
    if c then
      let! pa := a_pdf_position A (vs_sp v) in
      let! pc := a_pdf_component A (vs_sp v) v0 (vs_comp v) in
      pdf_loop d 0 (Z.to_nat (l - 1)) (pa * pc)
    else
      let! w := Ok (direction (Some v) (vertex_at p 1 d)) in
      let! pr := a_pdf_ray A (vs_sp v) w false in
      let! pc0 := a_pdf_component A (vs_sp v) v0 (vs_comp v) in
      get! v1 := at_vert (vertex_at p 1 d) in
      let! pc1 := a_pdf_component A (vs_sp v1) (vneg w) (vs_comp v1) in
      let! pa := Ok (of_option (convert_to_area pr (igeom (vs_sp v)) (igeom (vs_sp v1)))) in
      pdf_loop d 1 (Z.to_nat (l - 2)) (pa * pc0 * pc1).
  (** 397-448 *)
  Definition pdf_bidir (s : Z) : pm R :=
    let! b := is_samplable_bidir s in
    if negb b then ret 0 else
    let! pL := pdf_subpath s LE in
    let! pE := pdf_subpath (n - s) EL in
    ret (pL * pE).

  (** 468-475: the strategies from [s2] on, [k] of them *)
  Fixpoint mis_loop (ps : R) (s2 : Z) (k : nat) (inv_w : R) : pm R :=
    match k with
    | O => ret inv_w
    | S k =>
        let! pi := pdf_bidir s2 in
        if Req_EM_T pi 0 then mis_loop ps (s2 + 1) k inv_w else
        let! r := Ok (rdiv pi ps) in
        mis_loop ps (s2 + 1) k (inv_w + r * r)
    end.
  (** 460-478 *)
  Definition eval_mis_weight (s : Z) : pm R :=
    let! ps := pdf_bidir s in
    if Rlt_dec 0 ps then let! w := mis_loop ps 0 (Z.to_nat (n + 1)) 0 in Ok (rdiv 1 w) else Ok Undefined.
End Path.

Section Walk.
  Variable A : api.

  (** 514-555: rounds of the random walk; [rng k] are the random numbers of round [k]. The loop itself has no
      bound: [fuel] is only for the definition (C41). *)
  Fixpoint walk (fuel : nat) (rng : nat -> draw) (p : fullpath) (max_verts : Z) (d : trans_dir) : pm fullpath :=
    if (num_verts p <? max_verts)%Z then
      match fuel with
      | O => Fuel
      | S fuel =>
          let u := rng O in
          let! start :=
            (if (num_verts p =? 0)%Z then
               let! s := a_sample_ray A u d in
               ret (match s with None => None | Some s => Some ([mk_vert (pr_sp s) 0], pr_origin s, pr_wo s) end)
             else
               get! v := at_vert (subpath_vertex_at p (num_verts p - 1)) in
               let! wi := Ok (direction (Some v) (subpath_vertex_at p (num_verts p - 2))) in
               let! s := a_sample_direction A u (vs_sp v) wi (vs_comp v) d in
               match s with
               | None => ret None
               | Some (wo, _) => let! o := Ok (position (igeom (vs_sp v))) in ret (Some (p, o, wo))
               end) in
          match start with
          | None => ret p
          | Some (p, o, wo) =>
              let! hit := a_intersect A o wo in
              match hit with
              | None => ret p
              | Some h =>
                  let! (c, _) := a_sample_component A u h (vneg wo) in
                  let p := p ++ [mk_vert h c] in
                  if infinite (igeom h) then ret p else walk fuel (fun k => rng (S k)) p max_verts d
              end
          end
      end
    else ret p.
  (** 507-512 *)
  Definition sample_subpath_from_endpoint (fuel : nat) (rng : nat -> draw) (p : fullpath) (max_verts : Z) (d : trans_dir) : pm fullpath :=
    if (max_verts =? 0)%Z then ret p else walk fuel rng p max_verts d.
  (** 571-575 *)
  Definition sample_subpath (fuel : nat) (rng : nat -> draw) (max_verts : Z) (d : trans_dir) : pm fullpath :=
    sample_subpath_from_endpoint fuel rng [] max_verts d.

  (** The ranges [begin, begin + k) and [rend - k, rend) of a vector; undefined if it is shorter.
      include/lm/bidir.h:593-644. *)
  Definition front (k : Z) (p : fullpath) : outcome fullpath := if (k <=? num_verts p)%Z then Ok (firstn (Z.to_nat k) p) else UB.
  (** Helper of [connect_subpaths]: include/lm/bidir.h:593-644. *)
  Definition front_reversed (k : Z) (p : fullpath) : outcome fullpath := if (k <=? num_verts p)%Z then Ok (rev (firstn (Z.to_nat k) p)) else UB.
  (** as_type on a vertex: include/lm/bidir.h:627-641. *)
  Definition retype (v : vert) (t : itype) : vert := mk_vert (as_type (vs_sp v) t) (vs_comp v).
  (** 627-641: the checks and the types of the end points *)
  Definition finish (p : fullpath) : pm (option fullpath) :=
    match p with
    | [] => UB
    | v :: r =>
        get! l := a_is_light A (vs_sp v) in
        if negb l then ret None else
        get! c := a_is_camera A (vs_sp (last r v)) in
        if negb c then ret None else
        let p := retype v LightEndpoint :: r in
        ret (Some (removelast p ++ [retype (last p v) CameraEndpoint]))
    end.
  (** 593-644; the assertions on s and t fail otherwise *)
  Definition connect_subpaths (pL pE : fullpath) (s t : Z) : pm (option fullpath) :=
    if ((s <? 0) || (t <? 0) || ((s =? 0) && (t =? 0)))%Z then Ok Undefined else
    if (s =? 0)%Z then
      get! v := at_vert (subpath_vertex_at pE (t - 1)) in
      if degenerated (igeom (vs_sp v)) then ret None else
      get! p := front_reversed t pE in finish p
    else if (t =? 0)%Z then
      get! v := at_vert (subpath_vertex_at pL (s - 1)) in
      if degenerated (igeom (vs_sp v)) then ret None else
      get! p := front s pL in finish p
    else
      get! vL := at_vert (nth_error pL (Z.to_nat (s - 1))) in
      get! vE := at_vert (nth_error pE (Z.to_nat (t - 1))) in
      if infinite (igeom (vs_sp vL)) || infinite (igeom (vs_sp vE)) then ret None else
      let! b := a_visible A (vs_sp vL) (vs_sp vE) in
      if negb b then ret None else
      get! l := front s pL in get! e := front_reversed t pE in finish (l ++ e).
End Walk.

(** include/lm/math.h:697-702 *)
Definition balance_heuristic (p1 p2 : R) : fl R :=
  if Req_EM_T p1 0 then (if Req_EM_T p2 0 then Val 0 else rdiv p1 (p1 + p2)) else rdiv p1 (p1 + p2).
