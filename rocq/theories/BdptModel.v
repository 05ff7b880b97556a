(** Model of the optimised bidirectional path tracer (src/renderer/renderer_bdptopt.cpp): subpaths with cached
    densities, connections and weights. Float is the reals. Its own copies of Path::num_verts, index, vertex_at,
    is_samplable_bidir (38-87) and direction (113-127) have the same bodies as those of include/lm/bidir.h, so
    the model uses the ones of BidirModel on the vertices without their caches. *)
From Coq Require Import List Reals ZArith Bool.
From Verif Require Import Base RBase SceneModel VecBase SurfModel MatModel CamModel LightModel PathModel BidirModel.
Import ListNotations.
Open Scope R_scope.

(** renderer_bdptopt.cpp:22-32; None: not initialised *)
Record cvert := mk_cvert {
  cv_v : vert;                 (* sp, comp *)
  cv_alpha : vec3;
  cv_wf : option vec3;         (* w_fwd *)
  cv_wr : option vec3;         (* w_rev *)
  cv_pf : option R;            (* pdf_fwd *)
  cv_pr : option R }.          (* pdf_rev *)
(** src/renderer/renderer_bdptopt.cpp:35-88. *)
Definition cpath : Type := list cvert.
(** The path without cached values, for src/renderer/renderer_bdptopt.cpp:391-398. *)
Definition strip : cpath -> fullpath := map cv_v.

(** Assignments to the members, and reading one. src/renderer/renderer_bdptopt.cpp:22-32. *)
Definition set_v (x : cvert) v := mk_cvert v (cv_alpha x) (cv_wf x) (cv_wr x) (cv_pf x) (cv_pr x).
(** Helper of [opt_walk]: src/renderer/renderer_bdptopt.cpp:135-221. *)
Definition set_wf (x : cvert) w := mk_cvert (cv_v x) (cv_alpha x) (Some w) (cv_wr x) (cv_pf x) (cv_pr x).
(** Helper of [opt_recompute]: src/renderer/renderer_bdptopt.cpp:332-387. *)
Definition set_wr (x : cvert) w := mk_cvert (cv_v x) (cv_alpha x) (cv_wf x) (Some w) (cv_pf x) (cv_pr x).
(** Helper of [opt_recompute]: src/renderer/renderer_bdptopt.cpp:332-387. *)
Definition set_pf (x : cvert) q := mk_cvert (cv_v x) (cv_alpha x) (cv_wf x) (cv_wr x) (Some q) (cv_pr x).
(** Helper of [opt_walk]: src/renderer/renderer_bdptopt.cpp:135-221. *)
Definition set_pr (x : cvert) q := mk_cvert (cv_v x) (cv_alpha x) (cv_wf x) (cv_wr x) (cv_pf x) (Some q).
(** Helper of [opt_walk]: src/renderer/renderer_bdptopt.cpp:135-221. *)
Definition rd {X} (o : option X) : outcome X := match o with Some x => Ok x | None => UB end.

(** vs[i].sp.geom: src/renderer/renderer_bdptopt.cpp:113-127. *)
Definition cgeom (x : cvert) : geom := igeom (vs_sp (cv_v x)).
(** src/renderer/renderer_bdptopt.cpp:113-127. *)
Definition cdirection (a b : option cvert) : fl vec3 := direction (option_map cv_v a) (option_map cv_v b).

Section Walk.
  Variable A : api.

  (** A direction density at [x] as an area density at [y]. src/renderer/renderer_bdptopt.cpp:332-387. *)
  Definition dir_area (x y : vert) (wi wo : vec3) : pm R :=
    let! q := a_pdf_direction A (vs_sp x) wi wo (vs_comp x) false in
    Ok (of_option (convert_to_area q (igeom (vs_sp x)) (igeom (vs_sp y)))).
  (** A ray density at [x] as an area density at [y]: src/renderer/renderer_bdptopt.cpp:332-387. *)
  Definition ray_area (x y : vert) (wo : vec3) : pm R :=
    let! q := a_pdf_ray A (vs_sp x) wo false in
    Ok (of_option (convert_to_area q (igeom (vs_sp x)) (igeom (vs_sp y)))).

  (** 148-156, 344-345, 355-356 *)
  Definition pdf_start (x : vert) : pm R :=
    let! c := a_connectable A (vs_sp x) in if c then a_pdf_position A (vs_sp x) else ret 1.

  (** 135-221: the rounds of the walk. The vertices are listed newest first; [thr] is the throughput before the
      round (not read in the first one). [rng k] are the random numbers of round [k]; [fuel] is only for the
      definition: the loop has no bound of its own. *)
  Fixpoint opt_walk (fuel : nat) (rng : nat -> draw) (q : cpath) (thr : vec3) (max_verts : Z) (d : trans_dir) : pm cpath :=
    if (Z.of_nat (length q) <? max_verts)%Z then
      match fuel with
      | O => Fuel
      | S fuel =>
          let u := rng O in
          let! start :=
            (match q with
             | [] =>
                 (* 137-173 *)
                 let! s := a_sample_ray A u d in
                 match s with
                 | None => ret None
                 | Some s =>
                     let v := mk_vert (pr_sp s) 0 in
                     let! pf := pdf_start v in
                     let! alpha := Ok (vdiv (grey 1) pf) in
                     let! c := a_connectable A (vs_sp v) in
                     let! next := (if c then a_pdf_direction A (vs_sp v) v0 (pr_wo s) (vs_comp v) false else a_pdf_ray A (vs_sp v) (pr_wo s) false) in
                     ret (Some ([mk_cvert v alpha (Some (pr_wo s)) (Some v0) (Some pf) None], pr_origin s, pr_wo s, pr_weight s, next))
                 end
             | v :: r =>
                 (* 174-193 *)
                 get! wr := rd (cv_wr v) in
                 let! s := a_sample_direction A u (vs_sp (cv_v v)) wr (vs_comp (cv_v v)) d in
                 match s, r with
                 | None, _ => ret None
                 | Some _, [] => UB
                 | Some (wo, w), vp :: r =>
                     let! pr := (if degenerated (cgeom vp) then ret 1 else dir_area (cv_v v) (cv_v vp) wo wr) in
                     let! next := a_pdf_direction A (vs_sp (cv_v v)) wr wo (vs_comp (cv_v v)) false in
                     let! o := Ok (position (cgeom v)) in
                     ret (Some (set_wf v wo :: set_pr vp pr :: r, o, wo, vmul thr w, next))
                 end
             end) in
          match start with
          | None => ret q
          | Some (q, o, wo, thr, next) =>
              (* 195-220 *)
              get! v := match q with v :: _ => Ok v | [] => UB end in
              let! hit := a_intersect A o wo in
              match hit with
              | None => ret q
              | Some h =>
                  let! (c, w) := a_sample_component A u h (vneg wo) in
                  let thr := vscale w thr in
                  let! pf := Ok (of_option (convert_to_area next (cgeom v) (igeom h))) in
                  let q := mk_cvert (mk_vert h c) thr None (Some (vneg wo)) (Some pf) None :: q in
                  if infinite (igeom h) then ret q else opt_walk fuel (fun k => rng (S k)) q thr max_verts d
              end
          end
      end
    else ret q.
  (** 130-222 *)
  Definition opt_subpath (fuel : nat) (rng : nat -> draw) (max_verts : Z) (d : trans_dir) : pm cpath :=
    let! q := opt_walk fuel rng [] v0 max_verts d in ret (rev q).

  (** 235-264: whether strategy (s, t) can be used at all *)
  Definition opt_samplable (qE qL : cpath) (s t : Z) : pm bool :=
    if (s =? 0)%Z then get! v := rd (nth_error qE (Z.to_nat (t - 1))) in ret (negb (degenerated (cgeom v)))
    else if (t =? 0)%Z then get! v := rd (nth_error qL (Z.to_nat (s - 1))) in ret (negb (degenerated (cgeom v)))
    else
      get! vL := rd (nth_error qL (Z.to_nat (s - 1))) in
      get! vE := rd (nth_error qE (Z.to_nat (t - 1))) in
      let! cL := (if (s =? 1)%Z then a_connectable A (vs_sp (cv_v vL)) else ret true) in
      if negb cL then ret false else
      let! cE := (if (t =? 1)%Z then a_connectable A (vs_sp (cv_v vE)) else ret true) in
      if negb cE then ret false else
      if infinite (cgeom vL) || infinite (cgeom vE) then ret false else
      let! bL := a_specular A (vs_sp (cv_v vL)) (vs_comp (cv_v vL)) in
      if bL then ret false else
      let! bE := a_specular A (vs_sp (cv_v vE)) (vs_comp (cv_v vE)) in
      ret (negb bE).
  (** 266-290; None: not visible *)
  Definition opt_value (qE qL : cpath) (s t : Z) : pm (option vec3) :=
    if (s =? 0)%Z then
      get! v := rd (nth_error qE (Z.to_nat (t - 1))) in
      get! w := rd (cv_wr v) in
      let! Le := a_contrb A (as_type (vs_sp (cv_v v)) LightEndpoint) v0 w 0 LE true in
      ret (Some (vmul Le (cv_alpha v)))
    else if (t =? 0)%Z then
      get! v := rd (nth_error qL (Z.to_nat (s - 1))) in
      get! w := rd (cv_wr v) in
      let! We := a_contrb A (as_type (vs_sp (cv_v v)) CameraEndpoint) v0 w 0 EL true in
      ret (Some (vmul We (cv_alpha v)))
    else
      get! vL := rd (nth_error qL (Z.to_nat (s - 1))) in
      get! vE := rd (nth_error qE (Z.to_nat (t - 1))) in
      let! b := a_visible A (vs_sp (cv_v vL)) (vs_sp (cv_v vE)) in
      if negb b then ret None else
      get! wL := rd (cv_wr vL) in
      let! wLE := Ok (cdirection (Some vL) (Some vE)) in
      let! fL := a_contrb A (vs_sp (cv_v vL)) wL wLE (vs_comp (cv_v vL)) LE true in
      get! wE := rd (cv_wr vE) in
      let! wEL := Ok (cdirection (Some vE) (Some vL)) in
      let! fE := a_contrb A (vs_sp (cv_v vE)) wE wEL (vs_comp (cv_v vE)) EL true in
      let! G := Ok (of_option (geometry_term (cgeom vL) (cgeom vE))) in
      ret (Some (vmul (vmul (vscale G (vmul (cv_alpha vL) fL)) fE) (cv_alpha vE))).
  (** 295-309; the result of raster_position is dereferenced unchecked *)
  Definition opt_raster (qE qL : cpath) (s t : Z) : pm vec2 :=
    let! w :=
      (if (t =? 0)%Z then get! v := rd (nth_error qL (Z.to_nat (s - 1))) in get! w := rd (cv_wf v) in ret w
       else if (t =? 1)%Z then
         get! vL := rd (nth_error qL (Z.to_nat (s - 1))) in
         get! vE := rd (nth_error qE 0) in Ok (cdirection (Some vE) (Some vL))
       else get! v := rd (nth_error qE 0) in get! w := rd (cv_wf v) in ret w) in
    let! r := a_raster A w in
    match r with Some r => ret r | None => UB end.
  (** 226-312; the assertions on s and t fail otherwise *)
  Definition connect_and_eval_contrb (qE qL : cpath) (s t : Z) : pm (option (vec3 * vec2)) :=
    if ((s <? 0) || (t <? 0) || (s + t <? 2))%Z then Ok Undefined else
    let! b := opt_samplable qE qL s t in
    if negb b then ret None else
    let! C := opt_value qE qL s t in
    match C with
    | None => ret None
    | Some C =>
        if is_zero C then ret None else
        let! rp := opt_raster qE qL s t in ret (Some (C, rp))
    end.

  (** 321-324: the types of the two ends *)
  Definition fix_ends (q : cpath) : cpath :=
    match q with
    | [] => []
    | v :: r =>
        let q := set_v v (retype (cv_v v) LightEndpoint) :: r in
        let e := last q v in
        removelast q ++ [set_v e (retype (cv_v e) CameraEndpoint)]
    end.
  (** 325-329 *)
  Definition swap (x : cvert) : cvert := mk_cvert (cv_v x) (cv_alpha x) (cv_wr x) (cv_wf x) (cv_pr x) (cv_pf x).
  (** Forward and backward values exchanged on the light subpath: src/renderer/renderer_bdptopt.cpp:316-329. *)
  Definition swap_from (s : nat) (q : cpath) : cpath := firstn s q ++ map swap (skipn s q).
  (** 316-329 *)
  Definition opt_full (qE qL : cpath) (s t : nat) : outcome cpath :=
    if ((s <=? length qL) && (t <=? length qE) && (1 <=? s + t))%nat
    then Ok (swap_from s (fix_ends (firstn s qL ++ rev (firstn t qE)))) else UB.

  (** Assignment through a pointer to element [i]; null pointers are never assigned.
      Used by [opt_recompute]: src/renderer/renderer_bdptopt.cpp:332-387. *)
  Definition assign (i : nat) (f : cvert -> pm cvert) (q : cpath) : pm cpath :=
    match nth_error q i with
    | Some x => let! y := f x in ret (firstn i q ++ y :: skipn (S i) q)
    | None => UB
    end.
  (** Helper of [opt_recompute]: src/renderer/renderer_bdptopt.cpp:332-387. *)
  Definition when (b : bool) (f : cpath -> pm cpath) (q : cpath) : pm cpath := if b then f q else ret q.

  (** 332-387: vL, vE, vL_prev, vE_prev are elements s - 1, s, s - 2, s + 1 of the path, where they exist. *)
  Definition opt_recompute (s t : nat) (q : cpath) : pm cpath :=
    let hasL := (1 <=? s)%nat in let hasE := (1 <=? t)%nat in
    let hasL' := (2 <=? s)%nat in let hasE' := (2 <=? t)%nat in
    let vL q := if hasL then nth_error q (s - 1) else None in
    let vE q := if hasE then nth_error q s else None in
    (* 336-341 *)
    let! q := when hasL (fun q => assign (s - 1) (fun x => let! w := Ok (cdirection (Some x) (vE q)) in ret (set_wf x w)) q) q in
    let! q := when hasE (fun q => assign s (fun x => let! w := Ok (cdirection (Some x) (vL q)) in ret (set_wr x w)) q) q in
    (* 342-352 *)
    let! q := when hasL (fun q => assign (s - 1) (fun x =>
        let! p := (if negb hasE then pdf_start (cv_v x) else
          get! e := rd (vE q) in get! wf := rd (cv_wf e) in get! wr := rd (cv_wr e) in dir_area (cv_v e) (cv_v x) wf wr) in
        ret (set_pr x p)) q) q in
    (* 353-363 *)
    let! q := when hasE (fun q => assign s (fun x =>
        let! p := (if negb hasL then pdf_start (cv_v x) else
          get! l := rd (vL q) in get! wr := rd (cv_wr l) in get! wf := rd (cv_wf l) in dir_area (cv_v l) (cv_v x) wr wf) in
        ret (set_pf x p)) q) q in
    (* 364-375 *)
    let! q := when hasL' (fun q => assign (s - 2) (fun x =>
        get! l := rd (vL q) in
        let! ray := (if negb hasE then let! c := a_connectable A (vs_sp (cv_v l)) in ret (negb c) else ret false) in
        get! wr := rd (cv_wr l) in
        let! p := (if ray then ray_area (cv_v l) (cv_v x) wr
                   else get! wf := rd (cv_wf l) in dir_area (cv_v l) (cv_v x) wf wr) in
        ret (set_pr x p)) q) q in
    (* 376-387 *)
    when hasE' (fun q => assign (s + 1) (fun x =>
        get! e := rd (vE q) in
        let! ray := (if negb hasL then let! c := a_connectable A (vs_sp (cv_v e)) in ret (negb c) else ret false) in
        get! wf := rd (cv_wf e) in
        let! p := (if ray then ray_area (cv_v e) (cv_v x) wf
                   else get! wr := rd (cv_wr e) in dir_area (cv_v e) (cv_v x) wr wf) in
        ret (set_pf x p)) q) q.

  (** 391-398: the rounds i, ..., i + k - 1 *)
  Fixpoint up_loop (q : cpath) (i k : nat) (r sum : R) : pm R :=
    match k with
    | O => ret sum
    | S k =>
        get! v := rd (nth_error q i) in
        get! pf := rd (cv_pf v) in get! pr := rd (cv_pr v) in
        let! x := Ok (rdiv pf pr) in
        let r := r * x in
        let! b := is_samplable_bidir A (strip q) (Z.of_nat i + 1) in
        up_loop q (S i) k r (if b then sum + r else sum)
    end.
  (** 399-406: the rounds k - 1, ..., 0 *)
  Fixpoint down_loop (q : cpath) (k : nat) (r sum : R) : pm R :=
    match k with
    | O => ret sum
    | S i =>
        get! v := rd (nth_error q i) in
        get! pf := rd (cv_pf v) in get! pr := rd (cv_pr v) in
        let! x := Ok (rdiv pr pf) in
        let r := r * x in
        let! b := is_samplable_bidir A (strip q) (Z.of_nat i) in
        down_loop q i r (if b then sum + r else sum)
    end.
  (** 315-409 *)
  Definition opt_mis_weight (qE qL : cpath) (s t : nat) : pm R :=
    get! q := opt_full qE qL s t in
    let! q := opt_recompute s t q in
    let! sum := up_loop q s t 1 0 in
    let! sum := down_loop q s 1 sum in
    Ok (rdiv 1 (1 + sum)).

  (** 486-513: one sample. The splats in the order in which the renderer makes them. *)
  Fixpoint each {X} (l : list X) (f : X -> pm (list (vec2 * vec3))) : pm (list (vec2 * vec3)) :=
    match l with [] => ret [] | x :: l => let! a := f x in let! b := each l f in ret (a ++ b) end.
  (** src/renderer/renderer_bdptopt.cpp:495-508: one strategy. *)
  Definition opt_strategy (min_verts max_verts : Z) (qE qL : cpath) (s t : nat) : pm (list (vec2 * vec3)) :=
    let k := Z.of_nat (s + t) in
    if ((k <? min_verts) || (max_verts <? k))%Z then ret [] else
    let! splat := connect_and_eval_contrb qE qL (Z.of_nat s) (Z.of_nat t) in
    match splat with
    | None => ret []
    | Some (C, rp) => let! w := opt_mis_weight qE qL s t in ret [(rp, vscale w C)]
    end.
  (** src/renderer/renderer_bdptopt.cpp:486-513. *)
  Definition opt_sample (min_verts max_verts : Z) (fuel : nat) (rngE rngL : nat -> draw) : pm (list (vec2 * vec3)) :=
    let! qE := opt_subpath fuel rngE max_verts EL in
    let! qL := opt_subpath fuel rngL max_verts LE in
    each (seq 0 (S (length qL))) (fun s => each (seq 0 (S (length qE))) (fun t => opt_strategy min_verts max_verts qE qL s t)).
End Walk.
