(** Model of the renderers on the path structure (src/renderer/renderer_bdpt.cpp): naive path tracing, path tracing and
    light tracing with connections, and bidirectional path tracing. One sample gives the list of splats, in order.
    The two subpaths of a sample draw their random numbers from [rngE] and [rngL]. *)
From Coq Require Import List Reals ZArith Bool.
From Verif Require Import Base RBase SceneModel VecBase SurfModel MatModel CamModel LightModel PathModel BidirModel BdptModel.
Import ListNotations.
Open Scope R_scope.

Section Renderers.
  Variable A : api.
  Variables min_verts max_verts : Z.
  Notation splats := (list (vec2 * vec3)).

  (** The check of the number of vertices: src/renderer/renderer_bdpt.cpp:78-114. *)
  Definition outside (n : nat) : bool := ((Z.of_nat n <? min_verts) || (max_verts <? Z.of_nat n))%Z.

  (** 90-113, 176-189, 241-277, 358-389: connecting, evaluating and splatting; [mis]: with the weight of 384-388 *)
  Definition path_strategy (mis : bool) (pL pE : fullpath) (s t : nat) : pm splats :=
    let! p := connect_subpaths A pL pE (Z.of_nat s) (Z.of_nat t) in
    match p with
    | None => ret []
    | Some p =>
        let! C := eval_sampling_weight_bidir A p (Z.of_nat s) in
        if is_zero C then ret [] else
        let! w := (if mis then eval_mis_weight A p (Z.of_nat s) else ret 1) in
        let! rp := raster_of_path A p in
        ret [(rp, if mis then vscale w C else C)]
    end.

  (** 78-114 *)
  Definition naive_sample (fuel : nat) (rngE : nat -> draw) : pm splats :=
    let! pE := sample_subpath A fuel rngE max_verts EL in
    each (seq 2 (length pE - 1)) (fun t => if outside t then ret [] else path_strategy false [] pE 0 t).

  (** 151-189 *)
  Definition nee_length (pL pE : fullpath) (n : nat) : pm splats :=
    if outside n then ret [] else
    if ((length pL <? 1) || (length pE <? n - 1))%nat then ret [] else
    get! v := at_vert (nth_error pE (n - 2)) in
    let! spec := a_specular A (vs_sp v) (vs_comp v) in
    let s := (if spec then 0 else 1)%nat in
    let t := (if spec then n else n - 1)%nat in
    if ((length pL <? s) || (length pE <? t))%nat then ret [] else path_strategy false pL pE s t.
  (** 143-190; the assertion on line 147 *)
  Definition nee_sample (fuel : nat) (rngE rngL : nat -> draw) : pm splats :=
    let! pE := sample_subpath A fuel rngE max_verts EL in
    let! pL := sample_subpath A fuel rngL 1 LE in
    if (length pL =? 0)%nat then Ok Undefined else each (seq 2 (length pL + length pE - 1)) (nee_length pL pE).

  (** 229-277 *)
  Definition lt_length (pL pE : fullpath) (n : nat) : pm splats :=
    if outside n then ret [] else
    if ((length pL <? n - 1) || (length pE <? 1))%nat then ret [] else path_strategy false pL pE (n - 1) 1.
  (** 221-278; the assertion on line 224 *)
  Definition lt_sample (fuel : nat) (rngE rngL : nat -> draw) : pm splats :=
    let! pE := sample_subpath A fuel rngE 1 EL in
    let! pL := sample_subpath A fuel rngL max_verts LE in
    if (length pE =? 0)%nat then Ok Undefined else each (seq 2 (length pL + length pE - 1)) (lt_length pL pE).

  (** 344-395 *)
  Definition bdpt_sample (fuel : nat) (rngE rngL : nat -> draw) : pm splats :=
    let! pE := sample_subpath A fuel rngE max_verts EL in
    let! pL := sample_subpath A fuel rngL max_verts LE in
    each (seq 0 (S (length pL))) (fun s => each (seq 0 (S (length pE))) (fun t =>
      if outside (s + t) then ret [] else path_strategy true pL pE s t)).
End Renderers.
