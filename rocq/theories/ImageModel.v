(** Model of how the image-space renderers fill the film: lt, bdpt's four renderers and bdptopt. The samples are
    those of RenderModel, PathRendModel and BdptModel; the films of single strategies are not modelled. *)
From Coq Require Import List Reals ZArith Bool.
From Verif Require Import Base RBase VecBase MatModel LightModel PathModel BidirModel RenderModel.
From Verif Require FilmModel.
Import ListNotations.
Open Scope R_scope.

(** The calls of the scheduler: each splats the result of a sample.
    Used by [image_render]: src/renderer/renderer_lt.cpp:51-172, src/renderer/renderer_bdpt.cpp:66-120, 132-196, 208-284, 331-409 and so on. *)
Fixpoint splat_samples (f : FilmModel.film) (samples : list (pm splats)) : pm FilmModel.film :=
  match samples with
  | [] => ret f
  | s :: r => let! l := s in get! f := splat_all f l in splat_samples f r
  end.
(** renderer_lt.cpp:51-172, renderer_bdpt.cpp:66-120, 132-196, 208-284, 331-409, renderer_bdptopt.cpp:472-531:
    clear, splat, and multiply by the number of pixels over the number of samples *)
Definition image_render (f : FilmModel.film) (samples : list (pm splats)) (processed : Z) (order : list Z) : pm FilmModel.film :=
  let w := FilmModel.fw f in let h := FilmModel.fh f in
  get! f := FilmModel.clear f in
  let! f := splat_samples f samples in
  let! s := Ok (rdiv (IZR (w * h)) (IZR processed)) in
  get! f := FilmModel.rescale f s order in ret f.
(** renderer_volpt.cpp:59-188, 194-366 (VOLPT_IMAGE_SAMPLING is 0): divide by the number of samples per pixel *)
Definition vol_render (A : rapi) (rr_prob : R) (direct : bool) (max_verts : Z) (f : FilmModel.film) (calls : list call) (processed : Z) (order : list Z) : pm FilmModel.film :=
  let w := FilmModel.fw f in let h := FilmModel.fh f in
  get! f := FilmModel.clear f in
  let! f := run_calls (vol_sample A rr_prob direct max_verts w h) f calls in
  let! s := Ok (rdiv 1 (IZR processed)) in
  get! f := FilmModel.rescale f s order in ret f.
