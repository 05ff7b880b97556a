(** Independent vocabulary for renderings. *)
From Coq Require Import List Reals ZArith Bool.
From Verif Require Import Base RBase VecBase SurfModel MatModel LightModel PathModel BidirModel RenderModel.
Import ListNotations.
Open Scope R_scope.

(** Random numbers for a position: [0,1) in both coordinates *)
Definition in_unit (u : vec2) : Prop := 0 <= v2x u < 1 /\ 0 <= v2y u < 1.
(** The center of pixel (x,y) in raster coordinates *)
Definition center (w h x y : Z) : vec2 := V2 ((IZR x + / 2) / IZR w) ((IZR y + / 2) / IZR h).
(** The part of the unit square that belongs to pixel (x,y) *)
Definition cell (w h x y : Z) (u : vec2) : Prop := IZR x <= v2x u * IZR w < IZR x + 1 /\ IZR y <= v2y u * IZR h < IZR y + 1.
(** The direction sampled on the camera from numbers [u] is that of the ray through the raster position [u]. *)
Definition sees_raster (A : rapi) : Prop := forall u0 sp wE u wi c wo w, r_sample_position A u0 EL = ret (Some (sp, wE)) -> in_unit (dw_d u) ->
  a_sample_direction (r_api A) u sp wi c EL = ret (Some (wo, w)) -> a_raster (r_api A) wo = ret (Some (dw_d u)).
(** The sum of the values of splats *)
Definition values (l : splats) : vec3 := fold_right (fun x acc => vadd (snd x) acc) v0 l.
(** The sum of the values of the samples of a pixel *)
Fixpoint samples_of (i : Z) (calls : list call) (outs : list splats) : vec3 :=
  match calls, outs with
  | (j, _, _) :: calls, l :: outs => if (j =? i)%Z then vadd (values l) (samples_of i calls outs) else samples_of i calls outs
  | _, _ => v0
  end.
