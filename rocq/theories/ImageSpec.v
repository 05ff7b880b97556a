(** Independent vocabulary for images made of splats. *)
From Coq Require Import List Reals ZArith Bool.
From Verif Require Import Base RBase VecBase RenderModel.
Import ListNotations.
Open Scope R_scope.

Definition on_raster (u : vec2) : Prop := 0 <= v2x u <= 1 /\ 0 <= v2y u <= 1.
(** The column (row) of an image with [n] columns that a coordinate belongs to; the end of the image belongs to the last one *)
Definition strip (n : Z) (r : R) : Z := Z.min (Int_part (r * IZR n)) (n - 1).
(** The sum of the values of the splats on pixel (x,y) *)
Fixpoint landed (w h x y : Z) (l : splats) : vec3 :=
  match l with
  | [] => v0
  | (rp, v) :: l => if ((strip w (v2x rp) =? x) && (strip h (v2y rp) =? y))%Z%bool then vadd v (landed w h x y l) else landed w h x y l
  end.
(** The sum of the values of splats, of a pixel's neighbours in a row, of the rows of an image *)
Definition vsum {X} (g : X -> vec3) (l : list X) : vec3 := fold_right (fun x acc => vadd (g x) acc) v0 l.
Definition columns (n : Z) : list Z := map Z.of_nat (seq 0 (Z.to_nat n)).
