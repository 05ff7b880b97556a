(** What the renderers on the path structure have to splat. *)
From Coq Require Import List Reals ZArith Bool.
From Verif Require Import Base VecBase SurfModel PathModel BidirModel BidirSpec.
Import ListNotations.
Open Scope R_scope.

(** [l] is right for strategy (s, t) with subpaths [pL] and [pE]: nothing if they cannot be joined; if they can, to
    the path [p], which has density [q] under that strategy and contribution [f], then nothing if [f] is zero and
    else one splat, at the pixel of the path, whose value times the density is [f] times the weight of the strategy. *)
Definition splat_for (A : api) (weight : fullpath -> nat -> R -> Prop) (pL pE : fullpath) (s t : nat) (l : list (vec2 * vec3)) : Prop :=
  exists o, connect_subpaths A pL pE (Z.of_nat s) (Z.of_nat t) = ret o /\
  match o with
  | None => l = []
  | Some p => forall q f, pdf_bidir A p (Z.of_nat s) = ret q -> q <> 0 -> eval_measurement_contrb_bidir A p (Z.of_nat s) = ret f ->
      (f = v0 -> l = []) /\
      (f <> v0 -> exists rp v w, l = [(rp, v)] /\ raster_of_path A p = ret rp /\ weight p s w /\ vscale q v = vscale w f)
  end.
(** Each path is left to one strategy *)
Definition alone : fullpath -> nat -> R -> Prop := fun _ _ w => w = 1.
(** All strategies share: the square of the density under this one, over the sum of the squares under all of them *)
Definition shared (A : api) : fullpath -> nat -> R -> Prop := fun p s w =>
  forall q : nat -> R, (forall i, (i <= length p)%nat -> pdf_bidir A p (Z.of_nat i) = ret (q i) /\ 0 <= q i) -> w * total (S (length p)) (fun i => q i ^ 2) = q s ^ 2.

Fixpoint vtotal (n : nat) (f : nat -> vec3) : vec3 := match n with O => v0 | S n => vadd (vtotal n f) (f n) end.
Definition vsum (l : list (vec2 * vec3)) : vec3 := fold_right (fun x r => vadd (snd x) r) v0 l.
