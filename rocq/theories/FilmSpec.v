(** Independent vocabulary for films: a film as a function from coordinates to colours. *)
From Coq Require Import List Reals ZArith.
From Verif Require Import Base VecBase FilmModel.
Import ListNotations.
Open Scope Z_scope.

Definition inside (w h x y : Z) : Prop := 0 <= x < w /\ 0 <= y < h.

(** The film has size [w] x [h] and the colour of pixel (x,y), in row-major order, is [c x y]. *)
Definition shows (f : film) (w h : Z) (c : Z -> Z -> vec3) : Prop :=
  fw f = w /\ fh f = h /\ Z.of_nat (List.length (data f)) = w * h
  /\ forall x y, inside w h x y -> nth_error (data f) (Z.to_nat (y * w + x)) = Some (c x y).

(** [c] with (x,y) changed to [v]. *)
Definition with_pixel (c : Z -> Z -> vec3) (x y : Z) (v : vec3) : Z -> Z -> vec3 :=
  fun x' y' => if (Z.eqb x' x && Z.eqb y' y)%bool then v else c x' y'.

(** The exported image as rows: channel [i] of column [x] in row [row] of the file. *)
Definition channel {T} (w : Z) (out : list T) (row x : Z) (i : nat) : option T :=
  nth_error out (Z.to_nat (3 * (row * w + x) + Z.of_nat i)).

(** Arithmetic mean. *)
Definition mean (l : list vec3) : vec3 := vscale (/ INR (List.length l)) (fold_right vadd v0 l).
