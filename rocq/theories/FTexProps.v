(** C114: lookups in an image texture in floating point. *)
From Coq Require Import List Reals ZArith Bool Lra Lia Psatz Arith.
From Flocq Require Import Core.Core IEEE754.BinarySingleNaN.
From Verif Require Import Base RBase RngModel FltModel FltProofs FDistModel FDistSpec FDistProofs FDistProps FBoundModel FBoundSpec FBoundProofs FFilmProofs FBvhModel FBvhSpec FBvhProofs FRasterModel FRasterSpec FRasterProofs FRasterProps FTexModel FTexSpec FTexProofs.
Import ListNotations.
Local Open Scope R_scope.

(** A lookup at any two numbers, however large or negative, reads a texel of the image, and the one where the
    coordinates fall in the image repeated over the plane, up to 2^-20 of a texel. Its components are read whole. *)
Theorem C114_lookup b tx ty : fimage b -> (3 <= tc b)%Z -> finite tx = true -> finite ty = true ->
  exists x y, (0 <= x < tw b)%Z /\ (0 <= y < th b)%Z /\ falls (val tx) (tw b) x (/ 2 ^ 20) /\ falls (val ty) (th b) y (/ 2 ^ 20) /\
    feval b tx ty = Ok (color b x y) /\ (tc b = 4%Z -> falpha b tx ty = Ok (part b x y 3)).
Proof.
  intros I C Fx Fy. destruct (image_sizes b I) as [Sw Sh]. destruct (coord_falls tx (tw b) Sw Fx) as (x & Ex & Rx & Cx).
  destruct (coord_falls ty (th b) Sh Fy) as (y & Ey & Ry & Cy). exists x, y. split; [assumption|]. split; [assumption|]. split; [assumption|]. split; [assumption|].
  unfold feval, falpha, flocate. rewrite !findex_pos by assumption. rewrite Ex, Ey. cbn [obind]. rewrite ftexel_ok by assumption. cbn [obind].
  split; [now apply fcolor_ok|]. intros A. apply fat_ok; try assumption. lia.
Qed.
Print Assumptions C114_lookup.

(** Coordinates that differ by integers give the same texel, in every bit. *)
Theorem C114_periodic b sx sy tx ty i j : fimage b -> finite sx = true -> finite sy = true -> finite tx = true -> finite ty = true ->
  val sx = val tx + IZR i -> val sy = val ty + IZR j -> feval b sx sy = feval b tx ty /\ falpha b sx sy = falpha b tx ty.
Proof.
  intros I Fsx Fsy Ftx Fty Ex Ey. destruct (image_sizes b I) as [Sw Sh]. unfold feval, falpha, flocate. rewrite !findex_pos by assumption.
  rewrite (coord_shift sx tx (tw b) i), (coord_shift sy ty (th b) j) by assumption. now split.
Qed.
Print Assumptions C114_periodic.

(** A lookup at the computed coordinates of a point inside of a texel reads that texel, and so does the lookup by the
    texel's place. Inside: 2^-19 of a texel from its edges at least. *)
Theorem C114_texel_partial b x y u v : fimage b -> (3 <= tc b)%Z -> (0 <= x < tw b)%Z -> (0 <= y < th b)%Z -> inner u -> inner v ->
  feval_pixel b x y = Ok (color b x y) /\ feval b (fcell x u (tw b)) (fcell y v (th b)) = feval_pixel b x y.
Proof.
  intros I C X Y U V. destruct (image_sizes b I) as [Sw Sh]. unfold feval_pixel, feval, flocate. rewrite !findex_pos by assumption.
  rewrite !coord_own by assumption. cbn [obind]. rewrite ftexel_ok by assumption. cbn [obind]. split; [now apply fcolor_ok|reflexivity].
Qed.
Print Assumptions C114_texel_partial.

(** A coordinate that is infinite or NaN makes the lookup undefined. *)
Theorem C114_defined b tx ty : fimage b -> (3 <= tc b)%Z -> (exists c, feval b tx ty = Ok c) <-> (finite tx = true /\ finite ty = true).
Proof.
  intros I C. split.
  - intros [c E]. destruct (image_sizes b I) as [Sw Sh]. unfold feval, flocate in E. rewrite !findex_pos in E by assumption.
    destruct (finite tx) eqn:Fx; [|rewrite (proj2 (fwrap_none tx Fx)) in E; discriminate].
    destruct (finite ty) eqn:Fy; [now split|]. destruct (coord_falls tx (tw b) Sw Fx) as (x & Ex & _). rewrite Ex, (proj2 (fwrap_none ty Fy)) in E. discriminate.
  - intros [Fx Fy]. destruct (C114_lookup b tx ty I C Fx Fy) as (x & y & _ & _ & _ & _ & E & _). now exists (color b x y).
Qed.
Print Assumptions C114_defined.

(** ** Examples *)
Definition c114_rgb (k : Z) : list flt := [fofint k; fofint (k + 10); fofint (k + 20); fofint (k + 30)].
(** Two texels wide, three high, four components *)
Definition c114_image : fbitmap := mk_fbitmap 2 3 4 (concat (map c114_rgb [1; 2; 3; 4; 5; 6]%Z)).
Example c114_image_ok : fimage c114_image /\ (3 <= tc c114_image)%Z.
Proof. unfold fimage. cbn. lia. Qed.
(** -7.25 falls in the right half, 1000.5 in the middle row. *)
Definition c114_x : flt := fmake (-29) (-2).
Definition c114_y : flt := fmake 2001 (-1).
Example c114_finite : finite c114_x = true /\ finite c114_y = true.
Proof. split; vm_compute; reflexivity. Qed.
Example c114_lookup : flocate c114_image c114_x c114_y = Ok 3%Z /\ feval c114_image c114_x c114_y = feval_pixel c114_image 1 1.
Proof. split; [vm_compute; reflexivity|]. unfold feval. rewrite (eq_refl : flocate c114_image c114_x c114_y = Ok 3%Z). reflexivity. Qed.
Example c114_shift : finite (fmake 3 (-2)) = true /\ val (fmake 3 (-2)) = val c114_x + IZR 8.
Proof.
  split; [vm_compute; reflexivity|]. num (fmake 3 (-2)). rename V into V1. unfold c114_x. num (fmake (-29) (-2)). rewrite V1, V, pow2_53. change (bpow radix2 (-50)) with (/ 1125899906842624). lra.
Qed.
Example c114_inner : inner (fmake 1 (-1)).
Proof. num (fmake 1 (-1)). split; [assumption|]. rewrite V, inv19, pow2_53. lra. Qed.

(** A coordinate a little below zero is in the last column although its computed fractional part is 1, which names a
    column beyond the image: the clamp is needed. Computing t + 1 first gives 1 and the first column. *)
Definition c114_below : flt := fmake (-1) (-60).
Theorem C114_wrap_refuted :
  ~ (forall t, finite t = true -> val (fwrap t) < 1) /\
  ~ (forall b tx ty, fimage b -> (3 <= tc b)%Z -> finite tx = true -> finite ty = true -> flocate b (fplus tx fone) ty = flocate b tx ty).
Proof.
  split.
  - intros H. specialize (H c114_below ltac:(vm_compute; reflexivity)).
    num (fwrap c114_below). rewrite V in H. change (bpow radix2 (-52)) with (/ 4503599627370496) in H. lra.
  - intros H. specialize (H c114_image c114_below fzero (proj1 c114_image_ok) (proj2 c114_image_ok) eq_refl eq_refl).
    assert (A : flocate c114_image (fplus c114_below fone) fzero = Ok 0%Z) by (vm_compute; reflexivity).
    assert (B : flocate c114_image c114_below fzero = Ok 1%Z) by (vm_compute; reflexivity). rewrite A, B in H. discriminate.
Qed.
Print Assumptions C114_wrap_refuted.
