(** Model of the textures (src/texture). Float is the reals; the values of the image are given. *)
From Coq Require Import List Reals ZArith Bool.
From Verif Require Import Base RBase VecBase GeoModel SurfModel DistModel MatModel.
Import ListNotations.
Open Scope R_scope.

(** src/texture/texture_bitmap.cpp:34-37: width, height, number of components, values *)
Record bitmap := mk_bitmap { bw : Z; bh : Z; bc : Z; bdata : list R }.
(** texture_bitmap.cpp:49-66: what stbi_loadf returns; None is a failure to load. The flip is done by the
    loader. *)
Definition load (img : option bitmap) : outcome bitmap :=
  match img with
  | None => Throw ErrIOError
  | Some b => Ok (mk_bitmap (bw b) (bh b) (bc b) (firstn (Z.to_nat (bw b * bh b * bc b)) (bdata b)))
  end.
(** t - floor(t). src/texture/texture_bitmap.cpp:69-70. *)
Definition fract (t : R) : R := t - IZR (Int_part t).
(** std::clamp, which requires lo <= hi; the conversion to int is in range. src/texture/texture_bitmap.cpp:71-72. *)
Definition clamp_index (u : R) (n : Z) : fl Z :=
  if (n - 1 <? 0)%Z then Undefined else Val (zclamp (trunc (u * IZR n)) 0 (n - 1)).
(** 69-73 and 83-87: the index of the texel *)
Definition texel (b : bitmap) (t : vec2) : fl Z :=
  let u := fract (v2x t) in let v := fract (v2y t) in
  do x <- clamp_index u (bw b); do y <- clamp_index v (bh b); Val (bw b * y + x)%Z.
(** src/texture/texture_bitmap.cpp:73-74, 77-80. *)
Definition at_texel (b : bitmap) (i : Z) : fl vec3 :=
  do r <- at_index (bdata b) (bc b * i); do g <- at_index (bdata b) (bc b * i + 1); do bl <- at_index (bdata b) (bc b * i + 2); Val (V3 r g bl).
(** 68-75 *)
Definition bitmap_eval (b : bitmap) (t : vec2) : fl vec3 := do i <- texel b t; at_texel b i.
(** 77-80 *)
Definition bitmap_pixel (b : bitmap) (x y : Z) : fl vec3 := at_texel b (bw b * y + x).
(** 82-89 *)
Definition bitmap_alpha (b : bitmap) (t : vec2) : fl R := do i <- texel b t; at_index (bdata b) (bc b * i + 3).
(** 91-93 *)
Definition bitmap_has_alpha (b : bitmap) : bool := (bc b =? 4)%Z.

(** src/texture/texture_constant.cpp:24-56 *)
Record const_tex := mk_const { k_color : vec3; k_alpha : option R }.
(** src/texture/texture_constant.cpp:42-44. *)
Definition const_eval (k : const_tex) (t : vec2) : fl vec3 := Val (k_color k).
(** src/texture/texture_constant.cpp:46-48. *)
Definition const_pixel (k : const_tex) (x y : Z) : fl vec3 := Val (k_color k).
(** src/texture/texture_constant.cpp:50-52. *)
Definition const_has_alpha (k : const_tex) : bool := match k_alpha k with Some _ => true | None => false end.
(** src/texture/texture_constant.cpp:54-56. *)
Definition const_alpha (k : const_tex) (t : vec2) : fl R := match k_alpha k with Some a => Val a | None => Undefined end.
