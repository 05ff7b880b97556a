(** Model of the bitmap film, one operation at a time (src/film/film_bitmap.cpp, include/lm/film.h).
    The concurrent execution of pixel operations is in CasModel.v. Components are reals, except in the
    sanity check; overflow of int products is not modelled. *)
From Coq Require Import List Reals ZArith Bool.
From Verif Require Import Base RBase VecBase ParSpec.
Import ListNotations.
Open Scope Z_scope.

(** src/film/film_bitmap.cpp:125-128. data_temp_ only backs the result of buffer(). *)
Record film := mk_film { fw : Z; fh : Z; data : list vec3 }.

(** The conversion int(r): undefined outside the range of int. include/lm/film.h:168. *)
Definition to_int (r : R) : outcome Z :=
  if Rle_dec r (-2147483649) then UB else if Rlt_dec r 2147483648 then Ok (trunc r) else UB.

(** src/film/film_bitmap.cpp:137-142 construct; assign with a negative count converted to size_t. *)
Definition construct (w h : Z) : outcome film :=
  if w * h <? 0 then Throw ErrLength else Ok (mk_film w h (repeat v0 (Z.to_nat (w * h)))).

(** src/film/film_bitmap.cpp:148-150 *)
Definition num_pixels (f : film) : Z := fw f * fh f.

(** Helper of [update_pixel]: src/film/film_bitmap.cpp:240-242. *)
Fixpoint upd_nth {A} (l : list A) (n : nat) (x : A) : list A :=
  match l, n with [], _ => [] | _ :: r, O => x :: r | y :: r, S m => y :: upd_nth r m x end.

(** The element data_[i] replaced by a function of it; the subscript is not checked.
    Used by [update_pixel]: src/film/film_bitmap.cpp:240-242. *)
Definition at_index (f : film) (i : Z) (g : vec3 -> vec3) : outcome film :=
  if i <? 0 then UB else
  match nth_error (data f) (Z.to_nat i) with
  | None => UB
  | Some v => Ok (mk_film (fw f) (fh f) (upd_nth (data f) (Z.to_nat i) (g v)))
  end.

(** src/film/film_bitmap.cpp:240-242 update_pixel, 152-154 set_pixel, 236-238 splat_pixel *)
Definition update_pixel (f : film) (x y : Z) (g : vec3 -> vec3) : outcome film := at_index f (y * fw f + x) g.
(** src/film/film_bitmap.cpp:152-154. *)
Definition set_pixel (f : film) (x y : Z) (v : vec3) : outcome film := at_index f (y * fw f + x) (fun _ => v).
(** src/film/film_bitmap.cpp:236-238. *)
Definition splat_pixel (f : film) (x y : Z) (v : vec3) : outcome film := at_index f (y * fw f + x) (fun c => vadd c v).

(** src/film/film_bitmap.cpp:212-218 buffer: the copied pixels; &data_temp_[0] of an empty vector is
    undefined. *)
Definition buffer (f : film) : outcome (Z * Z * list vec3) :=
  match data f with [] => UB | d => Ok (fw f, fh f, d) end.

(** The source of accum: a bitmap film or a film of another class. Used by [accum]: src/film/film_bitmap.cpp:220-234. *)
Inductive any_film := Bitmap (f : film) | OtherFilm.

(** src/film/film_bitmap.cpp:220-234 accum *)
Definition accum (f : film) (src : any_film) : outcome film :=
  match src with
  | OtherFilm => Ok f
  | Bitmap s =>
      if negb (fw f =? fw s) || negb (fh f =? fh s) then Ok f else
      fold_left (fun acc i => obind acc (fun f =>
        match nth_error (data s) (Z.to_nat i) with None => UB | Some v => at_index f i (fun c => vadd c v) end))
        (upto (fw f * fh f)) (Ok f)
  end.

(** src/film/film_bitmap.cpp:244-248 rescale. [order]: the iterations in the order in which the
    parallel loop runs them; different iterations touch different pixels. *)
Definition rescale (f : film) (s : R) (order : list Z) : outcome film :=
  fold_left (fun acc i => obind acc (fun f => at_index f i (fun c => vscale s c))) order (Ok f).

(** src/film/film_bitmap.cpp:250-252 *)
Definition clear (f : film) : outcome film :=
  if fw f * fh f <? 0 then Throw ErrLength else Ok (mk_film (fw f) (fh f) (repeat v0 (Z.to_nat (fw f * fh f)))).

Section Copy.
  Context {T : Type}.
  Variable zero : T.
  Variable conv : R -> outcome T.

  (** v[k] = x; unchecked. Used by [copy_step]: src/film/film_bitmap.cpp:261-270. *)
  Definition write (v : list T) (k : Z) (x : T) : outcome (list T) :=
    if k <? 0 then UB else if Z.of_nat (List.length v) <=? k then UB else Ok (upd_nth v (Z.to_nat k) x).

  (** One iteration of the innermost loop (261-270). *)
  Definition copy_step (f : film) (flip : bool) (v : list T) (e : Z * Z * nat) : outcome (list T) :=
    let '(y, x, i) := e in
    let yy := if flip then fh f - y - 1 else y in
    if y * fw f + x <? 0 then UB else
    match nth_error (data f) (Z.to_nat (y * fw f + x)) with
    | None => UB
    | Some p => obind (conv (comp p i)) (fun t => write v (3 * (yy * fw f + x) + Z.of_nat i) t)
    end.

  (** The iterations of the three nested loops (258-261) in order. *)
  Definition copy_iters (w h : Z) : list (Z * Z * nat) :=
    flat_map (fun y => flat_map (fun x => map (fun i => (y, x, i)) [0%nat; 1%nat; 2%nat]) (upto w)) (upto h).

  (** src/film/film_bitmap.cpp:255-274 copy<T>(flip) *)
  Definition copy (f : film) (flip : bool) : outcome (list T) :=
    if fw f * fh f * 3 <? 0 then Throw ErrLength else
    fold_left (fun acc e => obind acc (fun v => copy_step f flip v e)) (copy_iters (fw f) (fh f))
      (Ok (repeat zero (Z.to_nat (fw f * fh f * 3)))).
End Copy.

(** The float conversion T(t) of copy<float> (264); rounding to single precision is not modelled. *)
Definition to_float (t : R) : outcome R := Ok t.

(** src/film/film_bitmap.cpp:266-269: gamma encoding and quantisation. pow of a negative number with
    a non-integer exponent is NaN, whose conversion to int is undefined; pow(0, 1/2.2) = 0. *)
Definition pow22 (t : R) : option R :=
  if Rlt_dec t 0 then None else if Req_EM_T t 0 then Some 0%R else Some (Rpower t (1 / (22 / 10))).
(** src/film/film_bitmap.cpp:266-269. *)
Definition to_byte (t : R) : outcome Z :=
  match pow22 t with
  | None => UB
  | Some t2 => obind (to_int (256 * t2)) (fun k => Ok (zclamp k 0 255))
  end.

(** A float of the exported image, as far as the sanity check distinguishes them.
    Used by [sanity_loop]: src/film/film_bitmap.cpp:87-103. *)
Inductive fl := Finite | NaN | Inf.

(** One iteration of the loop of sanityCheck (87-103); None: break. The warnings printed are the
    indices reported. *)
Fixpoint sanity_loop (d : list fl) (is : list Z) (invalid : Z) (warned : list Z) : outcome (Z * list Z) :=
  match is with
  | [] => Ok (invalid, warned)
  | i :: r =>
      match nth_error d (Z.to_nat i) with
      | None => UB
      | Some v =>
          let '(n, ws) := match v with Finite => (invalid, warned) | _ => (invalid + 1, warned ++ [i]) end in
          if 10 <=? n then Ok (n, ws) else sanity_loop d r n ws
      end
  end.
(** src/film/film_bitmap.cpp:84-105 sanityCheck: its result and the indices warned about. *)
Definition sanity_check (w h : Z) (d : list fl) : outcome (bool * list Z) :=
  obind (sanity_loop d (upto (w * h)) 0 []) (fun '(n, ws) => Ok (0 <? n, ws)).

(** include/lm/film.h:166-171 raster_to_pixel. The conversion to int is undefined out of range. *)
Definition raster_to_pixel (w h : Z) (rp : vec2) : outcome (Z * Z) :=
  obind (to_int (v2x rp * IZR w)) (fun x => obind (to_int (v2y rp * IZR h)) (fun y =>
  Ok (zclamp x 0 (w - 1), zclamp y 0 (h - 1)))).

(** include/lm/film.h:202-205 splat *)
Definition splat (f : film) (rp : vec2) (v : vec3) : outcome film :=
  obind (raster_to_pixel (fw f) (fh f) rp) (fun '(x, y) => splat_pixel f x y v).

(** include/lm/film.h:180-184 inc_ave: the function applied to the pixel; index + 1 = 0 is not a case
    that occurs for indices >= 0. *)
Definition ave_step (index : Z) (v curr : vec3) : vec3 := vadd curr (vscale (/ IZR (index + 1)) (vsub v curr)).
(** include/lm/film.h:180-184. *)
Definition inc_ave (f : film) (x y index : Z) (v : vec3) : outcome film := update_pixel f x y (ave_step index v).

(** The decomposition of a pixel index by the renderers (src/renderer/renderer_raycast.cpp:71-73,
    src/renderer/renderer_pt.cpp:98-99) and the index used by the film (153). *)
Definition pixel_of_index (w index : Z) : Z * Z := (Z.rem index w, Z.quot index w).
(** src/film/film_bitmap.cpp:153. *)
Definition index_of_pixel (w : Z) (p : Z * Z) : Z := snd p * w + fst p.

(** src/film/film_bitmap.cpp:173-209: what save writes, by extension; writing always succeeds. The
    encoders of stb_image_write are not modelled. *)
Inductive saved := SavedPng (bytes : list Z) | SavedHdr (floats : list R) | SavedPfm (w h : Z) (floats : list R) | NotSaved.
(** The extensions that src/film/film_bitmap.cpp:173-209 distinguishes. *)
Inductive ext := ExtPng | ExtHdr | ExtPfm | ExtOther.
(** src/film/film_bitmap.cpp:156-210. *)
Definition save (f : film) (e : ext) : outcome saved :=
  match e with
  | ExtPng => obind (copy 0 to_byte f true) (fun d => Ok (SavedPng d))
  | ExtHdr => obind (copy 0%R to_float f true) (fun d => Ok (SavedHdr d))
  | ExtPfm => obind (copy 0%R to_float f false) (fun d => Ok (SavedPfm (fw f) (fh f) d))
  | ExtOther => Ok NotSaved
  end.
