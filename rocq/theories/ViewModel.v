(** Model of the numpy arrays that Python gets from film.buffer(): src/film/film_bitmap.cpp:129, 212-218 (the temporary
    buffer) and src/pylm.cpp:446-460 (buffer description). std::vector is modelled by its storage: a block of memory, its
    capacity, and reallocation into a new block when an element does not fit. Memory is counted in Float, not in bytes. *)
From Coq Require Import List Reals ZArith Bool.
From Verif Require Import Base RBase VecBase.
From Verif Require FilmModel.
From Verif Require Import PyModel.
Import ListNotations.
Local Open Scope nat_scope.

(** Storage of data_temp_ (film_bitmap.cpp:129). A block in the heap is None before its allocation and after its release. *)
Record store := mk_store { block : option nat; capacity : nat; heap : nat -> option (list R); fresh : nat }.
(** Assignment to an element, for src/film/film_bitmap.cpp:212-218. *)
Definition put (h : nat -> option (list R)) (b : nat) (x : option (list R)) : nat -> option (list R) := fun c => if Nat.eqb c b then x else h c.
(** Elements of the vector, as Floats. Used by [buffer]: src/film/film_bitmap.cpp:212-218. *)
Definition elements (s : store) : list R := match block s with None => [] | Some b => match heap s b with None => [] | Some l => l end end.
(** vector::clear keeps the storage. Used by [buffer]: src/film/film_bitmap.cpp:212-218. *)
Definition vclear (s : store) : store :=
  match block s with None => s | Some b => mk_store (block s) (capacity s) (put (heap s) b (Some [])) (fresh s) end.
Section Grow.
  (** Capacity after a reallocation, as a function of the old one *)
  Variable grow : nat -> nat.
  (** vector::push_back of a Vec3: three consecutive Floats. Used by [buffer]: src/film/film_bitmap.cpp:212-218. *)
  Definition push (s : store) (v : vec3) : store :=
    let l := elements s ++ [vx v; vy v; vz v] in
    match block s with
    | Some b =>
        if Nat.leb (List.length l) (3 * capacity s) then mk_store (block s) (capacity s) (put (heap s) b (Some l)) (fresh s)
        else mk_store (Some (fresh s)) (grow (capacity s)) (put (put (heap s) b None) (fresh s) (Some l)) (S (fresh s))
    | None => mk_store (Some (fresh s)) (grow (capacity s)) (put (heap s) (fresh s) (Some l)) (S (fresh s))
    end.
  (** A FilmBuffer (include/lm/film.h:42-46), the pointer being the begin of a block *)
  Record view := mk_view { vw : Z; vh : Z; vdata : nat }.
  (** src/film/film_bitmap.cpp:126-129. *)
  Record state := mk_state { flm : FilmModel.film; st : store }.
  (** film_bitmap.cpp:212-218; &data_temp_[0] of an empty vector is undefined *)
  Definition buffer (s : state) : outcome (state * view) :=
    let s1 := fold_left push (FilmModel.data (flm s)) (vclear (st s)) in
    match elements s1, block s1 with
    | _ :: _, Some b => Ok (mk_state (flm s) s1, mk_view (FilmModel.fw (flm s)) (FilmModel.fh (flm s)) b)
    | _, _ => UB
    end.

  (** What a program does with a film; Construct: construct or load called on the existing film.
      src/film/film_bitmap.cpp:137-260, src/pylm.cpp:446-460. *)
  Inductive op :=
  | SetPixel (x y : Z) (v : vec3) | SplatPixel (x y : Z) (v : vec3) | UpdatePixel (x y : Z) (g : vec3 -> vec3)
  | Rescale (k : R) (order : list Z) | Accum (src : FilmModel.any_film) | Clear
  | Construct (w h : Z) | Buffer.
  (** The operations on the pixels themselves (FilmModel). src/film/film_bitmap.cpp:152-254. *)
  Definition film_op (o : op) (f : FilmModel.film) : outcome FilmModel.film :=
    match o with
    | SetPixel x y v => FilmModel.set_pixel f x y v
    | SplatPixel x y v => FilmModel.splat_pixel f x y v
    | UpdatePixel x y g => FilmModel.update_pixel f x y g
    | Rescale k order => FilmModel.rescale f k order
    | Accum src => FilmModel.accum f src
    | Clear => FilmModel.clear f
    | Construct w h => FilmModel.construct w h
    | Buffer => Ok f
    end.
  (** src/film/film_bitmap.cpp:137-260. *)
  Definition step (o : op) (s : state) : outcome (state * list view) :=
    match o with
    | Buffer => obind (buffer s) (fun '(s1, v) => Ok (s1, [v]))
    | _ => obind (film_op o (flm s)) (fun f => Ok (mk_state f (st s), []))
    end.
  (** A history: the state after it and the buffers obtained. src/film/film_bitmap.cpp:137-260. *)
  Fixpoint run (l : list op) (s : state) : outcome (state * list view) :=
    match l with
    | [] => Ok (s, [])
    | o :: r => obind (step o s) (fun '(s1, vs) => obind (run r s1) (fun '(s2, ws) => Ok (s2, vs ++ ws)))
    end.
End Grow.
(** A film just created; data_temp_ is empty and has no storage. src/film/film_bitmap.cpp:126-129. *)
Definition created (f : FilmModel.film) : state := mk_state f (mk_store None 0 (fun _ => None) 0).
(** ~Film_Bitmap releases the storage. src/film/film_bitmap.cpp:126-129. *)
Definition destroy (s : state) : nat -> option (list R) := match block (st s) with None => heap (st s) | Some b => put (heap (st s)) b None end.
(** pylm.cpp:446-460: the array over a buffer; its memory is that of the block when it is read *)
Definition as_array (h : nat -> option (list R)) (v : view) : ndarray R :=
  mk_ndarray true [Z.to_nat (vh v); Z.to_nat (vw v); 3] [3 * vw v; 3; 1]%Z
    (fun i => match h (vdata v) with None => None | Some l => if (i <? 0)%Z then None else nth_error l (Z.to_nat i) end).
