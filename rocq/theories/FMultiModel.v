(** Model of combined volumes (src/volume/volume_multi.cpp) and of tracking in them (src/medium/medium_heterogeneous.cpp)
    with the arithmetic of Float as it is (binary64). Colors are left out. *)
From Coq Require Import List ZArith Bool.
From Flocq Require Import IEEE754.BinarySingleNaN.
From Verif Require Import RngModel FltModel FBoundModel FDirModel FFilmModel FMathModel.
Import ListNotations.
Local Open Scope Z_scope.

(** include/lm/volume.h:22-84: what tracking reads of a volume *)
Record fvolume := mk_fvolume { fv_bound : fbound; fv_max : flt; fv_scalar : fvec -> flt }.
(** src/volume/volume_constant.cpp:36-61 *)
Definition fconstant (b : fbound) (s : flt) : fvolume := mk_fvolume b s (fun _ => s).
(** src/volume/volume_sphere.cpp:74-76; glm::length(v) = sqrt(dot(v, v)) *)
Definition fin_sphere (p : fvec) (r : flt) : bool := flt_ltb (fsqrt (fdot p p)) r.
(** src/volume/volume_sphere.cpp:69-80; the bound is an argument (49-54). *)
Definition fsphere (b : fbound) (pos : fvec) (radius s : flt) : fvolume :=
  mk_fvolume b s (fun p => fmult s (if fin_sphere (fvsub pos p) radius then fone else fzero)).
(** src/volume/volume_multi.cpp:94-96 *)
Definition fbetween (a low high : flt) : bool := flt_leb low a && flt_leb a high.
(** src/volume/volume_multi.cpp:93-101 *)
Definition fin_bound (p : fvec) (b : fbound) : bool :=
  fbetween (fx p) (fx (fbmin b)) (fx (fbmax b)) && fbetween (fy p) (fy (fbmin b)) (fy (fbmax b)) && fbetween (fz p) (fz (fbmin b)) (fz (fbmax b)).
(** src/volume/volume_multi.cpp:104-112: the loop *)
Fixpoint fmulti_scalar (l : list fvolume) (p : fvec) (sum : flt) : flt :=
  match l with
  | [] => sum
  | v :: l => if negb (fin_bound p (fv_bound v)) then fmulti_scalar l p sum else fmulti_scalar l p (fplus sum (fv_scalar v p))
  end.
(** src/volume/volume_multi.cpp:71 in the loop of 60-72 *)
Definition fmulti_max (l : list fvolume) (m : flt) : flt := fold_left (fun m v => fplus m (fv_max v)) l m.
(** src/volume/volume_multi.cpp:57-74 and 80-112; std::min(a, b) = (b < a) ? b : a, std::max(a, b) = (a < b) ? b : a *)
Definition fmulti (l : list fvolume) : fvolume :=
  mk_fvolume (fold_left fmerge (map fv_bound l) new_fbound) (fmulti_max l fzero) (fun p => fmulti_scalar l p fzero).

(** density * inv_max_density (src/medium/medium_heterogeneous.cpp:53 and 68, 93 and 101) *)
Definition fcollide (m density : flt) : flt := fmult density (fdivide fone m).
Section Track.
  (** glm::log *)
  Variable log : flt -> flt.
  (** src/medium/medium_heterogeneous.cpp:94-102: the loop of ratio tracking; [us]: what rng.u() returns; None: it is still
      running when they are used up. *)
  Fixpoint fratio (v : fvolume) (r : fray) (tmax : flt) (us : list flt) (t tr : flt) : option flt :=
    match us with
    | [] => None
    | u :: us =>
        let t := fminus t (fmult (log (fminus fone u)) (fdivide fone (fv_max v))) in
        if flt_leb tmax t then Some tr else
        let p := fvadd (fo r) (fvmul (fd r) t) in
        fratio v r tmax us t (fmult tr (fminus fone (fcollide (fv_max v) (fv_scalar v p))))
    end.
  (** src/medium/medium_heterogeneous.cpp:83-105; one component of the result, all three are equal *)
  Definition ftransmittance (v : fvolume) (r : fray) (tmin tmax : flt) (us : list flt) : option flt :=
    let '(hit, tmin, tmax) := fisect_range (fv_bound v) r tmin tmax in
    if negb hit then Some fone else fratio v r tmax us tmin fone.
  (** src/medium/medium_heterogeneous.cpp:54-78: the loop of delta tracking: None: still running, Some None: boundary, Some (Some t):
      collision at t *)
  Fixpoint fdelta (v : fvolume) (r : fray) (tmax : flt) (us : list flt) (t : flt) : option (option flt) :=
    match us with
    | [] => None
    | u :: us =>
        let t := fminus t (fmult (log (fminus fone u)) (fdivide fone (fv_max v))) in
        if flt_leb tmax t then Some None else
        let p := fvadd (fo r) (fvmul (fd r) t) in
        match us with
        | [] => None
        | w :: us => if flt_ltb w (fcollide (fv_max v) (fv_scalar v p)) then Some (Some t) else fdelta v r tmax us t
        end
    end.
  (** src/medium/medium_heterogeneous.cpp:44-81; the distance only *)
  Definition fsample_distance (v : fvolume) (r : fray) (tmin tmax : flt) (us : list flt) : option (option flt) :=
    let '(hit, tmin, tmax) := fisect_range (fv_bound v) r tmin tmax in
    if negb hit then Some None else fdelta v r tmax us tmin.
End Track.
