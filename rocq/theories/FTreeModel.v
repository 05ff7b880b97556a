(** Model of the construction of the acceleration structure (src/accel/accel_sahbvh.cpp:155-267) with Float as it is.
    The threads are those of BvhModel, whose helpers on ranges of indices are used; boxes, areas and costs are computed on
    binary64 numbers. *)
From Coq Require Import List Arith ZArith Bool.
From Verif Require Import Base RngModel FltModel FBoundModel FBvhModel.
From Verif Require BvhModel.
Import ListNotations.
Local Open Scope nat_scope.
Notation slice := BvhModel.slice. Notation put := BvhModel.put. Notation upd := BvhModel.upd.
Notation DLeaf := BvhModel.DLeaf. Notation DSplit := BvhModel.DSplit. Notation DUndef := BvhModel.DUndef.
Notation phase := BvhModel.phase. Notation Idle := BvhModel.Idle. Notation Waiting := BvhModel.Waiting. Notation Got := BvhModel.Got.
Notation Added := BvhModel.Added. Notation Exited := BvhModel.Exited.

(** A value-initialised node (163) *)
Definition new_fnode : fnode := mk_fnode new_fbound false 0 0 0 0.
(** Conversion of an int to Float. Used by [fsurface_area]: include/lm/math.h:109-112. *)
Definition fnum (n : nat) : flt := fmake (Z.of_nat n) 0.
(** include/lm/math.h:109-112 *)
Definition fsurface_area (b : fbound) : flt :=
  let d := fvsub (fbmax b) (fbmin b) in
  fmult (fnum 2) (fplus (fplus (fmult (fx d) (fy d)) (fmult (fy d) (fz d))) (fmult (fz d) (fx d))).

Section Build.
  Variable trs : list ftri.
  (** std::sort of a range of indices by the given coordinate of the centres (198-203). *)
  Variable sort : nat -> list nat -> list nat.
  (** Never read (the indices are in range); for trs_[i], src/accel/accel_sahbvh.cpp:193-195. *)
  Definition fdummy : ftri := new_ftri (FV fzero fzero fzero) (FV fzero fzero fzero) (FV fzero fzero fzero).
  (** trs_[i]: src/accel/accel_sahbvh.cpp:193-195. *)
  Definition ftr (i : nat) : ftri := nth i trs fdummy.
  (** trs_.size(): src/accel/accel_sahbvh.cpp:155-170. *)
  Definition fnt : nat := length trs.
  (** The bound of a list of triangles (193-195, 230-236) *)
  Definition fboxes (l : list nat) : fbound := fold_left (fun b i => fmerge b (ftb (ftr i))) l new_fbound.
  (** l[i] + r[i] (231-237, 239): see BvhModel.cost *)
  Definition fcost (l : list nat) (i : nat) : flt :=
    fplus (fmult (fsurface_area (fboxes (firstn i l))) (fnum i)) (fmult (fsurface_area (fboxes (rev (skipn i l)))) (fnum (length l - i))).
  (** The scan of the split positions of one axis (238-245) *)
  Definition fscan (area : flt) (a : nat) (l : list nat) (acc : flt * option (nat * nat)) : flt * option (nat * nat) :=
    fold_left (fun acc i =>
      let c := fplus fone (fdivide (fcost l i) area) in
      if flt_ltb c (fst acc) then (c, Some (i, a)) else acc) (seq 1 (length l - 1)) acc.
  (** 218-252, see BvhModel.decide *)
  Definition fdecide (area : flt) (l : list nat) : BvhModel.decision :=
    if length l <? 2 then DLeaf l else
    let l0 := sort 0 l in let l1 := sort 1 l0 in let l2 := sort 2 l1 in
    let '(b, best) := fscan area 2 l2 (fscan area 1 l1 (fscan area 0 l0 (fInf, None))) in
    if flt_ltb (fnum (length l)) b then DLeaf l2
    else match best with Some (k, a) => DSplit k (sort a l2) | None => DUndef end.

  (** Members and local variables of build: src/accel/accel_sahbvh.cpp:114-117, 155-170. *)
  Record fstate := mk_fstate { fnodes : nat -> fnode; findices : list nat; fqueue : list (nat * nat * nat); fpr : nat; fnn : nat;
                             fdone : bool; fthreads : nat -> phase; fcrashed : bool }.


  (** src/accel/accel_sahbvh.cpp:155-170. With no triangles the count 2*nt-1 is negative and assign
      throws std::length_error. *)
  Definition finit : outcome fstate :=
    if fnt =? 0 then Throw ErrLength else
    Ok (mk_fstate (fun _ => new_fnode) (seq 0 fnt) [(0, 0, fnt)] 0 1 false (fun _ => Idle) false).

  (** Helper of [fstep]: src/accel/accel_sahbvh.cpp:172-257. *)
  Definition fset_phase (s : fstate) (t : nat) (p : phase) : fstate :=
    mk_fstate (fnodes s) (findices s) (fqueue s) (fpr s) (fnn s) (fdone s) (upd (fthreads s) t p) (fcrashed s).

  (** One step of thread [t] (172-257); None if it has none. The work on an entry is one step: entries
      in the hands of different threads are disjoint ranges and different nodes. A sleeping thread
      goes on only with the condition of cv.wait true. done is read outside the lock as well (173,
      187). *)
  Definition fstep (t : nat) (s : fstate) : option fstate :=
    match fthreads s t with
    | Exited => None
    | Idle =>
        if fdone s then Some (fset_phase s t Exited) else
        match fqueue s with
        | [] => Some (fset_phase s t Waiting)
        | (ni, a, b) :: q => Some (mk_fstate (fnodes s) (findices s) q (fpr s) (fnn s) (fdone s) (upd (fthreads s) t (Got ni a b)) (fcrashed s))
        end
    | Waiting =>
        if fdone s then Some (fset_phase s t Exited) else
        match fqueue s with
        | [] => None
        | (ni, a, b) :: q => Some (mk_fstate (fnodes s) (findices s) q (fpr s) (fnn s) (fdone s) (upd (fthreads s) t (Got ni a b)) (fcrashed s))
        end
    | Got ni a b =>
        if fdone s then Some (fset_phase s t Exited) else
        if 2 * fnt - 1 <=? ni then Some (mk_fstate (fnodes s) (findices s) (fqueue s) (fpr s) (fnn s) (fdone s) (fthreads s) true) else
        let l := slice a b (findices s) in
        let bx := fold_left (fun x i => fmerge x (ftb (ftr i))) l (fnb (fnodes s ni)) in
        match fdecide (fsurface_area bx) l with
        | DLeaf l' =>
            Some (mk_fstate (upd (fnodes s) ni (mk_fnode bx true a b (fc1 (fnodes s ni)) (fc2 (fnodes s ni)))) (put a b l' (findices s)) (fqueue s)
              (fpr s + (b - a)) (fnn s) (fdone s) (upd (fthreads s) t Added) (fcrashed s))
        | DSplit k l' =>
            Some (mk_fstate (upd (fnodes s) ni (mk_fnode bx (fleaf (fnodes s ni)) (fns (fnodes s ni)) (fne (fnodes s ni)) (fnn s) (fnn s + 1))) (put a b l' (findices s))
              (fqueue s ++ [(fnn s, a, a + k); (fnn s + 1, a + k, b)]) (fpr s) (fnn s + 2) (fdone s) (upd (fthreads s) t Idle) (fcrashed s))
        | DUndef => Some (mk_fstate (fnodes s) (findices s) (fqueue s) (fpr s) (fnn s) (fdone s) (fthreads s) true)
        end
    | Added => Some (mk_fstate (fnodes s) (findices s) (fqueue s) (fpr s) (fnn s) (fdone s || (fpr s =? fnt)) (upd (fthreads s) t Idle) (fcrashed s))
    end.

  (** Executions with [T] = hardware_concurrency() threads (260-266). *)
  Inductive freach (T : nat) : list nat -> fstate -> Prop :=
  | freach_init s : finit = Ok s -> freach T [] s
  | freach_step l s t s' : freach T l s -> t < T -> fstep t s = Some s' -> freach T (l ++ [t]) s'.

  (** All threads have been joined: src/accel/accel_sahbvh.cpp:264-266. *)
  Definition ffinished (T : nat) (s : fstate) : Prop := forall t, t < T -> fthreads s t = Exited.
End Build.
