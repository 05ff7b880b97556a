(** Model of the acceleration structure (src/accel/accel_sahbvh.cpp): concurrent construction and
    query. The triangles are given as the list trs_ that flattening the scene yields (130-151, see
    SceneModel.v for the traversal). *)
From Coq Require Import Reals ZArith Bool List Arith.
From Verif Require Import Base RBase VecBase GeoModel.
Import ListNotations.
Local Open Scope nat_scope.

(** src/accel/accel_sahbvh.cpp:79-83 (members of types bool and int) *)
Record node := mk_node { nb : bound; leaf : bool; ns : nat; ne : nat; nc1 : nat; nc2 : nat }.
(** A value-initialised node (163). *)
Definition new_node : node := mk_node new_bound false 0 0 0 0.

(** The triangle indices [s,e) of indices_, and replacing them. Used by [step]: src/accel/accel_sahbvh.cpp:172-257. *)
Definition slice (s e : nat) (l : list nat) : list nat := firstn (e - s) (skipn s l).
(** Helper of [step]: src/accel/accel_sahbvh.cpp:172-257. *)
Definition put (s e : nat) (r l : list nat) : list nat := firstn s l ++ r ++ skipn e l.

Section Build.
  Variable trs : list tri.
  (** std::sort of a range of indices by the given coordinate of the centres (198-203). *)
  Variable sort : nat -> list nat -> list nat.

  (** Never read (the indices are in range); for trs_[i], src/accel/accel_sahbvh.cpp:193-195. *)
  Definition dummy_tri : tri := new_tri v0 v0 v0 0 0.
  (** trs_[i]: src/accel/accel_sahbvh.cpp:193-195. *)
  Definition tr (i : nat) : tri := nth i trs dummy_tri.
  (** trs_.size(): src/accel/accel_sahbvh.cpp:155-170. *)
  Definition nt : nat := length trs.

  (** The bound of the node (193-195); also bl and br of the cost computation (230-236). *)
  Definition boxes (l : list nat) : bound := fold_left (fun b i => merge b (tb (tr i))) l new_bound.

  (** l[i] + r[i] for the sorted range [l] (231-237, 239): bl holds the first i triangles merged from
      the front, br the others merged from the back. *)
  Definition cost (l : list nat) (i : nat) : R :=
    (surface_area (boxes (firstn i l)) * INR i + surface_area (boxes (rev (skipn i l))) * INR (length l - i))%R.

  (** The scan of the split positions of one axis (238-245). A division by zero gives a cost that is
      not less than b (infinite or NaN). *)
  Definition scan (area : R) (a : nat) (l : list nat) (acc : R * option (nat * nat)) : R * option (nat * nat) :=
    fold_left (fun acc i =>
      match fdiv (cost l i) area with
      | Some q => if Rlt_dec (1 + q) (fst acc) then ((1 + q)%R, Some (i, a)) else acc
      | None => acc
      end) (seq 1 (length l - 1)) acc.

  (** What a node becomes, src/accel/accel_sahbvh.cpp:218-252: a leaf, a split with the indices in the given order, or undefined. *)
  Inductive decision := DLeaf (l : list nat) | DSplit (k : nat) (l : list nat) | DUndef.

  (** The work on one range of triangles after its bound is known (218-252): the range as left by the
      sorts, and the split position bi. Without any position (ba = -1) sorting would be undefined. *)
  Definition decide (area : R) (l : list nat) : decision :=
    if length l <? 2 then DLeaf l else
    let l0 := sort 0 l in let l1 := sort 1 l0 in let l2 := sort 2 l1 in
    let '(b, best) := scan area 2 l2 (scan area 1 l1 (scan area 0 l0 (Inf, None))) in
    if Rlt_dec (INR (length l)) b then DLeaf l2
    else match best with Some (k, a) => DSplit k (sort a l2) | None => DUndef end.

  (** Where a worker thread is: about to lock the queue (175), asleep in cv.wait (178), with an entry
      in hand (185), after pr += e - s (210), returned. *)
  Inductive phase := Idle | Waiting | Got (ni s e : nat) | Added | Exited.

  (** Members and local variables of build: src/accel/accel_sahbvh.cpp:114-117, 155-170. *)
  Record state := mk_state { nodes : nat -> node; indices : list nat; queue : list (nat * nat * nat); pr : nat; nn : nat;
                             done : bool; threads : nat -> phase; crashed : bool }.

  (** Helper of [step]: src/accel/accel_sahbvh.cpp:172-257. *)
  Definition upd {A} (f : nat -> A) (k : nat) (x : A) : nat -> A := fun j => if Nat.eqb j k then x else f j.

  (** src/accel/accel_sahbvh.cpp:155-170. With no triangles the count 2*nt-1 is negative and assign
      throws std::length_error. *)
  Definition init : outcome state :=
    if nt =? 0 then Throw ErrLength else
    Ok (mk_state (fun _ => new_node) (seq 0 nt) [(0, 0, nt)] 0 1 false (fun _ => Idle) false).

  (** Helper of [step]: src/accel/accel_sahbvh.cpp:172-257. *)
  Definition set_phase (s : state) (t : nat) (p : phase) : state :=
    mk_state (nodes s) (indices s) (queue s) (pr s) (nn s) (done s) (upd (threads s) t p) (crashed s).

  (** One step of thread [t] (172-257); None if it has none. The work on an entry is one step: entries
      in the hands of different threads are disjoint ranges and different nodes. A sleeping thread
      goes on only with the condition of cv.wait true. done is read outside the lock as well (173,
      187). *)
  Definition step (t : nat) (s : state) : option state :=
    match threads s t with
    | Exited => None
    | Idle =>
        if done s then Some (set_phase s t Exited) else
        match queue s with
        | [] => Some (set_phase s t Waiting)
        | (ni, a, b) :: q => Some (mk_state (nodes s) (indices s) q (pr s) (nn s) (done s) (upd (threads s) t (Got ni a b)) (crashed s))
        end
    | Waiting =>
        if done s then Some (set_phase s t Exited) else
        match queue s with
        | [] => None
        | (ni, a, b) :: q => Some (mk_state (nodes s) (indices s) q (pr s) (nn s) (done s) (upd (threads s) t (Got ni a b)) (crashed s))
        end
    | Got ni a b =>
        if done s then Some (set_phase s t Exited) else
        if 2 * nt - 1 <=? ni then Some (mk_state (nodes s) (indices s) (queue s) (pr s) (nn s) (done s) (threads s) true) else
        let l := slice a b (indices s) in
        let bx := fold_left (fun x i => merge x (tb (tr i))) l (nb (nodes s ni)) in
        match decide (surface_area bx) l with
        | DLeaf l' =>
            Some (mk_state (upd (nodes s) ni (mk_node bx true a b (nc1 (nodes s ni)) (nc2 (nodes s ni)))) (put a b l' (indices s)) (queue s)
              (pr s + (b - a)) (nn s) (done s) (upd (threads s) t Added) (crashed s))
        | DSplit k l' =>
            Some (mk_state (upd (nodes s) ni (mk_node bx (leaf (nodes s ni)) (ns (nodes s ni)) (ne (nodes s ni)) (nn s) (nn s + 1))) (put a b l' (indices s))
              (queue s ++ [(nn s, a, a + k); (nn s + 1, a + k, b)]) (pr s) (nn s + 2) (done s) (upd (threads s) t Idle) (crashed s))
        | DUndef => Some (mk_state (nodes s) (indices s) (queue s) (pr s) (nn s) (done s) (threads s) true)
        end
    | Added => Some (mk_state (nodes s) (indices s) (queue s) (pr s) (nn s) (done s || (pr s =? nt)) (upd (threads s) t Idle) (crashed s))
    end.

  (** Executions with [T] = hardware_concurrency() threads (260-266). *)
  Inductive reach (T : nat) : list nat -> state -> Prop :=
  | reach_init s : init = Ok s -> reach T [] s
  | reach_step l s t s' : reach T l s -> t < T -> step t s = Some s' -> reach T (l ++ [t]) s'.

  (** All threads have been joined: src/accel/accel_sahbvh.cpp:264-266. *)
  Definition finished (T : nat) (s : state) : Prop := forall t, t < T -> threads s t = Exited.
End Build.

(** ** Query *)
Section Query.
  Variable trs : list tri.
  Variable nds : nat -> node.
  Variable num_nodes : nat.
  Variable idx : list nat.
  Variable r : ray.
  Variable tmin : R.

  (** mh with mi, and the current tmax (271-272) *)
  Record best := mk_best { b_hit : option (hit * nat); b_tmax : R }.

  (** The loop over the triangles of a leaf (285-291); the subscripts are unchecked. *)
  Fixpoint leaf_loop (is : list nat) (b : best) : outcome best :=
    match is with
    | [] => Ok b
    | i :: rest =>
        match nth_error idx i with
        | None => UB
        | Some k =>
            match nth_error trs k with
            | None => UB
            | Some tri =>
                match tri_isect tri r tmin (b_tmax b) with
                | Some h => leaf_loop rest (mk_best (Some (h, i)) (ht h))
                | None => leaf_loop rest b
                end
            end
        end
    end.

  (** The main loop (275-292); the stack has room for 99 entries and is not checked. *)
  Fixpoint run (fuel : nat) (stack : list nat) (b : best) : outcome best :=
    match fuel with
    | O => Fuel
    | S f =>
        match stack with
        | [] => Ok b
        | ni :: rest =>
            if num_nodes <=? ni then Throw ErrOutOfRange else
            let n := nds ni in
            if negb (isect (nb n) r tmin (b_tmax b)) then run f rest b else
            if negb (leaf n) then
              if 99 <? length rest + 2 then UB else run f (nc2 n :: nc1 n :: rest) b
            else obind (leaf_loop (seq (ns n) (ne n - ns n)) b) (fun b' => run f rest b')
        end
    end.

  (** src/accel/accel_sahbvh.cpp:293-298: distance, coordinates, index of the flattened node, face *)
  Definition query (fuel : nat) (tmax : R) : outcome (option (R * (R * R) * Z * Z)) :=
    obind (run fuel [0] (mk_best None tmax)) (fun b =>
      match b_hit b with
      | None => Ok None
      | Some (h, i) =>
          match nth_error idx i with
          | None => Throw ErrOutOfRange
          | Some k =>
              match nth_error trs k with
              | None => Throw ErrOutOfRange
              | Some tri => Ok (Some (b_tmax b, (hu h, hv h), tflat tri, tface tri))
              end
          end
      end).
End Query.
