(** Vocabulary for the query in binary64: trees of nodes, sizes. *)
From Coq Require Import Reals List Arith.
From Flocq Require Import Core.Core.
From Verif Require Import RngModel FltModel FBoundModel FBoundSpec FBvhModel.
Local Open Scope nat_scope.

(** Every triangle at the positions [s,e) of [idx] has its box inside [b]. *)
Definition fcovers (trs : list ftri) (idx : list nat) (b : fbound) (s e : nat) : Prop :=
  forall i k tr, s <= i < e -> nth_error idx i = Some k -> nth_error trs k = Some tr -> inside (ftb tr) b.

(** Node [ni] is the root of a tree of height [d] over the positions [s,e), using the nodes [used]. *)
Inductive ftree (trs : list ftri) (nds : nat -> fnode) (idx : list nat) : nat -> nat -> nat -> nat -> list nat -> Prop :=
| ftree_leaf ni s e : s < e -> fleaf (nds ni) = true -> fns (nds ni) = s -> fne (nds ni) = e -> fcovers trs idx (fnb (nds ni)) s e ->
    ftree trs nds idx ni s e 0 (ni :: nil)
| ftree_inner ni s m e d1 d2 u1 u2 : fleaf (nds ni) = false -> fcovers trs idx (fnb (nds ni)) s e ->
    ftree trs nds idx (fc1 (nds ni)) s m d1 u1 -> ftree trs nds idx (fc2 (nds ni)) m e d2 u2 ->
    ftree trs nds idx ni s e (S (Nat.max d1 d2)) (ni :: u1 ++ u2).

(** Coordinates up to 2^200 in size *)
Definition sized (k : Z) (x : flt) : Prop := finite x = true /\ (Rabs (val x) <= bpow radix2 k)%R.
Definition vsized (k : Z) (v : fvec) : Prop := forall i, sized k (fcomp v i).
(** A triangle made of three points of such coordinates, and such a ray *)
Definition usual_tri (k : ftri) : Prop := exists p1 p2 p3, vsized 200 p1 /\ vsized 200 p2 /\ vsized 200 p3 /\ k = new_ftri p1 p2 p3.
Definition usual_ray (r : fray) : Prop := vsized 200 (fo r) /\ vsized 200 (fd r).
(** No component of the direction is so small that its reciprocal overflows: the ray is in no face of any box. *)
Definition slanted (r : fray) : Prop := forall i, finite (fdivide fone (fcomp (fd r) i)) = true.
