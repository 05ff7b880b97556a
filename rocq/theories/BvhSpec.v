(** Independent vocabulary for the acceleration structure. *)
From Coq Require Import Reals ZArith List Arith Permutation Sorted.
From Verif Require Import Base VecBase GeoModel GeoSpec BvhModel.
Import ListNotations.
Local Open Scope nat_scope.

(** Every triangle at the positions [s,e) of [idx] has its box inside [b]. *)
Definition covers (trs : list tri) (idx : list nat) (b : bound) (s e : nat) : Prop :=
  forall i k tr, s <= i < e -> nth_error idx i = Some k -> nth_error trs k = Some tr -> box_le (tb tr) b.

(** Node [ni] is the root of a tree of height [d] over the positions [s,e), using the nodes [used]:
    a leaf refers to these positions, an inner node has two children that divide them. *)
Inductive tree (trs : list tri) (nds : nat -> node) (idx : list nat) : nat -> nat -> nat -> nat -> list nat -> Prop :=
| tree_leaf ni s e : s < e -> leaf (nds ni) = true -> ns (nds ni) = s -> ne (nds ni) = e -> covers trs idx (nb (nds ni)) s e ->
    tree trs nds idx ni s e 0 [ni]
| tree_inner ni s m e d1 d2 u1 u2 : leaf (nds ni) = false -> covers trs idx (nb (nds ni)) s e ->
    tree trs nds idx (nc1 (nds ni)) s m d1 u1 -> tree trs nds idx (nc2 (nds ni)) m e d2 u2 ->
    tree trs nds idx ni s e (S (Nat.max d1 d2)) (ni :: u1 ++ u2).

(** The order of [l] by increasing key. *)
Definition sorted_by (key : nat -> R) (l : list nat) : Prop := Sorted.StronglySorted (fun i j => (key i <= key j)%R) l.

(** What std::sort guarantees when it sorts triangle indices by a coordinate of the centres. *)
Definition sorts (trs : list tri) (sort : nat -> list nat -> list nat) : Prop :=
  forall a l, Permutation (sort a l) l /\ sorted_by (fun i => comp (tc (nth i trs dummy_tri)) a) (sort a l).
