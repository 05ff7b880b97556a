(** Independent vocabulary: sums of weights. *)
From Coq Require Import List Reals.
From Verif Require Import Base DistModel.
Import ListNotations.
Open Scope R_scope.

Definition rsum (l : list R) : R := fold_right Rplus 0 l.
Definition nonneg (l : list R) : Prop := forall x, In x l -> 0 <= x.

(** The distribution made of the given weights: add each, then normalize. *)
Definition made_of (ws : list R) : dist := norm (fold_left add (map Some ws) empty_dist).

(** Entry in row [y] and column [x] of a table given row by row. *)
Definition entry (w : nat) (tbl : list R) (y x : nat) : R := nth (y * w + x) tbl 0.
(** Row [y] of the table. *)
Definition row (w : nat) (tbl : list R) (y : nat) : list R := map (entry w tbl y) (seq 0 w).
