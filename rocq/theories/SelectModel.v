(** Model of light selection (src/scene.cpp:374-387). *)
From Coq Require Import Reals ZArith.
From Verif Require Import RBase.
Open Scope R_scope.

(** src/scene.cpp:374-382 sample_light_selection, [n] = lights_.size(): light index and probability
    (None: the division by zero gives an infinity). *)
Definition sample_light_selection (n : nat) (u : R) : Z * option R :=
  (zclamp (trunc (u * INR n)) 0 (Z.of_nat n - 1), fdiv 1 (INR n)).

(** src/scene.cpp:384-387 pdf_light_selection; the light index is not used. *)
Definition pdf_light_selection (n : nat) (i : Z) : option R := fdiv 1 (INR n).
