(** Independent vocabulary: all pairs of a pixel below [np] and a sample below [ns], once each. *)
From Coq Require Import List ZArith.
Import ListNotations.
Open Scope Z_scope.

Definition each_pair_once (np ns : Z) (l : list (Z * Z)) : Prop :=
  NoDup l /\ forall p s, In (p, s) l <-> 0 <= p < np /\ 0 <= s < ns.
