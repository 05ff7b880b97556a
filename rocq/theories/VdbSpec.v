(** Vocabulary for OpenVDB volumes. *)
From Coq Require Import List Reals String.
From Verif Require Import Base VecBase GeoModel MatModel PathModel VolModel MarchModel VdbModel.
Import ListNotations.
Open Scope R_scope.

(** A file with densities: none is negative, none above the maximum that the library reports, which is positive *)
Definition sound (g : grid) : Prop := 0 < g_max g /\ forall p, 0 <= g_eval g p <= g_max g.
(** [v] is the volume of the file [g] with density scale [s]. *)
Definition shows (g : grid) (s : R) (v : volume) : Prop :=
  v_bound v = mk_bound (g_lo g) (g_hi g) /\ v_has_scalar v = true /\ v_has_color v = false /\
  v_max v = ret (s * g_max g) /\ forall p, v_scalar v p = ret (s * g_eval g p).
(** The calls of a march: the function sees the stops in order, up to and including the first at which it asks to stop. *)
Inductive visits {A} (body : R -> A -> fl (A * bool)) : list R -> A -> list R -> A -> Prop :=
| visits_end a : visits body [] a [] a
| visits_stop t ts a b : body t a = Val (b, false) -> visits body (t :: ts) a [t] b
| visits_go t ts a b seen c : body t a = Val (b, true) -> visits body ts b seen c -> visits body (t :: ts) a (t :: seen) c.
