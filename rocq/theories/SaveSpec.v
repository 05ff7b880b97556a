(** When a hierarchy can be saved. *)
From Coq Require Import List String ZArith.
From Verif Require Import Base LocSpec SerialModel.
Import ListNotations.
Open Scope string_scope. Open Scope list_scope.

(** The hierarchy owns, at some place, the component with this identity, class, locator and contents. *)
Definition owns (tree : body) (id : nat) (key loc : string) (b : body) : Prop :=
  exists place rep, sub_at tree place = Some (BOwn rep id key loc b).
(** Somewhere in the hierarchy a weak reference points to component [p]. *)
Definition points_to (tree : body) (p : nat) : Prop :=
  exists place rep, sub_at tree place = Some (BWeak rep (WTo p)).
(** No weak reference waits to be resolved. *)
Definition settled (tree : body) : Prop :=
  forall place rep l, sub_at tree place <> Some (BWeak rep (WPending l)).
(** A locator that begins with the locator [r]. *)
Definition begins (r loc : string) : Prop := exists x, loc = (r ++ x)%string.
(** Looking the locator up gives the component with this identity. *)
Definition found {Out} (oid : Out -> nat) (look : string -> outcome (option (Out + body))) (loc : string) (id : nat) : Prop :=
  (exists o, look loc = Ok (Some (inl o)) /\ oid o = id)
  \/ (exists rep key l b, look loc = Ok (Some (inr (BOwn rep id key l b)))).

(** Components are distinct objects: an identity occurs at one place and not outside. *)
Definition one_place {Out} (oid : Out -> nat) (tree : body) : Prop :=
  (forall p q rep rep' id k k' l l' b b', sub_at tree p = Some (BOwn rep id k l b) ->
     sub_at tree q = Some (BOwn rep' id k' l' b') -> p = q)
  /\ forall o p rep id k l b, sub_at tree p = Some (BOwn rep id k l b) -> oid o <> id.

(** A locator whose last name is not empty. *)
Definition ends_in_name (loc : string) : Prop := last (segments loc) "" <> "".
