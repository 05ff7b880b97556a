(** What it means for a loaded hierarchy to be equivalent to the saved one. *)
From Coq Require Import List String ZArith.
From Verif Require Import Base LocSpec CodecModel CodecSpec SerialModel.
Import ListNotations.
Open Scope string_scope. Open Scope list_scope.

(** The identity of the component at a place of a hierarchy. *)
Definition id_at (tree : body) (place : list dir) : option nat :=
  match sub_at tree place with Some c => comp_id c | None => None end.

(** [p] in the old hierarchy and [q] in the new one sit at the same place. *)
Definition same_place (old new : body) (p q : nat) : Prop :=
  exists place, id_at old place = Some p /\ id_at new place = Some q.

(** [loc] below [r] becomes the same locator below [r']. *)
Definition moved (r r' loc loc' : string) : Prop :=
  exists x, loc = (r ++ x)%string /\ loc' = (r' ++ x)%string.

(** Two hierarchies with the same shape, values, keys and nullness, locators moved from [r] to [r'],
    whose owned components and weak references are related by [same]. *)
Inductive equivalent (same : nat -> nat -> Prop) (r r' : string) : body -> body -> Prop :=
| eq_val t v : equivalent same r r' (BVal t v) (BVal t v)
| eq_unit : equivalent same r r' BUnit BUnit
| eq_pair a b a' b' : equivalent same r r' a a' -> equivalent same r r' b b' -> equivalent same r r' (BPair a b) (BPair a' b')
| eq_vec e e' : equivalent same r r' e e' -> equivalent same r r' (BVec e) (BVec e')
| eq_nil : equivalent same r r' BNil BNil
| eq_cons a b a' b' : equivalent same r r' a a' -> equivalent same r r' b b' -> equivalent same r r' (BCons a b) (BCons a' b')
| eq_null rep : equivalent same r r' (BNull rep) (BNull rep)
| eq_own rep p q key loc loc' b b' : same p q -> moved r r' loc loc' -> equivalent same r r' b b' ->
    equivalent same r r' (BOwn rep p key loc b) (BOwn rep q key loc' b')
| eq_weak_null rep : equivalent same r r' (BWeak rep WNull) (BWeak rep WNull)
| eq_weak rep p q : same p q -> equivalent same r r' (BWeak rep (WTo p)) (BWeak rep (WTo q)).

Definition short (s : string) : Prop := (Z.of_nat (String.length s) < 2 ^ 64)%Z.

(** The fields have the layout of their class; every class is registered; values are representable. *)
Inductive fits (layouts : string -> option lay) : lay -> body -> Prop :=
| ft_val t v : valid t v -> fits layouts (LVal t) (BVal t v)
| ft_unit : fits layouts LUnit BUnit
| ft_pair a b x y : fits layouts a x -> fits layouts b y -> fits layouts (LPair a b) (BPair x y)
| ft_vec a e : fits_all layouts a e -> (elem_count e < 2 ^ 64)%Z -> fits layouts (LVec a) (BVec e)
| ft_null rep : fits layouts (LOwn rep) (BNull rep)
| ft_own rep id key loc b l : layouts key = Some l -> short key -> short loc -> fits layouts l b ->
    fits layouts (LOwn rep) (BOwn rep id key loc b)
| ft_weak_null rep : fits layouts (LWeak rep) (BWeak rep WNull)
| ft_weak rep p : fits layouts (LWeak rep) (BWeak rep (WTo p))
with fits_all (layouts : string -> option lay) : lay -> body -> Prop :=
| fa_nil a : fits_all layouts a BNil
| fa_cons a x y : fits layouts a x -> fits_all layouts a y -> fits_all layouts a (BCons x y).

(** Weak references held anywhere in a hierarchy. *)
Inductive refers : body -> nat -> Prop :=
| rf_pair_l a b p : refers a p -> refers (BPair a b) p
| rf_pair_r a b p : refers b p -> refers (BPair a b) p
| rf_vec e p : refers e p -> refers (BVec e) p
| rf_cons_l a b p : refers a p -> refers (BCons a b) p
| rf_cons_r a b p : refers b p -> refers (BCons a b) p
| rf_own rep id key loc b p : refers b p -> refers (BOwn rep id key loc b) p
| rf_weak rep p : refers (BWeak rep (WTo p)) p.

(** [loc] is [r] itself or lies below it in the locator hierarchy. *)
Definition at_or_below (r loc : string) : Prop := loc = r \/ exists x, loc = (r ++ "." ++ x)%string.

(** Following the names of locator [r] from the outermost component leads to the place of the
    subtree. *)
Fixpoint leads {O} (oq : O -> string -> outcome (option (option O))) (o : O) (l : list string) : Prop :=
  match l with
  | [] => False
  | [n] => oq o n = Ok (Some None)
  | n :: l' => exists o', oq o n = Ok (Some (Some o')) /\ leads oq o' l'
  end.
Definition placed_at {O} (oq : O -> string -> outcome (option (option O))) (o0 : O) (r : string) : Prop :=
  exists l, segments r = "$" :: l /\ last l "" <> "" /\ leads oq o0 l.
