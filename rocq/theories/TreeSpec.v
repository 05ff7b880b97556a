(** What a printed asset tree tells its reader. *)
From Coq Require Import List String Ascii Arith Bool.
From Verif Require Import TreeModel.
Import ListNotations.
Open Scope string_scope. Open Scope list_scope.

(** Locators as components get them: that of the owner, a dot and a name without blanks. *)
Fixpoint no_blank (s : string) : Prop := match s with "" => True | String c r => c <> " "%char /\ no_blank r end.
Fixpoint located (parent : string) (f : refs) : Prop :=
  match f with
  | RNil => True
  | RNull f' => located parent f'
  | RWeak _ f' => located parent f'
  | ROwned c f' => located_comp parent c /\ located parent f'
  end
with located_comp (parent : string) (c : comp) : Prop :=
  match c with Comp loc _ f => (exists name, loc = (parent ++ "." ++ name)%string /\ no_blank name) /\ located loc f end.

(** The part of a hierarchy that is meant to be seen. *)
Fixpoint seen (weak_too : bool) (f : refs) : refs :=
  match f with
  | RNil => RNil
  | RNull f' => seen weak_too f'
  | RWeak l f' => if weak_too then RWeak l (seen weak_too f') else seen weak_too f'
  | ROwned (Comp l k g) f' => ROwned (Comp l k (seen weak_too g)) (seen weak_too f')
  end.

(** The locators and keys of all owned components, owners before what they own. *)
Fixpoint inventory (f : refs) : list (string * string) :=
  match f with
  | RNil => []
  | RNull f' => inventory f'
  | RWeak _ f' => inventory f'
  | ROwned (Comp l k g) f' => (l, k) :: inventory g ++ inventory f'
  end.

(** A reader: an indented line belongs to the last line above it that is indented less. Joining what stands
    before the blank on these lines gives the locator. [above] has the locators of the lines around. *)
Fixpoint upto_blank (s : string) : string :=
  match s with "" => "" | String c r => if Ascii.eqb c " " then "" else String c (upto_blank r) end.
Definition is_weak (s : string) : bool := match s with String c _ => Ascii.eqb c "-" | "" => false end.
Fixpoint locators_read (above : list string) (ls : list line) : list string :=
  match ls with
  | [] => []
  | (d, s) :: ls' =>
      if is_weak s then locators_read above ls'
      else let loc := (String.concat "" [nth (d - 1) above ""; upto_blank s])%string in
           loc :: locators_read (firstn d above ++ [loc]) ls'
  end.
