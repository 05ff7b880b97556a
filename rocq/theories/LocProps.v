(** C01 and C02: locators. *)
From Coq Require Import List String Ascii.
From Verif Require Import Base LocModel LocSpec LocProofs.
Import ListNotations.
Open Scope string_scope.

(** C01: composing and decomposing a locator loses nothing. *)
Theorem C01_parent_of_make_loc : forall base child,
  dot_free child -> parent_loc (make_loc base child) = base.
Proof. exact parent_make_loc. Qed.
Print Assumptions C01_parent_of_make_loc.

Theorem C01_name_of_make_loc : forall base child,
  dot_free child -> name_of (make_loc base child) = child.
Proof. exact name_make_loc. Qed.
Print Assumptions C01_name_of_make_loc.

Theorem C01_make_loc_injective : forall b1 n1 b2 n2,
  dot_free n1 -> dot_free n2 -> make_loc b1 n1 = make_loc b2 n2 -> b1 = b2 /\ n1 = n2.
Proof. exact make_loc_inj. Qed.
Print Assumptions C01_make_loc_injective.

(** Every string is either a composed locator, decomposed exactly by parent/name, or dot-free, in which
    case the parent is empty. *)
Theorem C01_decompose : forall s,
  (exists a n, dot_free n /\ s = make_loc a n /\ parent_loc s = a /\ name_of s = n)
  \/ (dot_free s /\ parent_loc s = "" /\ name_of s = s).
Proof. exact loc_decompose. Qed.
Print Assumptions C01_decompose.

Example C01_example :
  dot_free "mesh_1" /\ parent_loc "$.assets.model.mesh_1" = "$.assets.model"
  /\ name_of "$.assets.model.mesh_1" = "mesh_1".
Proof. cbn. repeat split; discriminate. Qed.

(** The dot-freeness hypothesis is needed. *)
Example C01_dotted_child : parent_loc (make_loc "$" "a.b") = "$.a".
Proof. reflexivity. Qed.

(** C02: lookup is a walk along the segments, for every hierarchy, root and string. *)
Theorem C02_get_is_walk : forall comp underlying (root : option comp) locator,
  get comp underlying root locator =
  match root, segments locator with
  | Some r, h :: t =>
      if String.eqb h "$" then walk underlying r (drop_one_trailing_empty t) else Ok None
  | _, _ => Ok None
  end.
Proof. exact get_spec. Qed.
Print Assumptions C02_get_is_walk.

(** In a hierarchy where every component knows its place, looking up a component's own locator
    returns that component. *)
Theorem C02_get_own_locator : forall comp underlying loc (root c : comp),
  well_located underlying loc root -> reaches underlying root c ->
  get comp underlying (Some root) (loc c) = Ok (Some c).
Proof. exact get_own_loc. Qed.
Print Assumptions C02_get_own_locator.

Theorem C02_locators_unique : forall comp underlying loc (root c1 c2 : comp),
  well_located underlying loc root -> reaches underlying root c1 -> reaches underlying root c2 ->
  loc c1 = loc c2 -> c1 = c2.
Proof. exact loc_unique. Qed.
Print Assumptions C02_locators_unique.

(** The lookup terminates for every string (the model's fuel is never exhausted). *)
Theorem C02_get_terminates : forall comp underlying (root : option comp) locator,
  (forall c n, underlying c n <> Fuel) -> get comp underlying root locator <> Fuel.
Proof. exact get_never_fuel. Qed.
Print Assumptions C02_get_terminates.

(** A three-level hierarchy $ -> assets -> a satisfying the hypotheses. *)
Inductive ex_comp := ExRoot | ExAssets | ExA.
Definition ex_query (c : ex_comp) (n : string) : outcome (option ex_comp) :=
  match c with
  | ExRoot => Ok (if String.eqb n "assets" then Some ExAssets else None)
  | ExAssets => Ok (if String.eqb n "a" then Some ExA else None)
  | ExA => Ok None
  end.
Definition ex_loc (c : ex_comp) : string :=
  match c with ExRoot => "$" | ExAssets => "$.assets" | ExA => "$.assets.a" end.
Example C02_hypotheses_hold :
  well_located ex_query ex_loc ExRoot /\ reaches ex_query ExRoot ExA
  /\ get _ ex_query (Some ExRoot) "$.assets.a" = Ok (Some ExA)
  /\ get _ ex_query (Some ExRoot) "$.assets.b" = Ok None
  /\ get _ ex_query (Some ExRoot) "assets.a" = Ok None
  /\ get _ ex_query (Some ExRoot) "" = Ok None.
Proof.
  split; [|split; [|repeat split]].
  - split; [reflexivity|]. intros c n c' H. destruct c; cbn in H; [| |discriminate].
    + destruct (String.eqb_spec n "assets") as [->|]; [|discriminate]. injection H as <-.
      repeat split; try discriminate.
    + destruct (String.eqb_spec n "a") as [->|]; [|discriminate]. injection H as <-.
      repeat split; try discriminate.
  - apply (reaches_step _ _ ExAssets _ "a"); [|reflexivity].
    apply (reaches_step _ _ ExRoot _ "assets"); [constructor | reflexivity].
Qed.
