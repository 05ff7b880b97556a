(** What it means for a component to survive saving and loading. *)
From Coq Require Import List String ZArith.
From Verif Require Import Base CodecModel CodecSpec ClassModel.
Import ListNotations.
Open Scope string_scope. Open Scope list_scope.

(** An instance holds a value of the declared type in every member. *)
Definition holds (c : class) (o : state) : Prop :=
  forall n t, In (n, t) (members c) -> exists v : den t, o n = existT den t v /\ valid t v.

(** An instance just created from its class: anything in the plain members (they are not initialised),
    but no value in the optional ones and no element in the containers. *)
Definition starts_empty (v : value) : Prop :=
  match v with
  | existT _ (TOpt _) x => x = None
  | existT _ (TVec _) x => x = []
  | existT _ (TMapS _) x => x = []
  | existT _ (TMapI _) x => x = []
  | _ => True
  end.
Definition created (c : class) (o : state) : Prop := holds c o /\ forall n t, In (n, t) (members c) -> starts_empty (o n).

(** The members that some use of the component reads before writing them. *)
Definition used (c : class) (n : string) : Prop := In n (map fst (members c)) /\ ~ In n (scratch c).

(** A behaviour of the class: anything computed from the members in use. *)
Definition behaviour (c : class) {A} (f : state -> A) : Prop :=
  forall o1 o2, (forall n, used c n -> o1 n = o2 n) -> f o1 = f o2.

(** Loading what was saved gives an instance with the same behaviour, whatever the new instance held,
    and leaves what follows in the stream. *)
Definition survives (c : class) : Prop :=
  forall o fresh rest, holds c o ->
  exists o', load c fresh (save c o ++ rest) = Ok (o', rest)
    /\ forall A (f : state -> A), behaviour c f -> f o' = f o.

(** The classes that do not survive. *)
Definition incomplete : list string :=
  ["texture::constant"; "volume::constant"; "light::env"; "medium::homogeneous"; "scene::default";
   "renderer::raycast"; "renderer::pt"; "renderer::volpt"; "renderer::volpt_naive";
   "renderer::pt_naive_path"; "renderer::pt_nee_path"; "renderer::lt_nee_path"; "renderer::bdpt"; "renderer::bdptopt"].
