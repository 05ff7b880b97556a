(** Vocabulary for the parameters of the Embree structures. *)
From Coq Require Import List String ZArith Bool.
From Verif Require Import Base JsonModel EmbModel.
Import ListNotations.
Local Open Scope string_scope. Local Open Scope Z_scope.

(** The name of each scene flag of Embree (constants RTC_SCENE_FLAG): bit number and property *)
Definition flag_names : list (Z * string) := [(0, "dynamic"); (1, "compact"); (2, "robust"); (3, "filter")].
(** The properties of the scene flags are booleans where they are given. *)
Definition flags_typed {F} (j : json F) : Prop := forall i name, In (i, name) flag_names -> forall v, jfind name j = Some v -> exists b, v = JBool b.
(** The user asks for a flag. *)
Definition asked {F} (j : json F) (name : string) : bool := match jfind name j with Some (JBool b) => b | _ => false end.
(** The flags are exactly those asked for. *)
Definition exactly {F} (j : json F) (sf : Z) : Prop :=
  (forall i name, In (i, name) flag_names -> Z.testbit sf i = asked j name) /\ forall i, 4 <= i -> Z.testbit sf i = false.
(** What the user says on a number: nothing, or a number of the type *)
Definition says {F} (j : json F) (name : string) (lo hi : Z) (o : option Z) : Prop :=
  match o with None => jfind name j = None | Some z => jfind name j = Some (JInt z) /\ lo <= z < hi end.
Definition says_cost {F} (j : json F) (name : string) (o : option F) : Prop :=
  match o with None => jfind name j = None | Some x => jfind name j = Some (JFloat x) end.
Definition or_else {A} (o : option A) (d : A) : A := match o with Some x => x | None => d end.
