(** Specification vocabulary for asset groups and reference updating. *)
From Coq Require Import List String Ascii Arith Bool.
From Verif Require Import Base LocSpec AssetModel.
Import ListNotations.
Open Scope string_scope. Open Scope list_scope. Open Scope nat_scope. Open Scope bool_scope.

(** ** Group histories *)

(** A name is acceptable if it is non-empty and made of letters, digits, '_', ':' and '-'. *)
Definition ok_char (c : ascii) : Prop :=
  In c (list_ascii_of_string "abcdefghijklmnopqrstuvwxyzABCDEFGHIJKLMNOPQRSTUVWXYZ0123456789_:-").
Definition ok_name (s : string) : Prop :=
  s <> "" /\ forall c, In c (list_ascii_of_string s) -> ok_char c.

(** The ordered list of (name, instance) a history produces. *)
Fixpoint upsert (n : string) (p : option nat) (l : list (string * option nat)) : list (string * option nat) :=
  match l with
  | [] => [(n, p)]
  | (m, q) :: r => if String.eqb n m then (m, p) :: r else (m, q) :: upsert n p r
  end.
Definition has (n : string) (l : list (string * option nat)) : Prop := In n (map fst l).

Inductive entries : list g_op -> list (string * option nat) -> Prop :=
| en_nil : entries [] []
| en_reject h l n c : entries h l -> ~ ok_name n -> entries (h ++ [GLoad n c])%list l
| en_missing h l n : entries h l -> entries (h ++ [GLoad n Missing])%list l
| en_load h l n id e : entries h l -> ok_name n ->
    entries (h ++ [GLoad n (Created id e)])%list (upsert n (Some id) l)
| en_ser_dup h l n p e : entries h l -> has n l -> entries (h ++ [GLoadSerialized n p e])%list l
| en_ser h l n p e : entries h l -> ~ has n l ->
    entries (h ++ [GLoadSerialized n p e])%list (l ++ [(n, p)])%list.

(** ** Heaps *)

(** Pointer member [i] of component [c]. *)
Definition slot_at (h : heap) (c i : nat) : option slot :=
  match h c with Some o => nth_error (o_slots o) i | None => None end.

(** [owns h a b]: a holds b by an owning pointer; [shows h a b]: and reports it when visited. *)
Definition owns (h : heap) (a b : nat) : Prop :=
  exists i s, slot_at h a i = Some s /\ s_owned s = true /\ s_ptr s = Some b.
Definition shows (h : heap) (a b : nat) : Prop :=
  exists i s, slot_at h a i = Some s /\ s_owned s = true /\ s_reported s = true /\ s_ptr s = Some b.

Inductive star {A} (R : A -> A -> Prop) (a : A) : A -> Prop :=
| star_refl : star R a a
| star_step b c : star R a b -> R b c -> star R a c.

(** [live h root p]: p is kept alive by the root. *)
Definition live (h : heap) (root p : nat) : Prop := star (owns h) root p.

(** A reported weak reference. *)
Definition reports (h : heap) (c i : nat) (s : slot) : Prop :=
  slot_at h c i = Some s /\ s_owned s = false /\ s_reported s = true.

(** Components visited from the root through reported owning pointers without entering [asset]. *)
Definition visited (h : heap) (root asset c : nat) : Prop :=
  star (fun a b => shows h a b /\ b <> asset) root c.

(** A well-formed hierarchy: name queries answer with own existing owning pointers, every component
    knows its locator, every pointer to a component points to an existing object, every component has
    at most one owner, the root has none. *)
Record wf (h : heap) (root : nat) : Prop := {
  wf_root : exists o, h root = Some o;
  wf_names : forall c o n i, h c = Some o -> o_names o n = ASlot i ->
             exists s, nth_error (o_slots o) i = Some s /\ s_owned s = true;
  wf_located : well_located (query h) (fun c => match h c with Some o => o_loc o | None => "" end) root;
  wf_closed : forall c i s p, slot_at h c i = Some s -> s_ptr s = Some p -> exists o, h p = Some o;
  wf_one_owner : forall a i s a' i' s' b,
      slot_at h a i = Some s -> s_owned s = true -> s_ptr s = Some b ->
      slot_at h a' i' = Some s' -> s_owned s' = true -> s_ptr s' = Some b -> a = a' /\ i = i';
  wf_root_unowned : forall a, ~ owns h a root
}.

(** Components that a visitor starting at the root gets to see. *)
Definition seen (h : heap) (root c : nat) : Prop := star (shows h) root c.

(** No reported reference is stale: whatever a component seen from the root reports is kept alive by
    the root. *)
Definition no_stale (h : heap) (root : nat) : Prop :=
  forall c i s p, seen h root c -> reports h c i s -> s_ptr s = Some p -> live h root p.

(** What construct may do, as a relation between the heap before and after, for the asset [id]:
    existing components are not touched, the asset keeps its locator and interfaces, the hierarchy stays
    well formed, new components own new components only, and the references of the new components were
    obtained by lookup, so they denote components kept alive by the root. *)
Record constructs (root id : nat) (h1 h2 : heap) : Prop := {
  cs_frame : forall c, c <> id -> h1 c <> None -> h2 c = h1 c;
  cs_asset : exists o1 o2, h1 id = Some o1 /\ h2 id = Some o2 /\ o_loc o2 = o_loc o1 /\ o_impl o2 = o_impl o1;
  cs_wf : wf h2 root;
  cs_own : forall c d, c = id \/ h1 c = None -> owns h2 c d -> h1 d = None;
  cs_refs : forall c i s p, star (owns h2) id c -> reports h2 c i s -> s_ptr s = Some p -> live h2 root p
}.

(** What a reported reference [p] of interface [ty] must become: unchanged if null or without locator,
    otherwise the component now found at its locator, or null if there is none or if it does not have
    the interface. *)
Inductive refreshed (h : heap) (root : nat) (ty : nat) : option nat -> option nat -> Prop :=
| rf_null : refreshed h root ty None None
| rf_noloc p o : h p = Some o -> o_loc o = "" -> o_impl o ty = true -> refreshed h root ty (Some p) (Some p)
| rf_noloc_other p o : h p = Some o -> o_loc o = "" -> o_impl o ty = false -> refreshed h root ty (Some p) None
| rf_found p o q oq : h p = Some o -> o_loc o <> "" -> comp_get h root (o_loc o) = Ok (Some q) ->
    h q = Some oq -> o_impl oq ty = true -> refreshed h root ty (Some p) (Some q)
| rf_other p o q oq : h p = Some o -> o_loc o <> "" -> comp_get h root (o_loc o) = Ok (Some q) ->
    h q = Some oq -> o_impl oq ty = false -> refreshed h root ty (Some p) None
| rf_gone p o : h p = Some o -> o_loc o <> "" -> comp_get h root (o_loc o) = Ok None ->
    refreshed h root ty (Some p) None.
