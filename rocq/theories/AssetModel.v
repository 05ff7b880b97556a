(** Asset group: src/assetgroup.cpp. Two levels:
    - the group alone (a vector of instances and a name index), for histories of loads;
    - a heap of components with owned and weak slots, for replacement and reference updating. *)
From Coq Require Import List String Ascii Arith Bool.
From Verif Require Import Base Assoc LocModel.
Import ListNotations.
Open Scope string_scope. Open Scope list_scope. Open Scope nat_scope. Open Scope bool_scope.

(** ** Names *)

(** The character class of the regular expression in src/assetgroup.cpp:39, [:\w_-], where \w is
    letters, digits and underscore in the default locale. *)
Definition name_char (c : ascii) : bool :=
  let n := nat_of_ascii c in
  (((48 <=? n) && (n <=? 57)) || ((65 <=? n) && (n <=? 90)) || ((97 <=? n) && (n <=? 122))
  || (n =? 95) || (n =? 58) || (n =? 45))%nat.

(** The characters that the regular expression of src/assetgroup.cpp:38-42 accepts. *)
Fixpoint all_name_chars (s : string) : bool :=
  match s with
  | EmptyString => true
  | String c r => name_char c && all_name_chars r
  end.

(** src/assetgroup.cpp:38-42 [valid_asset_name]: regex_match of one or more name characters. *)
Definition valid_asset_name (s : string) : bool := negb (String.eqb s "") && all_name_chars s.

(** ** The group alone *)

(** src/assetgroup.cpp:14-15: assets_ (null entries possible) and asset_index_map_. Instances are
    identified by numbers. *)
Record group := { assets : list (option nat); index_map : list (string * nat) }.
(** A group just created: src/assetgroup.cpp:14-15. *)
Definition group_init : group := {| assets := []; index_map := [] |}.

(** What create_without_construct and construct do with the requested implementation.
    Used by [g_load]: src/assetgroup.cpp:45-116. *)
Inductive creation :=
| Missing                              (* no such implementation *)
| Created (id : nat) (e : option error) (* instance [id]; construct raises [e] or succeeds *).

(** assets_[index] = ...: src/assetgroup.cpp:80. *)
Fixpoint replace_nth {A} (n : nat) (a : A) (l : list A) : list A :=
  match l, n with
  | [], _ => []
  | _ :: r, O => a :: r
  | x :: r, S n' => x :: replace_nth n' a r
  end.

(** src/assetgroup.cpp:45-116 [load_asset], the effect on the group. Line 80 indexes the vector
    without a check: out of range would be UB. The reference update is in the heap model below. *)
Definition g_load (s : group) (name : string) (c : creation) : group * outcome (option nat) :=
  if negb (valid_asset_name name) then (s, Ok None)
  else match c with
       | Missing => (s, Ok None)
       | Created id e =>
           let s' :=
             match alookup name (index_map s) with
             | Some i =>
                 if (i <? List.length (assets s))%nat
                 then Some {| assets := replace_nth i (Some id) (assets s); index_map := index_map s |}
                 else None
             | None => Some {| assets := (assets s ++ [Some id])%list;
                               index_map := aset name (List.length (assets s)) (index_map s) |}
             end in
           match s' with
           | None => (s, UB)
           | Some s' => (s', match e with Some e => Throw e | None => Ok (Some id) end)
           end
       end.

(** src/assetgroup.cpp:118-138 [load_serialized]; [slot] is what deserialization left in the new
    entry, [e] the exception it raised, if any. *)
Definition g_load_serialized (s : group) (name : string) (slot : option nat) (e : option error)
  : group * outcome (option nat) :=
  match alookup name (index_map s) with
  | Some _ => (s, Throw ErrInvalidArgument)
  | None =>
      ({| assets := (assets s ++ [slot])%list; index_map := aset name (List.length (assets s)) (index_map s) |},
       match e with Some e => Throw e | None => Ok slot end)
  end.

(** src/assetgroup.cpp:28-35 [underlying]. *)
Definition g_underlying (s : group) (name : string) : outcome (option nat) :=
  match alookup name (index_map s) with
  | None => Ok None
  | Some i => match nth_error (assets s) i with Some p => Ok p | None => Throw ErrOutOfRange end
  end.

(** src/assetgroup.cpp:22-26 [foreach_underlying]: the pointers visited, in order. *)
Definition g_foreach (s : group) : list (option nat) := assets s.

(** A call of load_asset (src/assetgroup.cpp:45-116), the only one that changes the group here. *)
Inductive g_op :=
| GLoad (name : string) (c : creation)
| GLoadSerialized (name : string) (slot : option nat) (e : option error).
(** src/assetgroup.cpp:45-116. *)
Definition g_step (s : group) (o : g_op) : group * outcome (option nat) :=
  match o with
  | GLoad n c => g_load s n c
  | GLoadSerialized n p e => g_load_serialized s n p e
  end.
(** A history of calls of src/assetgroup.cpp:45-116. *)
Definition g_run (h : list g_op) : group := fold_left (fun s o => fst (g_step s o)) h group_init.

(** ** Heap of components *)

(** A pointer member of a component. [s_owned]: Component::Ptr (unique) versus raw pointer;
    [s_reported]: whether foreach_underlying visits it; [s_type]: the interface T of the pointer.
    Used by [update_ref]: include/lm/component.h:538-544, src/assetgroup.cpp:88-102, include/lm/component.h:520-531. *)
Record slot := { s_owned : bool; s_reported : bool; s_type : nat; s_ptr : option nat }.

(** Answer of the virtual name query [underlying]: the pointer in an own slot, null, or an exception
    (e.g. map::at in src/model/model_wavefrontobj.cpp:71). Simplification: a query that hands out a
    weak pointer (Material_Diffuse, src/material/material_diffuse.cpp:43-48) is not used: well-formed
    heaps (AssetSpec) answer with owned slots only. *)
Inductive answer := ASlot (i : nat) | ANull | ARaise (e : error).

(** A component: locator, implemented interfaces, pointer members and name query. For an asset group
    the slots are assets_ and the query is asset_index_map_. Used by [new_instance]: src/assetgroup.cpp:63. *)
Record obj := { o_loc : string; o_impl : nat -> bool; o_slots : list slot; o_names : string -> answer }.

(** The live components; no counterpart, for the pointers of src/assetgroup.cpp:77-103. *)
Definition heap := nat -> option obj.
(** Assignment to one component of the heap, for src/assetgroup.cpp:77-103. *)
Definition upd (h : heap) (c : nat) (o : obj) : heap := fun d => if (d =? c)%nat then Some o else h d.

(** Helper of [foreach_slot]: src/assetgroup.cpp:97. *)
Definition with_ptr (s : slot) (p : option nat) : slot :=
  {| s_owned := s_owned s; s_reported := s_reported s; s_type := s_type s; s_ptr := p |}.
(** Helper of [foreach_slot]: src/assetgroup.cpp:97. *)
Definition with_slots (o : obj) (l : list slot) : obj :=
  {| o_loc := o_loc o; o_impl := o_impl o; o_slots := l; o_names := o_names o |}.

(** Assign pointer member number [i] of component [c]. Used by [foreach_slot]: src/assetgroup.cpp:97. *)
Definition set_slot (h : heap) (c i : nat) (p : option nat) : heap :=
  match h c with
  | None => h
  | Some o =>
      match nth_error (o_slots o) i with
      | None => h
      | Some s => upd h c (with_slots o (replace_nth i (with_ptr s p) (o_slots o)))
      end
  end.

(** Component::underlying: include/lm/component.h:252. *)
Definition query (h : heap) (c : nat) (n : string) : outcome (option nat) :=
  match h c with
  | None => UB
  | Some o =>
      match o_names o n with
      | ANull => Ok None
      | ARaise e => Throw e
      | ASlot i => match nth_error (o_slots o) i with
                   | Some s => Ok (s_ptr s)
                   | None => Throw ErrOutOfRange
                   end
      end
  end.

(** comp::get<Component>(loc), src/component.cpp:322-361, with [root] the registered root. *)
Definition comp_get (h : heap) (root : nat) (loc : string) : outcome (option nat) :=
  get nat (query h) (Some root) loc.

(** dynamic_cast<T*>(p); UB on a dangling pointer.
    Used by [update_ref]: include/lm/component.h:538-544, src/assetgroup.cpp:88-102, include/lm/component.h:520-531. *)
Definition cast (h : heap) (ty : nat) (p : option nat) : outcome (option nat) :=
  match p with
  | None => Ok None
  | Some q => match h q with
              | None => UB
              | Some o => Ok (if o_impl o ty then Some q else None)
              end
  end.

(** include/lm/component.h:538-544 [visit] on a weak pointer with the visitor of
    src/assetgroup.cpp:88-102, i.e. [update_weak_ref] (include/lm/component.h:520-531): new value of
    the pointer member. *)
Definition update_ref (h : heap) (root asset : nat) (s : slot) : outcome (option nat) :=
  match s_ptr s with
  | None => Ok None
  | Some p =>
      if (p =? asset)%nat then cast h (s_type s) (Some p)
      else match h p with
           | None => UB
           | Some po =>
               if String.eqb (o_loc po) "" then cast h (s_type s) (Some p)
               else obind (comp_get h root (o_loc po)) (cast h (s_type s))
           end
  end.

(** The result of a visit, for src/assetgroup.cpp:88-103. *)
Definition res := (heap * outcome unit)%type.

(** One foreach_underlying call on component [c]; [rec] is the recursive call of line 97. *)
Fixpoint foreach_slot (rec : heap -> nat -> res) (root asset c i : nat) (slots : list slot) (h : heap) : res :=
  match slots with
  | [] => (h, Ok tt)
  | s :: r =>
      let '(h1, o1) :=
        if negb (s_reported s) then (h, Ok tt)
        else if s_owned s then
          match s_ptr s with
          | None => (h, Ok tt)
          | Some d => if (d =? asset)%nat then (h, Ok tt) else rec h d
          end
        else match update_ref h root asset s with
             | Ok q => (set_slot h c i q, Ok tt)
             | Throw e => (h, Throw e)
             | UB => (h, UB)
             | Fuel => (h, Fuel)
             end in
      match o1 with
      | Ok _ => foreach_slot rec root asset c (S i) r h1
      | _ => (h1, o1)
      end
  end.

(** The traversal of src/assetgroup.cpp:88-103 from component [c]. Fuel bounds the recursion depth. *)
Fixpoint update_refs (fuel root asset : nat) (h : heap) (c : nat) : res :=
  match fuel with
  | O => (h, Fuel)
  | S f =>
      match h c with
      | None => (h, UB)
      | Some o => foreach_slot (update_refs f root asset) root asset c 0 (o_slots o) h
      end
  end.

(** Outcome of creating the implementation: none, or a fresh instance [id] implementing [impl] whose
    construct transforms the heap and possibly raises. Used by [load_asset]: src/assetgroup.cpp:45-116. *)
Inductive h_creation :=
| HMissing
| HCreated (id : nat) (impl : nat -> bool) (construct : heap -> heap * option error).

(** The element of assets_ that src/assetgroup.cpp:107-109 appends. *)
Definition asset_slot (id : nat) : slot :=
  {| s_owned := true; s_reported := true; s_type := 0; s_ptr := Some id |}.

(** The instance right after create_without_construct (line 63), placed at group locator [gl]. *)
Definition new_instance (gl name : string) (impl : nat -> bool) : obj :=
  {| o_loc := make_loc gl name; o_impl := impl; o_slots := []; o_names := fun _ => ANull |}.

(** Lines 77-81: entry [i] of the group now holds the new instance. *)
Definition replace_entry (h : heap) (g i id : nat) (p : obj) : heap :=
  upd (set_slot h g i (Some id)) id p.

(** Lines 107-109: the group [go] at [g] gets a new last entry. *)
Definition append_entry (h : heap) (g : nat) (go : obj) (name : string) (id : nat) (p : obj) : heap :=
  let n := List.length (o_slots go) in
  upd (upd h g {| o_loc := o_loc go; o_impl := o_impl go; o_slots := o_slots go ++ [asset_slot id];
                  o_names := fun m => if String.eqb m name then ASlot n else o_names go m |}) id p.

(** src/assetgroup.cpp:45-116 [load_asset] on the group at [g]. Result: heap at the end of the call
    (the replaced instance is released afterwards, its objects are left in the heap so that dangling
    pointers stay recognisable) and the outcome. *)
Definition load_asset (fuel root : nat) (h : heap) (g : nat) (name : string) (cr : h_creation)
  : heap * outcome (option nat) :=
  match h g with
  | None => (h, UB)
  | Some go =>
      if negb (valid_asset_name name) then (h, Ok None)
      else match cr with
      | HMissing => (h, Ok None)
      | HCreated id impl construct =>
          let p := new_instance (o_loc go) name impl in
          match o_names go name with
          | ARaise _ => (h, UB)   (* not an asset group *)
          | ASlot i =>
              let (h2, e) := construct (replace_entry h g i id p) in
              match e with
              | Some e => (h2, Throw e)
              | None =>
                  let (h3, o) := update_refs fuel root id h2 root in
                  (h3, match o with Ok _ => Ok (Some id) | Throw e => Throw e | UB => UB | Fuel => Fuel end)
              end
          | ANull =>
              let (h2, e) := construct (append_entry h g go name id p) in
              (h2, match e with Some e => Throw e | None => Ok (Some id) end)
          end
      end
  end.
