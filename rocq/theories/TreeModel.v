(** Printing of the asset hierarchy: src/debug.cpp:83-119. The hierarchy is what foreach_underlying reports
    (UnderModel, ClassModel), which is finite because owners own exclusively. *)
From Coq Require Import List String Ascii Arith Bool.
From Verif Require Import Base LocModel.
Import ListNotations.
Open Scope string_scope. Open Scope list_scope.

(** A component with its locator and key, and the pointers it reports, in order. src/debug.cpp:87-113. *)
Inductive comp :=
| Comp (loc key : string) (under : refs)
with refs :=
| RNil
| RNull (rest : refs)                  (* a null pointer, owned or weak *)
| RWeak (loc : string) (rest : refs)   (* a weak reference to the component with this locator *)
| ROwned (c : comp) (rest : refs).

(** A logged message with the indentation of the logger, relative to that at the call. How the logger writes
    it is LogModel. Used by [print_refs]: src/debug.cpp:87-113. *)
Definition line : Type := nat * string.

(** std::string::erase(0, n) (src/debug.cpp:103): removes min(n, size) characters. *)
Definition erase_front (n : nat) (s : string) : string := substr_from (Nat.min n (String.length s)) s.

(** src/debug.cpp:87-113: the visitor, called for the pointers of one component. LM_INDENT (107) raises the
    indentation until the end of the else branch. *)
Fixpoint print_refs (weak_too : bool) (parent_loc : string) (d : nat) (f : refs) : list line :=
  match f with
  | RNil => []
  | RNull f' => print_refs weak_too parent_loc d f'                                            (* 88-90 *)
  | RWeak loc f' => (if weak_too then [(d, ("-> " ++ loc)%string)] else []) ++ print_refs weak_too parent_loc d f'  (* 92-98 *)
  | ROwned c f' => print_comp weak_too parent_loc d c ++ print_refs weak_too parent_loc d f'   (* 99-112 *)
  end
with print_comp (weak_too : bool) (parent_loc : string) (d : nat) (c : comp) : list line :=
  match c with
  | Comp loc key f =>
      (d, (erase_front (String.length parent_loc) loc ++ " [" ++ key ++ "]")%string) :: print_refs weak_too loc (S d) f
  end.

(** src/debug.cpp:115-118. [root] is comp::get("$.assets"); without one the call is undefined. *)
Definition print_asset_tree (weak_too : bool) (root : option refs) : outcome (list line) :=
  match root with
  | None => UB
  | Some f => Ok ((0, "$.assets") :: print_refs weak_too "$.assets" 1 f)
  end.
