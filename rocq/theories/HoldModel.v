(** Model of the lifetime of a component seen from Python and C++ (include/lm/pylm.h, include/lm/component.h). *)
From Coq Require Import List ZArith Bool.
From Verif Require Import Base HoldSpec.
Import ListNotations.
Open Scope Z_scope.

(** Language in which the class of the component is written.
    A class of either kind is created in include/lm/pylm.h:302-331 or include/lm/component.h:735-750. *)
Inductive kind := InPython | InCpp.
(** One component: reference count of its Python object, whether that object and the C++ object exist, whether the Python
    object's holder owns the C++ object, whether owner_ref_ (component.h:106) holds a reference, whether release_func_
    (component.h:103) is set, and how often the component was destroyed: for InPython the Python object with the state of the
    instance, for InCpp the C++ object. *)
Record comp := mk_comp { rc : Z; has_obj : bool; has_cpp : bool; holder : bool; owner : bool; release_set : bool; destroyed : nat }.

(** The reference count set, for include/lm/pylm.h:318-356. *)
Definition with_rc (z : Z) (s : comp) := mk_comp z (has_obj s) (has_cpp s) (holder s) (owner s) (release_set s) (destroyed s).
(** Py_INCREF. include/lm/pylm.h:337-356. *)
Definition incref (s : comp) : comp := with_rc (rc s + 1) s.
(** The release functions: of C++ classes [delete p] (component.h:748-750, LM_SAFE_DELETE); of Python classes pylm.h:318-331. ComponentDeleter
    (component.h:302-311) calls it if it is set. The destruction of a Python object runs the deleter of its holder
    (pybind11 class_::dealloc); when that does nothing the C++ object is leaked. [fuel]: nesting of destructions. *)
Fixpoint decref (fuel : nat) (k : kind) (s : comp) {struct fuel} : outcome comp :=
  match fuel with
  | O => Fuel
  | S fuel =>
      let s := with_rc (rc s - 1) s in
      if rc s =? 0 then
        let s := mk_comp 0 false (has_cpp s) (holder s) (owner s) (release_set s) (match k with InPython => S (destroyed s) | InCpp => destroyed s end) in
        if holder s then deleter fuel k s else Ok s
      else Ok s
  end
with deleter (fuel : nat) (k : kind) (s : comp) {struct fuel} : outcome comp :=
  match fuel with
  | O => Fuel
  | S fuel =>
      if release_set s then
        match k with
        | InCpp => if has_cpp s then Ok (mk_comp (rc s) (has_obj s) false (holder s) (owner s) (release_set s) (S (destroyed s))) else UB
        | InPython =>
            if has_obj s && owner s then
              let s := incref s in                    (* auto instPy = any_cast(ownerRef) *)
              obind (decref fuel k s) (fun s =>       (* instPy.dec_ref() *)
              let s := mk_comp (rc s) (has_obj s) (has_cpp s) (holder s) (owner s) false (destroyed s) in
              decref fuel k s)                        (* ~instPy *)
            else UB
        end
      else Ok s
  end.

(** Creation by the framework: component.cpp:180-195 with pylm.h:308-317 (impl_class() makes one reference, ownerRef another, the
    destruction of instPy drops one) or the create function of a C++ class *)
Definition create (k : kind) : outcome comp :=
  match k with
  | InPython => let s := mk_comp 1 true true true false false 0 in
                let s := incref (mk_comp (rc s) true true true true false 0) in
                obind (decref 4 k s) (fun s => Ok (mk_comp (rc s) (has_obj s) (has_cpp s) (holder s) (owner s) true (destroyed s)))
  | InCpp => Ok (mk_comp 0 false true false false true 0)
  end.
(** pylm.h:337-356 cast_to_python_object: the reference in ownerRef, or a new object that takes ownership *)
Definition cast_to_python (s : comp) : comp :=
  if owner s then incref s else mk_comp 1 true (has_cpp s) true (owner s) (release_set s) (destroyed s).
(** Returning a Component* with return_value_policy::reference: the object known for this pointer, or a new one that owns nothing.
    src/pylm.cpp:160-162, 185-188, 210-212. *)
Definition get_reference (s : comp) : comp :=
  if has_obj s then incref s else mk_comp 1 true (has_cpp s) false (owner s) (release_set s) (destroyed s).

(** An event of the history (the caller respects [after] of the specification).
    include/lm/pylm.h:318-384, include/lm/component.h:302-311, 748-750. *)
Definition step (k : kind) (o : event) (s : comp) : outcome comp :=
  match o with
  | PythonGets => Ok (get_reference s)
  | PythonCopies => Ok (incref s)
  | PythonDrops => decref 6 k s
  | CppReleases => deleter 6 k s
  | PythonUses | CppUses => if has_cpp s && match k with InPython => has_obj s | InCpp => true end then Ok s else UB
  end.
(** A history of these events (include/lm/pylm.h:318-384). *)
Fixpoint run (k : kind) (h : list event) (s : comp) : outcome comp :=
  match h with [] => Ok s | o :: r => obind (step k o s) (run k r) end.
(** An asset: created by the framework and owned by it; X.create of Python: pylm.h:371-384 *)
Definition asset (k : kind) : outcome comp := create k.
(** include/lm/pylm.h:371-384. *)
Definition made_in_python (k : kind) : outcome comp := obind (create k) (fun s => Ok (cast_to_python s)).
