(** C13 (merge), C14 (parameter access), C58 (pointers in JSON). *)
From Coq Require Import List String Ascii ZArith NArith Bool Lia Sorting.Sorted.
From Verif Require Import Base JsonModel JsonSpec JsonProofs.
Import ListNotations.
Open Scope string_scope. Open Scope list_scope.

(** C13: in a debug or release build, merging two objects succeeds, and the result has exactly the
    entries of the first object and the entries of the second under names the first does not have. *)
Theorem C13_first_has_priority : forall F b (m1 m2 : list (string * json F)), is_map m1 -> is_map m2 ->
  exists m3, merge b (JObj m1) (JObj m2) = Ok (JObj m3) /\ is_map m3 /\
    forall k v, In (k, v) m3 <-> In (k, v) m1 \/ (In (k, v) m2 /\ forall w, ~ In (k, w) m1).
Proof. intros F. exact merge_spec. Qed.
Print Assumptions C13_first_has_priority.

Theorem C13_empty_right : forall F b (m : list (string * json F)), merge b (JObj m) (JObj []) = Ok (JObj m).
Proof. intros F. exact merge_nil_r. Qed.
Print Assumptions C13_empty_right.

Theorem C13_empty_left : forall F b (m : list (string * json F)), is_map m -> merge b (JObj []) (JObj m) = Ok (JObj m).
Proof. intros F. exact merge_nil_l. Qed.
Print Assumptions C13_empty_left.

Theorem C13_associative : forall F b (m1 m2 m3 : list (string * json F)), is_map m1 -> is_map m2 -> is_map m3 ->
  obind (merge b (JObj m1) (JObj m2)) (fun x => merge b x (JObj m3))
  = obind (merge b (JObj m2) (JObj m3)) (fun x => merge b (JObj m1) x).
Proof. intros F. exact merge_assoc. Qed.
Print Assumptions C13_associative.

(** Arguments that are not objects are rejected only when assertions are compiled in (the process
    aborts). *)
Theorem C13_non_objects_rejected_partial : forall F (j1 j2 : json F),
  is_object j1 && is_object j2 = false -> forall j, merge true j1 j2 <> Ok j.
Proof. intros F j1 j2 H j. rewrite (merge_asserts j1 j2 H). discriminate. Qed.
Print Assumptions C13_non_objects_rejected_partial.

(** No parameters at all (null) as one of the two, in a release build: the other one is the result. *)
Theorem C13_null : forall F, (forall j : json F, merge false j (JNull) = Ok j)
  /\ (forall m, is_map m -> m <> [] -> merge false (JNull : json F) (JObj m) = Ok (JObj m)).
Proof.
  intros F. split; [reflexivity|]. intros m M N. destruct m as [|[k v] m]; [contradiction|].
  rewrite <- (C13_empty_left F false _ M). reflexivity.
Qed.
Print Assumptions C13_null.

(** Finding: in a release build non-objects are merged, for instance an array as the object of its
    indices. *)
Theorem C13_non_objects_rejected_refuted :
  exists j1 j2 j : json unit, is_object j1 = false /\ is_object j2 = false /\ merge false j1 j2 = Ok j.
Proof.
  exists JNull, (JArr [JBool true; JNull]), (JObj [("0", JBool true); ("1", JNull)]).
  repeat split.
Qed.
Print Assumptions C13_non_objects_rejected_refuted.

Definition m_a : list (string * json unit) := [("a", JInt 1); ("c", JInt 3)].
Definition m_b : list (string * json unit) := [("b", JInt 20); ("c", JInt 30)].
Example C13_example : is_map m_a /\ is_map m_b
  /\ merge true (JObj m_a) (JObj m_b) = Ok (JObj [("a", JInt 1); ("b", JInt 20); ("c", JInt 3)]).
Proof. split; [|split; [|reflexivity]]; repeat constructor. Qed.

(** C14: a required parameter is read exactly if it is present and stands for a value. *)
Theorem C14_required : forall F (of_Z : Z -> F) trunc t (j : json F) name v, proper j ->
  jvalue of_Z trunc t j name = Ok v <-> exists x, has j name x /\ denotes of_Z trunc t x v.
Proof. intros F. exact jvalue_iff. Qed.
Print Assumptions C14_required.

Theorem C14_missing_reported : forall F (of_Z : Z -> F) trunc t (j : json F) name,
  lacks j name -> jvalue of_Z trunc t j name = Throw ErrInvalidArgument.
Proof. intros F. exact jvalue_missing. Qed.
Print Assumptions C14_missing_reported.

(** Present but not convertible: always an exception, InvalidArgument or the JSON library's own.
    Missing from the full claim: the error is not always InvalidArgument, and reading a floating-point
    number as an int is undefined when it is out of range. *)
Theorem C14_unconvertible_raises_partial : forall F (of_Z : Z -> F) trunc t (j : json F) name x,
  proper j -> int_free t -> has j name x -> (forall v, ~ denotes of_Z trunc t x v) ->
  raises (jvalue of_Z trunc t j name).
Proof. intros F. exact jvalue_unconvertible. Qed.
Print Assumptions C14_unconvertible_raises_partial.

Theorem C14_unconvertible_is_invalid_argument_refuted :
  exists t (j : json unit) name x, proper j /\ has j name x /\
    (forall v, ~ denotes (fun _ => tt) (fun _ => None) t x v) /\
    jvalue (fun _ => tt) (fun _ => None) t j name = Throw ErrJsonType.
Proof.
  exists CFloat, (JObj [("w", JStr "640")]), "w", (JStr "640"). split; [|split; [|split]].
  - intros m [= <-]. repeat constructor.
  - eexists. split; [reflexivity|]. now left.
  - intros v H. inversion H.
  - reflexivity.
Qed.
Print Assumptions C14_unconvertible_is_invalid_argument_refuted.

Theorem C14_default : forall F (of_Z : Z -> F) trunc t (j : json F) name d v, proper j ->
  jvalue_def of_Z trunc t j name d = Ok v <->
  (lacks j name /\ v = d) \/ (exists x, has j name x /\ denotes of_Z trunc t x v).
Proof. intros F. exact jvalue_def_iff. Qed.
Print Assumptions C14_default.

Theorem C14_optional : forall F (of_Z : Z -> F) trunc t (j : json F) name v, proper j ->
  jvalue_opt of_Z trunc t j name = Ok v <->
  (lacks j name /\ v = None) \/ (exists x w, has j name x /\ denotes of_Z trunc t x w /\ v = Some w).
Proof. intros F. exact jvalue_opt_iff. Qed.
Print Assumptions C14_optional.

(** Vectors and matrices of every size written and read back. *)
Theorem C14_vector_round_trip : forall F (of_Z : Z -> F) trunc n junk (v : nat -> F),
  exists l, obind (vec_to n junk v) (conv of_Z trunc (CVec n)) = Ok l
            /\ List.length l = n /\ forall i, (i < n)%nat -> nth_error l i = Some (v i).
Proof.
  intros. exists (map v (seq 0 n)). split; [apply vec_round_trip|]. split; [now rewrite map_length, seq_length|].
  intros i Hi. rewrite nth_error_map. rewrite (nth_error_nth' _ 0%nat) by (rewrite seq_length; assumption). rewrite seq_nth by assumption. reflexivity.
Qed.
Print Assumptions C14_vector_round_trip.

Theorem C14_matrix_round_trip : forall F (of_Z : Z -> F) trunc c r junk (v : nat -> nat -> F),
  exists cols, obind (mat_to c r junk v) (conv of_Z trunc (CMat c r)) = Ok cols
    /\ List.length cols = c
    /\ forall i k, (i < c)%nat -> (k < r)%nat -> exists col, nth_error cols i = Some col /\ nth_error col k = Some (v i k).
Proof.
  intros. exists (columns c r v). split; [apply mat_round_trip|]. unfold columns. split; [now rewrite map_length, seq_length|].
  intros i k Hi Hk. exists (map (v i) (seq 0 r)). split.
  - rewrite nth_error_map. rewrite (nth_error_nth' _ 0%nat) by (rewrite seq_length; assumption). rewrite seq_nth by assumption. reflexivity.
  - rewrite nth_error_map. rewrite (nth_error_nth' _ 0%nat) by (rewrite seq_length; assumption). rewrite seq_nth by assumption. reflexivity.
Qed.
Print Assumptions C14_matrix_round_trip.

Theorem C14_wrong_length_rejected : forall F (of_Z : Z -> F) trunc (l : list (json F)),
  (forall n, List.length l <> n -> conv of_Z trunc (CVec n) (JArr l) = Throw ErrInvalidArgument) /\
  (forall c r, List.length l <> (c * r)%nat -> conv of_Z trunc (CMat c r) (JArr l) = Throw ErrInvalidArgument).
Proof. intros. split; intros; [now apply vec_wrong_length|now apply mat_wrong_length]. Qed.
Print Assumptions C14_wrong_length_rejected.

(** Component references: the component found at the given locator, else an error resp. null. *)
Theorem C14_component_reference : forall F C (get : string -> outcome (option C)) (j : json F) name c, proper j ->
  comp_ref C get j name = Ok c <-> exists ref, has j name (JStr ref) /\ get ref = Ok (Some c).
Proof. intros F C. exact comp_ref_iff. Qed.
Print Assumptions C14_component_reference.

Theorem C14_component_reference_reported : forall F C (get : string -> outcome (option C)) (j : json F) name,
  (forall ref, exists r, get ref = Ok r) ->
  (exists c, comp_ref C get j name = Ok c) \/ comp_ref C get j name = Throw ErrInvalidArgument.
Proof. intros F C. exact comp_ref_fails. Qed.
Print Assumptions C14_component_reference_reported.

Theorem C14_component_reference_or_null : forall F C (get : string -> outcome (option C)) (j : json F) name r,
  proper j ->
  comp_ref_or_nullptr C get j name = Ok r <->
  (exists ref, has j name (JStr ref) /\ ref <> "" /\ get ref = Ok r) \/ ((forall ref, has j name (JStr ref) -> ref = "") /\ r = None).
Proof. intros F C. exact comp_ref_or_null_iff. Qed.
Print Assumptions C14_component_reference_or_null.

Definition ex_prop : json Z := JObj [("fov", JInt 30); ("matrix", JArr [JInt 1; JFloat 2%Z; JInt 3; JInt 4; JInt 5; JInt 6]); ("mesh", JStr "$.assets.m")].
Example C14_example :
  proper ex_prop
  /\ jvalue (fun z => z) Some CFloat ex_prop "fov" = Ok 30%Z
  /\ jvalue (fun z => z) Some (CMat 3 2) ex_prop "matrix" = Ok [[1; 2]; [3; 4]; [5; 6]]%Z
  /\ jvalue (fun z => z) Some CFloat ex_prop "aspect" = Throw ErrInvalidArgument
  /\ jvalue_def (fun z => z) Some CFloat ex_prop "aspect" 7%Z = Ok 7%Z
  /\ comp_ref nat (fun s => Ok (if String.eqb s "$.assets.m" then Some 5%nat else None)) ex_prop "mesh" = Ok 5%nat
  /\ comp_ref_or_nullptr nat (fun s => if String.eqb s "$.assets.m" then Ok (Some 5%nat) else Throw ErrInvalidArgument) ex_prop "material" = Ok None.
Proof. split; [intros m [= <-]; repeat constructor|]. repeat split. Qed.

(** C58: an address written to JSON and read back is the same address. *)
Theorem C58_pointer_round_trip : forall F p, (p < 2 ^ 64)%N -> obind (Ok (@ptr_to F p)) ptr_from = Ok p.
Proof. intros F. exact ptr_round_trip. Qed.
Print Assumptions C58_pointer_round_trip.

Example C58_example : @ptr_to unit 140737488355327 = JStr "0x7fffffffffff" /\ ptr_from (@ptr_to unit 0) = Ok 0%N.
Proof. split; reflexivity. Qed.
