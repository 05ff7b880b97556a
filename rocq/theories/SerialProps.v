(** C09 (saved state loads back) and C11 (exported subtree loaded elsewhere). *)
From Coq Require Import List String Ascii ZArith Lia.
From Verif Require Import Base LocModel LocSpec Assoc CodecModel CodecSpec SerialModel SerialSpec SerialProofs.
Import ListNotations.
Open Scope string_scope. Open Scope list_scope. Open Scope nat_scope.

(** C09. The component at locator [r] is saved (root_loc of the archive is its own locator, as in
    save_state_to_file) and loaded into the same place of the same surroundings. Whenever saving
    succeeds, loading succeeds, the result is equivalent place by place, and every weak reference, also
    one to a component further on in the stream, denotes the component at the place of its old target.
    Weak references must denote components owned by the saved hierarchy that carry their locator. *)
Theorem C09_state_round_trip :
  forall layouts select Out (o0 : Out) oq oid loc_of tree r s n id key x,
  tree = BOwn true id key r x ->
  placed_at oq o0 r ->
  fits layouts (LOwn true) tree -> (forall p, short (loc_of p)) ->
  (forall p, refers tree p -> at_or_below r (loc_of p)
     /\ exists place rep key x, sub_at tree place = Some (BOwn rep p key (loc_of p) x)) ->
  save_comp Out oid loc_of (wget select Out o0 oq tree) r tree = Ok s ->
  exists tree', load_comp layouts select Out o0 oq oid r n s = Ok tree'
    /\ equivalent (same_place tree tree') r r tree tree' /\ NoDup (ids tree').
Proof.
  intros layouts select Out o0 oq oid loc_of tree r s n id key x Et Hp Hf Hs Hr Hsv.
  exact (reload layouts select Out Out o0 o0 oq oq oid oid loc_of tree r r r s n id key x Et Hp Hp Hf Hs Hr Hsv).
Qed.
Print Assumptions C09_state_round_trip.

(** C11. The same with an arbitrary new locator and new surroundings. *)
Theorem C11_export_import :
  forall layouts select Out Out' (o0 : Out) (o0' : Out') oq oq' oid oid' loc_of tree r r' root s n id key x,
  tree = BOwn true id key r x ->
  placed_at oq o0 r -> placed_at oq' o0' r' ->
  fits layouts (LOwn true) tree -> (forall p, short (loc_of p)) ->
  (forall p, refers tree p -> at_or_below r (loc_of p)
     /\ exists place rep key x, sub_at tree place = Some (BOwn rep p key (loc_of p) x)) ->
  save_comp Out oid loc_of (wget select Out o0 oq tree) root tree = Ok s ->
  exists tree', load_comp layouts select Out' o0' oq' oid' r' n s = Ok tree'
    /\ equivalent (same_place tree tree') r r' tree tree' /\ NoDup (ids tree').
Proof. exact reload. Qed.
Print Assumptions C11_export_import.

(** A reference to a component whose locator does not even begin with the asset's locator, reported by
    foreach_underlying or not, makes saving fail with an exception. *)
Theorem C11_outside_reference_refused :
  forall layouts Out oid loc_of look root rep id key r x p,
  r <> "" -> (forall l, clean (look l)) -> fits layouts (LOwn rep) (BOwn rep id key r x) ->
  refers (BOwn rep id key r x) p -> starts_with r (loc_of p) = false ->
  exists e, save_comp Out oid loc_of look root (BOwn rep id key r x) = Throw e.
Proof. exact save_comp_refuses. Qed.
Print Assumptions C11_outside_reference_refused.

(** ** Concrete hierarchies *)

(** Classes: an asset group (src/assetgroup.cpp:19) and a component with one value and one weak
    reference (like src/material/material_diffuse.cpp:40). *)
Definition ex_layouts (key : string) : option lay :=
  if String.eqb key "group" then Some (LPair (LVal (TMapS (TInt 4 true))) (LVec (LOwn true)))
  else if String.eqb key "leaf" then Some (LPair (LVal TF64) (LWeak true)) else None.

(** src/assetgroup.cpp:28-35 as a position in the fields. *)
Definition ex_select (key : string) (b : body) (n : string) : outcome (option (list dir)) :=
  match b with
  | BPair (BVal (TMapS (TInt 4 true)) m) _ =>
      match alookup n m with
      | Some i => Ok (Some (DR :: DVec :: repeat DR (Z.to_nat i) ++ [DL]))
      | None => Ok None
      end
  | _ => Ok None
  end.

Definition leaf (id : nat) (loc : string) (w : weak) : body :=
  BOwn true id "leaf" loc (BPair (BVal TF64 42%Z) (BWeak true w)).
Definition two (id : nat) (loc n1 n2 : string) (a b : body) : body :=
  BOwn true id "group" loc
    (BPair (BVal (TMapS (TInt 4 true)) [(n1, 0%Z); (n2, 1%Z)]) (BVec (BCons a (BCons b BNil)))).

(** Surroundings: "$" holding the saved component under "assets". *)
Definition root_q (o : unit) (n : string) : outcome (option (option unit)) :=
  Ok (if String.eqb n "assets" then Some None else None).

Definition ex_tree : body :=
  two 1 "$.assets" "a" "b" (leaf 2 "$.assets.a" (WTo 3)) (leaf 3 "$.assets.b" (WTo 2)).
Definition ex_loc (p : nat) : string := if Nat.eqb p 2 then "$.assets.a" else if Nat.eqb p 3 then "$.assets.b" else "".

Ltac fits_tac := repeat first
  [ apply ft_own with (l := LPair (LVal (TMapS (TInt 4 true))) (LVec (LOwn true))); [reflexivity|reflexivity|reflexivity|]
  | apply ft_own with (l := LPair (LVal TF64) (LWeak true)); [reflexivity|reflexivity|reflexivity|]
  | constructor ].

Example C09_example_hypotheses :
  placed_at root_q tt "$.assets" /\ fits ex_layouts (LOwn true) ex_tree /\ (forall p, short (ex_loc p))
  /\ (forall p, refers ex_tree p -> at_or_below "$.assets" (ex_loc p)
     /\ exists place rep key x, sub_at ex_tree place = Some (BOwn rep p key (ex_loc p) x))
  /\ exists s, save_comp unit (fun _ => 0) ex_loc (wget ex_select unit tt root_q ex_tree) "$.assets" ex_tree = Ok s.
Proof.
  split; [|split; [|split; [|split]]].
  - exists ["assets"]. repeat split; discriminate.
  - unfold ex_tree, two, leaf. fits_tac; cbn; unfold few, int_range; cbn; try lia; try (intuition discriminate).
  - intros p. unfold ex_loc. destruct (Nat.eqb p 2); [reflexivity|]. destruct (Nat.eqb p 3); reflexivity.
  - intros p H. repeat match goal with H : refers _ _ |- _ => inversion H; clear H; subst end.
    + split; [right; exists "b"; reflexivity|]. exists [DIn; DR; DVec; DR; DL]. do 3 eexists. reflexivity.
    + split; [right; exists "a"; reflexivity|]. exists [DIn; DR; DVec; DL]. do 3 eexists. reflexivity.
  - eexists. vm_compute. reflexivity.
Qed.

(** The result computed: both references (one of them forward) point to the new instances. *)
Example C09_example_result :
  obind (save_comp unit (fun _ => 0) ex_loc (wget ex_select unit tt root_q ex_tree) "$.assets" ex_tree)
        (load_comp ex_layouts ex_select unit tt root_q (fun _ => 0) "$.assets" 10)
  = Ok (two 10 "$.assets" "a" "b" (leaf 11 "$.assets.a" (WTo 12)) (leaf 12 "$.assets.b" (WTo 11))).
Proof. vm_compute. reflexivity. Qed.

(** Finding: a component whose class is not registered when loading (its plugin is not loaded) is
    dropped without an exception; the load reports success. *)
Theorem C09_unregistered_class_refuted :
  exists layouts' s tree',
    save_comp unit (fun _ => 0) ex_loc (wget ex_select unit tt root_q ex_tree) "$.assets" ex_tree = Ok s
    /\ load_comp layouts' ex_select unit tt root_q (fun _ => 0) "$.assets" 10 s = Ok tree'
    /\ forall same, ~ equivalent same "$.assets" "$.assets" ex_tree tree'.
Proof.
  exists (fun _ => None). do 2 eexists.
  split; [vm_compute; reflexivity|]. split; [vm_compute; reflexivity|].
  intros same H. inversion H.
Qed.
Print Assumptions C09_unregistered_class_refuted.

(** Surroundings with an asset group: the saved component sits under [name]; other assets have
    identities of their own. *)
Inductive around := ARoot | AGroup | AAsset (id : nat).
Definition around_q (name : string) (others : list (string * nat)) (o : around) (n : string) : outcome (option (option around)) :=
  match o with
  | ARoot => Ok (if String.eqb n "assets" then Some (Some AGroup) else None)
  | AGroup => Ok (if String.eqb n name then Some None
                  else match alookup n others with Some i => Some (Some (AAsset i)) | None => None end)
  | AAsset _ => Ok None
  end.
Definition around_id (o : around) : nat := match o with ARoot => 100 | AGroup => 101 | AAsset i => i end.

Example C11_example_hypotheses : placed_at (around_q "m" [("x", 7)]) ARoot "$.assets.m".
Proof. exists ["assets"; "m"]. split; [reflexivity|]. split; [discriminate|]. exists AGroup. split; reflexivity. Qed.

(** An exported asset "m" imported as "n": internal references follow. *)
Example C11_example_result :
  let old := two 1 "$.assets.m" "a" "b" (leaf 2 "$.assets.m.a" (WTo 3)) (leaf 3 "$.assets.m.b" (WTo 2)) in
  let loc p := if Nat.eqb p 2 then "$.assets.m.a" else "$.assets.m.b" in
  obind (save_comp around around_id loc (wget ex_select around ARoot (around_q "m" []) old) "$.assets.m" old)
        (load_comp ex_layouts ex_select around ARoot (around_q "n" []) around_id "$.assets.n" 10)
  = Ok (two 10 "$.assets.n" "a" "b" (leaf 11 "$.assets.n.a" (WTo 12)) (leaf 12 "$.assets.n.b" (WTo 11))).
Proof. vm_compute. reflexivity. Qed.

Example C11_refused_example :
  save_comp around around_id (fun _ => "$.assets.other") (wget ex_select around ARoot (around_q "m" [("other", 9)]) (leaf 1 "$.assets.m" (WTo 9)))
    "$.assets.m" (leaf 1 "$.assets.m" (WTo 9)) = Throw ErrUnsupported.
Proof. vm_compute. reflexivity. Qed.

(** Finding: the check is a plain string-prefix test. An asset "m" referring to another asset "mesh" is
    exported without complaint, and imported as "n" it refers to the unrelated asset "nesh". *)
Theorem C11_sibling_prefix_refuted :
  exists s,
    save_comp around around_id (fun _ => "$.assets.mesh")
      (wget ex_select around ARoot (around_q "m" [("mesh", 9)]) (leaf 1 "$.assets.m" (WTo 9))) "$.assets.m" (leaf 1 "$.assets.m" (WTo 9)) = Ok s
    /\ ~ at_or_below "$.assets.m" "$.assets.mesh"
    /\ load_comp ex_layouts ex_select around ARoot (around_q "n" [("mesh", 9); ("nesh", 77)]) around_id "$.assets.n" 10 s
       = Ok (leaf 10 "$.assets.n" (WTo 77)).
Proof.
  eexists. split; [vm_compute; reflexivity|]. split; [|vm_compute; reflexivity].
  intros [H|(x & H)]; discriminate.
Qed.
Print Assumptions C11_sibling_prefix_refuted.
