(** Independent vocabulary for scene graphs. *)
From Coq Require Import List String ZArith Bool Relations.
From Verif Require Import Base JsonModel JsonSpec SceneModel.
Import ListNotations.
Open Scope list_scope.

Section S.
  Context {M : Type}.
  Notation node := (node M).

  (** The node with number [i]. *)
  Definition has_node (ns : list node) (i : Z) (n : node) : Prop := (0 <= i)%Z /\ nth_error ns (Z.to_nat i) = Some n.

  (** [c] is the [k]-th child of node [i]. *)
  Definition kth_child (ns : list node) (i : Z) (k : nat) (c : Z) : Prop :=
    exists x ch inst loc, has_node ns i (NGroup x ch inst loc) /\ nth_error ch k = Some c.
  Definition child (ns : list node) (i c : Z) : Prop := exists k, kth_child ns i k c.

  (** Following child slots [p] from node [i] leads to node [j]; [Ls] are the local transforms of the
      groups left on the way (the last node's own is not among them). *)
  Inductive path (ns : list node) : Z -> list nat -> Z -> list M -> Prop :=
  | path_here i n : has_node ns i n -> path ns i [] i []
  | path_down i k c p j Ls x ch inst loc :
      has_node ns i (NGroup x ch inst loc) -> nth_error ch k = Some c -> path ns c p j Ls ->
      path ns i (k :: p) j (match loc with Some L => L :: Ls | None => Ls end).

  (** Depth-first order of paths: a node before its descendants, children in their order. *)
  Inductive before : list nat -> list nat -> Prop :=
  | bf_prefix k p : before [] (k :: p)
  | bf_head a b p q : a < b -> before (a :: p) (b :: q)
  | bf_tail a p q : before p q -> before (a :: p) (a :: q).

  (** Every child exists and no node is its own descendant. *)
  Definition children_exist (ns : list node) : Prop := forall i c, child ns i c -> exists n, has_node ns c n.
  Definition acyclic (ns : list node) : Prop := forall i, ~ clos_trans Z (child ns) i i.
  Definition descendant (ns : list node) : Z -> Z -> Prop := clos_refl_trans Z (child ns).

  (** Below node [i] there is no cycle and no missing child. *)
  Definition traversable (ns : list node) (i : Z) : Prop :=
    (forall j, descendant ns i j -> ~ clos_trans Z (child ns) j j) /\ (forall j, descendant ns i j -> exists n, has_node ns j n).

  Definition is_prim (n : node) : bool := match n with NPrim _ _ => true | NGroup _ _ _ _ => false end.
  Definition light_of (n : node) : option nat := match n with NPrim _ p => p_light p | NGroup _ _ _ _ => None end.
  Definition camera_of (n : node) : option nat := match n with NPrim _ p => p_camera p | NGroup _ _ _ _ => None end.
  Definition medium_of (n : node) : option nat := match n with NPrim _ p => p_medium p | NGroup _ _ _ _ => None end.

  (** A well-formed node array: every node knows its own position. *)
  Definition numbered (ns : list node) : Prop := forall k n, nth_error ns k = Some n -> n_index n = Z.of_nat k.

  (** The nodes handed out by a model are numbered by their position. *)
  Definition models_numbered (mnodes : nat -> list node * option error) : Prop := forall m, numbered (fst (mnodes m)).

  (** A node, and a visitor call, with all node numbers moved by [off]. *)
  Definition moved (off : Z) (n : node) : node :=
    match n with
    | NPrim i p => NPrim (i + off) p
    | NGroup i ch inst loc => NGroup (i + off) (map (fun c => (c + off)%Z) ch) inst loc
    end.
  Definition relabel (off : Z) (c : node * M) : node * M := (moved off (fst c), snd c).

  (** The invariant of C16. *)
  Definition well_formed (is_env : nat -> bool) (s : scene M) : Prop :=
    numbered (s_nodes s)
    /\ (exists ch, has_node (s_nodes s) 0 (NGroup 0 ch false None))
    /\ (forall i, s_camera s = Some i -> exists n c, has_node (s_nodes s) i n /\ camera_of n = Some c)
    /\ (forall i, s_env s = Some i -> exists n l, has_node (s_nodes s) i n /\ light_of n = Some l /\ is_env l = true)
    /\ (forall i, s_medium s = Some i -> exists n m, has_node (s_nodes s) i n /\ medium_of n = Some m).
End S.

(** The asset a parameter refers to: [a] is Some c exactly if the parameter is a string whose locator
    denotes the component c, and c has the interface asked for. *)
Definition refers_to {F} (get : string -> outcome (option nat)) (is_kind : kind -> nat -> bool)
    (prop : json F) (name : string) (k : kind) (a : option nat) : Prop :=
  forall c, a = Some c <-> exists loc, has prop name (JStr loc) /\ get loc = Ok (Some c) /\ is_kind k c = true.

(** No reference lookup fails with an exception of its own. *)
Definition five : list string := ["mesh"; "material"; "light"; "camera"; "medium"]%string.
Definition readable {F} (get : string -> outcome (option nat)) (prop : json F) : Prop :=
  forall name x, In name five -> has prop name x -> exists loc r, x = JStr loc /\ get loc = Ok r.

(** The four reasons for which a primitive is rejected. *)
Definition none_given (p : prim) : Prop :=
  p_mesh p = None /\ p_material p = None /\ p_light p = None /\ p_camera p = None /\ p_medium p = None.
Definition invalid {M} (is_env : nat -> bool) (s : scene M) (p : prim) : Prop :=
  none_given p \/ (p_camera p <> None /\ p_light p <> None)
  \/ (p_mesh p = None /\ p_material p <> None) \/ (p_mesh p <> None /\ p_material p = None)
  \/ (exists l, p_light p = Some l /\ is_env l = true /\ s_env s <> None).
