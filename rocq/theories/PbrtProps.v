(** C81: what is shown of an imported PBRT scene. *)
From Coq Require Import List ZArith Bool String Lia.
From Verif Require Import Base SceneModel SceneSpec PbrtModel PbrtSpec PbrtProofs.
Import ListNotations.
Local Open Scope nat_scope. Local Open Scope list_scope.

Section Props.
  Variables (A M : Type).
  Variable aone : A.
  Variable amul : A -> A -> A.
  Variable one : M.
  Variable mul : M -> M -> M.
  Variable conv : A -> M.
  Variable material : nat.
  Hypothesis mul_one : forall T, mul T one = T.
  Hypothesis one_mul : forall T, mul one T = T.
  Hypothesis mul_assoc : forall a b c, mul a (mul b c) = mul (mul a b) c.
  Hypothesis aone_mul : forall x, amul aone x = x.
  Notation construct := (pbrt_construct A M aone amul one conv material).

  (** Every PBRT scene can be imported; its nodes are numbered by position, and visiting them comes to an end without an
      exception, however objects and instances are nested. *)
  Theorem C81_traversable : forall cam world, exists s fuel calls, construct cam world = Ok s /\
    numbered (ps_nodes M s) /\ visit mul (ps_nodes M s) fuel 0 one = (calls, Ok tt).
  Proof. intros. destruct (construct_shown A M aone amul one mul conv material mul_one one_mul mul_assoc cam world) as (s & f & c & E & N & V & _). now exists s, f, c. Qed.

  (** The full claim is that [drawn calls = map (fun x => (conv (fst x), snd x)) (placed world aone)]. It holds without
      instances, also for the primitives handed out for add_primitives_from_model. *)
  Theorem C81_no_instances_partial : forall cam name shapes, conv aone = one -> exists s fuel calls, construct cam (PObj A name shapes []) = Ok s /\
    visit mul (ps_nodes M s) fuel 0 one = (calls, Ok tt) /\
    drawn M calls = map (fun x => (conv (fst x), snd x)) (placed A amul (PObj A name shapes []) aone) /\
    pbrt_primitives M material s = map (fun m => (Some m, Some material, None)) (meshes shapes).
  Proof.
    intros cam name shapes C1. destruct (construct_shown A M aone amul one mul conv material mul_one one_mul mul_assoc cam (PObj A name shapes [])) as (s & f & c & E & N & V & D).
    exists s, f, c. split; [exact E|]. split; [exact V|]. split.
    - rewrite D. cbn. rewrite !app_nil_r. unfold own. rewrite map_map. apply map_ext. intros m. cbn. now rewrite C1.
    - unfold pbrt_primitives. f_equal. unfold pbrt_construct in E. destruct (add_camera M cam (pst0 M)) as [s0| | |] eqn:Ec; try discriminate. cbn [obind visit_object] in E.
      destruct (add_shapes M material 0 shapes s0) as [s1| | |] eqn:Es; try discriminate. cbn [obind] in E. injection E as <-.
      rewrite (add_shapes_meshes M material 0%Z shapes s0 s1 Es).
      enough (ps_meshes M s0 = []) as -> by easy. destruct cam; cbn in Ec; now injection Ec as <-.
  Qed.

  (** With instances of objects that have no instances themselves, what is shown is: the meshes of the world, and for
      each instance the meshes of its object at the place of the instance, but only if an earlier instance has an
      object of that name. *)
  Theorem C81_instances_partial : forall cam name shapes insts, Forall (fun i => flat A (snd i)) insts ->
    (forall i j, In i insts -> In j insts -> po_name A (snd i) = po_name A (snd j) -> snd i = snd j) ->
    exists s fuel calls, construct cam (PObj A name shapes insts) = Ok s /\ visit mul (ps_nodes M s) fuel 0 one = (calls, Ok tt) /\
    drawn M calls = map (fun m => (one, m)) (meshes shapes) ++
      flat_map (fun k => match nth_error insts k with
        | Some (x, o) => if existsb (fun j => String.eqb (po_name A o) (po_name A (snd j))) (firstn k insts)
                         then map (fun m => (conv x, m)) (meshes (shapes_of A o)) else []
        | None => [] end) (seq 0 (List.length insts)).
  Proof.
    intros cam name shapes insts F Inj. destruct (construct_shown A M aone amul one mul conv material mul_one one_mul mul_assoc cam (PObj A name shapes insts)) as (s & f & c & E & N & V & D).
    exists s, f, c. split; [exact E|]. split; [exact V|]. rewrite D. now apply (flat_shown A M aone amul one mul conv mul_one aone_mul).
  Qed.
End Props.
Print Assumptions C81_traversable.
Print Assumptions C81_no_instances_partial.
Print Assumptions C81_instances_partial.

(** Transforms are words *)
Notation words := (list nat).
Definition x_tree : pobj words := PObj words "tree" [Some 3; None; Some 4] [].
Definition x_world : pobj words := PObj words "" [Some 1] [([5], x_tree); ([6], x_tree); ([7], x_tree)].
Definition x_pbrt (cam : option nat) (w : pobj words) : pst words := match pbrt_construct words words [] (@app nat) [] (fun x => x) 9 cam w with Ok s => s | _ => pst0 words end.
Example C81_example : Forall (fun i => flat words (snd i)) [([5], x_tree); ([6], x_tree); ([7], x_tree)] /\
  pbrt_construct words words [] (@app nat) [] (fun x => x) 9 (Some 2) x_world = Ok (x_pbrt (Some 2) x_world) /\
  let r := visit (@app nat) (ps_nodes words (x_pbrt (Some 2) x_world)) 9 0 [] in
  snd r = Ok tt /\ drawn words (fst r) = [([], 1); ([6], 3); ([6], 4); ([7], 3); ([7], 4)].
Proof. repeat split. now repeat constructor. Qed.

(** An object that is used once is not shown at all: the group made for the first instance is linked to nothing. *)
Theorem C81_first_instance_refuted :
  let w := PObj words "" [] [([5], x_tree)] in
  placed words (@app nat) w [] = [([5], 3); ([5], 4)] /\
  pbrt_construct words words [] (@app nat) [] (fun x => x) 9 None w = Ok (x_pbrt None w) /\
  forall fuel calls, visit (@app nat) (ps_nodes words (x_pbrt None w)) fuel 0 [] = (calls, Ok tt) -> drawn words calls = [].
Proof.
  cbv zeta. split; [reflexivity|]. split; [reflexivity|]. intros fuel calls H.
  destruct fuel as [|[|f]]; [discriminate| |]; cbv in H; [discriminate|]. now injection H as <-.
Qed.
Print Assumptions C81_first_instance_refuted.

(** The transforms of nested instances are applied twice: the branch belongs at [6; 8] below the second tree, and is
    shown at [6; 5; 8], below the transforms of both trees. *)
Definition x_branch : pobj words := PObj words "branch" [Some 4] [].
Definition x_forest : pobj words :=
  let tree := PObj words "tree" [] [([7], x_branch); ([8], x_branch)] in PObj words "" [] [([5], tree); ([6], tree)].
Theorem C81_nested_refuted :
  placed words (@app nat) x_forest [] = [([5; 7], 4); ([5; 8], 4); ([6; 7], 4); ([6; 8], 4)] /\
  pbrt_construct words words [] (@app nat) [] (fun x => x) 9 None x_forest = Ok (x_pbrt None x_forest) /\
  let r := visit (@app nat) (ps_nodes words (x_pbrt None x_forest)) 9 0 [] in snd r = Ok tt /\ drawn words (fst r) = [([6; 5; 8], 4)].
Proof. repeat split. Qed.
Print Assumptions C81_nested_refuted.
