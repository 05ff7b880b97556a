(** What it means for a component to report every reference it keeps. *)
From Coq Require Import List String ZArith Bool Permutation.
From Verif Require Import Base CodecModel ClassModel.
Import ListNotations.
Open Scope string_scope. Open Scope list_scope.

(** The pointers inside a value of any type, null ones included. *)
Fixpoint pointers (t : ty) : den t -> list (option string) :=
  match t with
  | TOpt u =>
      match u as w return (den w -> list (option string)) -> option (den w) -> list (option string) with
      | TStr => fun _ v => [v]
      | _ => fun r v => match v with Some x => r x | None => [] end
      end (pointers u)
  | TPair a b => fun v => pointers a (fst v) ++ pointers b (snd v)
  | TVec u => fun v => flat_map (pointers u) v
  | TFixed _ u => fun v => flat_map (pointers u) v
  | TMapS u => fun v => flat_map (fun e => pointers u (snd e)) v
  | TMapI u => fun v => flat_map (fun e => pointers u (snd e)) v
  | _ => fun _ => []
  end.
(** The value with every pointer inside replaced. *)
Fixpoint replaced (g : option string -> option string) (t : ty) : den t -> den t :=
  match t with
  | TOpt u =>
      match u as w return (den w -> den w) -> option (den w) -> option (den w) with
      | TStr => fun _ v => g v
      | _ => fun r => option_map r
      end (replaced g u)
  | TPair a b => fun v => (replaced g a (fst v), replaced g b (snd v))
  | TVec u => map (replaced g u)
  | TFixed _ u => map (replaced g u)
  | TMapS u => map (fun e => (fst e, replaced g u (snd e)))
  | TMapI u => map (fun e => (fst e, replaced g u (snd e)))
  | _ => fun v => v
  end.

(** The members that own what they point to; the pointers in all others are weak references. *)
Definition owns (c : class) (n : string) : bool :=
  existsb (fun m => String.eqb (fst m) (key c) && String.eqb (snd m) n)
    (map (fun k => (k, "sched_"))
       ["renderer::pt"; "renderer::raycast"; "renderer::lt"; "renderer::volpt_naive"; "renderer::volpt";
        "renderer::pt_naive_path"; "renderer::pt_nee_path"; "renderer::lt_nee_path"; "renderer::bdpt"; "renderer::bdptopt"]
     ++ [("asset_group::default", "assets_"); ("model::wavefrontobj", "assets_");
         ("material::mixture_wavefrontobj", "diffuse_"); ("material::mixture_wavefrontobj", "glossy_"); ("light::env", "envmap_")]).

(** All pointers of an instance, each with whether it is weak. *)
Definition kept (c : class) (o : state) : list (option string * bool) :=
  flat_map (fun m => map (fun p => (p, negb (owns c (fst m)))) (pointers (projT1 (o (fst m))) (projT2 (o (fst m))))) (members c).

(** Null pointers do not matter: [f] leaves them alone. *)
Definition present (l : list (option string * bool)) : list (option string * bool) :=
  filter (fun e => match fst e with Some _ => true | None => false end) l.
Definition leaves_null (f : option string -> bool -> option string) : Prop := forall b, f None b = None.

(** After offering its pointers to [f], an instance has called it once for each pointer it keeps, and every
    weak reference is what [f] left; everything else is as before. *)
Definition reports (c : class) (f : option string -> bool -> option string) (o : state) (r : state * list (option string * bool)) : Prop :=
  Permutation (present (snd r)) (present (kept c o))
  /\ forall n t (x : den t), In (n, t) (members c) -> o n = existT den t x ->
     fst r n = existT den t (if owns c n then x else replaced (fun p => f p true) t x).

(** The classes that do not. *)
Definition unreported : list string :=
  ["scene::default"; "renderer::pt_naive_path"; "renderer::pt_nee_path"; "renderer::lt_nee_path"; "renderer::bdpt"; "renderer::bdptopt";
   "volume::multi"; "medium::homogeneous"; "medium::heterogeneous"].

(** A group node has no pointers. *)
Definition node_type (n : den node_t) : Z := fst (n : Z * den (TPair int_t (TPair primitive_t (TPair group_t TUnit)))).
Definition bare_group (n : den node_t) : Prop := node_type n <> 0%Z -> forall p, In p (pointers node_t n) -> p = None.
(** The medium of a node: mesh, material, light and camera come before it. *)
Definition node_medium (n : den node_t) : option string := nth 4 (pointers node_t n) None.
