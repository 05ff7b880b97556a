(** Saving and loading of component hierarchies: include/lm/serial.h:104-403. *)
From Coq Require Import List String Ascii ZArith Bool.
From Verif Require Import Base LocModel CodecModel.
Import ListNotations.
Open Scope string_scope. Open Scope list_scope. Open Scope Z_scope. Open Scope bool_scope.

(** What a class passes to its archive, in order (LM_SERIALIZE_IMPL, include/lm/serial.h:433-436):
    plain values, owned pointers (Component::Ptr), weak pointers (T* ), vectors of those, and
    sequences. The flag tells whether foreach_underlying reports the pointer. *)
Inductive lay :=
| LVal (t : ty) | LUnit | LPair (a b : lay) | LVec (a : lay) | LOwn (rep : bool) | LWeak (rep : bool).

(** A weak pointer: null, a component (by identity), or, while loading, a recorded locator whose
    pointer is not yet set (include/lm/serialtype.h:97-99). *)
Inductive weak := WNull | WTo (id : nat) | WPending (loc : string).

(** Contents of the serialized fields of a component; [BNil]/[BCons] are the elements of a vector.
    include/lm/serial.h:104-403. *)
Inductive body :=
| BVal (t : ty) (v : den t)
| BUnit
| BPair (a b : body)
| BVec (elems : body)
| BNil
| BCons (h t : body)
| BNull (rep : bool)
| BOwn (rep : bool) (id : nat) (key loc : string) (b : body)
| BWeak (rep : bool) (w : weak).

(** Steps into a body: left/right of a pair or of a list cell, into a vector, into a component.
    No counterpart; the places that include/lm/serial.h:104-403 visits. *)
Inductive dir := DL | DR | DVec | DIn.

(** The part at such a place, for include/lm/serial.h:104-403. *)
Fixpoint sub_at (b : body) (p : list dir) {struct p} : option body :=
  match p with
  | [] => Some b
  | d :: p' =>
      match b, d with
      | BPair x _, DL => sub_at x p'
      | BPair _ y, DR => sub_at y p'
      | BVec e, DVec => sub_at e p'
      | BCons x _, DL => sub_at x p'
      | BCons _ y, DR => sub_at y p'
      | BOwn _ _ _ _ x, DIn => sub_at x p'
      | _, _ => None
      end
  end.

(** The part of a component's fields that its name query can depend on: plain values and the
    presence of children. Component::underlying, include/lm/component.h:252. *)
Fixpoint erase (b : body) : body :=
  match b with
  | BVal t v => BVal t v
  | BUnit => BUnit
  | BPair x y => BPair (erase x) (erase y)
  | BVec e => BVec (erase e)
  | BNil => BNil
  | BCons x y => BCons (erase x) (erase y)
  | BNull r => BNull r
  | BOwn r _ _ _ _ => BOwn r O "" "" BUnit
  | BWeak r _ => BWeak r WNull
  end.

(** The address of a component, for include/lm/serial.h:120-130. *)
Definition comp_id (b : body) : option nat := match b with BOwn _ id _ _ _ => Some id | _ => None end.

(** std::string::rfind(root, 0) == 0 (include/lm/serial.h:139, 255, 374): plain string prefix. *)
Fixpoint starts_with (root s : string) : bool :=
  match root, s with
  | EmptyString, _ => true
  | String c root', String d s' => Ascii.eqb c d && starts_with root' s'
  | String _ _, EmptyString => false
  end.
(** std::string::substr: include/lm/serial.h:133-152. *)
Fixpoint drop_chars (n : nat) (s : string) : string :=
  match n, s with
  | S n', String _ s' => drop_chars n' s'
  | _, _ => s
  end.

(** include/lm/serial.h:133-152 and 249-268: the locator written for a pointer. *)
Definition rel_loc (root loc : string) : outcome string :=
  if String.eqb root "" then Ok loc
  else if starts_with root loc then Ok (drop_chars (String.length root) loc)
  else Throw ErrIOError.

(** include/lm/serial.h:185-202 and 287-304: the locator read for a pointer. *)
Definition abs_loc (root rel : string) : string :=
  if String.eqb root "" then rel else (root ++ rel)%string.

(** The size of a vector (cereal), for include/lm/serial.h:104-167. *)
Fixpoint elem_count (e : body) : Z := match e with BCons _ t => 1 + elem_count t | _ => 0 end.
(** The elements of a vector as a body, for include/lm/serial.h:172-214. *)
Fixpoint of_list (l : list body) : body := match l with [] => BNil | x :: l' => BCons x (of_list l') end.

Section World.
  (** Fields of each registered class; [None] if the key is not registered. *)
  Variable layouts : string -> option lay.
  (** Component::underlying of the class: the position, in the component's fields, of the child found
      under a name. Name queries that answer with a weak pointer (Material_Diffuse's "mapKd") are not
      modelled. *)
  Variable select : string -> body -> string -> outcome (option (list dir)).

  (** Component::underlying: include/lm/component.h:252. *)
  Definition query (c : body) (n : string) : outcome (option body) :=
    match c with
    | BOwn _ _ key _ b =>
        obind (select key (erase b) n) (fun p =>
          match p with
          | None => Ok None
          | Some p => match sub_at b p with
                      | Some (BOwn r id k l x) => Ok (Some (BOwn r id k l x))
                      | _ => Ok None
                      end
          end)
    | _ => Ok None
    end.

  (** The components around the saved subtree: [o0] is the root component, [oq] their name query,
      where [Some None] means the place of the subtree. [oid] is their identity. *)
  Variable Out : Type.
  Variable o0 : Out.
  Variable oq : Out -> string -> outcome (option (option Out)).
  Variable oid : Out -> nat.

  (** A component inside of the saved hierarchy or outside of it, for src/component.cpp:322-361. *)
  Definition node : Type := Out + body.
  (** Component::underlying: include/lm/component.h:252, for src/component.cpp:322-361. *)
  Definition node_query (tree : body) (x : node) (n : string) : outcome (option node) :=
    match x with
    | inl o => obind (oq o n) (fun r => Ok match r with
                 | None => None
                 | Some None => match comp_id tree with Some _ => Some (inr tree) | None => None end
                 | Some (Some o') => Some (inl o')
                 end)
    | inr c => obind (query c n) (fun r => Ok (option_map inr r))
    end.
  (** The address of a component, for include/lm/serial.h:120-130. *)
  Definition node_id (x : node) : option nat := match x with inl o => Some (oid o) | inr c => comp_id c end.

  (** lm::comp::get with the subtree in place (src/component.cpp:322-361, see LocModel). *)
  Definition wget (tree : body) (loc : string) : outcome (option node) :=
    get node (node_query tree) (Some (inl o0)) loc.

  Section Save.
    (** [loc_of p] is p->loc(); [look] is lm::comp::get. *)
    Variable loc_of : nat -> string.
    Variable look : string -> outcome (option node).

    (** include/lm/serial.h:120-130. *)
    Definition check_found (id : nat) (loc : string) : outcome unit :=
      if String.eqb loc "" then Ok tt
      else obind (look loc) (fun r =>
             match r with
             | Some x => match node_id x with
                         | Some i => if Nat.eqb i id then Ok tt else Throw ErrIOError
                         | None => Throw ErrIOError
                         end
             | None => Throw ErrIOError
             end).

    (** include/lm/serial.h:104-167 (owned pointers), 228-270 (weak pointers); containers and values
        through CodecModel. Saving through a pointer that is not set does not occur. *)
    Fixpoint save_body (root : string) (b : body) : outcome stream :=
      match b with
      | BVal t v => Ok (encode t v)
      | BUnit | BNil => Ok []
      | BPair x y | BCons x y =>
          obind (save_body root x) (fun s => obind (save_body root y) (fun s' => Ok (s ++ s')))
      | BVec e => obind (save_body root e) (fun s => Ok (enc_int 8 (elem_count e) ++ s))
      | BNull _ => Ok (enc_int 1 0)
      | BOwn _ id key loc x =>
          obind (check_found id loc) (fun _ =>
          obind (rel_loc root loc) (fun rl =>
          obind (save_body root x) (fun s => Ok (enc_int 1 1 ++ enc_str key ++ enc_str rl ++ s))))
      | BWeak _ WNull => Ok (enc_int 1 0)
      | BWeak _ (WTo p) => obind (rel_loc root (loc_of p)) (fun rl => Ok (enc_int 1 1 ++ enc_str rl))
      | BWeak _ (WPending _) => UB
      end.

    (** include/lm/serial.h:366-382: the visitor over reported pointers. *)
    Fixpoint check_refs (root : string) (b : body) : outcome unit :=
      match b with
      | BPair x y | BCons x y => obind (check_refs root x) (fun _ => check_refs root y)
      | BVec e => check_refs root e
      | BOwn true _ _ _ x => check_refs root x
      | BWeak true (WTo p) => if starts_with root (loc_of p) then Ok tt else Throw ErrUnsupported
      | _ => Ok tt
      end.

    (** include/lm/serial.h:358-387 [save_comp_owned] of a non-null component. *)
    Definition save_comp (root : string) (c : body) : outcome stream :=
      match c with
      | BOwn _ _ _ loc x =>
          obind (check_refs root x) (fun _ => obind (save_body loc c) (fun s => Ok (open_out s)))
      | _ => UB
      end.
  End Save.

  (** Result of reading: the fields, the next unused identity, the rest of the stream.
      Used by [load_own]: include/lm/serial.h:172-214. *)
  Definition read := (body * nat * stream)%type.

  Section Load.
    Variable root : string.

    (** Reading fields in the order of the layout; [own] reads an owned pointer.
        Used by [load_own]: include/lm/serial.h:172-214. *)
    Fixpoint load_lay (own : bool -> nat -> stream -> outcome read) (l : lay) (n : nat) (s : stream) : outcome read :=
      match l with
      | LVal t => obind (decode t s) (fun r => Ok (BVal t (fst r), n, snd r))
      | LUnit => Ok (BUnit, n, s)
      | LPair a b =>
          obind (load_lay own a n s) (fun '(x, n1, s1) =>
          obind (load_lay own b n1 s1) (fun '(y, n2, s2) => Ok (BPair x y, n2, s2)))
      | LVec a =>
          obind (dec_size s) (fun c =>
          obind (repeat_z (fst c) (fun '(acc, n1, s1) =>
                   obind (load_lay own a n1 s1) (fun '(x, n2, s2) => Ok (x :: acc, n2, s2)))
                 ([], n, snd c))
                (fun '(acc, n1, s1) => Ok (BVec (of_list (rev acc)), n1, s1)))
      | LOwn rep => own rep n s
      | LWeak rep =>
          (* include/lm/serial.h:273-311 *)
          obind (dec_int 1 false s) (fun v =>
            if fst v =? 0 then Ok (BWeak rep WNull, n, snd v)
            else obind (dec_str (snd v)) (fun rl => Ok (BWeak rep (WPending (abs_loc root (fst rl))), n, snd rl)))
      end.

    (** include/lm/serial.h:172-214. Each instance gets a new identity. When the key is unknown the
        pointer stays null and the contents are left in the stream (line 207-209). *)
    Fixpoint load_own (fuel : nat) (rep : bool) (n : nat) (s : stream) : outcome read :=
      match fuel with
      | O => Fuel
      | S f =>
          obind (dec_int 1 false s) (fun v =>
            if fst v =? 0 then Ok (BNull rep, n, snd v)
            else obind (dec_str (snd v)) (fun key =>
                 obind (dec_str (snd key)) (fun rl =>
                   match layouts (fst key) with
                   | None => Ok (BNull rep, n, snd rl)
                   | Some l => obind (load_lay (load_own f) l (S n) (snd rl)) (fun '(b, n', s') =>
                                 Ok (BOwn rep n (fst key) (abs_loc root (fst rl)) b, n', s'))
                   end)))
      end.
  End Load.

  (** include/lm/serial.h:344-348: set all recorded weak pointers. [look] is lm::comp::get after the
      instances are loaded; it does not depend on weak pointers, so setting them one after the other
      or all at once is the same. *)
  Fixpoint resolve (look : string -> outcome (option node)) (b : body) : outcome body :=
    match b with
    | BPair x y => obind (resolve look x) (fun x' => obind (resolve look y) (fun y' => Ok (BPair x' y')))
    | BCons x y => obind (resolve look x) (fun x' => obind (resolve look y) (fun y' => Ok (BCons x' y')))
    | BVec e => obind (resolve look e) (fun e' => Ok (BVec e'))
    | BOwn r id key loc x => obind (resolve look x) (fun x' => Ok (BOwn r id key loc x'))
    | BWeak r (WPending loc) =>
        obind (look loc) (fun p =>
          Ok (BWeak r match p with
                      | Some x => match node_id x with Some i => WTo i | None => WNull end
                      | None => WNull
                      end))
    | other => Ok other
    end.

  (** include/lm/serial.h:334-349 [load_comp] into the place of the subtree; [n] is the next identity. *)
  Definition load_comp (root : string) (n : nat) (s : stream) : outcome body :=
    obind (open_in s) (fun s1 =>
    obind (load_own root (S (List.length s1)) true n s1) (fun '(tree, _, _) =>
      resolve (wget tree) tree)).
End World.
