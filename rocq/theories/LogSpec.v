(** What C48-C50 and C59 mean, without reference to how the code does it. *)
From Coq Require Import List ZArith Bool Ascii.
From Verif Require Import LogModel.
Import ListNotations.
Open Scope Z_scope.

(** The lines of a message: no line contains a newline, and the lines, each ended by a newline, are the
    message, or the message with the newline it lacks at its end. The empty message is one empty line. *)
Definition lines_of (msg : text) (ls : list text) : Prop :=
  (forall l, In l ls -> ~ In newline l) /\
  (concat (map (fun l => l ++ [newline]) ls) = msg /\ msg <> []
   \/ concat (map (fun l => l ++ [newline]) ls) = msg ++ [newline] /\ forall m, msg <> m ++ [newline]).

(** The indentation at nesting depth [d]. *)
Definition indent (d : nat) : text := match d with O => [] | _ => repeat dot (2 * d) ++ [blank] end.

Definition is_progress (level : Z) : Prop := level = 100.

(** [prints d v c v' t out]: program [c] at depth [d] with severity [v] configured prints [out], leaves
    severity [v'], and raises an exception if [t]. *)
Inductive prints : nat -> Z -> cmd -> Z -> bool -> text -> Prop :=
| pr_hidden d v level sev h m : sev < v -> prints d v (CLog level sev h m) v false []
| pr_lines d v level sev h m ls : v <= sev -> ~ is_progress level -> lines_of m ls ->
    prints d v (CLog level sev h m) v false (concat (map (fun l => h ++ indent d ++ l ++ [newline]) ls))
| pr_progress d v level sev h m : v <= sev -> is_progress level ->
    prints d v (CLog level sev h m) v false (h ++ indent d ++ m ++ [cr])
| pr_severity d v n : prints d v (CSeverity n) n false []
| pr_throw d v : prints d v CThrow v true []
| pr_scope d v l v' t out : prints_list (S d) v l v' t out -> prints d v (CScope l) v' t out
with prints_list : nat -> Z -> list cmd -> Z -> bool -> text -> Prop :=
| pl_nil d v : prints_list d v [] v false []
| pl_stop d v c l v' out : prints d v c v' true out -> prints_list d v (c :: l) v' true out
| pl_cons d v c l v1 v2 t o1 o2 : prints d v c v1 false o1 -> prints_list d v1 l v2 t o2 ->
    prints_list d v (c :: l) v2 t (o1 ++ o2).

(** A terminal line and the column of the cursor: a character overwrites what is shown, a carriage return
    goes to the first column, a newline begins a new line. *)
Definition put (st : text * nat) (c : ascii) : text * nat :=
  let '(line, col) := st in
  if Ascii.eqb c cr then (line, O)
  else if Ascii.eqb c newline then ([], O)
  else (firstn col line ++ c :: skipn (S col) line, S col).
Definition screen (written : text) : text := fst (fold_left put written ([], O)).
Definition plain (w : text) : Prop := ~ In cr w /\ ~ In newline w.

(** ** Progress *)

Definition is_update (e : event) : bool := match e with EvUpdate _ | EvUpdateTime _ => true | _ => false end.

(** A history [h] lists events with their clock reading (ns) and whether they were forwarded. The
    reference time of an update is the time of the last start or forwarded update before it ([t0] if there
    is none). The rule: an update is forwarded exactly if enough time has passed since the reference time,
    every other event is forwarded. *)
Definition reference (t0 : Z) (before : list (event * Z * bool)) : Z :=
  fold_left (fun t x => match x with
                        | (EvStart, now, _) => now
                        | (EvUpdate _, now, true) | (EvUpdateTime _, now, true) => now
                        | _ => t
                        end) before t0.
Definition delay_rule (elapsed_enough : Z -> Prop) (t0 : Z) (h : list (event * Z * bool)) : Prop :=
  forall before e now f after, h = before ++ (e, now, f) :: after ->
    f = true <-> (is_update e = true -> elapsed_enough (now - reference t0 before)).
