(** Model of the logger (src/logger.cpp, include/lm/logger.h), the progress reporters (src/progress.cpp)
    and the floating-point exception guard (include/lm/exception.h, src/exception.cpp). Text is a list of
    characters. *)
From Coq Require Import List ZArith Bool Ascii.
Import ListNotations.
Open Scope Z_scope.

(** const char* and std::string: src/logger.cpp:50-59. *)
Definition text := list ascii.
(** '\n': src/logger.cpp:152-156. *)
Definition newline : ascii := ascii_of_nat 10.
(** '\r': src/logger.cpp:50-159. *)
Definition cr : ascii := ascii_of_nat 13.
(** ' ': src/logger.cpp:50-159. *)
Definition blank : ascii := ascii_of_nat 32.
(** '.': src/logger.cpp:161-171. *)
Definition dot : ascii := ascii_of_nat 46.

(** include/lm/logger.h:34-88. [Progress] and [ProgressEnd] have the same value. *)
Definition level_debug : Z := -10.
(** include/lm/logger.h:53. *)
Definition level_info : Z := 10.
(** include/lm/logger.h:62. *)
Definition level_warn : Z := 20.
(** include/lm/logger.h:70. *)
Definition level_err : Z := 30.
(** include/lm/logger.h:79. *)
Definition level_progress : Z := 100.
(** include/lm/logger.h:87. *)
Definition level_progress_end : Z := 100.

(** src/logger.cpp:17-28 and the two function-static variables of 96-97. *)
Record logger := mk_logger {
  severity : Z;             (* 18, 20 *)
  indentation : Z;          (* 22 *)
  indentation_string : text;(* 23 *)
  max_len : Z;              (* 96 *)
  whitespaces : text        (* 97 *)
}.

(** 17-23: [debug] is LM_DEBUG_MODE. *)
Definition new_logger (debug : bool) : logger := mk_logger (if debug then -100 else 0) 0 [] 0 [].

(** 152-156: std::getline on a stream over the message until it fails. [cur] holds the characters of the
    current line, most recent first. *)
Fixpoint getlines (cur : text) (l : text) : list text :=
  match l with
  | [] => match cur with [] => [] | _ => [rev cur] end
  | c :: l' => if Ascii.eqb c newline then rev cur :: getlines [] l' else getlines (c :: cur) l'
  end.

(** 50-159. [header] is the text of lines 74-84 (type, elapsed time, file and line) with the colour codes
    of 114 and 138; it depends on the clock and is a parameter. Returns the logger and what is written to
    the standard output. The mutex (56) makes the writes of one call contiguous. *)
Definition log (s : logger) (level sev : Z) (header msg : text) : logger * text :=
  if severity s >? sev then (s, [])
  else if (level =? level_progress) || (level =? level_progress_end) then
    let body := indentation_string s ++ msg in
    let len := Z.of_nat (length header + length body) in
    let ws := if max_len s >? len then repeat blank (Z.to_nat (max_len s - len)) else whitespaces s in
    let ml := if max_len s >? len then max_len s else len in
    let out := header ++ body ++ ws ++ [cr] in
    if level =? level_progress_end
    then (mk_logger (severity s) (indentation s) (indentation_string s) 0 [], out)
    else (mk_logger (severity s) (indentation s) (indentation_string s) ml ws, out)
  else
    let line l := header ++ (indentation_string s ++ l) ++ [newline] in
    match msg with
    | [] => (s, line [])
    | _ => (s, concat (map line (getlines [] msg)))
    end.

(** 161-171. *)
Definition update_indentation (s : logger) (n : Z) : logger :=
  let i := indentation s + n in
  if i >? 0 then mk_logger (severity s) i (repeat dot (Z.to_nat (2 * i)) ++ [blank]) (max_len s) (whitespaces s)
  else mk_logger (severity s) 0 [] (max_len s) (whitespaces s).

(** 173-175. *)
Definition set_severity (s : logger) (n : Z) : logger :=
  mk_logger n (indentation s) (indentation_string s) (max_len s) (whitespaces s).

(** A program that logs: calls, severity changes, blocks with an LM_INDENT at their beginning, and
    raising an exception. Used by [exec]: include/lm/logger.h:190-193. *)
Inductive cmd :=
| CLog (level sev : Z) (header msg : text)
| CSeverity (n : Z)
| CScope (body : list cmd)
| CThrow.

(** Runs a program; the flag tells that an exception leaves it. The destructor of LogIndenter
    (include/lm/logger.h:190-193) also runs during stack unwinding. *)
Fixpoint exec (c : cmd) (s : logger) : logger * text * bool :=
  match c with
  | CLog level sev header msg => let '(s', o) := log s level sev header msg in (s', o, false)
  | CSeverity n => (set_severity s n, [], false)
  | CThrow => (s, [], true)
  | CScope body =>
      let '(s', o, t) :=
        (fix exec_list (l : list cmd) (s : logger) : logger * text * bool :=
           match l with
           | [] => (s, [], false)
           | c :: l' =>
               let '(s1, o1, t1) := exec c s in
               if t1 : bool then (s1, o1, true)
               else let '(s2, o2, t2) := exec_list l' s1 in (s2, o1 ++ o2, t2)
           end) body (update_indentation s 1) in
      (update_indentation s' (-1), o, t)
  end.
(** Commands in order, for include/lm/logger.h:190-193. *)
Fixpoint exec_list (l : list cmd) (s : logger) : logger * text * bool :=
  match l with
  | [] => (s, [], false)
  | c :: l' =>
      let '(s1, o1, t1) := exec c s in
      if t1 : bool then (s1, o1, true)
      else let '(s2, o2, t2) := exec_list l' s1 in (s2, o1 ++ o2, t2)
  end.

(** ** Progress reporters (src/progress.cpp). Times are nanoseconds of the clock. *)
Inductive event := EvStart | EvUpdate (n : Z) | EvUpdateTime (n : Z) | EvEnd.

(** 18-97. A leaf stands for any other reporter and records the events it receives, latest first.
    [delay] is in milliseconds; the field [start_] (60) is never read. *)
Inductive reporter :=
| Leaf (seen : list event)
| Mux (l : list reporter)                          (* 18-49 *)
| Delay (delay : Z) (last : Z) (r : reporter).     (* 56-97 *)

(** duration_cast<milliseconds>: truncation towards zero. src/progress.cpp:34-96. *)
Definition to_ms (ns : Z) : Z := Z.quot ns 1000000.

(** The clock readings made while one event is delivered: a reporter reads the clock at most once per
    event; the reading of the reporter at position [p] (path of child numbers) is [now p]. src/progress.cpp:34-96. *)
Definition clock := list nat -> Z.
(** For src/progress.cpp:34-96: a number reaches a reporter that has been started. *)
Definition below (i : nat) (now : clock) : clock := fun p => now (i :: p).

(** 34-48, 70-96: deliver one event. *)
Fixpoint deliver (r : reporter) (e : event) (now : clock) : reporter :=
  match r with
  | Leaf seen => Leaf (e :: seen)
  | Mux l =>
      Mux ((fix all (i : nat) (l : list reporter) : list reporter :=
              match l with [] => [] | r :: l' => deliver r e (below i now) :: all (S i) l' end) O l)
  | Delay d last r =>
      match e with
      | EvStart => Delay d (now []) (deliver r e (below 0 now))
      | EvEnd => Delay d last (deliver r e (below 0 now))
      | EvUpdate _ | EvUpdateTime _ =>
          if to_ms (now [] - last) >? d then Delay d (now []) (deliver r e (below 0 now)) else Delay d last r
      end
  end.

(** A sequence of calls of src/progress.cpp:34-96. *)
Definition deliver_all (r : reporter) (l : list (event * clock)) : reporter :=
  fold_left (fun r e => deliver r (fst e) (snd e)) l r.

(** ** Floating-point exceptions *)

(** Whether the platform has the control word, and whether traps are on (src/exception.cpp:107-117;
    on other platforms than Windows the calls do nothing). *)
Inductive fcmd := FEnable | FDisable | FGuard (body : list fcmd) | FThrow.

(** src/exception.cpp:107-111. *)
Definition enable_fpex (windows : bool) (on : bool) : bool := if windows then true else on.
(** src/exception.cpp:113-117. *)
Definition disable_fpex (windows : bool) (on : bool) : bool := if windows then false else on.

(** include/lm/exception.h:101-106: the guard disables on entry and enables on exit, also when an
    exception passes. Returns the state and whether an exception is raised. *)
Fixpoint fexec (windows : bool) (c : fcmd) (on : bool) : bool * bool :=
  match c with
  | FEnable => (enable_fpex windows on, false)
  | FDisable => (disable_fpex windows on, false)
  | FThrow => (on, true)
  | FGuard body =>
      let '(on', t) :=
        (fix go (l : list fcmd) (on : bool) : bool * bool :=
           match l with
           | [] => (on, false)
           | c :: l' => let '(on1, t1) := fexec windows c on in if t1 : bool then (on1, true) else go l' on1
           end) body (disable_fpex windows on) in
      (enable_fpex windows on', t)
  end.
