(** Model of the default progress reporter (src/progress.cpp:104-166). The text of a message is represented by the numbers in it;
    percentages and the formatting are left out. *)
From Coq Require Import List ZArith Bool.
From Verif Require Import Base.
Import ListNotations.
Local Open Scope Z_scope.

(** include/lm/progress.h:47-50 *)
Inductive pmode := Samples | Time.
Section Eta.
  Context {F : Type}.
  (** total_time_ - elapsed (src/progress.cpp:153) *)
  Variable sub : F -> F -> F.
  (** src/progress.cpp:106-110; times in nanoseconds *)
  Record reporter := mk_reporter { r_mode : pmode; r_total : Z; r_total_time : F; r_start : Z; r_last : Z }.
  (** src/progress.cpp:137-141, 155-159 and 165: iter=, of, ETA= in milliseconds (None: no ETA) or in seconds *)
  Inductive message := Progress (processed total : Z) (eta : option Z) | ProgressTime (elapsed total eta : F) | Completed.
  (** The calls: src/progress.cpp:113, 121, 146 and 164 *)
  Inductive call := Start (m : pmode) (total : Z) (total_time : F) | Update (processed : Z) | UpdateTime (elapsed : F) | End.
  (** long long; beyond its range the arithmetic of src/progress.cpp:133 is undefined. *)
  Definition in_ll (z : Z) : bool := (- 2 ^ 63 <=? z) && (z <? 2 ^ 63).
  (** duration_cast<milliseconds>: truncates (src/progress.cpp:126, 133 and 151). *)
  Definition millis (ns : Z) : Z := Z.quot ns 1000000.
  (** elapsed_from_last_update > .5s (src/progress.cpp:127 and 152) *)
  Definition due (now last : Z) : bool := 500 <? millis (now - last).
  (** src/progress.cpp:133; total_ - processed, the product and the quotient are of long long. *)
  Definition eta_of (s : reporter) (now processed : Z) : outcome Z :=
    let left := r_total s - processed in
    let prod := millis (now - r_start s) * left in
    if in_ll left && in_ll prod && in_ll (Z.quot prod processed) then Ok (Z.quot prod processed) else UB.
  (** src/progress.cpp:142 and 160: last_updated_ = now *)
  Definition reported (s : reporter) (now : Z) : reporter := mk_reporter (r_mode s) (r_total s) (r_total_time s) (r_start s) now.
  (** src/progress.cpp:121-144 *)
  Definition update (s : reporter) (now processed : Z) : outcome (reporter * list message) :=
    match r_mode s with
    | Time => Ok (s, [])
    | Samples =>
        if negb (due now (r_last s)) then Ok (s, []) else
        if processed =? 0 then Ok (reported s now, [Progress processed (r_total s) None]) else
        obind (eta_of s now processed) (fun e => Ok (reported s now, [Progress processed (r_total s) (Some e)]))
    end.
  (** src/progress.cpp:146-162 *)
  Definition update_time (s : reporter) (now : Z) (elapsed : F) : reporter * list message :=
    match r_mode s with
    | Samples => (s, [])
    | Time => if negb (due now (r_last s)) then (s, [])
              else (reported s now, [ProgressTime elapsed (r_total_time s) (sub (r_total_time s) elapsed)])
    end.
  (** One call at time [now]: src/progress.cpp:113-166. Before start the members are not initialised (None); end does not read
      them. *)
  Definition call_step (s : option reporter) (now : Z) (c : call) : outcome (option reporter * list message) :=
    match c, s with
    | Start m t ttime, _ => Ok (Some (mk_reporter m t ttime now now), [])
    | End, _ => Ok (s, [Completed])
    | _, None => UB
    | Update n, Some s => obind (update s now n) (fun '(s, ms) => Ok (Some s, ms))
    | UpdateTime e, Some s => let '(s, ms) := update_time s now e in Ok (Some s, ms)
    end.
  (** A history of calls; the messages with their times. src/progress.cpp:113-166. *)
  Fixpoint calls (s : option reporter) (l : list (Z * call)) : outcome (option reporter * list (Z * message)) :=
    match l with
    | [] => Ok (s, [])
    | (now, c) :: l =>
        obind (call_step s now c) (fun '(s, ms) =>
        obind (calls s l) (fun '(s, r) => Ok (s, map (fun m => (now, m)) ms ++ r)))
    end.
End Eta.
Arguments reporter : clear implicits. Arguments message : clear implicits. Arguments call : clear implicits.
