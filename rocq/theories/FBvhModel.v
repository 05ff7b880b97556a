(** Model of the query of the acceleration structure (src/accel/accel_sahbvh.cpp:269-299) with Float as it is:
    boxes, triangles and distances of FBoundModel. For the construction see BvhModel. *)
From Coq Require Import List Arith Bool.
From Verif Require Import Base RngModel FltModel FBoundModel.
Import ListNotations.
Local Open Scope nat_scope.

(** src/accel/accel_sahbvh.cpp:79-83 *)
Record fnode := mk_fnode { fnb : fbound; fleaf : bool; fns : nat; fne : nat; fc1 : nat; fc2 : nat }.

Section Query.
  Variable trs : list ftri.
  Variable nds : nat -> fnode.
  Variable num_nodes : nat.
  Variable idx : list nat.
  Variable r : fray.
  Variable tmin : flt.

  (** mh with mi, and the current tmax (271-272); a hit is t, u, v. *)
  Record fbest := mk_fbest { fb_hit : option (flt * flt * flt * nat); fb_tmax : flt }.

  (** The loop over the triangles of a leaf (285-291); the subscripts are unchecked. *)
  Fixpoint fleaf_loop (is : list nat) (b : fbest) : outcome fbest :=
    match is with
    | [] => Ok b
    | i :: rest =>
        match nth_error idx i with
        | None => UB
        | Some k =>
            match nth_error trs k with
            | None => UB
            | Some tri =>
                match ftri_isect tri r tmin (fb_tmax b) with
                | Some (t, u, v) => fleaf_loop rest (mk_fbest (Some (t, u, v, i)) t)
                | None => fleaf_loop rest b
                end
            end
        end
    end.

  (** The main loop (275-292); the stack has room for 99 entries and is not checked. *)
  Fixpoint frun (fuel : nat) (stack : list nat) (b : fbest) : outcome fbest :=
    match fuel with
    | O => Fuel
    | S f =>
        match stack with
        | [] => Ok b
        | ni :: rest =>
            if num_nodes <=? ni then Throw ErrOutOfRange else
            let n := nds ni in
            if negb (fisect (fnb n) r tmin (fb_tmax b)) then frun f rest b else
            if negb (fleaf n) then
              if 99 <? length rest + 2 then UB else frun f (fc2 n :: fc1 n :: rest) b
            else obind (fleaf_loop (seq (fns n) (fne n - fns n)) b) (fun b' => frun f rest b')
        end
    end.

  (** src/accel/accel_sahbvh.cpp:269-299: distance, the two coordinates, and the number of the triangle, from which
      the primitive and the face are read *)
  Definition fquery (fuel : nat) (tmax : flt) : outcome (option (flt * flt * flt * nat)) :=
    obind (frun fuel [0] (mk_fbest None tmax)) (fun b =>
      match fb_hit b with
      | None => Ok None
      | Some (_, u, v, i) =>
          match nth_error idx i with
          | None => Throw ErrOutOfRange
          | Some k => match nth_error trs k with None => Throw ErrOutOfRange | Some _ => Ok (Some (fb_tmax b, u, v, k)) end
          end
      end).
End Query.
