(** Model of the volumes (src/volume) and media (src/medium). Float is the reals. The OpenVDB volume
    (plugin/volume_openvdb) is in VdbModel. *)
From Coq Require Import List Reals ZArith Bool.
From Verif Require Import Base RBase VecBase GeoModel MatModel PathModel.
Import ListNotations.
Open Scope R_scope.

(** include/lm/volume.h: the interface. The functions that are not implemented raise an exception; reading
    an absent optional is undefined. *)
Record volume := mk_volume {
  v_bound : bound;
  v_has_scalar : bool;
  v_max : pm R;
  v_scalar : vec3 -> pm R;
  v_has_color : bool;
  v_color : vec3 -> pm vec3 }.
(** std::optional::has_value: src/volume/volume_constant.cpp:51-65. *)
Definition isSome {A} (o : option A) : bool := match o with Some _ => true | None => false end.
(** *opt: src/volume/volume_constant.cpp:55-69; undefined without a value. *)
Definition read {A} (o : option A) : pm A := match o with Some a => ret a | None => UB end.

(** Conversion to int: undefined outside of its range. src/volume/volume_checker.cpp:50-57. *)
Definition to_int (x : R) : fl Z :=
  let z := trunc x in if ((-2147483648 <=? z) && (z <=? 2147483647))%Z then Val z else Undefined.

(** src/volume/volume_checker.cpp:50-57. The quotient of the z components is computed and not used. *)
Definition checker_eval (b : bound) (p : vec3) : fl R :=
  let delta := / 5 in
  do tx <- rdiv (vx p - vx (bmin b)) (vx (bmax b) - vx (bmin b));
  do ty <- rdiv (vy p - vy (bmin b)) (vy (bmax b) - vy (bmin b));
  do x <- to_int (tx / delta);
  do y <- to_int (ty / delta);
  if ((-2147483648 <=? x + y) && (x + y <=? 2147483647))%Z then Val (if (Z.rem (x + y) 2 =? 0)%Z then 1 else 0) else Undefined.
(** 33-61; the color raises that it is not implemented (include/lm/volume.h) *)
Definition checker (b : bound) : volume :=
  mk_volume b true (ret 1) (fun p => Ok (checker_eval b p)) false (fun _ => Throw ErrUnimplemented).

(** src/volume/volume_constant.cpp:36-69; the bounds default to an inverted box *)
Definition constant (lo hi : option vec3) (color : option vec3) (scalar : option R) : outcome volume :=
  let b := mk_bound (match lo with Some v => v | None => V3 Inf Inf Inf end)
                    (match hi with Some v => v | None => V3 (- Inf) (- Inf) (- Inf) end) in
  if negb (isSome color) && negb (isSome scalar) then Throw ErrInvalidArgument else
  Ok (mk_volume b (isSome scalar) (read scalar) (fun _ => read scalar) (isSome color) (fun _ => read color)).

(** src/volume/volume_sphere.cpp:37-88 *)
Definition sq3 : R := 173205080757 / 100000000000.
(** src/volume/volume_sphere.cpp:37-88. *)
Definition sphere_vol (color : option vec3) (pos : vec3) (scalar : option R) (radius : R) : outcome volume :=
  if negb (isSome color) && negb (isSome scalar) then Throw ErrInvalidArgument else
  let e := grey (sq3 * radius) in
  let b := mk_bound (vsub (vsub pos e) (grey Eps)) (vadd (vadd pos e) (grey Eps)) in
  Ok (mk_volume b (isSome scalar) (read scalar)
        (fun p => let! m := read scalar in ret (m * (if Rlt_dec (vlen (vsub pos p)) radius then 1 else 0)))
        (isSome color) (fun _ => read color)).

(** src/volume/volume_gaussian.cpp:52-57: NaN for a negative parameter *)
Definition gauss_ac (s : R) : fl R :=
  let x := -2 * s * ln Eps in if Rlt_dec x 0 then NonFinite else Val (2 * sqrt x).
(** 74-81 *)
Definition gauss_eval (m : R) (p s : vec3) : fl R :=
  do a <- rdiv (vx p * vx p) (vx s * vx s); do b <- rdiv (vy p * vy p) (vy s * vy s); do c <- rdiv (vz p * vz p) (vz s * vz s);
  Val (m * exp (- (1 / 2) * (a + b + c))).
(** 38-92 *)
Definition gaussian (color : option vec3) (scalar : option R) (pos sigma : vec3) : pm volume :=
  if negb (isSome color) && negb (isSome scalar) then Throw ErrInvalidArgument else
  let! x := Ok (gauss_ac (vx sigma)) in let! y := Ok (gauss_ac (vy sigma)) in let! z := Ok (gauss_ac (vz sigma)) in
  let ac := Rmax (Rmax x y) z in
  let b := mk_bound (vsub pos (grey ac)) (vadd pos (grey ac)) in
  ret (mk_volume b (isSome scalar) (read scalar)
        (fun p => let! m := read scalar in Ok (gauss_eval m (vsub pos p) sigma))
        (isSome color) (fun _ => read color)).

(** src/volume/volume_multi.cpp:94-102 *)
Definition is_in_bound (p : vec3) (b : bound) : bool :=
  let between a lo hi := if Rle_dec lo a then (if Rle_dec a hi then true else false) else false in
  between (vx p) (vx (bmin b)) (vx (bmax b)) && between (vy p) (vy (bmin b)) (vy (bmax b)) && between (vz p) (vz (bmin b)) (vz (bmax b)).
(** 105-113 *)
Fixpoint multi_scalar (den : list volume) (p : vec3) (sum : R) : pm R :=
  match den with
  | [] => ret sum
  | v :: l => if negb (is_in_bound p (v_bound v)) then multi_scalar l p sum
              else let! x := v_scalar v p in multi_scalar l p (sum + x)
  end.
(** 124-134 *)
Fixpoint multi_color (l : list (volume * volume)) (p : vec3) (sum : R) (c : vec3) : pm (R * vec3) :=
  match l with
  | [] => ret (sum, c)
  | (a, d) :: l' =>
      if negb (is_in_bound p (v_bound d)) then multi_color l' p sum c else
      let! sc := v_scalar d p in let! x := v_color a p in multi_color l' p (sum + sc) (vadd c (vscale sc x))
  end.
(** 47-56: the references, null if the locator is not found (C02) *)
Fixpoint multi_refs (alb den : list (option volume)) : outcome (list (volume * volume)) :=
  match alb, den with
  | a :: alb', d :: den' =>
      match a, d with
      | None, _ => UB
      | Some a, d =>
          if negb (v_has_color a) then Throw ErrInvalidArgument else
          match d with
          | None => UB
          | Some d => if negb (v_has_scalar d) then Throw ErrInvalidArgument else
                      get! l := multi_refs alb' den' in Ok ((a, d) :: l)
          end
      end
  | _, _ => Ok []
  end.
(** 59-73 *)
Fixpoint multi_bound (den : list volume) (b : bound) (m : R) : pm (bound * R) :=
  match den with
  | [] => ret (b, m)
  | v :: l => let! x := v_max v in multi_bound l (mk_bound (vmin (bmin b) (bmin (v_bound v))) (vmax (bmax b) (bmax (v_bound v)))) (m + x)
  end.
(** 35-138 *)
Definition multi (alb den : list (option volume)) : pm volume :=
  if (length alb =? 0)%nat || (length den =? 0)%nat || negb (length den =? length alb)%nat then Throw ErrInvalidArgument else
  get! l := multi_refs alb den in
  let! (b, m) := multi_bound (map snd l) (mk_bound (V3 Inf Inf Inf) (V3 (- Inf) (- Inf) (- Inf))) 0 in
  ret (mk_volume b true (ret m) (fun p => multi_scalar (map snd l) p 0) true
        (fun p => let! (sum, c) := multi_color l p 0 v0 in Ok (vdiv c sum))).

(** * Media. Random numbers are the list of the results of the calls of rng.u(); [Fuel] if it is used up.
    The functions return the rest of the list. *)
(** include/lm/medium.h:24-28 *)
Record dsample := mk_ds { ds_p : vec3; ds_weight : vec3; ds_medium : bool }.
(** include/lm/medium.h: the interface. *)
Record medium := mk_medium {
  md_sample : list R -> ray -> R -> R -> pm (option dsample * list R);
  md_transmittance : list R -> ray -> R -> R -> pm (vec3 * list R) }.
(** ray.o + ray.d * t: src/medium/medium_homogeneous.cpp:40-102. *)
Definition ray_point (r : ray) (t : R) : vec3 := vadd (ro r) (vscale t (rd r)).
(** The range of the ray inside of the box, None if there is none; a bound that is not a number is not
    followed further. src/medium/medium_homogeneous.cpp:40-102. *)
Definition range (b : bound) (r : ray) (tmin tmax : R) : fl (option (R * R)) :=
  match isect_range b r tmin tmax with
  | (false, _, _) => Val None
  | (true, Fin l, Fin h) => Val (Some (l, h))
  | (true, _, _) => NonFinite
  end.
(** std::log. src/medium/medium_homogeneous.cpp:40-102. *)
Definition flog (x : R) : fl R := if Rlt_dec 0 x then Val (ln x) else NonFinite.

(** src/medium/medium_homogeneous.cpp:40-102; muA and muS are not used *)
Definition homogeneous (density : R) (albedo : vec3) (lo hi : option vec3) : medium :=
  let b := mk_bound (match lo with Some v => v | None => V3 (- Inf) (- Inf) (- Inf) end)
                    (match hi with Some v => v | None => V3 Inf Inf Inf end) in
  mk_medium
    (* 60-87 *)
    (fun us r tmin tmax =>
       let! x := Ok (range b r tmin tmax) in
       match x with
       | None => ret (None, us)
       | Some (tmin, tmax) =>
           match us with
           | [] => Fuel
           | u :: us =>
               let! l := Ok (flog (1 - u)) in let! t := Ok (rdiv (- l) density) in
               if Rlt_dec t (tmax - tmin) then ret (Some (mk_ds (ray_point r (tmin + t)) albedo true), us)
               else ret (Some (mk_ds (ray_point r tmax) (grey 1) false), us)
           end
       end)
    (* 89-96 *)
    (fun us r tmin tmax =>
       let! x := Ok (range b r tmin tmax) in
       match x with
       | None => ret (grey 1, us)
       | Some (tmin, tmax) => ret (grey (exp (- density * (tmax - tmin))), us)
       end).

Section Heterogeneous.
  Variables (den alb : volume).
  (** src/medium/medium_heterogeneous.cpp:53-76 *)
  Fixpoint track (us : list R) (r : ray) (t tmax inv : R) : pm (option dsample * list R) :=
    match us with
    | [] => Fuel
    | u :: us =>
        let! l := Ok (flog (1 - u)) in
        let t := t - l * inv in
        if Rle_dec tmax t then ret (None, us) else
        let! x := v_scalar den (ray_point r t) in
        match us with
        | [] => Fuel
        | u :: us =>
            if Rlt_dec u (x * inv) then
              let! a := v_color alb (ray_point r t) in ret (Some (mk_ds (ray_point r t) a true), us)
            else track us r t tmax inv
        end
    end.
  (** 92-101 *)
  Fixpoint ratio (us : list R) (r : ray) (t tmax inv T : R) : pm (R * list R) :=
    match us with
    | [] => Fuel
    | u :: us =>
        let! l := Ok (flog (1 - u)) in
        let t := t - l * inv in
        if Rle_dec tmax t then ret (T, us) else
        let! x := v_scalar den (ray_point r t) in
        ratio us r t tmax inv (T * (1 - x * inv))
    end.
  (** src/medium/medium_heterogeneous.cpp:38-111 *)
  Definition heterogeneous : medium :=
    mk_medium
      (* 44-79 *)
      (fun us r tmin tmax =>
         let! x := Ok (range (v_bound den) r tmin tmax) in
         match x with
         | None => ret (None, us)
         | Some (tmin, tmax) => let! m := v_max den in let! inv := Ok (rdiv 1 m) in track us r tmin tmax inv
         end)
      (* 81-104 *)
      (fun us r tmin tmax =>
         let! x := Ok (range (v_bound den) r tmin tmax) in
         match x with
         | None => ret (grey 1, us)
         | Some (tmin, tmax) =>
             let! m := v_max den in let! inv := Ok (rdiv 1 m) in
             let! (T, us) := ratio us r tmin tmax inv 1 in ret (grey T, us)
         end).
End Heterogeneous.
