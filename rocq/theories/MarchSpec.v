(** Light scattered once towards the camera, through a medium known at the points of a march. *)
From Coq Require Import Reals List.
From Verif Require Import VecBase.
Import ListNotations.
Open Scope R_scope.

(** Along a list of points, each representing a step of length [h]: the optical depth before each point. *)
Section Channel.
  Variable mu : R.               (* extinction per density *)
  Variable density : vec3 -> R.
  Variable h : R.
  Definition depth (ps : list vec3) : R := fold_right (fun p s => mu * density p * h + s) 0 ps.
  (** Beer-Lambert. *)
  Definition through (ps : list vec3) : R := exp (- depth ps).

  (** Single scattering: of the light that is extinguished in the step at a point, the part [albedo] is scattered; what
      arrives there is [light p], and the points before attenuate what is seen. *)
  Variable albedo : R.
  Variable light : vec3 -> R.
  Fixpoint scattered (before ps : list vec3) : R :=
    match ps with
    | [] => 0
    | p :: ps' => albedo * light p * (through before - through (before ++ [p])) + scattered (before ++ [p]) ps'
    end.
End Channel.

Definition nonneg (v : vec3) : Prop := 0 <= vx v /\ 0 <= vy v /\ 0 <= vz v.
Definition pos (v : vec3) : Prop := 0 < vx v /\ 0 < vy v /\ 0 < vz v.
