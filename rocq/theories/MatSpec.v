(** Independent vocabulary for materials. *)
From Coq Require Import List Reals ZArith.
From Verif Require Import Base VecBase SurfModel SurfSpec DistSpec MatModel.
Import ListNotations.
Open Scope R_scope.

(** A point of a surface with unit shading normal, as the library constructs it. *)
Definition surface_point (g : spoint) : Prop := exists neg0 p n gn t, unit n /\ g = mk_spoint (make_on_surface neg0 p n gn) t.

(** The materials one can construct. The flag says whether the material is the one of the OBJ loader
    (possibly behind proxies). *)
Inductive built : bool -> material -> Prop :=
| b_diffuse Kd map : built false (diffuse Kd map)
| b_glossy Ks ax ay : built false (glossy Ks ax ay)
| b_mirror : built false mirror
| b_mask : built false mask
| b_glass Ni : built false (glass Ni)
| b_proxy b m : built b m -> built b (proxy m)
| b_rr es : (forall m w, In (m, w) es -> exists b, built b m) -> built false (mixture_rr es)
| b_marg es : (forall m w, In (m, w) es -> exists b, built b m) -> built false (mixture_marginalized es)
| b_obj Kd map Ks ax ay mk : built true (mixture_obj Kd map Ks ax ay mk).

(** The weight returned with a sampled direction is the value over the density (as a product). *)
Definition weight_consistent (m : material) (c : Z) : Prop :=
  forall ud udc g wi dir wo w, sample_direction m ud udc g wi c dir = Val (Some (wo, w)) ->
  exists f p, eval m g wi wo c dir false = Val f /\ pdf_direction m g wi wo c false = Val p /\ vscale p w = f.

(** [pick] selects the indices 0, 1, ... with the probabilities [ps]: they are non-negative and sum to
    one; the numbers selecting index i form an interval of length ps_i; the weight is the reciprocal;
    [prob] reports the probability. *)
Definition selects (ps : list R) (pick : R -> fl (Z * R)) (prob : Z -> fl R) : Prop :=
  nonneg ps /\ rsum ps = 1
  /\ (forall i, (i < length ps)%nat -> prob (Z.of_nat i) = Val (nth i ps 0))
  /\ forall u, 0 <= u < 1 -> exists i, (i < length ps)%nat /\ pick u = Val (Z.of_nat i, / nth i ps 0) /\ 0 < nth i ps 0
       /\ rsum (firstn i ps) <= u < rsum (firstn i ps) + nth i ps 0.

(** Sums. *)
Definition vsum (l : list vec3) : vec3 := fold_right vadd v0 l.
(** All values of a list of computations. *)
Definition vals {A} (l : list (fl A)) (xs : list A) : Prop := l = map Val xs.

(** The entries of a mixture that are not specular, and the specular ones. *)
Definition smooth (es : list (material * R)) := filter (fun e => negb (is_specular (fst e) 0)) es.
Definition spiky (es : list (material * R)) := filter (fun e => is_specular (fst e) 0) es.

(** The same value for both orders of the directions. *)
Definition reciprocal (m : material) (c : Z) : Prop :=
  forall g wi wo dir delta, surface_point g -> unit wi -> unit wo -> eval m g wi wo c dir delta = eval m g wo wi c dir delta.
Definition vnonneg (v : vec3) : Prop := 0 <= vx v /\ 0 <= vy v /\ 0 <= vz v.
Definition value_nonneg (m : material) (c : Z) : Prop :=
  forall g wi wo dir delta f, surface_point g -> unit wi -> unit wo -> eval m g wi wo c dir delta = Val f -> vnonneg f.
(** The density reported for a direction is non-negative. *)
Definition pdf_nonneg (m : material) (c : Z) : Prop :=
  forall g wi wo delta p, surface_point g -> unit wi -> unit wo -> pdf_direction m g wi wo c delta = Val p -> 0 <= p.

(** Parameters in their physical range. *)
Definition color_ok (c : vec3) : Prop := vnonneg c /\ vx c <= 1 /\ vy c <= 1 /\ vz c <= 1.
Definition map_ok (t : option tex) : Prop :=
  match t with None => True
  | Some t => (forall x, color_ok (tex_eval t x)) /\ match tex_alpha t with None => True | Some a => forall x, 0 <= a x <= 1 end end.
(** The materials of reflecting surfaces with parameters in range: diffuse and glossy ones, their mixtures
    and the OBJ material. *)
Inductive reflecting : material -> Prop :=
| r_diffuse Kd map : color_ok Kd -> map_ok map -> reflecting (diffuse Kd map)
| r_glossy Ks ax ay : color_ok Ks -> 0 < ax -> 0 < ay -> reflecting (glossy Ks ax ay)
| r_proxy m : reflecting m -> reflecting (proxy m)
| r_rr es : (forall m w, In (m, w) es -> reflecting m /\ 0 <= w) -> reflecting (mixture_rr es)
| r_marg es : (forall m w, In (m, w) es -> reflecting m /\ 0 <= w) -> reflecting (mixture_marginalized es)
| r_obj Kd map Ks ax ay mk : color_ok Kd -> map_ok map -> color_ok Ks -> 0 < ax -> 0 < ay -> reflecting (mixture_obj Kd map Ks ax ay mk).
