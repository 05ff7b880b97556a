(** Vectors with real components: glm's Vec2, Vec3 and their operators with Float as the reals. *)
From Coq Require Import Reals Lra ZArith.
Open Scope R_scope.

Record vec2 := V2 { v2x : R; v2y : R }.
Record vec3 := V3 { vx : R; vy : R; vz : R }.

(** Subscript v[i] of a Vec3, i = 0, 1, 2. *)
Definition comp (v : vec3) (i : nat) : R := match i with O => vx v | 1%nat => vy v | _ => vz v end.

Definition vadd (a b : vec3) : vec3 := V3 (vx a + vx b) (vy a + vy b) (vz a + vz b).
Definition vsub (a b : vec3) : vec3 := V3 (vx a - vx b) (vy a - vy b) (vz a - vz b).
Definition vmul (a b : vec3) : vec3 := V3 (vx a * vx b) (vy a * vy b) (vz a * vz b).
Definition vscale (k : R) (a : vec3) : vec3 := V3 (k * vx a) (k * vy a) (k * vz a).
Definition vneg (a : vec3) : vec3 := V3 (- vx a) (- vy a) (- vz a).
Definition dot (a b : vec3) : R := vx a * vx b + vy a * vy b + vz a * vz b.
Definition cross (a b : vec3) : vec3 :=
  V3 (vy a * vz b - vz a * vy b) (vz a * vx b - vx a * vz b) (vx a * vy b - vy a * vx b).
Definition v0 : vec3 := V3 0 0 0.
Definition vlen (a : vec3) : R := sqrt (dot a a).

Lemma vec3_eq a b : vx a = vx b -> vy a = vy b -> vz a = vz b -> a = b.
Proof. destruct a, b. cbn. intros -> -> ->. reflexivity. Qed.

Ltac vec := repeat match goal with v : vec3 |- _ => destruct v end;
  unfold vadd, vsub, vmul, vscale, vneg, dot, cross, v0, comp in *; cbn [vx vy vz] in *.
Ltac vcomp := vec; apply vec3_eq; cbn [vx vy vz].
Ltac vring := vec; (apply vec3_eq; cbn [vx vy vz]; ring) || ring.

Lemma vadd_comm a b : vadd a b = vadd b a. Proof. vring. Qed.
Lemma vadd_assoc a b c : vadd a (vadd b c) = vadd (vadd a b) c. Proof. vring. Qed.
Lemma vadd_0_l a : vadd v0 a = a. Proof. vring. Qed.
Lemma vadd_0_r a : vadd a v0 = a. Proof. vring. Qed.
Lemma dot_comm a b : dot a b = dot b a. Proof. vring. Qed.
Lemma dot_self_nonneg a : 0 <= dot a a. Proof. vec. nra. Qed.
Lemma vlen_nonneg a : 0 <= vlen a. Proof. apply sqrt_pos. Qed.
Lemma vlen_sq a : vlen a * vlen a = dot a a. Proof. apply sqrt_sqrt, dot_self_nonneg. Qed.
