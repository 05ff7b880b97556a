(** Reals as the model of Float: conversion to int, division, clamping. *)
From Coq Require Import Reals ZArith Lra Lia.
Open Scope R_scope.

(** int(r): truncation towards zero. The range of int is not modelled. *)
Definition trunc (r : R) : Z := if Rlt_dec r 0 then (- Int_part (- r))%Z else Int_part r.

(** glm::clamp(x, lo, hi) = min(max(x, lo), hi) *)
Definition zclamp (x lo hi : Z) : Z := Z.min (Z.max x lo) hi.
Definition rclamp (x lo hi : R) : R := Rmin (Rmax x lo) hi.

(** a / b on floating point numbers: None stands for the infinities and NaN of a zero divisor. *)
Definition fdiv (a b : R) : option R := if Req_EM_T b 0 then None else Some (a / b).

Lemma Int_part_spec r z : IZR z <= r -> r < IZR z + 1 -> Int_part r = z.
Proof.
  intros H1 H2. unfold Int_part. assert (E : (z + 1)%Z = up r) by (apply tech_up; rewrite plus_IZR; lra). rewrite <- E. ring.
Qed.

Lemma Int_part_bounds r : IZR (Int_part r) <= r /\ r < IZR (Int_part r) + 1.
Proof. destruct (base_Int_part r). lra. Qed.

Lemma trunc_nonneg r z : 0 <= r -> trunc r = z <-> IZR z <= r < IZR z + 1.
Proof.
  intros H. unfold trunc. destruct (Rlt_dec r 0); [lra|]. split.
  - intros <-. apply Int_part_bounds.
  - intros [H1 H2]. now apply Int_part_spec.
Qed.

Lemma trunc_bounds r : 0 <= r -> IZR (trunc r) <= r < IZR (trunc r) + 1.
Proof. intros H. now apply (trunc_nonneg r). Qed.

Lemma trunc_range r n : 0 <= r -> r < IZR n -> (0 <= trunc r < n)%Z.
Proof.
  intros H H1. destruct (trunc_bounds r H) as [H2 H3]. split.
  - apply Z.lt_succ_r. apply lt_IZR. rewrite succ_IZR. lra.
  - apply lt_IZR. lra.
Qed.

Lemma zclamp_id x lo hi : (lo <= x <= hi)%Z -> zclamp x lo hi = x.
Proof. unfold zclamp. lia. Qed.
Lemma zclamp_range x lo hi : (lo <= hi)%Z -> (lo <= zclamp x lo hi <= hi)%Z.
Proof. unfold zclamp. lia. Qed.

Lemma fdiv_ok a b : b <> 0 -> fdiv a b = Some (a / b).
Proof. intros H. unfold fdiv. destruct (Req_EM_T b 0); [contradiction|reflexivity]. Qed.
