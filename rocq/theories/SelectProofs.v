From Coq Require Import Reals ZArith Lra Lia.
From Verif Require Import RBase SelectModel.
Open Scope R_scope.

Lemma select_valid n u : (0 < n)%nat -> 0 <= u < 1 ->
  (0 <= fst (sample_light_selection n u) < Z.of_nat n)%Z
  /\ snd (sample_light_selection n u) = Some (1 / INR n)
  /\ pdf_light_selection n (fst (sample_light_selection n u)) = snd (sample_light_selection n u).
Proof.
  intros Hn [H0 H1]. assert (Hp : 0 < INR n) by now apply lt_0_INR.
  unfold sample_light_selection, pdf_light_selection. cbn [fst snd]. rewrite fdiv_ok by lra. split; [|auto].
  assert (H := zclamp_range (trunc (u * INR n)) 0 (Z.of_nat n - 1)). lia.
Qed.

Lemma select_preimage n u k : (0 < n)%nat -> 0 <= u < 1 ->
  fst (sample_light_selection n u) = k <-> IZR k / INR n <= u < (IZR k + 1) / INR n.
Proof.
  intros Hn [H0 H1]. assert (Hp : 0 < INR n) by now apply lt_0_INR.
  unfold sample_light_selection. cbn [fst].
  assert (Hu : 0 <= u * INR n) by (apply Rmult_le_pos; lra).
  assert (Hr : (0 <= trunc (u * INR n) < Z.of_nat n)%Z) by (apply trunc_range; [assumption|rewrite <- INR_IZR_INZ; nra]).
  rewrite zclamp_id by lia.
  rewrite trunc_nonneg by assumption.
  assert (E1 : IZR k / INR n <= u <-> IZR k <= u * INR n).
  { split; intros H; [apply Rmult_le_reg_r with (/ INR n); [now apply Rinv_0_lt_compat|rewrite Rmult_assoc, Rinv_r by lra; unfold Rdiv in H; lra]
      |apply Rmult_le_reg_r with (INR n); [assumption|unfold Rdiv; rewrite Rmult_assoc, Rinv_l by lra; lra]]. }
  assert (E2 : u < (IZR k + 1) / INR n <-> u * INR n < IZR k + 1).
  { split; intros H; [apply Rmult_lt_reg_r with (/ INR n); [now apply Rinv_0_lt_compat|rewrite Rmult_assoc, Rinv_r by lra; unfold Rdiv in H; lra]
      |apply Rmult_lt_reg_r with (INR n); [assumption|unfold Rdiv; rewrite Rmult_assoc, Rinv_l by lra; lra]]. }
  tauto.
Qed.

Lemma select_length n k : (0 < n)%nat -> (IZR k + 1) / INR n - IZR k / INR n = 1 / INR n.
Proof. intros Hn. assert (Hp : 0 < INR n) by now apply lt_0_INR. field. lra. Qed.

Lemma select_inside n k : (0 < n)%nat -> (0 <= k < Z.of_nat n)%Z -> 0 <= IZR k / INR n /\ (IZR k + 1) / INR n <= 1.
Proof.
  intros Hn Hk. assert (Hp : 0 < INR n) by now apply lt_0_INR. assert (0 <= IZR k) by (apply IZR_le; lia).
  assert (IZR k + 1 <= INR n) by (rewrite INR_IZR_INZ, <- succ_IZR; apply IZR_le; lia).
  split; [apply Rmult_le_pos; [assumption|]; apply Rlt_le, Rinv_0_lt_compat; assumption|].
  apply Rmult_le_reg_r with (INR n); [assumption|]. unfold Rdiv. rewrite Rmult_assoc, Rinv_l by lra. lra.
Qed.
