(** The integer function [round_log2] is the nearest integer to the real logarithm. *)
From Coq Require Import ZArith QArith Reals Lra Lia.
From Verif Require Import Num M_Pow2 L_Pow2.
From Coq Require Import Lra.
Open Scope R_scope.

Lemma ln_IZR_pow2 m : (0 <= m)%Z -> ln (IZR (2 ^ m)) = IZR m * ln 2.
Proof.
  intros Hm. rewrite <- (Z2Nat.id m) at 1 by exact Hm. rewrite <- pow_IZR. rewrite <- (Z2Nat.id m) at 2 by exact Hm.
  rewrite <- INR_IZR_INZ. set (k := Z.to_nat m). clearbody k. induction k as [|k IH].
  - cbn. rewrite ln_1. ring.
  - cbn [pow]. rewrite ln_mult; [|lra|apply pow_lt; lra]. rewrite IH, S_INR. ring.
Qed.
Lemma round_log2_nonneg n : (0 <= round_log2 n)%Z.
Proof. unfold round_log2. pose proof (Z.log2_nonneg n). destruct (_ <? _)%Z; lia. Qed.
Lemma round_log2_Z n : (0 < n)%Z -> (2 ^ (2 * round_log2 n) < 2 * (n * n) /\ n * n < 2 ^ (2 * round_log2 n + 1))%Z.
Proof.
  intros Hn. destruct (round_log2_spec n Hn) as [H1 H2]. pose proof (round_log2_nonneg n) as Hk. set (k := round_log2 n) in *. clearbody k.
  rewrite <- injZ_mul in H1, H2. rewrite pow2_inject in H2 by lia. apply (proj1 (injZ_lt _ _)) in H2. split; [|exact H2].
  apply (proj1 (injZ_lt _ _)). rewrite injZ_mul, <- pow2_inject by lia. rewrite pow2_pred.
  change (inject_Z 2) with (2%Q). apply Qmult_lt_l; [reflexivity|exact H1].
Qed.
Lemma round_log2_nearest n : (0 < n)%Z -> Rabs (IZR (- round_log2 n) - ln (1 / IZR n) / ln 2) < 1 / 2.
Proof.
  intros Hn. destruct (round_log2_Z n Hn) as [H1 H2]. pose proof (round_log2_nonneg n) as Hk. set (k := round_log2 n) in *. clearbody k.
  assert (Hp : 0 < IZR n) by (apply IZR_lt; exact Hn). assert (Hl2 : 0 < ln 2) by (rewrite <- ln_1; apply ln_increasing; lra).
  assert (E1 : ln (IZR (2 ^ (2 * k))) < ln (IZR (2 * (n * n)))) by (apply ln_increasing; apply IZR_lt; [apply Z.pow_pos_nonneg; lia|exact H1]).
  assert (E2 : ln (IZR (n * n)) < ln (IZR (2 ^ (2 * k + 1)))) by (apply ln_increasing; apply IZR_lt; [nia|exact H2]).
  rewrite ln_IZR_pow2 in E1, E2 by lia. rewrite (mult_IZR 2 k), (mult_IZR 2 (n * n)), (mult_IZR n n) in E1. rewrite (mult_IZR n n) in E2. rewrite ln_mult in E1 by nra. rewrite ln_mult in E1 by assumption. rewrite ln_mult in E2 by assumption.
  rewrite plus_IZR, mult_IZR in E2.
  unfold Rdiv. rewrite Rmult_1_l, ln_Rinv by exact Hp. rewrite opp_IZR.
  set (L := ln (IZR n)) in *. set (l2 := ln 2) in *. set (K := IZR k) in *. clearbody L l2 K.
  replace (- K - - L * / l2) with ((L - K * l2) * / l2) by (field; lra).
  rewrite Rabs_mult, (Rabs_right (/ l2)) by (left; apply Rinv_0_lt_compat; exact Hl2).
  apply (Rmult_lt_reg_r l2); [exact Hl2|]. rewrite Rmult_assoc, Rinv_l by lra. rewrite Rmult_1_r. apply Rabs_def1; lra.
Qed.
