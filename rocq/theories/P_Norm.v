(** Batch normalization: C26 (fusion into dense layers), C27 (flags), C43 (moving statistics). *)
From Coq Require Import Reals List Lia Lra Bool.
From Verif Require Import M_Mapper M_Contr M_Norm S_Norm L_Norm.
Import ListNotations.
Open Scope R_scope.

(** QBatchNormDense computes Dense(BatchNorm(x)) plus an error term: the mean in the fused bias is
    not multiplied by gamma/sqrt(var+eps) (so the fusion is exact iff that term is 0) *)
Theorem C26_fused_dense_error :
  forall m mean var x j, unquantized_bnd m ->
  bnd_call m mean var x j = dense_of_bn m mean var x j
    + rsum (map (fun i => mean i * (bn_scaler (d_scale m) (d_gamma m i) (var i) (d_eps m) - 1) * d_kernel m i j) (seq 0 (d_n m))).
Proof. exact bnd_error. Qed.
Print Assumptions C26_fused_dense_error.

Theorem C26_fused_dense_zero_mean :
  forall m mean var x j, unquantized_bnd m -> (forall i, (i < d_n m)%nat -> mean i = 0) ->
  bnd_call m mean var x j = dense_of_bn m mean var x j.
Proof. exact bnd_exact_zero_mean. Qed.
Print Assumptions C26_fused_dense_zero_mean.

Definition ex_bnd : bnd := mk_bnd 1 true 0 (fun _ => 2) (fun _ _ => 1) (fun _ => 0) (fun _ _ r => r) (fun _ r => r).
Theorem C26_fused_dense_refuted :
  ~ (forall m mean var x j, unquantized_bnd m -> (forall i, 0 < var i + d_eps m) -> bnd_call m mean var x j = dense_of_bn m mean var x j).
Proof.
  intros H. specialize (H ex_bnd (fun _ => 1) (fun _ => 1) (fun _ => 0) 0%nat (conj (fun _ _ _ => eq_refl) (fun _ _ => eq_refl))).
  specialize (H ltac:(intros i; cbn; lra)).
  unfold bnd_call, dense_of_bn, bnd_qkernel, bnd_qbias, normalized, bn_scaler, rsum, ex_bnd in H.
  cbn [map seq fold_right d_n d_scale d_eps d_gamma d_kernel d_bias d_kq d_bq] in H.
  replace (1 + 0) with 1 in H by ring. rewrite sqrt_1 in H. lra.
Qed.
Print Assumptions C26_fused_dense_refuted.

(** QEinsumDenseBatchnorm is BatchNorm(einsum(x)) exactly, with the backend epsilon, when the
    normalized axes appear in the same order in kernel and output *)
Theorem C26_fused_einsum :
  forall m x o, unquantized_ebn m ->
  kernel_order (e_norm m) (e_lk m) = output_order (e_norm m) (e_lo m) ->
  ebn_call m x o = bn_of_einsum m (e_eps m) x o.
Proof. exact ebn_exact. Qed.
Print Assumptions C26_fused_einsum.

Definition ex_ebn (lo : list nat) (eps var : R) : ebn :=
  mk_ebn (fun l => match l with 2 => 2 | 3 => 2 | _ => 1 end%nat) [0; 1]%nat [1; 2; 3]%nat lo [2; 3]%nat true eps
    (fun i => match i with [S O; O] => 2 | _ => 1 end) (fun _ => 0) (fun _ => var) (fun _ => 1) (fun _ => 0) (fun r => r) (fun r => r).
(** 'ab,bcd->acd' meets the hypothesis *)
Example ex_C26_order : kernel_order (e_norm (ex_ebn [0; 2; 3] 0 1)%nat) (e_lk (ex_ebn [0; 2; 3] 0 1)%nat)
                       = output_order (e_norm (ex_ebn [0; 2; 3] 0 1)%nat) (e_lo (ex_ebn [0; 2; 3] 0 1)%nat).
Proof. reflexivity. Qed.
(** 'ab,bcd->adc': the gamma of output (d, c) = (1, 0) is used for (0, 1) *)
Theorem C26_fused_einsum_order_refuted :
  ~ (forall m x o, unquantized_ebn m -> (forall i, 0 < e_var m i + e_eps m) -> ebn_call m x o = bn_of_einsum m (e_eps m) x o).
Proof.
  intros H. specialize (H (ex_ebn [0; 3; 2]%nat 0 1) (fun _ => 1) [0; 1; 0]%nat (conj (fun _ => eq_refl) (fun _ => eq_refl)) ltac:(intros i; cbn; lra)).
  unfold ebn_call, bn_of_einsum, ebn_bias, ebn_kernel, ebn_scaler, normalized, bn_scaler, einsum in H. cbn in H.
  replace (1 + 0) with 1 in H by ring. rewrite sqrt_1 in H. lra.
Qed.
Print Assumptions C26_fused_einsum_order_refuted.

(** the configured epsilon is ignored (165 uses the backend epsilon 1e-7) *)
Theorem C26_fused_einsum_epsilon_refuted :
  ~ (forall m epsilon x o, unquantized_ebn m -> e_eps m = /10000000 -> 0 < epsilon -> (forall i, 0 < e_var m i) ->
       kernel_order (e_norm m) (e_lk m) = output_order (e_norm m) (e_lo m) -> ebn_call m x o = bn_of_einsum m epsilon x o).
Proof.
  intros H. specialize (H (ex_ebn [0; 2; 3]%nat (/10000000) (1 - /10000000)) (4 - (1 - /10000000)) (fun _ => 1) [0; 0; 0]%nat
    (conj (fun _ => eq_refl) (fun _ => eq_refl)) eq_refl ltac:(lra) ltac:(intros i; cbn; lra) eq_refl).
  unfold ebn_call, bn_of_einsum, ebn_bias, ebn_kernel, ebn_scaler, normalized, bn_scaler, einsum in H. cbn in H.
  replace (1 - / 10000000 + / 10000000) with 1 in H by ring. replace (1 - / 10000000 + (4 - (1 - / 10000000))) with 4 in H by ring.
  rewrite sqrt_1 in H. replace 4 with (2 * 2) in H by ring. rewrite sqrt_square in H by lra. lra.
Qed.
Print Assumptions C26_fused_einsum_epsilon_refuted.

(** ** C27 *)
Theorem C27_batchnorm :
  forall m mean var x, unquantized_bnl m -> b_center m = true ->
  bnl_call m mean var x = batchnorm (b_scale m) true (b_gamma m) (b_beta m) mean var (b_eps m) x.
Proof. intros m mean var x HU Hc. rewrite bnl_value, Hc by exact HU. apply Rplus_0_r. Qed.
Print Assumptions C27_batchnorm.

(** with center=False exactly 1 too much, for every input *)
Theorem C27_center_false_adds_one :
  forall m mean var x, unquantized_bnl m -> b_center m = false ->
  bnl_call m mean var x = batchnorm (b_scale m) false (b_gamma m) (b_beta m) mean var (b_eps m) x + 1.
Proof. intros m mean var x HU Hc. rewrite bnl_value, Hc by exact HU. reflexivity. Qed.
Print Assumptions C27_center_false_adds_one.

Definition ex_bnl (c : bool) : bnl := mk_bnl true c 1 0 0 (fun r => r) (fun r => r).
Example ex_C27 : unquantized_bnl (ex_bnl true) /\ b_center (ex_bnl true) = true /\ b_center (ex_bnl false) = false.
Proof. split; [split; intros r; reflexivity|]. split; reflexivity. Qed.
Theorem C27_center_flag_refuted :
  ~ (forall m mean var x, unquantized_bnl m -> 0 < var + b_eps m ->
       bnl_call m mean var x = batchnorm (b_scale m) (b_center m) (b_gamma m) (b_beta m) mean var (b_eps m) x).
Proof.
  intros H. specialize (H (ex_bnl false) 0 1 0 (conj (fun _ => eq_refl) (fun _ => eq_refl)) ltac:(cbn; lra)).
  rewrite bnl_value in H by (split; intros r; reflexivity). cbn [b_center ex_bnl] in H. lra.
Qed.
Print Assumptions C27_center_flag_refuted.

(** ** C43: for every training history the moving variance stays non-negative (so the square root
    is defined and the divisor positive) and the moving mean stays in the range of the data *)
Theorem C43_moving_variance :
  forall momentum s batches eps, 0 <= momentum <= 1 -> 0 <= snd s -> (forall b, In b batches -> b <> []) -> 0 < eps ->
  0 <= snd (stats_run momentum s batches) /\ 0 < sqrt (snd (stats_run momentum s batches) + eps).
Proof. intros. split; [apply stats_var_nonneg; assumption|apply stats_sqrt_pos; assumption]. Qed.
Print Assumptions C43_moving_variance.

Theorem C43_moving_mean_in_range :
  forall momentum s batches lo hi, 0 <= momentum <= 1 -> lo <= fst s <= hi ->
  (forall b, In b batches -> b <> [] /\ forall x, In x b -> lo <= x <= hi) -> lo <= fst (stats_run momentum s batches) <= hi.
Proof. exact stats_mean_between. Qed.
Print Assumptions C43_moving_mean_in_range.

Example ex_C43 : snd (stats_run (99/100) (0, 1) [[1; 3]; [2; 2]]) = 99 / 100 * (99 / 100 * 1 + 1 / 100 * 1) + 0.
Proof.
  cbn [stats_run fold_left stats_step snd]. unfold ema, batch_var, batch_mean, rsum. cbn. lra.
Qed.
