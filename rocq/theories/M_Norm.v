(** Model of the batch-normalization layers over the reals (the code computes in float32; the
    rounding of each operation is not modelled here).

    Source: /repo/src/hgq/layers/core/dense.py 190-229 (QBatchNormDense),
    einsum_dense_batchnorm.py 99-124, 158-173, 185-211 (QEinsumDenseBatchnorm),
    batch_normalization.py 100-188 (QBatchNormalization). *)
From Coq Require Import Reals List Lia Lra Bool.
From Verif Require Import M_Mapper M_Contr.
Import ListNotations.
Open Scope R_scope.

Definition rsum (l : list R) : R := fold_right Rplus 0 l.

(** gamma / sqrt(var + epsilon): core/dense.py 193-197, batch_normalization.py 100-117 *)
Definition bn_scaler (scale : bool) (gamma var eps : R) : R := (if scale then gamma else 1) / sqrt (var + eps).

(** ** QBatchNormDense: n inputs; gamma, mean, var per input *)
Record bnd := mk_bnd {
  d_n : nat; d_scale : bool; d_eps : R;
  d_gamma : nat -> R; d_kernel : nat -> nat -> R; d_bias : nat -> R;
  d_kq : nat -> nat -> R -> R; d_bq : nat -> R -> R }.     (* kernel / bias quantizers, per element *)
(** QBatchNormDense.get_fused_qkernel_and_qbias, core/dense.py 190-204 *)
Definition bnd_qkernel (m : bnd) (mean var : nat -> R) (i j : nat) : R :=
  d_kq m i j (bn_scaler (d_scale m) (d_gamma m i) (var i) (d_eps m) * d_kernel m i j).
Definition bnd_qbias (m : bnd) (mean var : nat -> R) (j : nat) : R :=
  d_bq m j (d_bias m j + - rsum (map (fun i => mean i * d_kernel m i j) (seq 0 (d_n m)))).
(** call, core/dense.py 206-229, without activation, inputs already quantized *)
Definition bnd_call (m : bnd) (mean var : nat -> R) (x : nat -> R) (j : nat) : R :=
  rsum (map (fun i => x i * bnd_qkernel m mean var i j) (seq 0 (d_n m))) + bnd_qbias m mean var j.

(** ** QEinsumDenseBatchnorm, axis labels as in M_Contr; [norm] = normalize_axes *)
Definition kernel_order (norm lk : list nat) : list nat := filter (fun l => memb l norm) lk.   (* einsum_dense_batchnorm.py 112 *)
Definition output_order (norm lo : list nat) : list nat := filter (fun l => memb l norm) lo.   (* 115: the shape of gamma, mean and var *)
Record ebn := mk_ebn {
  e_dims : nat -> nat; e_li : list nat; e_lk : list nat; e_lo : list nat; e_norm : list nat;
  e_scale : bool; e_eps : R;            (* e_eps: backend epsilon(), used at 165 instead of self.epsilon *)
  e_gamma : index -> R; e_mean : index -> R; e_var : index -> R;     (* indexed like norm_shape: output order *)
  e_kernel : index -> R; e_bias : index -> R;                        (* bias broadcast to the output *)
  e_kq : R -> R; e_bq : R -> R }.
(** einsum_dense_batchnorm.py 158-168: einsum 'kernel,norm(kernel order)->kernel': the coordinates of the kernel element, in
    kernel order, index the scaler *)
Definition ebn_scaler (m : ebn) (i : index) : R := bn_scaler (e_scale m) (e_gamma m i) (e_var m i) (e_eps m).
Definition ebn_kernel (m : ebn) (k : index) : R :=
  let e := bind_idx (e_lk m) k (fun _ => 0%nat) in
  e_kq m (e_kernel m k * ebn_scaler m (map e (kernel_order (e_norm m) (e_lk m)))).
(** einsum_dense_batchnorm.py 170-172: the offset is reshaped (output order) and added to the bias *)
Definition ebn_bias (m : ebn) (o : index) : R :=
  let e := bind_idx (e_lo m) o (fun _ => 0%nat) in
  let c := map e (output_order (e_norm m) (e_lo m)) in
  e_bq m (e_bias m o + - e_mean m c * ebn_scaler m c).
(** call, einsum_dense_batchnorm.py 185-211, inference *)
Definition ebn_call (m : ebn) (x : index -> R) (o : index) : R :=
  einsum 0 Rplus Rmult (e_dims m) (e_li m) (e_lk m) (e_lo m) x (ebn_kernel m) o + ebn_bias m o.

(** ** QBatchNormalization, one channel *)
Record bnl := mk_bnl { b_scale : bool; b_center : bool; b_gamma : R; b_beta : R; b_eps : R; b_kq : R -> R; b_bq : R -> R }.
(** QBatchNormalization._scaler_and_offset, batch_normalization.py 100-117 / _scaler_and_offset_train 124-149: note the constant 1 used for a
    disabled beta at 112 and 144 *)
Definition bnl_scaler (m : bnl) (mean var : R) : R := bn_scaler (b_scale m) (b_gamma m) var (b_eps m).
Definition bnl_offset (m : bnl) (mean var : R) : R :=
  (if b_center m then b_beta m else 1) - mean * bnl_scaler m mean var.
(** QBatchNormalization.call, batch_normalization.py 151-188: [x * qscale + qoffset] *)
Definition bnl_call (m : bnl) (mean var x : R) : R := x * b_kq m (bnl_scaler m mean var) + b_bq m (bnl_offset m mean var).

(** ** Moving statistics: 129-135 (and dense.py 212-217): ops.moments of the batch, then the update *)
Definition batch_mean (xs : list R) : R := rsum xs / INR (length xs).
Definition batch_var (xs : list R) : R := rsum (map (fun x => (x - batch_mean xs) * (x - batch_mean xs)) xs) / INR (length xs).
Definition ema (momentum old new : R) : R := old * momentum + new * (1 - momentum).
Definition stats_step (momentum : R) (s : R * R) (xs : list R) : R * R :=
  (ema momentum (fst s) (batch_mean xs), ema momentum (snd s) (batch_var xs)).
Definition stats_run (momentum : R) (s : R * R) (batches : list (list R)) : R * R := fold_left (stats_step momentum) batches s.
