(** What batch normalization is meant to compute. *)
From Coq Require Import Reals List.
From Verif Require Import M_Mapper M_Contr M_Norm.
Import ListNotations.
Open Scope R_scope.

(** gamma * (x - mean) / sqrt(var + eps) *)
Definition normalized (scale : bool) (gamma mean var eps x : R) : R :=
  (if scale then gamma * ((x - mean) / sqrt (var + eps)) else (x - mean) / sqrt (var + eps)).

(** Dense(BatchNorm(x)) *)
Definition dense_of_bn (m : bnd) (mean var x : nat -> R) (j : nat) : R :=
  rsum (map (fun i => normalized (d_scale m) (d_gamma m i) (mean i) (var i) (d_eps m) (x i) * d_kernel m i j) (seq 0 (d_n m))) + d_bias m j.

(** BatchNorm(einsum(x)): normalization of the output along the [e_norm] axes *)
Definition bn_of_einsum (m : ebn) (eps : R) (x : index -> R) (o : index) : R :=
  let e := bind_idx (e_lo m) o (fun _ => 0%nat) in
  let c := map e (output_order (e_norm m) (e_lo m)) in
  normalized (e_scale m) (e_gamma m c) (e_mean m c) (e_var m c) eps
    (einsum 0 Rplus Rmult (e_dims m) (e_li m) (e_lk m) (e_lo m) x (e_kernel m) o) + e_bias m o.

Definition batchnorm (scale center : bool) (gamma beta mean var eps x : R) : R :=
  normalized scale gamma mean var eps x + (if center then beta else 0).
Definition unquantized_bnd (m : bnd) : Prop := (forall i j r, d_kq m i j r = r) /\ (forall j r, d_bq m j r = r).
Definition unquantized_ebn (m : ebn) : Prop := (forall r, e_kq m r = r) /\ (forall r, e_bq m r = r).
Definition unquantized_bnl (m : bnl) : Prop := (forall r, b_kq m r = r) /\ (forall r, b_bq m r = r).
