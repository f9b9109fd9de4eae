(** Specification vocabulary for the EBOPs of composite layers: sums written out over the
    operations of the forward pass, each at the product of the bit-widths of its operands. *)
From Verif Require Import Num M_Fixed M_State M_Mapper M_Contr M_Ebops S_Ebops M_Cebops.

Definition sum_n (n : nat) (f : nat -> Q) : Q := qsum (map f (seq 0 n)).
Definition sum_i (sh : list nat) (f : index -> Q) : Q := qsum (map f (indices sh)).

(** attention: score (n, t, s) is the sum over d of query[t, n, d] * key[s, n, d];
    output (t, n, d) is the sum over s of weight[n, t, s] * value[s, n, d] *)
Definition score_cost (heads dq : nat) (qs ks : list nat) (q k : index -> Q) : Q :=
  sum_n heads (fun n => sum_i qs (fun t => sum_i ks (fun s => sum_n dq (fun d =>
    q (0%nat :: t ++ [n; d]) * k (0%nat :: s ++ [n; d]))))).
Definition mix_cost (heads dv : nat) (qs vs : list nat) (a v : index -> Q) : Q :=
  sum_n heads (fun n => sum_i qs (fun t => sum_i vs (fun s => sum_n dv (fun d =>
    a (0%nat :: n :: t ++ s) * v (0%nat :: s ++ [n; d]))))).

(** vector (row 0 of x) times matrix *)
Definition vec_mat_cost (n u : nat) (x : nat -> Q) (k : nat -> nat -> Q) : Q :=
  sum_n n (fun i => sum_n u (fun j => x i * k i j)).
Definition row (t : tensor Q) : nat -> Q := fun j => at_ t [0%nat; j].
Definition entry (t : tensor Q) : nat -> nat -> Q := fun i j => at_ t [i; j].
Definition bias_widths_sum (units : nat) (bq : option qbits) (c : Q) : Prop :=
  match bq with None => c == 0 | Some q => exists b, bits_ q [units] = Some b /\ c == sum_n units (fun j => at_ b [j]) end.

Definition factor_or_one (pf : Z) (n : nat) : Q := if (0 <? pf)%Z then inject_Z pf / nQ n else 1.

(** attention multiplies its figure by a positive parallelization factor *)
Definition pf_or_one (pf : Z) : Q := if (0 <? pf)%Z then inject_Z pf else 1.

(** widths of an optional quantizer: 0 when there is none *)
Definition opt_bits (q : option qbits) (sh : list nat) : option (tensor Q) :=
  match q with Some q => bits_ q sh | None => Some (mk_tensor sh (fun _ => 0)) end.

(** the bias of the simple cell, as charged: mean width of the bias times [size] *)
Definition bias_term (units size : nat) (bq : option qbits) : option Q :=
  match bq with None => Some 0 | Some q => do b <- bits_ q [units]; Some (tmean b * nQ size) end.
(** the bias of the GRU cell, as charged *)
Definition gru_bias_term (units : nat) (reset_after : bool) (bq : option qbits) : option Q :=
  match bq with
  | None => Some 0
  | Some bq => do b <- bits_ bq (if reset_after then [2; 3 * units]%nat else [3 * units]%nat); Some (if reset_after then tsum b else at_ b [0%nat])
  end.
(** the multiplications of one GRU step: input times kernel; state times recurrent kernel and the gating
    of the candidate's recurrent part by r (columns units.. of [zr]); update gate z (columns 0..) times
    the old state and times the candidate *)
Definition gru_ops (features units : nat) (reset_after : bool) (x k s rk rh zr hh : tensor Q) : Q :=
  vec_mat_cost features (3 * units) (row x) (entry k)
  + (if reset_after then vec_mat_cost units (3 * units) (row s) (entry rk) + sum_n units (fun j => row zr (units + j)%nat * row rh j)
     else vec_mat_cost units (2 * units) (row s) (entry rk) + vec_mat_cost units units (row rh) (fun i j => entry rk i (2 * units + j)%nat)
          + sum_n units (fun j => row zr (units + j)%nat * row s j))
  + sum_n units (fun j => row zr j * row s j + row zr j * row hh j).

(** leaking: membrane times the (broadcast) leak factor *)
Definition leak_term (sh : list nat) (mem : tensor Q) (beta : option (list nat * qbits)) : option Q :=
  match beta with
  | None => Some 0
  | Some (bsh, q) => do b <- bits_ q bsh; do bb <- bcast_right b sh; Some (qsum (map (fun i => at_ mem i * at_ bb i) (indices sh)))
  end.
(** cost per membrane bit of the reset: a subtraction, a selection, nothing *)
Definition reset_cost (r : reset_kind) : Q := match r with RSubtract => 65 # 100 | RZero => 1 | RNone => 0 end.
