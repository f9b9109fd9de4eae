(** Model of the EBOPs figures of the composite layers: attention, softmax, recurrent cells, table
    layers and spiking cells.

    Source: /repo/src/hgq/layers/attn/mha.py 245-249, 310-320, 386-416; softmax.py 134-161;
    rnn/simple_rnn.py 274-289, 323-324, 603-606; rnn/gru.py 348-381, 625-628; table/dense.py 81-85,
    132-143; table/conv.py 93-94, 130-132; snn/base.py 381-406, 416-421, 527-536, 549-558.
    Shapes carry the batch axis of size 1 that core/base.py 95-103 puts in front. *)
From Verif Require Import Num M_Fixed M_State M_Mapper M_Contr M_Ebops.

(** ** Multi-head attention *)
(** Keras' _build_attention_equation(rank, attn_axes), imported at mha.py 10 and called at mha.py 320; letters
    are numbered.  [rank]: rank of the projected query (batch, sequence axes, heads, head dimension).
    Result: labels of the keys, of the queries and of the scores *)
Definition attn_batch_dims (rank : nat) (axes : list nat) : list nat :=
  filter (fun i => negb (memb i (axes ++ [rank - 1]%nat))) (seq 0 rank).
Fixpoint source_labels (rank : nat) (batch : list nat) (is : list nat) (next : nat) : list nat :=
  match is with
  | [] => []
  | i :: is' => if memb i batch || (i =? rank - 1)%nat then i :: source_labels rank batch is' next
                else next :: source_labels rank batch is' (S next)
  end.
Definition attn_target (rank : nat) : list nat := seq 0 rank.
Definition attn_source (rank : nat) (axes : list nat) : list nat :=
  source_labels rank (attn_batch_dims rank axes) (seq 0 rank) rank.
Definition attn_product (rank : nat) (axes : list nat) : list nat :=
  attn_batch_dims rank axes ++ axes ++ map (fun i => nth i (attn_source rank axes) 0%nat) axes.
(** the axes the softmax and the contraction range over by default, mha.py 312-313 *)
Definition default_axes (rank : nat) : list nat := seq 1 (rank - 3).

(** ops.einsum('li,lk->', x, k): raises when a rank or a shared size does not fit (broadcasting of
    axes of size 1 against larger ones is not modelled) *)
Definition einsum_fits (li xs lk ks : list nat) : bool :=
  ((length li =? length xs) && (length lk =? length ks))%nat &&
  forallb (fun l => match label_dim li xs l, label_dim lk ks l with
                    | Some a, Some b => (a =? b)%nat | _, _ => true end) (li ++ lk).
Definition total_einsum (li lk : list nat) (x k : tensor Q) : option Q :=
  if einsum_fits li (shape x) lk (shape k)
  then Some (einsum 0 Qplus Qmult (einsum_dims li (shape x) lk (shape k)) li lk [] (at_ x) (at_ k) []) else None.

(** QMultiHeadAttention._compute_ebops, mha.py 386-416.  [qs], [vs]: the sequence axes of query and
    value (query_shape[1:-1], value_shape[1:-1]); [dq], [dv]: head dimensions of query/key and value;
    the projected shapes are (1, *sequence, heads, dim); the keys have the sequence axes [ks].
    Lines 411-412 use the equations of lines 248-249 with (query, key) and (weights, value). *)
Definition mha_ebops (axes : list nat) (heads dq dv : nat) (qs ks vs : list nat) (pf : Z) (bq bk bv ba : qbits) : option Q :=
  let rank := (length qs + 3)%nat in
  do bw_q <- bits_ bq (1%nat :: qs ++ [heads; dq]);
  do bw_k <- bits_ bk (1%nat :: ks ++ [heads; dq]);
  do bw_v <- bits_ bv (1%nat :: vs ++ [heads; dv]);
  do bw_attn <- bits_ ba (1%nat :: heads :: qs ++ vs);
  do qk <- total_einsum (attn_source rank axes) (attn_target rank) bw_q bw_k;
  do av <- total_einsum (attn_product rank axes) (attn_source rank axes) bw_attn bw_v;
  let ebops := qk + av in
  Some (if (0 <? pf)%Z then ebops * inject_Z pf else ebops).

(** ** QSoftmax, softmax.py 134-161 *)
Definition accum_shape (axes sh : list nat) : list nat := keep_shape_from 0 axes sh.
Definition softmax_ebops (axes : list nat) (sh : list nat) (stable : bool) (pf : Z) (iq : option qbits) (exp_iq exp_oq inv_oq : qbits)
    : option Q :=
  let ash := accum_shape axes sh in
  let max_instance := nprod ash in
  let factor := (if (0 <? pf)%Z then inject_Z pf else nQ max_instance) / nQ max_instance in
  do inp_bits <- match iq with Some q => bits_ q sh | None => Some (mk_tensor sh (fun _ => 0)) end;
  do exp_bits <- bits_ exp_oq sh;
  do inv_bits <- bits_ inv_oq ash;
  do sub <- (if stable then match iq with
                            | Some _ => Some (tsum inp_bits)
                            | None => do b <- bits_ exp_iq sh; Some (tsum b)
                            end
             else Some 0);
  let accum := tsum exp_bits - tsum (min_over axes exp_bits) in
  let mul := qsum (map (fun i => at_ exp_bits i * at_ inv_bits (bcast_index ash i)) (indices sh)) in
  let ebops := sub + accum + mul in
  let ebops := if stable then ebops
               else ebops + qsum (map (fun i => pow2 (Qfloor (at_ inp_bits i)) * at_ exp_bits i) (indices sh)) * (1 # 10000) in
  Some (ebops * factor).

(** ** Recurrent cells *)
(** ops.sum(ops.matmul(x, k)); [x] has shape lead ++ [n], [k] shape [n; u] *)
Definition sum_matmul (x k : tensor Q) (lead : list nat) (n u : nat) : Q :=
  tsum (mk_tensor (lead ++ [u]) (matmul 0 Qplus Qmult n (at_ x) (at_ k))).
(** QSimpleRNNCell._compute_ebops, simple_rnn.py 274-289; [state]: sq when enabled, else paq (278-281) *)
Definition simple_cell_ebops (sh : list nat) (units : nat) (iq kq rkq state : qbits) (bq : option qbits) : option Q :=
  let n := last sh 0%nat in
  do bw_inp <- bits_ iq sh; do bw_ker <- bits_ kq [n; units];
  let e1 := sum_matmul bw_inp bw_ker (removelast sh) n units in
  do bw_state <- bits_ state [1%nat; units]; do bw_rker <- bits_ rkq [units; units];
  let e2 := sum_matmul bw_state bw_rker [1%nat] units units in
  match bq with
  | None => Some (e1 + e2)
  | Some bq => do bw_bias <- bits_ bq [units]; Some (e1 + e2 + tmean bw_bias * nQ (nprod sh))
  end.
(** the factor of the recurrent layers: QRNN.build, simple_rnn.py 323-324 *)
Definition rnn_factor (pf : Z) (steps : nat) : Q := inject_Z (if (pf =? -1)%Z then Z.of_nat steps else pf).
(** QSimpleRNN._compute_ebops, simple_rnn.py 603-606: the cell shape keeps the time axis *)
Definition simple_rnn_ebops (steps features units : nat) (pf : Z) (iq kq rkq state : qbits) (bq : option qbits) : option Q :=
  do e <- simple_cell_ebops [1%nat; steps; features] units iq kq rkq state bq; Some (e * rnn_factor pf steps).

(** QGRUCell._compute_ebops, gru.py 348-381, with the input quantizer enabled.  The bias has shape (3*units,)
    or, with reset_after, (2, 3*units) (Keras' GRUCell.build); [bw_bias[0]] of the former is one number *)
Definition gru_cell_ebops (features units : nat) (reset_after : bool) (iq sq kq rkq rhq praq paq : qbits) (bq : option qbits) : option Q :=
  do bw_state <- bits_ sq [1%nat; units];
  do bw_inp <- bits_ iq [1%nat; features];
  do bw_ker <- bits_ kq [features; 3 * units]%nat;
  do bw_rker <- bits_ rkq [units; 3 * units]%nat;
  do bw_rh <- bits_ rhq [1%nat; units];
  do bw_zr <- bits_ praq [1; 2 * units]%nat;
  do bias <- match bq with
             | None => Some 0
             | Some bq => do b <- bits_ bq (if reset_after then [2; 3 * units]%nat else [3 * units]%nat);
                          Some (if reset_after then tsum b else at_ b [0%nat])
             end;
  let e0 := sum_matmul bw_inp bw_ker [1%nat] features (3 * units) in
  let e1 := if reset_after then sum_matmul bw_state bw_rker [1%nat] units (3 * units)
            else sum_matmul bw_state bw_rker [1%nat] units (2 * units) in
  let z := fun j => at_ bw_zr [0%nat; j] in
  let r := fun j => at_ bw_zr [0; units + j]%nat in
  let upper := mk_tensor [units; units] (fun i => match i with [a; b] => at_ bw_rker [a; 2 * units + b]%nat | _ => 0 end) in
  let e2 := if reset_after then qsum (map (fun j => r j * at_ bw_rh [0%nat; j]) (seq 0 units))
            else sum_matmul bw_rh upper [1%nat] units units + qsum (map (fun j => r j * at_ bw_state [0%nat; j]) (seq 0 units)) in
  do bw_qhh <- bits_ paq [1%nat; units];
  let e3 := qsum (map (fun j => z j * (at_ bw_qhh [0%nat; j] + at_ bw_state [0%nat; j])) (seq 0 units)) in
  Some (e0 + e1 + e2 + e3 + bias).
(** QGRU._compute_ebops, gru.py 625-628 *)
Definition gru_ebops (steps features units : nat) (reset_after : bool) (pf : Z) (iq sq kq rkq rhq praq paq : qbits) (bq : option qbits) : option Q :=
  do e <- gru_cell_ebops features units reset_after iq sq kq rkq rhq praq paq bq; Some (e * rnn_factor pf steps).

(** ** Table layers *)
(** Quantizer.fbits_, quantizer.py 90-92 *)
Definition fbits_ (q : qbits) (sh : list nat) : option (tensor Q) :=
  broadcast_to (tmap2 (fun k b => inject_Z (q_fbits (qb_om q) k b)) (qb_k q) (qb_b q)) sh.
(** table/dense.py 139: the number of [b]-input tables of an input of [w] bits *)
Definition small_lut (b : nat) (w : Q) : Q := if Qle_bool (nQ b) w then pow2 (Qfloor w - Z.of_nat b) else w / nQ b.
(** QDenseT._compute_ebops, table/dense.py 132-143; [sh] = (1, *parallel, n_in); (B, b) = table_idxs;
    QConvT (table/conv.py 130-132) calls it with the shape (1, *output positions, n_in) *)
Definition dense_table_ebops (sh : list nat) (n_out : nat) (B b : nat) (pf : Z) (iq toq : qbits) : option Q :=
  let qsh := (sh ++ [n_out])%list in
  do bits_in <- fbits_ iq qsh; do bits_out <- fbits_ toq qsh;
  let large := qsum (map (fun i => small_lut b (at_ bits_in i) * at_ bits_out i) (indices qsh)) * pow2 (Z.of_nat b - Z.of_nat B) in
  let np := nprod (removelast (tl sh)) in
  Some ((large + tsum bits_out) * dense_factor pf np / nQ np).

(** ** Spiking cells, snn/base.py *)
(** ops.broadcast_to of a tensor whose axes align with the last axes of the shape *)
Definition bcast_right (t : tensor Q) (sh : list nat) : option (tensor Q) :=
  let skip := (length sh - length (shape t))%nat in
  if (length (shape t) <=? length sh)%nat && bcast_ok (shape t) (skipn skip sh)
  then Some (mk_tensor sh (fun i => at_ t (bcast_index (shape t) (skipn skip i)))) else None.
(** _accumulator_bits 381-389 with enable_iq *)
Definition accumulator_bits (sh : list nat) (sq : option qbits) (iq : qbits) (seq_len : nat) : option (tensor Q) :=
  match sq with
  | Some sq => bits_ sq sh
  | None => do b <- bits_ iq sh;
            Some (mk_tensor sh (fun i => at_ b i + inject_Z (Z.log2_up (Z.of_nat (Nat.max seq_len 1)))))
  end.
(** _add_ebops 394-396 *)
Definition snn_add_ebops (sh : list nat) (b0 b1 : tensor Q) : Q :=
  qsum (map (fun i => at_ b0 i + at_ b1 i - Qmin (at_ b0 i) (at_ b1 i)) (indices sh)) * (65 # 100).
Inductive reset_kind := RSubtract | RZero | RNone.
(** _fire_reset_ebops 398-406; the pulse bits are 1 *)
Definition fire_reset_ebops (sh : list nat) (reset : reset_kind) (mem graded : tensor Q) : Q :=
  let e := tsum mem * (65 # 100) in
  let e := e + qsum (map (fun i => 1 * at_ graded i) (indices sh)) in
  match reset with
  | RSubtract => e + tsum mem * (65 # 100)
  | RZero => e + qsum (map (fun i => at_ mem i * 1) (indices sh))
  | RNone => e
  end.
(** _compute_ebops of the cells, 416-421 (no leak) and 527-536 ([beta]: leak quantizer and its shape);
    [iq] = None: enable_iq is off *)
Definition snn_cell_ebops (sh : list nat) (seq_len : nat) (reset : reset_kind) (iq sq : option qbits) (gsh : list nat) (gq : qbits)
    (beta : option (list nat * qbits)) : option Q :=
  match iq with
  | None => Some 0
  | Some iq =>
      do input_bits <- bits_ iq sh;
      do mem_bits <- accumulator_bits sh sq iq seq_len;
      do leak <- match beta with
                 | None => Some 0
                 | Some (bsh, q) => do b <- bits_ q bsh; do bb <- bcast_right b sh;
                                    Some (qsum (map (fun i => at_ mem_bits i * at_ bb i) (indices sh)))
                 end;
      do g <- bits_ gq gsh; do graded <- bcast_right g sh;
      Some (leak + snn_add_ebops sh mem_bits input_bits + fire_reset_ebops sh reset mem_bits graded)
  end.
(** _QSNN._compute_ebops, snn/base.py 557-558, with the sequence length of build (551-555) *)
Definition snn_ebops (steps units : nat) (reset : reset_kind) (pf : Z) (iq sq : option qbits) (gsh : list nat) (gq : qbits)
    (beta : option (list nat * qbits)) : option Q :=
  do e <- snn_cell_ebops [1%nat; units] steps reset iq sq gsh gq beta; Some (e * rnn_factor pf steps).
