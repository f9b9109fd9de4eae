(** Model of the EBOPs figures of the layers.

    Source: /repo/src/hgq/layers/core/dense.py 48-53, 70-80,
    core/einsum_dense.py 10-20, 62-64, 85-93, conv.py 62-70, 91-102, ops/accum.py 39-43,
    ops/merge.py 18-84, pooling.py 28-47, batch_normalization.py 200-206, layers/activation.py 63-67,
    softmax.py 134-161; quantizer/quantizer.py 86-88 (bits_). *)
From Verif Require Import Num M_Fixed M_State M_Mapper M_Contr.

Definition qsum (l : list Q) : Q := fold_right Qplus 0 l.
(** ops.sum of a tensor *)
Definition tsum (t : tensor Q) : Q := qsum (map (at_ t) (indices (shape t))).
Definition nprod (l : list nat) : nat := fold_right Nat.mul 1%nat l.
Definition nQ (n : nat) : Q := inject_Z (Z.of_nat n).
(** ops.mean *)
Definition tmean (t : tensor Q) : Q := tsum t / nQ (nprod (shape t)).

(** Quantizer.bits: FixedPointQuantizerBase.bits (fixed_point_quantizer.py 92-97) of the built
    widths; [qb_b] is the (rounded, non negative) b weight tensor *)
Record qbits := mk_qbits { qb_om : omode; qb_k : tensor bool; qb_b : tensor Z }.
(** Quantizer.bits_ (quantizer.py 86-88) with DefaultBitwidthMapper.bw_to_x (quantizer/internal/base.py 182-183) *)
Definition bits_ (q : qbits) (sh : list nat) : option (tensor Q) :=
  broadcast_to (tmap2 (fun k b => inject_Z (q_bits (qb_om q) k b)) (qb_k q) (qb_b q)) sh.

(** ** QDense (dense.py) *)
(** QDense.build, core/dense.py 50-53: the number of parallel applications and the default of the factor *)
Definition dense_n_parallel (input_shape : list nat) : nat := nprod (removelast (tl input_shape)).
Definition dense_factor (pf : Z) (n_parallel : nat) : Q := inject_Z (if (pf <? 0)%Z then Z.of_nat n_parallel else pf).
(** QDense._compute_ebops, core/dense.py 70-80; [sh] = (1,) + input shape; matmul result shape: sh[:-1] + [units] *)
Definition dense_ebops (sh : list nat) (units : nat) (pf : Z) (iq kq : qbits) (bq : option qbits) : option Q :=
  let n := last sh 0%nat in
  do bw_inp <- bits_ iq sh;
  do bw_ker <- bits_ kq [n; units];
  let ebops := tsum (mk_tensor (removelast sh ++ [units]) (matmul 0 Qplus Qmult n (at_ bw_inp) (at_ bw_ker))) in
  do total <- match bq with
              | None => Some ebops
              | Some bq => do bw_bias <- bits_ bq [units];
                           Some (ebops + tmean bw_bias * (nQ (nprod (removelast sh)) * nQ units))
              end;
  let np := dense_n_parallel sh in
  Some (total * dense_factor pf np / nQ np).

(** ** QEinsumDense (einsum_dense.py) for equations without ellipsis *)
(** _einsum_free0_size, core/einsum_dense.py 10-20: axes of the input (except the first) that are absent from the kernel
    and present in the output *)
Definition einsum_n_parallel (li lk lo : list nat) (input_shape : list nat) : nat :=
  nprod (map snd (filter (fun p => negb (memb (fst p) lk) && memb (fst p) lo) (combine (tl li) (tl input_shape)))).
(** the size of a label, from the operand shapes *)
Fixpoint label_dim (ls : list nat) (sh : list nat) (l : nat) : option nat :=
  match ls, sh with
  | a :: ls', d :: sh' => if (a =? l)%nat then Some d else label_dim ls' sh' l
  | _, _ => None
  end.
Definition einsum_dims (li : list nat) (xs : list nat) (lk : list nat) (ks : list nat) (l : nat) : nat :=
  match label_dim li xs l with Some d => d | None => match label_dim lk ks l with Some d => d | None => 0%nat end end.
(** QEinsumDense._compute_ebops, core/einsum_dense.py 85-93; [ksh]: kernel shape, [bsh]: bias shape (None: no bias), [osh]: full output
    shape with the batch axis; ebops_equation (line 71) is 'li,lk->' *)
Definition einsum_dense_ebops (li lk lo : list nat) (sh ksh : list nat) (osh : list nat) (pf : Z) (iq kq : qbits)
    (bq : option (list nat * qbits)) : option Q :=
  do bw_inp <- bits_ iq sh;
  do bw_ker <- bits_ kq ksh;
  let ebops := einsum 0 Qplus Qmult (einsum_dims li sh lk ksh) li lk [] (at_ bw_inp) (at_ bw_ker) [] in
  do total <- match bq with
              | None => Some ebops
              | Some (bsh, bq) => do bw_bias <- bits_ bq bsh;
                                  Some (ebops + tmean bw_bias * nQ (nprod (tl osh)))
              end;
  let np := einsum_n_parallel li lk lo sh in
  Some (total * dense_factor pf np / nQ np).

(** ** QConv (conv.py), channels_last *)
Definition conv_n_parallel (pad : padding) (cs : list cdim) : nat := nprod (conv_out_shape pad cs).
(** QBaseConv.build, conv.py 68-70: here the default applies to factors <= 0 *)
Definition conv_factor (pf : Z) (n_parallel : nat) : Q := inject_Z (if (pf <=? 0)%Z then Z.of_nat n_parallel else pf).
(** QBaseConv._compute_ebops, conv.py 91-102; sh = (1,) + spatial + (cin,) *)
Definition conv_ebops (pad : padding) (cs : list cdim) (groups cin_g cout_g : nat) (pf : Z) (iq kq : qbits)
    (bq : option qbits) : option Q :=
  let sh := 1%nat :: map c_in cs ++ [groups * cin_g]%nat in
  let filters := (groups * cout_g)%nat in
  do bw_inp <- bits_ iq sh;
  do bw_ker <- bits_ kq (map c_k cs ++ [cin_g; filters]);
  let ebops := qsum (flat_map (fun idx => map (fun co => conv 0 Qplus Qmult pad cs cin_g cout_g (at_ bw_inp) (at_ bw_ker) idx co)
                                            (seq 0 filters)) (indices (conv_out_shape pad cs))) in
  let np := conv_n_parallel pad cs in
  let ebops := ebops * (conv_factor pf np / nQ np) in
  match bq with
  | None => Some ebops
  | Some bq => do bw_bias <- bits_ bq [filters];
               Some (ebops + tmean bw_bias * nQ (nprod (removelast sh) * filters))
  end.

(** ** Elementwise and reducing layers *)
Definition qmin_list (d : Q) (l : list Q) : Q := fold_left Qmin l d.
(** the minimum over the axes [axes] (kept as size 1), summed: ops.sum(ops.min(bits, axis=axes)) *)
Definition min_over (axes : list nat) (t : tensor Q) : tensor Q :=
  reduce_keep (fun l => match l with [] => 0 | x :: l' => qmin_list x l' end) axes t.
(** QSum._compute_ebops, accum.py 39-43; 0.65 is the code's constant *)
Definition sum_ebops (axes : list nat) (sh : list nat) (iq : qbits) : option Q :=
  do bits <- bits_ iq sh;
  Some ((tsum bits - tsum (min_over axes bits)) * (65 # 100)).

(** _ebops_from_sum_bits_excl_max, merge.py 18-25, for inputs of equal shape *)
Fixpoint all_bits (iqs : list qbits) (sh : list nat) : option (list (tensor Q)) :=
  match iqs with
  | [] => Some []
  | q :: iqs' => do b <- bits_ q sh; do bs <- all_bits iqs' sh; Some (b :: bs)
  end.
Definition excl_max_ebops (sh : list nat) (iqs : list qbits) : option Q :=
  do bitss <- all_bits iqs sh;
  match bitss with
  | [] => None
  | b0 :: rest =>
      let total := qsum (map (fun i => fold_left Qplus (map (fun b => at_ b i) bitss) 0) (indices sh)) in
      let mins := qsum (map (fun i => qmin_list (at_ b0 i) (map (fun b => at_ b i) rest)) (indices sh)) in
      Some (total - mins)
  end.
(** QAdd / QAveragePow2, merge.py 28-30, QMaximum 77-79, QMinimum 82-84 *)
Definition add_ebops sh iqs : option Q := do e <- excl_max_ebops sh iqs; Some (e * (65 # 100)).
Definition maximum_ebops sh iqs : option Q := do e <- excl_max_ebops sh iqs; Some (1 * e).
(** QSubtract, merge.py 45-50 *)
Definition subtract_ebops (sh : list nat) (q0 q1 : qbits) : option Q :=
  do b0 <- bits_ q0 sh; do b1 <- bits_ q1 sh;
  Some (qsum (map (fun i => Qmax (at_ b0 i) (at_ b1 i)) (indices sh))).
(** QMultiply, merge.py 53-60 *)
Definition multiply_ebops (sh : list nat) (iqs : list qbits) : option Q :=
  do bitss <- all_bits iqs sh;
  match bitss with
  | [] => None
  | b0 :: rest => Some (qsum (map (fun i => fold_left Qmult (map (fun b => at_ b i) rest) (at_ b0 i)) (indices sh)))
  end.
(** QBasePooling, pooling.py 28-30, 36-47: [osp] = spatial output shape *)
Definition pool_ebops (sh : list nat) (osp : list nat) (pf : Z) (iq : qbits) : option Q :=
  do b <- bits_ iq sh;
  let np := nprod osp in
  Some (tsum b * conv_factor pf np / nQ np).
(** QUnaryFunctionLUT, layers/activation.py 63-67 *)
Definition lut_ebops (sh : list nat) (iq oq : qbits) : option Q :=
  do bi <- bits_ iq sh; do bo <- bits_ oq sh;
  Some (qsum (map (fun i => pow2 (Qfloor (at_ bi i)) * at_ bo i) (indices sh)) * (1 # 10000)).
(** QBatchNormalization, batch_normalization.py 200-206: kernel/bias widths of shape [d_axis], reshaped to ones except [axis] *)
Definition bn_ebops (sh : list nat) (axis : nat) (iq kq bq : qbits) : option Q :=
  let d := nth axis sh 0%nat in
  do bi <- bits_ iq sh; do bk <- bits_ kq [d]; do bb <- bits_ bq [d];
  Some (qsum (map (fun i => at_ bi i * at_ bk [nth axis i 0%nat]) (indices sh)) + tmean bb * nQ (nprod sh)).

