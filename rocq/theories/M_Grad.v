(** Model of the gradient of the resource loss with respect to the trainable bit-widths, and of the
    optimizer steps that follow it.

    Source: /repo/src/hgq/layers/core/base.py 95-107 (the loss term ebops * beta), the _compute_ebops methods
    modelled in M_Ebops and M_Cebops, /repo/src/hgq/quantizer/internal/base.py 19-29 (round_conv: rounds, but
    passes the gradient on unchanged), fixed_point_quantizer.py 92-97, 246-254, 435-445,
    /repo/src/hgq/constraints/__init__.py, /repo/src/hgq/regularizers/__init__.py 8-17.

    Automatic differentiation is modelled by running the same EBOPs computation on pairs of a value and the
    derivatives of that value with respect to every weight ([dual]); each elementary operation carries its
    derivative rule.  The sum over all paths that reverse accumulation computes is the same number.
    Numbers are exact rationals; the derivative of 2^x uses a constant [p_ln2] (the backend's log 2), ties of
    ops.minimum / ops.maximum give the share [p_tie] to the first argument (it differs between backends:
    1, 1/2), ties of ops.min over axes are shared evenly (all three backends). *)
From Verif Require Import Num M_Fixed M_State M_Mapper M_Contr M_Ebops M_Cebops.

(** the elementary operations an EBOPs computation uses *)
Record arith (T : Type) := mk_arith {
  a_cst : Q -> T; a_add : T -> T -> T; a_mul : T -> T -> T; a_sub : T -> T -> T;
  a_min2 : T -> T -> T; a_max2 : T -> T -> T; a_minl : list T -> T; a_exp2 : T -> T }.
Arguments a_cst {T}. Arguments a_add {T}. Arguments a_mul {T}. Arguments a_sub {T}. Arguments a_min2 {T}.
Arguments a_max2 {T}. Arguments a_minl {T}. Arguments a_exp2 {T}.

(** plain numbers, as in M_Ebops *)
Definition q_arith : arith Q :=
  mk_arith Q (fun c => c) Qplus Qmult Qminus Qmin Qmax (fun l => match l with [] => 0 | x :: l' => qmin_list x l' end)
           (fun x => pow2 (Qfloor x)).

(** ** The EBOPs computations, for any kind of number; a quantizer is given by its tensor of bits *)
Section Generic.
  Context {T : Type} (N : arith T).
  Definition g_sum (l : list T) : T := fold_right (a_add N) (a_cst N 0) l.
  Definition g_tsum (t : tensor T) : T := g_sum (map (at_ t) (indices (shape t))).
  Definition g_scale (c : Q) (x : T) : T := a_mul N x (a_cst N c).
  Definition g_mean (t : tensor T) : T := g_scale (/ nQ (nprod (shape t))) (g_tsum t).

  (** QDense, core/dense.py 70-80 *)
  Definition g_dense (sh : list nat) (units : nat) (pf : Z) (iq kq : tensor T) (bq : option (tensor T)) : option T :=
    let n := last sh 0%nat in
    do bw_inp <- broadcast_to iq sh;
    do bw_ker <- broadcast_to kq [n; units];
    let ebops := g_tsum (mk_tensor (removelast sh ++ [units]) (matmul (a_cst N 0) (a_add N) (a_mul N) n (at_ bw_inp) (at_ bw_ker))) in
    do total <- match bq with
                | None => Some ebops
                | Some bq => do bw_bias <- broadcast_to bq [units];
                             Some (a_add N ebops (g_scale (nQ (nprod (removelast sh)) * nQ units) (g_mean bw_bias)))
                end;
    let np := dense_n_parallel sh in
    Some (g_scale (/ nQ np) (g_scale (dense_factor pf np) total)).

  (** QEinsumDense, core/einsum_dense.py 85-93 *)
  Definition g_einsum_dense (li lk lo : list nat) (sh ksh osh : list nat) (pf : Z) (iq kq : tensor T)
      (bq : option (list nat * tensor T)) : option T :=
    do bw_inp <- broadcast_to iq sh;
    do bw_ker <- broadcast_to kq ksh;
    let ebops := einsum (a_cst N 0) (a_add N) (a_mul N) (einsum_dims li sh lk ksh) li lk [] (at_ bw_inp) (at_ bw_ker) [] in
    do total <- match bq with
                | None => Some ebops
                | Some (bsh, bq) => do bw_bias <- broadcast_to bq bsh;
                                    Some (a_add N ebops (g_scale (nQ (nprod (tl osh))) (g_mean bw_bias)))
                end;
    let np := einsum_n_parallel li lk lo sh in
    Some (g_scale (/ nQ np) (g_scale (dense_factor pf np) total)).

  (** QConv, conv.py 91-102 *)
  Definition g_conv (pad : padding) (cs : list cdim) (groups cin_g cout_g : nat) (pf : Z) (iq kq : tensor T)
      (bq : option (tensor T)) : option T :=
    let sh := 1%nat :: map c_in cs ++ [groups * cin_g]%nat in
    let filters := (groups * cout_g)%nat in
    do bw_inp <- broadcast_to iq sh;
    do bw_ker <- broadcast_to kq (map c_k cs ++ [cin_g; filters]);
    let ebops := g_sum (flat_map (fun idx => map (fun co => conv (a_cst N 0) (a_add N) (a_mul N) pad cs cin_g cout_g (at_ bw_inp) (at_ bw_ker) idx co)
                                                (seq 0 filters)) (indices (conv_out_shape pad cs))) in
    let np := conv_n_parallel pad cs in
    let ebops := g_scale (conv_factor pf np / nQ np) ebops in
    match bq with
    | None => Some ebops
    | Some bq => do bw_bias <- broadcast_to bq [filters];
                 Some (a_add N ebops (g_scale (nQ (nprod (removelast sh) * filters)) (g_mean bw_bias)))
    end.

  (** QBatchNormalization, batch_normalization.py 200-206 *)
  Definition g_bn (sh : list nat) (axis : nat) (iq kq bq : tensor T) : option T :=
    let d := nth axis sh 0%nat in
    do bi <- broadcast_to iq sh; do bk <- broadcast_to kq [d]; do bb <- broadcast_to bq [d];
    Some (a_add N (g_sum (map (fun i => a_mul N (at_ bi i) (at_ bk [nth axis i 0%nat])) (indices sh)))
                  (g_scale (nQ (nprod sh)) (g_mean bb))).

  (** QMultiHeadAttention, attn/mha.py 386-416 *)
  Definition g_total_einsum (li lk : list nat) (x k : tensor T) : option T :=
    if einsum_fits li (shape x) lk (shape k)
    then Some (einsum (a_cst N 0) (a_add N) (a_mul N) (einsum_dims li (shape x) lk (shape k)) li lk [] (at_ x) (at_ k) []) else None.
  Definition g_mha (axes : list nat) (heads dq dv : nat) (qs ks vs : list nat) (pf : Z) (bq bk bv ba : tensor T) : option T :=
    let rank := (length qs + 3)%nat in
    do bw_q <- broadcast_to bq (1%nat :: qs ++ [heads; dq]);
    do bw_k <- broadcast_to bk (1%nat :: ks ++ [heads; dq]);
    do bw_v <- broadcast_to bv (1%nat :: vs ++ [heads; dv]);
    do bw_attn <- broadcast_to ba (1%nat :: heads :: qs ++ vs);
    do qk <- g_total_einsum (attn_source rank axes) (attn_target rank) bw_q bw_k;
    do av <- g_total_einsum (attn_product rank axes) (attn_source rank axes) bw_attn bw_v;
    let ebops := a_add N qk av in
    Some (if (0 <? pf)%Z then g_scale (inject_Z pf) ebops else ebops).

  (** ops.min over axes (kept), ops/accum.py 41, softmax.py 152 *)
  Definition g_min_over (axes : list nat) (t : tensor T) : tensor T := reduce_keep (a_minl N) axes t.
  Definition g_accum (axes : list nat) (t : tensor T) : T := a_sub N (g_tsum t) (g_tsum (g_min_over axes t)).
  (** QSum, ops/accum.py 39-43 *)
  Definition g_qsum (axes sh : list nat) (iq : tensor T) : option T :=
    do bits <- broadcast_to iq sh; Some (g_scale (65 # 100) (g_accum axes bits)).

  (** ops/merge.py 18-25 *)
  Fixpoint g_all (iqs : list (tensor T)) (sh : list nat) : option (list (tensor T)) :=
    match iqs with
    | [] => Some []
    | q :: iqs' => do b <- broadcast_to q sh; do bs <- g_all iqs' sh; Some (b :: bs)
    end.
  Definition g_excl_max (sh : list nat) (iqs : list (tensor T)) : option T :=
    do bitss <- g_all iqs sh;
    match bitss with
    | [] => None
    | b0 :: rest =>
        let total := g_sum (map (fun i => fold_left (a_add N) (map (fun b => at_ b i) bitss) (a_cst N 0)) (indices sh)) in
        let mins := g_sum (map (fun i => fold_left (a_min2 N) (map (fun b => at_ b i) rest) (at_ b0 i)) (indices sh)) in
        Some (a_sub N total mins)
    end.
  (** QAdd / QAveragePow2, merge.py 28-30; QMaximum 77-79, QMinimum 82-84 *)
  Definition g_add (sh : list nat) (iqs : list (tensor T)) : option T := do e <- g_excl_max sh iqs; Some (g_scale (65 # 100) e).
  Definition g_maximum (sh : list nat) (iqs : list (tensor T)) : option T := do e <- g_excl_max sh iqs; Some (a_mul N (a_cst N 1) e).
  (** QSubtract, merge.py 45-50 *)
  Definition g_subtract (sh : list nat) (q0 q1 : tensor T) : option T :=
    do b0 <- broadcast_to q0 sh; do b1 <- broadcast_to q1 sh;
    Some (g_sum (map (fun i => a_max2 N (at_ b0 i) (at_ b1 i)) (indices sh))).
  (** QMultiply, merge.py 53-60 *)
  Definition g_multiply (sh : list nat) (iqs : list (tensor T)) : option T :=
    do bitss <- g_all iqs sh;
    match bitss with
    | [] => None
    | b0 :: rest => Some (g_sum (map (fun i => fold_left (a_mul N) (map (fun b => at_ b i) rest) (at_ b0 i)) (indices sh)))
    end.
  (** QBasePooling, pooling.py 28-30, 36-47 *)
  Definition g_pool (sh osp : list nat) (pf : Z) (iq : tensor T) : option T :=
    do b <- broadcast_to iq sh;
    let np := nprod osp in Some (g_scale (/ nQ np) (g_scale (conv_factor pf np) (g_tsum b))).
  (** QUnaryFunctionLUT, layers/activation.py 63-67 *)
  Definition g_lut (sh : list nat) (iq oq : tensor T) : option T :=
    do bi <- broadcast_to iq sh; do bo <- broadcast_to oq sh;
    Some (g_scale (1 # 10000) (g_sum (map (fun i => a_mul N (a_exp2 N (at_ bi i)) (at_ bo i)) (indices sh)))).

  (** QSoftmax, softmax.py 134-161 *)
  Definition g_softmax (axes sh : list nat) (stable : bool) (pf : Z) (iq : option (tensor T)) (exp_iq exp_oq inv_oq : tensor T) : option T :=
    let ash := accum_shape axes sh in
    let max_instance := nprod ash in
    let factor := (if (0 <? pf)%Z then inject_Z pf else nQ max_instance) / nQ max_instance in
    do inp_bits <- match iq with Some q => broadcast_to q sh | None => Some (mk_tensor sh (fun _ => a_cst N 0)) end;
    do exp_bits <- broadcast_to exp_oq sh;
    do inv_bits <- broadcast_to inv_oq ash;
    do sub <- (if stable then match iq with
                              | Some _ => Some (g_tsum inp_bits)
                              | None => do b <- broadcast_to exp_iq sh; Some (g_tsum b)
                              end
               else Some (a_cst N 0));
    let accum := g_accum axes exp_bits in
    let mul := g_sum (map (fun i => a_mul N (at_ exp_bits i) (at_ inv_bits (bcast_index ash i))) (indices sh)) in
    let ebops := a_add N (a_add N sub accum) mul in
    let ebops := if stable then ebops
                 else a_add N ebops (g_scale (1 # 10000) (g_sum (map (fun i => a_mul N (a_exp2 N (at_ inp_bits i)) (at_ exp_bits i)) (indices sh)))) in
    Some (g_scale factor ebops).

  (** QSimpleRNN, rnn/simple_rnn.py 274-289, 603-606 *)
  Definition g_sum_matmul (x k : tensor T) (lead : list nat) (n u : nat) : T :=
    g_tsum (mk_tensor (lead ++ [u]) (matmul (a_cst N 0) (a_add N) (a_mul N) n (at_ x) (at_ k))).
  Definition g_simple_cell (sh : list nat) (units : nat) (iq kq rkq state : tensor T) (bq : option (tensor T)) : option T :=
    let n := last sh 0%nat in
    do bw_inp <- broadcast_to iq sh; do bw_ker <- broadcast_to kq [n; units];
    let e1 := g_sum_matmul bw_inp bw_ker (removelast sh) n units in
    do bw_state <- broadcast_to state [1%nat; units]; do bw_rker <- broadcast_to rkq [units; units];
    let e2 := g_sum_matmul bw_state bw_rker [1%nat] units units in
    match bq with
    | None => Some (a_add N e1 e2)
    | Some bq => do bw_bias <- broadcast_to bq [units]; Some (a_add N (a_add N e1 e2) (g_scale (nQ (nprod sh)) (g_mean bw_bias)))
    end.
  Definition g_simple_rnn (steps features units : nat) (pf : Z) (iq kq rkq state : tensor T) (bq : option (tensor T)) : option T :=
    do e <- g_simple_cell [1%nat; steps; features] units iq kq rkq state bq; Some (g_scale (rnn_factor pf steps) e).

  (** QGRU, rnn/gru.py 348-381, 625-628 *)
  Definition g_gru (steps features units : nat) (reset_after : bool) (pf : Z) (iq sq kq rkq rhq praq paq : tensor T) (bq : option (tensor T)) : option T :=
    do bw_state <- broadcast_to sq [1%nat; units];
    do bw_inp <- broadcast_to iq [1%nat; features];
    do bw_ker <- broadcast_to kq [features; 3 * units]%nat;
    do bw_rker <- broadcast_to rkq [units; 3 * units]%nat;
    do bw_rh <- broadcast_to rhq [1%nat; units];
    do bw_zr <- broadcast_to praq [1; 2 * units]%nat;
    do bias <- match bq with
               | None => Some (a_cst N 0)
               | Some bq => do b <- broadcast_to bq (if reset_after then [2; 3 * units]%nat else [3 * units]%nat);
                            Some (if reset_after then g_tsum b else at_ b [0%nat])
               end;
    let e0 := g_sum_matmul bw_inp bw_ker [1%nat] features (3 * units) in
    let e1 := if reset_after then g_sum_matmul bw_state bw_rker [1%nat] units (3 * units)
              else g_sum_matmul bw_state bw_rker [1%nat] units (2 * units) in
    let z := fun j => at_ bw_zr [0%nat; j] in
    let r := fun j => at_ bw_zr [0; units + j]%nat in
    let upper := mk_tensor [units; units] (fun i => match i with [a; b] => at_ bw_rker [a; 2 * units + b]%nat | _ => a_cst N 0 end) in
    let e2 := if reset_after then g_sum (map (fun j => a_mul N (r j) (at_ bw_rh [0%nat; j])) (seq 0 units))
              else a_add N (g_sum_matmul bw_rh upper [1%nat] units units) (g_sum (map (fun j => a_mul N (r j) (at_ bw_state [0%nat; j])) (seq 0 units))) in
    do bw_qhh <- broadcast_to paq [1%nat; units];
    let e3 := g_sum (map (fun j => a_mul N (z j) (a_add N (at_ bw_qhh [0%nat; j]) (at_ bw_state [0%nat; j]))) (seq 0 units)) in
    Some (g_scale (rnn_factor pf steps) (a_add N (a_add N (a_add N (a_add N e0 e1) e2) e3) bias)).
End Generic.

(** ** Layers and their quantizers, in the order in which _compute_ebops uses them *)
Inductive layer :=
| LDense (sh : list nat) (units : nat) (pf : Z)                                        (* iq, kq [, bq] *)
| LEinsumDense (li lk lo sh ksh osh : list nat) (bsh : list nat) (pf : Z)              (* iq, kq [, bq] *)
| LConv (pad : padding) (cs : list cdim) (groups cin_g cout_g : nat) (pf : Z)          (* iq, kq [, bq] *)
| LBatchNorm (sh : list nat) (axis : nat)                                              (* iq, kq, bq *)
| LAttention (axes : list nat) (heads dq dv : nat) (qs ks vs : list nat) (pf : Z)      (* query, key, value, scores *)
| LSum (axes sh : list nat)                                                            (* iq *)
| LAdd (sh : list nat) | LMaximum (sh : list nat) | LMultiply (sh : list nat)          (* one per input *)
| LSubtract (sh : list nat)                                                            (* iq0, iq1 *)
| LPool (sh osp : list nat) (pf : Z)                                                   (* iq *)
| LLut (sh : list nat)                                                                 (* iq, oq *)
| LSoftmax (axes sh : list nat) (stable : bool) (pf : Z)                               (* exp.iq, exp.oq, inv.oq [, iq] *)
| LSimpleRNN (steps features units : nat) (pf : Z)                                     (* iq, kq, rkq, state [, bq] *)
| LGRU (steps features units : nat) (reset_after : bool) (pf : Z).                     (* iq, sq, kq, rkq, rhq, praq, paq [, bq] *)

(** _compute_ebops of the layer; [None]: the call raises, or the number of quantizers does not fit *)
Definition g_ebops {T} (N : arith T) (l : layer) (qs : list (tensor T)) : option T :=
  match l, qs with
  | LDense sh units pf, [iq; kq] => g_dense N sh units pf iq kq None
  | LDense sh units pf, [iq; kq; bq] => g_dense N sh units pf iq kq (Some bq)
  | LEinsumDense li lk lo sh ksh osh bsh pf, [iq; kq] => g_einsum_dense N li lk lo sh ksh osh pf iq kq None
  | LEinsumDense li lk lo sh ksh osh bsh pf, [iq; kq; bq] => g_einsum_dense N li lk lo sh ksh osh pf iq kq (Some (bsh, bq))
  | LConv pad cs g ci co pf, [iq; kq] => g_conv N pad cs g ci co pf iq kq None
  | LConv pad cs g ci co pf, [iq; kq; bq] => g_conv N pad cs g ci co pf iq kq (Some bq)
  | LBatchNorm sh axis, [iq; kq; bq] => g_bn N sh axis iq kq bq
  | LAttention axes heads dq dv qs ks vs pf, [bq; bk; bv; ba] => g_mha N axes heads dq dv qs ks vs pf bq bk bv ba
  | LSum axes sh, [iq] => g_qsum N axes sh iq
  | LAdd sh, iqs => g_add N sh iqs
  | LMaximum sh, iqs => g_maximum N sh iqs
  | LMultiply sh, iqs => g_multiply N sh iqs
  | LSubtract sh, [q0; q1] => g_subtract N sh q0 q1
  | LPool sh osp pf, [iq] => g_pool N sh osp pf iq
  | LLut sh, [iq; oq] => g_lut N sh iq oq
  | LSoftmax axes sh stable pf, [ei; eo; io] => g_softmax N axes sh stable pf None ei eo io
  | LSoftmax axes sh stable pf, [ei; eo; io; iq] => g_softmax N axes sh stable pf (Some iq) ei eo io
  | LSimpleRNN steps fe units pf, [iq; kq; rkq; st] => g_simple_rnn N steps fe units pf iq kq rkq st None
  | LSimpleRNN steps fe units pf, [iq; kq; rkq; st; bq] => g_simple_rnn N steps fe units pf iq kq rkq st (Some bq)
  | LGRU steps fe units ra pf, [iq; sq; kq; rkq; rhq; praq; paq] => g_gru N steps fe units ra pf iq sq kq rkq rhq praq paq None
  | LGRU steps fe units ra pf, [iq; sq; kq; rkq; rhq; praq; paq; bq] => g_gru N steps fe units ra pf iq sq kq rkq rhq praq paq (Some bq)
  | _, _ => None
  end.

(** ** Weights *)
(** names of the width weights: _b, _i, _f (fixed_point_quantizer.py 226-241, 382-397) *)
Inductive wname := WB | WI | WF.
Definition wname_eqb (a b : wname) : bool := match a, b with WB, WB | WI, WI | WF, WF => true | _, _ => false end.
(** one scalar weight: quantizer number, weight name, position in the weight tensor *)
Definition var := (nat * wname * index)%type.
Definition var_eqb (v w : var) : bool :=
  let '(s, n, g) := v in let '(s', n', g') := w in (s =? s')%nat && wname_eqb n n' && index_eqb g g'.

(** a built quantizer: KBI has _b and _i, KIF has _i and _f; constraints and regularizers of the weights
    (MonoL1(l1); 0: none) *)
Inductive widths := KBI (b i : tensor Q) | KIF (i f : tensor Q).
Record tq := mk_tq { tq_om : omode; tq_k : tensor bool; tq_w : widths; tq_c : wname -> option constr; tq_l1 : wname -> Q }.
Definition weight (q : tq) (n : wname) : option (tensor Q) :=
  match tq_w q, n with
  | KBI b _, WB => Some b | KBI _ i, WI => Some i
  | KIF i _, WI => Some i | KIF _ f, WF => Some f
  | _, _ => None
  end.
(** trainable=..., fixed_point_quantizer.py 229, 235-238, 382-386, 394: _i is trainable unless the overflow mode is WRAP *)
Definition trainable (q : tq) (n : wname) : bool :=
  match weight q n, n with
  | None, _ => false
  | Some _, WI => negb (is_wrap (tq_om q))
  | Some _, _ => true
  end.

(** the widths as the EBOPs model of M_Ebops sees them: b of KBI, fixed_point_quantizer.py 248-250; relu(i + f) of KIF, 435-437 *)
Definition to_qbits (q : tq) : qbits :=
  mk_qbits (tq_om q) (tq_k q)
    (match tq_w q with
     | KBI b _ => tmap round_even b
     | KIF i f => tmap2 (fun i f => kif_b (round_even i) (round_even f)) i f
     end).
(** the property bits as numbers, 92-97 *)
Definition q_bits_t (q : tq) : tensor Q :=
  tmap2 (fun k b => inject_Z (q_bits (tq_om q) k b)) (tq_k q) (qb_b (to_qbits q)).
(** the EBOPs of the layer with these quantizers *)
Definition ebops (l : layer) (qs : list tq) : option Q := g_ebops q_arith l (map q_bits_t qs).

(** ** Differentiation *)
Record dual := mk_dual { dv : Q; dg : var -> Q }.
Record par := mk_par { p_tie : Q; p_ln2 : Q }.
Definition d_cst (c : Q) : dual := mk_dual c (fun _ => 0).
Definition d_add (a b : dual) : dual := mk_dual (dv a + dv b) (fun v => dg a v + dg b v).
Definition d_sub (a b : dual) : dual := mk_dual (dv a - dv b) (fun v => dg a v - dg b v).
Definition d_mul (a b : dual) : dual := mk_dual (dv a * dv b) (fun v => dg a v * dv b + dv a * dg b v).
(** share of the first argument in the gradient of minimum(a, b) *)
Definition share (p : par) (a b : Q) : Q := if Qeq_bool a b then p_tie p else if Qle_bool a b then 1 else 0.
Definition d_min2 (p : par) (a b : dual) : dual :=
  let s := share p (dv a) (dv b) in mk_dual (Qmin (dv a) (dv b)) (fun v => s * dg a v + (1 - s) * dg b v).
Definition d_max2 (p : par) (a b : dual) : dual :=
  let s := share p (dv b) (dv a) in mk_dual (Qmax (dv a) (dv b)) (fun v => s * dg a v + (1 - s) * dg b v).
(** ops.min over an axis: the elements equal to the minimum share the gradient evenly *)
Definition d_minl (l : list dual) : dual :=
  let m := a_minl q_arith (map dv l) in
  let ties := filter (fun d => Qeq_bool (dv d) m) l in
  mk_dual m (fun v => qsum (map (fun d => dg d v) ties) / nQ (length ties)).
Definition d_exp2 (p : par) (a : dual) : dual :=
  mk_dual (pow2 (Qfloor (dv a))) (fun v => pow2 (Qfloor (dv a)) * p_ln2 p * dg a v).
Definition d_arith (p : par) : arith dual := mk_arith dual d_cst d_add d_mul d_sub (d_min2 p) (d_max2 p) d_minl (d_exp2 p).

(** a weight, as a variable *)
Definition d_var (s : nat) (n : wname) (t : tensor Q) : tensor dual :=
  mk_tensor (shape t) (fun g => mk_dual (at_ t g) (fun v => if var_eqb v (s, n, g) then 1 else 0)).
(** round_conv: quantizer/internal/base.py 19-29 (and the function of the same name of the package quantizers) *)
Definition d_round (a : dual) : dual := mk_dual (inject_Z (round_even (dv a))) (dg a).
(** ops.relu: the gradient is 0 at 0 *)
Definition d_relu (a : dual) : dual :=
  mk_dual (Qmax 0 (dv a)) (fun v => if Qle_bool (dv a) 0 then 0 else dg a v).
(** b of the quantizer number [s]: KBI 248-250, KIF 435-445 *)
Definition d_b (s : nat) (q : tq) : tensor dual :=
  match tq_w q with
  | KBI b _ => tmap d_round (d_var s WB b)
  | KIF i f => tmap2 (fun i f => d_relu (d_add (d_round i) (d_round f))) (d_var s WI i) (d_var s WF f)
  end.
(** bits, 92-97 *)
Definition d_bits (s : nat) (q : tq) : tensor dual :=
  tmap2 (fun k b => match tq_om q with SAT => d_add b (d_cst (inject_Z (kz k))) | _ => b end) (tq_k q) (d_b s q).
Fixpoint number_from {A B} (f : nat -> A -> B) (s : nat) (l : list A) : list B :=
  match l with [] => [] | a :: l' => f s a :: number_from f (S s) l' end.
(** the EBOPs together with their gradient *)
Definition d_ebops (p : par) (l : layer) (qs : list tq) : option dual := g_ebops (d_arith p) l (number_from d_bits 0 qs).

(** ** The loss of a training call and the optimizer *)
(** core/base.py 101-105: ebops * ebops_factor is multiplied by beta; regularizers/__init__.py 8-17: l1 * sum(x) for every weight
    with a regularizer *)
Definition nth_tq (qs : list tq) (s : nat) : option tq := nth_error qs s.
Definition loss_grad (factor beta : Q) (qs : list tq) (d : dual) (v : var) : Q :=
  let '(s, n, g) := v in
  dg d v * factor * beta + match nth_tq qs s with Some q => tq_l1 q n | None => 0 end.

(** an optimizer turns the gradients seen so far (latest first) into the amount that is subtracted *)
Definition optimizer := list Q -> Q.
Definition sgd (lr : Q) : optimizer := fun h => match h with g :: _ => lr * g | [] => 0 end.
(** SGD with momentum: velocity <- momentum * velocity + g (Keras subtracts lr * velocity) *)
Fixpoint velocity (momentum : Q) (h : list Q) : Q := match h with [] => 0 | g :: h' => momentum * velocity momentum h' + g end.
Definition sgd_momentum (lr momentum : Q) : optimizer := fun h => lr * velocity momentum h.

(** the update of one weight tensor; Keras' optimizer applies the constraint of a variable after the update *)
Definition upd_w (q : tq) (n : wname) (step : index -> Q) (t : tensor Q) : tensor Q :=
  if trainable q n then mk_tensor (shape t) (fun g => apply_c (tq_c q n) (at_ t g - step g)) else t.
Definition upd_q (step : wname -> index -> Q) (q : tq) : tq :=
  mk_tq (tq_om q) (tq_k q)
    (match tq_w q with
     | KBI b i => KBI (upd_w q WB (step WB) b) (upd_w q WI (step WI) i)
     | KIF i f => KIF (upd_w q WI (step WI) i) (upd_w q WF (step WF) f)
     end) (tq_c q) (tq_l1 q).

(** training state: quantizers, gradients so far *)
Record tstate := mk_tstate { ts_qs : list tq; ts_hist : list (var -> Q) }.
(** one optimizer step on the loss of the layer; [None]: the call raises *)
Definition opt_step (p : par) (opt : optimizer) (factor beta : Q) (l : layer) (s : tstate) : option tstate :=
  do d <- d_ebops p l (ts_qs s);
  let h := loss_grad factor beta (ts_qs s) d :: ts_hist s in
  Some (mk_tstate (number_from (fun k q => upd_q (fun n g => opt (map (fun gr => gr (k, n, g)) h)) q) 0 (ts_qs s)) h).
(** the assignment of _i in a training call of a WRAP quantizer (fixed_point_quantizer.py 286, 413): the new values
    depend on the data *)
Definition set_i (q : tq) (i' : index -> Q) : tq :=
  if is_wrap (tq_om q) then
    mk_tq (tq_om q) (tq_k q) (match tq_w q with KBI b i => KBI b (mk_tensor (shape i) i') | KIF i f => KIF (mk_tensor (shape i) i') f end)
          (tq_c q) (tq_l1 q)
  else q.
Inductive event := EData (slot : nat) (i' : index -> Q) | EStep.
Definition set_nth_q (slot : nat) (f : tq -> tq) (qs : list tq) : list tq :=
  number_from (fun k q => if (k =? slot)%nat then f q else q) 0 qs.
Definition train_event (p : par) (opt : optimizer) (factor beta : Q) (l : layer) (s : tstate) (e : event) : option tstate :=
  match e with
  | EData slot i' => Some (mk_tstate (set_nth_q slot (fun q => set_i q i') (ts_qs s)) (ts_hist s))
  | EStep => opt_step p opt factor beta l s
  end.
Fixpoint train (p : par) (opt : optimizer) (factor beta : Q) (l : layer) (s : tstate) (es : list event) : option tstate :=
  match es with
  | [] => Some s
  | e :: es' => do s' <- train_event p opt factor beta l s e; train p opt factor beta l s' es'
  end.
