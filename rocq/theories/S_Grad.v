(** Specification vocabulary for C64: training with the resource loss only. *)
From Verif Require Import Num M_Fixed M_State M_Mapper M_Ebops M_Cebops M_Grad.

(** the derivative constants of the backend: ties of minimum/maximum are shared, log 2 is positive *)
Definition backend_ok (p : par) : Prop := 0 <= p_tie p /\ p_tie p <= 1 /\ 0 <= p_ln2 p.
(** and log 2 is between 1/2 and 1 *)
Definition ln2_ok (p : par) : Prop := 1 # 2 <= p_ln2 p /\ p_ln2 p <= 1.
(** an optimizer that never moves against gradients that were all non-negative *)
Definition descending (opt : optimizer) : Prop := forall h, Forall (fun g => 0 <= g) h -> 0 <= opt h.

(** the value of one weight *)
Definition value_of (qs : list tq) (v : var) : option Q :=
  let '(s, n, g) := v in
  match nth_error qs s with Some q => match weight q n with Some t => Some (at_ t g) | None => None end | None => None end.
Definition is_trainable (qs : list tq) (v : var) : Prop :=
  let '(s, n, g) := v in exists q, nth_error qs s = Some q /\ trainable q n = true.

(** a quantizer as configured by the user: weights satisfy their constraints; the width of a KBI quantizer is
    non-negative and its constraint keeps it so; regularizers are penalties *)
Definition well_set (q : tq) : Prop :=
  (forall n t g, weight q n = Some t -> trainable q n = true -> apply_c (tq_c q n) (at_ t g) == at_ t g) /\
  match tq_w q with KBI b _ => (forall g, 0 <= at_ b g) /\ forall w, 0 <= apply_c (tq_c q WB) w | KIF _ _ => True end /\
  forall n, 0 <= tq_l1 q n.

(** the data only reaches the EBOPs through the integer widths of WRAP quantizers with separate i and f *)
Definition data_free (qs : list tq) (e : event) : Prop :=
  match e with
  | EStep => True
  | EData s _ => match nth_error qs s with
                 | Some q => match tq_w q with KBI _ _ => True | KIF _ _ => tq_om q <> WRAP end
                 | None => True
                 end
  end.

(** [k] more bits for the elements that use entry [g] (fewer, for negative [k]) *)
Definition add_bits (k : Z) (q : qbits) (g : index) : qbits :=
  mk_qbits (qb_om q) (qb_k q) (mk_tensor (shape (qb_b q)) (fun h => (at_ (qb_b q) h + if index_eqb h g then k else 0)%Z)).
Definition add_bits_at (k : Z) (s : nat) (g : index) (qs : list qbits) : list qbits :=
  number_from (fun j q => if (j =? s)%nat then add_bits k q g else q) 0 qs.
(** the EBOPs of a layer for given widths: the functions of M_Ebops and M_Cebops *)
Definition ebops_with (l : layer) (qs : list qbits) : option Q :=
  match l, qs with
  | LDense sh units pf, [iq; kq] => dense_ebops sh units pf iq kq None
  | LDense sh units pf, [iq; kq; bq] => dense_ebops sh units pf iq kq (Some bq)
  | LEinsumDense li lk lo sh ksh osh bsh pf, [iq; kq] => einsum_dense_ebops li lk lo sh ksh osh pf iq kq None
  | LEinsumDense li lk lo sh ksh osh bsh pf, [iq; kq; bq] => einsum_dense_ebops li lk lo sh ksh osh pf iq kq (Some (bsh, bq))
  | LConv pad cs g ci co pf, [iq; kq] => conv_ebops pad cs g ci co pf iq kq None
  | LConv pad cs g ci co pf, [iq; kq; bq] => conv_ebops pad cs g ci co pf iq kq (Some bq)
  | LBatchNorm sh axis, [iq; kq; bq] => bn_ebops sh axis iq kq bq
  | LAttention axes heads dq dv qs ks vs pf, [bq; bk; bv; ba] => mha_ebops axes heads dq dv qs ks vs pf bq bk bv ba
  | LSum axes sh, [iq] => sum_ebops axes sh iq
  | LAdd sh, iqs => add_ebops sh iqs
  | LMaximum sh, iqs => maximum_ebops sh iqs
  | LMultiply sh, iqs => multiply_ebops sh iqs
  | LSubtract sh, [q0; q1] => subtract_ebops sh q0 q1
  | LPool sh osp pf, [iq] => pool_ebops sh osp pf iq
  | LLut sh, [iq; oq] => lut_ebops sh iq oq
  | LSoftmax axes sh stable pf, [ei; eo; io] => softmax_ebops axes sh stable pf None ei eo io
  | LSoftmax axes sh stable pf, [ei; eo; io; iq] => softmax_ebops axes sh stable pf (Some iq) ei eo io
  | LSimpleRNN steps fe units pf, [iq; kq; rkq; st] => simple_rnn_ebops steps fe units pf iq kq rkq st None
  | LSimpleRNN steps fe units pf, [iq; kq; rkq; st; bq] => simple_rnn_ebops steps fe units pf iq kq rkq st (Some bq)
  | LGRU steps fe units ra pf, [iq; sq; kq; rkq; rhq; praq; paq] => gru_ebops steps fe units ra pf iq sq kq rkq rhq praq paq None
  | LGRU steps fe units ra pf, [iq; sq; kq; rkq; rhq; praq; paq; bq] => gru_ebops steps fe units ra pf iq sq kq rkq rhq praq paq (Some bq)
  | _, _ => None
  end.

(** the weight [n] at [g] determines the width there: b of KBI; i or f of KIF while i + f is positive *)
Definition acts (q : tq) (n : wname) (g : index) : Prop :=
  match tq_w q, n with
  | KBI _ _, WB => True
  | KIF i f, WI | KIF i f, WF => (0 < round_even (at_ i g) + round_even (at_ f g))%Z
  | _, _ => False
  end.
(** the width at [g] is zero because i + f is not positive *)
Definition pruned (q : tq) (g : index) : Prop :=
  match tq_w q with KIF i f => (round_even (at_ i g) + round_even (at_ f g) <= 0)%Z | KBI _ _ => False end.
(** layers that multiply the bits of different quantizers and add *)
Definition product_layer (l : layer) : Prop :=
  match l with LDense _ _ _ | LEinsumDense _ _ _ _ _ _ _ _ | LConv _ _ _ _ _ _ | LBatchNorm _ _ | LAttention _ _ _ _ _ _ _ _ => True | _ => False end.

(** recurrent layers: the parallelization factor is -1 (all steps) or a count *)
Definition factor_ok (l : layer) : Prop :=
  match l with LSimpleRNN _ _ _ pf | LGRU _ _ _ _ pf => (-1 <= pf)%Z | _ => True end.
Definition n_steps (es : list event) : nat := length (filter (fun e => match e with EStep => true | _ => false end) es).
(** the smallest value a constraint allows *)
Definition lower (c : option constr) : option Z :=
  match c with Some (CMinMax lo hi) => if (lo <=? hi)%Z then Some lo else None | Some (CMin lo) => Some lo | _ => None end.
