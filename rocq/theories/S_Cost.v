(** Specification vocabulary for C67: what costs nothing contributes nothing. *)
From Verif Require Import Num M_Fixed M_State M_Wrapper M_Mapper M_Contr M_Ebops S_Ebops M_Mirror M_Net M_Calib M_Cost.

(** the widths of a built quantizer have one shape *)
Definition one_shape (q : quant) : Prop :=
  match q_s q with
  | inl s => shape (t_i s) = shape (t_k s) /\ shape (t_f s) = shape (t_k s)
  | inr s => shape (u_b s) = shape (u_k s) /\ shape (u_i s) = shape (u_k s)
  end.
(** a quantizer without affine map whose sign bit does not outlive its magnitude bits: saturating, or (data) WRAP with k = 1 only where b > 0 *)
Definition silent (q : quant) : Prop :=
  w_affine (q_w q) = None /\ one_shape q /\ widths_ok (qbits_of q) /\
  (c_om (q_c q) <> WRAP \/ c_weight (q_c q) = false /\ forall g, at_ (qb_k (qbits_of q)) g = true -> (0 < at_ (qb_b (qbits_of q)) g)%Z).
(** the widths of the bias quantizer, if there is one *)
Definition bias_bits (tab : nat -> quant) (bias : option (nat * tensor Q)) : option qbits := option_map (fun b => qbits_of (tab (fst b))) bias.
Definition bias_weight (bias : option (nat * tensor Q)) : list (option nat * tensor Q) := match bias with Some (id, t) => [(Some id, t)] | None => [] end.
(** the widths of the bias quantizer with the bias shape *)
Definition bias_shape_bits (tab : nat -> quant) (bias : option (nat * tensor Q)) : option (list nat * qbits) := option_map (fun b => (shape (snd b), qbits_of (tab (fst b)))) bias.
(** QDense, QEinsumDense, QConv: input quantizer [iq], kernel [w] with quantizer [kq], bias with its quantizer, activation, output quantizer *)
Definition layer_of (iq kq : nat) (w : tensor Q) (bias : option (nat * tensor Q)) (t : template) (a : act) (oq : option nat) : clayer :=
  mk_clayer (IqOne iq) ((Some kq, w) :: bias_weight bias) (net_op t a) oq.
