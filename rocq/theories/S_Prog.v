(** Specification vocabulary for C65: calibration of layers that call their quantizers many times. *)
From Verif Require Import Num M_Fixed M_State S_State M_Wrapper M_Mapper S_Mapper M_Mirror M_Net M_Causal M_Calib S_Ops S_Calib M_Table M_Softmax M_NetX M_Prog M_Rnn S_Rnn.

(** two programs that ask the same quantizers about equal values as long as the answers are equal (and of the shape of the question, as
    all answers are), and then end with related results; the second may do anything where the first raises *)
Inductive same_prog {A} (R : A -> A -> Prop) : prog A -> prog A -> Prop :=
  | same_ret a a' : R a a' -> same_prog R (Ret a) (Ret a')
  | same_raise p : same_prog R Raise p
  | same_ask id x x' k k' : same_tensor x x' -> (forall y y', same_tensor y y' -> shape y = shape x -> same_prog R (k y) (k' y')) -> same_prog R (Ask id x k) (Ask id x' k').
(** a layer whose call depends on the values of its arguments and of the quantizers' answers only *)
Definition values_only (call : tin -> prog (tensor Q)) : Prop := forall x x', same_inputs x x' -> same_prog same_tensor (call x) (call x').
(** a function on numbers *)
Definition on_numbers (f : Q -> Q) : Prop := forall p q, p == q -> f p == f q.

(** ** inference: the quantizers stay as they are, so a program is evaluated with fixed functions *)
Fixpoint eval {A} (tab : nat -> quant) (p : prog A) : option A :=
  match p with
  | Ret a => Some a
  | Raise => None
  | Ask id x k => do y <- quant_call (tab id) x; eval tab (k y)
  end.

(** ** samples of batches *)
(** sample [b] of a batch of vectors, and of a batch of sequences of vectors *)
Definition row (b : nat) (x : tensor Q) : nat -> Q := fun j => at_ x [b; j].
Definition rows (b : nat) (x : tensor Q) : list (nat -> Q) := map (fun t j => at_ x [b; t; j]) (seq 0 (nth 1 (shape x) 0%nat)).
(** a data quantizer of a cell, built for (None, n) with the default homogeneous axis (the batch): widths of shape (1, n), one format per position *)
Definition row_quant (n : nat) (q : quant) : Prop :=
  w_scaler (q_w q) = None /\ c_weight (q_c q) = false /\
  match q_s q with
  | inl s => shape (t_k s) = [1; n]%nat /\ shape (t_i s) = [1; n]%nat /\ shape (t_f s) = [1; n]%nat
  | inr s => shape (u_k s) = [1; n]%nat /\ shape (u_b s) = [1; n]%nat /\ shape (u_i s) = [1; n]%nat
  end.
Definition row_quants (n : nat) (tab : nat -> quant) (id : option nat) : Prop := forall i, id = Some i -> row_quant n (tab i).
(** the format of position j *)
Definition vq_of (q : quant) : vquant :=
  match q_s q with
  | inl s => mk_vquant (c_rm (q_c q)) (c_om (q_c q)) (fun j => at_ (t_k s) [0; j]%nat) (fun j => round_even (at_ (t_i s) [0; j]%nat)) (fun j => round_even (at_ (t_f s) [0; j]%nat)) (w_affine (q_w q))
  | inr s => mk_vquant (c_rm (q_c q)) (c_om (q_c q)) (fun j => at_ (u_k s) [0; j]%nat) (fun j => round_even (at_ (u_i s) [0; j]%nat))
               (fun j => round_even (at_ (u_b s) [0; j]%nat) - round_even (at_ (u_i s) [0; j]%nat))%Z (w_affine (q_w q))
  end.
Definition mat_of (k : tensor Q) : nat -> nat -> Q := fun i j => at_ k [i; j].
Definition vec_of (b : tensor Q) : nat -> Q := fun j => at_ b [j].
(** what a recurrent layer returned for sample [b] is this sequence of outputs, or the last of them *)
Definition returned (sequences : bool) (units b : nat) (outs : list (nat -> Q)) (y : tensor Q) : Prop :=
  if sequences then same_seq units outs (rows b y) else outs <> [] /\ same_vec units (last outs (fun _ => 0)) (row b y).

(** the cells of C33 and C32 that the layers amount to with quantizers [tab], for inputs of [f] features *)
Definition rnn_of (tab : nat -> quant) (l : srnn) (f : nat) : option rnn_cell :=
  do k <- quant_call (tab (fst (sr_kernel l))) (snd (sr_kernel l));
  do rk <- quant_call (tab (fst (sr_rkernel l))) (snd (sr_rkernel l));
  do b <- match sr_bias l with Some (id, b) => do y <- quant_call (tab id) b; Some (Some (vec_of y)) | None => Some None end;
  Some (mk_rnn (sr_units l) f (vq_of (tab (sr_iq l))) (option_map (fun i => vq_of (tab i)) (sr_sq l)) (vq_of (tab (sr_paq l))) (mat_of k) (mat_of rk) b (sr_act l)).
Definition rnn_built (tab : nat -> quant) (l : srnn) (f : nat) : Prop :=
  row_quant f (tab (sr_iq l)) /\ row_quants (sr_units l) tab (sr_sq l) /\ row_quant (sr_units l) (tab (sr_paq l)) /\
  shape (snd (sr_kernel l)) = [f; sr_units l] /\ shape (snd (sr_rkernel l)) = [sr_units l; sr_units l] /\
  (forall id b, sr_bias l = Some (id, b) -> shape b = [sr_units l]).
Definition gru_of (tab : nat -> quant) (l : sgru) (f : nat) : option gru_cell :=
  do k <- quant_call (tab (fst (sg_kernel l))) (snd (sg_kernel l));
  do rk <- quant_call (tab (fst (sg_rkernel l))) (snd (sg_rkernel l));
  do b <- match sg_bias l with
          | Some (id, b) => do y <- quant_call (tab id) b; Some (if sg_reset_after l then GBias (fun j => at_ y [0; j]%nat) (fun j => at_ y [1; j]%nat) else GBias (vec_of y) (fun _ => 0))
          | None => Some GNoBias end;
  Some (mk_gru (sg_units l) f (option_map (fun i => vq_of (tab i)) (sg_iq l)) (vq_of (tab (sg_sq l))) (vq_of (tab (sg_paq l))) (vq_of (tab (sg_praq l))) (vq_of (tab (sg_rhq l)))
          (mat_of k) (mat_of rk) b (sg_reset_after l) (sg_act l) (sg_ract l)).
Definition gru_built (tab : nat -> quant) (l : sgru) (f : nat) : Prop :=
  row_quants f tab (sg_iq l) /\ row_quant (sg_units l) (tab (sg_sq l)) /\ row_quant (sg_units l) (tab (sg_paq l)) /\ row_quant (2 * sg_units l) (tab (sg_praq l)) /\ row_quant (sg_units l) (tab (sg_rhq l)) /\
  shape (snd (sg_kernel l)) = [f; (3 * sg_units l)%nat] /\ shape (snd (sg_rkernel l)) = [sg_units l; (3 * sg_units l)%nat] /\
  (forall id b, sg_bias l = Some (id, b) -> shape b = if sg_reset_after l then [2; 3 * sg_units l]%nat else [(3 * sg_units l)%nat]).
Definition reset_of (r : reset_kind) : reset_mech := match r with Subtract => RSubtract | Zero => RZero | NoReset => RNone end.
Definition snn_of (tab : nat -> quant) (l : ssnn) : option snn_cell :=
  do beta <- match sn_beta l with Some (id, b) => do y <- quant_call (tab id) b; Some (Some (vec_of y)) | None => Some None end;
  do f <- quant_call (tab (fst (sn_factor l))) (snd (sn_factor l));
  Some (mk_snn (sn_units l) (option_map (fun i => vq_of (tab i)) (sn_iq l)) (option_map (fun i => vq_of (tab i)) (sn_oq l)) (option_map (fun i => vq_of (tab i)) (sn_sq l))
          beta (vec_of (sn_threshold l)) (vec_of f) (sn_inhibition l) (reset_of (sn_reset l)) None).
(** the spike function is the step function (ATan and the disabled surrogate are, C32) *)
Definition snn_built (tab : nat -> quant) (l : ssnn) : Prop :=
  row_quants (sn_units l) tab (sn_iq l) /\ row_quants (sn_units l) tab (sn_oq l) /\ row_quants (sn_units l) tab (sn_sq l) /\
  shape (sn_threshold l) = [sn_units l] /\ shape (snd (sn_factor l)) = [sn_units l] /\ (forall id b, sn_beta l = Some (id, b) -> shape b = [sn_units l]) /\
  (forall v, (0 < v -> sn_spike l v == 1) /\ (v <= 0 -> sn_spike l v == 0)).
(** the widths fit the 8-bit integers of the hardware description *)
Definition int8_quant (n : nat) (q : quant) : Prop := widths_ok n (vq_of q).
Definition int8_quants (n : nat) (tab : nat -> quant) (id : option nat) : Prop := forall i, id = Some i -> int8_quant n (tab i).

(** a program that asks quantizer [id] about [w] only *)
Fixpoint asks_only {A} (id : nat) (w : tensor Q) (p : prog A) : Prop :=
  match p with
  | Ask i x k => (i = id -> x = w) /\ forall y, asks_only id w (k y)
  | _ => True
  end.
(** [id] is none of the data quantizers, and where it quantizes a weight, that weight is [w] *)
Definition weight_of (id : nat) (w : tensor Q) (data : list (option nat)) (ws : list (nat * tensor Q)) : Prop :=
  ~ In (Some id) data /\ forall w', In (id, w') ws -> w' = w.
Definition listed {A} (o : option A) : list A := match o with Some a => [a] | None => [] end.
(** the layers of C63 that a softmax without mask and a table layer amount to with quantizers [tab] *)
Definition soft_of (tab : nat -> quant) (l : ssoft) : xlayer :=
  XQOp (option_map (fun i => QSingle (tab i)) (so_iq l))
    (OSoftmax (mk_smax (so_axes l) (so_stable l) (option_map tab (so_exp_iq l)) (so_exp l) (tab (so_exp_oq l)) (tab (so_inv_iq l)) (so_inv l) (tab (so_inv_oq l))))
    (option_map tab (so_oq l)).
Definition table_frozen (tab : nat -> quant) (l : stable) (a : act) (translate : (Q -> Q) -> Q -> Q) : xlayer :=
  XTable (mk_xtable (sl_patch l) (sl_in l) (sl_out l) (sl_net l) (sl_bn l) (sl_isqrt l) (option_map tab (sl_iq l)) (tab (sl_toq l)) a translate (option_map tab (sl_oq l))).
