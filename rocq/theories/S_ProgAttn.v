(** Specification vocabulary for the attention theorems of C65. *)
From Coq Require Import String.
From Verif Require Import Num M_Fixed M_State M_Wrapper M_Mapper M_Ops M_Net M_Attn M_Calib M_Prog M_Rnn S_Rnn S_Prog M_ProgAttn.
Local Open Scope list_scope.

(** a data quantizer built for samples of shape [ds]: one format for each position, or for groups of positions that share an axis; not one per sample *)
Definition pos_quant (ds : list nat) (q : quant) : Prop :=
  w_scaler (q_w q) = None /\ c_weight (q_c q) = false /\
  exists t, bcast_ok t ds = true /\
  match q_s q with
  | inl s => shape (M_Mapper.t_k s) = 1%nat :: t /\ shape (M_Mapper.t_i s) = 1%nat :: t /\ shape (M_Mapper.t_f s) = 1%nat :: t
  | inr s => shape (u_k s) = 1%nat :: t /\ shape (u_b s) = 1%nat :: t /\ shape (u_i s) = 1%nat :: t
  end.
(** the width at position [i] of a sample *)
Definition width_at {A} (w : tensor A) (i : index) : A := at_ w (0%nat :: bcast_index (tl (shape w)) i).
Definition tq_of (pos : nat -> nat -> nat -> index) (q : quant) : tq :=
  match q_s q with
  | inl s => mk_tq (c_rm (q_c q)) (c_om (q_c q)) (fun a b c => width_at (M_Mapper.t_k s) (pos a b c)) (fun a b c => round_even (width_at (M_Mapper.t_i s) (pos a b c)))
               (fun a b c => round_even (width_at (M_Mapper.t_f s) (pos a b c))) (w_affine (q_w q))
  | inr s => mk_tq (c_rm (q_c q)) (c_om (q_c q)) (fun a b c => width_at (u_k s) (pos a b c)) (fun a b c => round_even (width_at (u_i s) (pos a b c)))
               (fun a b c => round_even (width_at (u_b s) (pos a b c)) - round_even (width_at (u_i s) (pos a b c)))%Z (w_affine (q_w q))
  end.
(** of matrices (the third index is not used), and of tensors with three axes *)
Definition tq2 : quant -> tq := tq_of (fun a b _ => [a; b]).
Definition tq3 : quant -> tq := tq_of (fun a b c => [a; b; c]).
Definition kernel3 (k : tensor Q) : nat -> nat -> nat -> Q := fun a b c => at_ k [a; b; c].

(** the sizes: positions of the query, of key and value; features; heads, sizes of key and value heads; outputs *)
Record sizes := mk_sizes { z_T : nat; z_S : nat; z_cq : nat; z_ck : nat; z_cv : nat; z_N : nat; z_dk : nat; z_dv : nat; z_E : nat }.
Definition proj_of (tab : nat -> quant) (p : hproj) : option proj :=
  do k <- quant_call (tab (fst (h_kernel p))) (snd (h_kernel p));
  do b <- match h_bias p with Some (id, b) => do y <- quant_call (tab id) b; Some (Some (fun n d => at_ y [n; d])) | None => Some None end;
  Some (mk_proj (kernel3 k) b (tq3 (tab (h_oq p)))).
(** the attention layer of C50 that the layer amounts to with the quantizers [tab] *)
Definition mha_of (tab : nat -> quant) (a : hattn) (z : sizes) : option mha :=
  do q <- proj_of tab (ha_q a); do k <- proj_of tab (ha_k a); do v <- proj_of tab (ha_v a);
  do ok <- quant_call (tab (fst (ha_o_kernel a))) (snd (ha_o_kernel a));
  do ob <- match ha_o_bias a with Some (id, b) => do y <- quant_call (tab id) b; Some (Some (fun e => at_ y [e])) | None => Some None end;
  Some (mk_mha (z_T z) (z_S z) (z_cq z) (z_ck z) (z_cv z) (z_N z) (z_dk z) (z_dv z) (z_E z) (ha_fuse a) (ha_enable_iq a)
    (tq2 (tab (ha_iq_q a))) (tq2 (tab (ha_iq_k a))) (tq2 (tab (ha_iq_v a))) q k v (ha_stable a)
    (tq3 (tab (ha_exp_iq a))) (fun _ _ _ => ha_exp a) (tq3 (tab (ha_exp_oq a))) (tq3 (tab (ha_inv_iq a))) (ha_inv a) (tq3 (tab (ha_inv_oq a))) (tq3 (tab (ha_sm_oq a)))
    (tq3 (tab (ha_o_iq a))) (kernel3 ok) ob).
Definition proj_built (tab : nat -> quant) (p : hproj) (c n d pos : nat) : Prop :=
  shape (snd (h_kernel p)) = [c; n; d] /\ (forall id b, h_bias p = Some (id, b) -> shape b = [n; d]) /\ pos_quant [pos; n; d] (tab (h_oq p)).
Definition attn_built (tab : nat -> quant) (a : hattn) (z : sizes) : Prop :=
  (forall i, ha_query_iq a = Some i -> pos_quant [z_T z; z_cq z] (tab i)) /\ (forall i, ha_key_iq a = Some i -> pos_quant [z_S z; z_ck z] (tab i)) /\
  (forall i, ha_value_iq a = Some i -> pos_quant [z_S z; z_cv z] (tab i)) /\
  proj_built tab (ha_q a) (z_cq z) (z_N z) (z_dk z) (z_T z) /\ proj_built tab (ha_k a) (z_ck z) (z_N z) (z_dk z) (z_S z) /\ proj_built tab (ha_v a) (z_cv z) (z_N z) (z_dv z) (z_S z) /\
  (ha_stable a = true -> pos_quant [z_N z; z_T z; z_S z] (tab (ha_exp_iq a))) /\ pos_quant [z_N z; z_T z; z_S z] (tab (ha_exp_oq a)) /\
  pos_quant [z_N z; z_T z; 1%nat] (tab (ha_inv_iq a)) /\ pos_quant [z_N z; z_T z; 1%nat] (tab (ha_inv_oq a)) /\ pos_quant [z_N z; z_T z; z_S z] (tab (ha_sm_oq a)) /\
  pos_quant [z_T z; z_N z; z_dv z] (tab (ha_o_iq a)) /\ shape (snd (ha_o_kernel a)) = [z_N z; z_dv z; z_E z] /\ (forall id b, ha_o_bias a = Some (id, b) -> shape b = [z_E z]).
(** query, value, key of a call; sample [b] of a batch *)
Definition qvk (x : tin) : option (tensor Q * option (tensor Q) * option (tensor Q)) :=
  match x with One q => Some (q, None, None) | Many [q; v] => Some (q, Some v, None) | Many [q; v; k] => Some (q, Some v, Some k) | _ => None end.
Definition sample2 (b : nat) (x : tensor Q) : nat -> nat -> Q := fun p j => at_ x [b; p; j].
Definition sizes_of (B : nat) (z : sizes) (q : tensor Q) (v k : option (tensor Q)) : Prop :=
  shape q = [B; z_T z; z_cq z] /\ shape (or_else v q) = [B; z_S z; z_cv z] /\ shape (or_else k (or_else v q)) = [B; z_S z; z_ck z].
(** its data quantizers, and its weights with their quantizers *)
Definition attn_data (a : hattn) : list (option nat) :=
  [ha_query_iq a; ha_key_iq a; ha_value_iq a; Some (h_oq (ha_q a)); Some (h_oq (ha_k a)); Some (h_oq (ha_v a)); Some (ha_exp_iq a); Some (ha_exp_oq a); Some (ha_inv_iq a); Some (ha_inv_oq a); Some (ha_sm_oq a); Some (ha_o_iq a)].
Definition attn_weights (a : hattn) : list (nat * tensor Q) :=
  (h_kernel (ha_q a) :: listed (h_bias (ha_q a))) ++ (h_kernel (ha_k a) :: listed (h_bias (ha_k a))) ++ (h_kernel (ha_v a) :: listed (h_bias (ha_v a))) ++ ha_o_kernel a :: listed (ha_o_bias a).
