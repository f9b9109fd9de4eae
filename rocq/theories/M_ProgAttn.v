(** Model of QMultiHeadAttention as build makes it, for inputs (batch, positions, features), in terms of the programs of M_Prog.

    Source: /repo/src/hgq/layers/attn/mha.py 143-211 (projections and their input quantizers), 283-296 (output projection), 300-356 (equations and softmax).
    The output quantizer of the layer itself is left out, as in M_Attn (the class cannot be built with it, 380-384). *)
From Coq Require Import String.
From Verif Require Import Num M_Fixed M_State M_Mapper M_Ops M_Net M_Attn M_Calib M_Prog.
Local Open Scope list_scope.

(** kernel and bias with their quantizers, and the output quantizer, of a projection *)
Record hproj := mk_hproj { h_kernel : nat * tensor Q; h_bias : option (nat * tensor Q); h_oq : nat }.
Record hattn := mk_hattn {
  ha_fuse : fuse_mode; ha_enable_iq : bool; ha_iq_q : nat; ha_iq_k : nat; ha_iq_v : nat;
  ha_q : hproj; ha_k : hproj; ha_v : hproj;
  ha_stable : bool; ha_exp_iq : nat; ha_exp : Q -> Q; ha_exp_oq : nat; ha_inv_iq : nat; ha_inv : Q -> Q; ha_inv_oq : nat; ha_sm_oq : nat;
  ha_o_iq : nat; ha_o_kernel : nat * tensor Q; ha_o_bias : option (nat * tensor Q) }.
Definition opt_iq (id : option nat) : iqs := match id with Some i => IqOne i | None => IqNone end.
Definition kernel_bias (k : nat * tensor Q) (b : option (nat * tensor Q)) : list (option nat * tensor Q) :=
  (Some (fst k), snd k) :: match b with Some b => [(Some (fst b), snd b)] | None => [] end.
(** QEinsumDense with "abc,cde->abde", mha.py 147-202 *)
Definition head_layer (iq : option nat) (p : hproj) : clayer :=
  mk_clayer (opt_iq iq) (kernel_bias (h_kernel p) (h_bias p)) (net_op (TEinsum [0;1;2] [2;3;4] [0;1;3;4])%nat ALinear) (Some (h_oq p)).
(** which input quantizer each projection uses, mha.py 161, 180, 199, 205-210 *)
Definition ha_query_iq (a : hattn) : option nat := if ha_enable_iq a then Some (match ha_fuse a with FQkv => ha_iq_v a | _ => ha_iq_q a end) else None.
Definition ha_key_iq (a : hattn) : option nat := if ha_enable_iq a then Some (match ha_fuse a with FNone => ha_iq_k a | _ => ha_iq_v a end) else None.
Definition ha_value_iq (a : hattn) : option nat := if ha_enable_iq a then Some (ha_iq_v a) else None.
(** the output projection "abcd,cde->abe", mha.py 279-296 *)
Definition out_layer (a : hattn) : clayer :=
  mk_clayer (IqOne (ha_o_iq a)) (kernel_bias (ha_o_kernel a) (ha_o_bias a)) (net_op (TEinsum [0;1;2;3] [2;3;4] [0;1;4])%nat ALinear) None.
(** the softmax over the key positions, mha.py 320-341: no input quantizer, the exp table has one only if stable (softmax.py 92) *)
Definition attn_softmax (a : hattn) : ssoft :=
  mk_ssoft None [3%nat] (ha_stable a) None (if ha_stable a then Some (ha_exp_iq a) else None) (ha_exp a) (ha_exp_oq a) (ha_inv_iq a) (ha_inv a) (ha_inv_oq a) (Some (ha_sm_oq a)).
(** "aecd,abcd->acbe" on key and query, "acbe,aecd->abcd" on weights and value (_build_attention_equation of Keras, external; mha.py 315-319);
    the factor of the query is 1 after build (347) *)
Definition attn_prog (a : hattn) : smha :=
  mk_smha (head_layer (ha_query_iq a) (ha_q a)) (head_layer (ha_key_iq a) (ha_k a)) (head_layer (ha_value_iq a) (ha_v a)) 1
    ([0;4;2;3], [0;1;2;3], [0;2;1;4])%nat (attn_softmax a) ([0;2;1;4], [0;4;2;3], [0;1;2;3])%nat (out_layer a) None.
