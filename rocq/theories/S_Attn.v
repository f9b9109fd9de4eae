(** What C50 means: when a layer is in the replay's reach, and when two results are the same. *)
From Verif Require Import Num M_Fixed M_Rnn M_Attn.

(** equal inside a shape *)
Definition same2 (A B : nat) (x y : nat -> nat -> Q) : Prop := forall a b, (a < A)%nat -> (b < B)%nat -> x a b == y a b.
Definition same3 (A B C : nat) (x y : nat -> nat -> nat -> Q) : Prop := forall a b c, (a < A)%nat -> (b < B)%nat -> (c < C)%nat -> x a b c == y a b c.

(** the widths of a quantizer on a shape fit the 8-bit integers of the hardware description *)
Definition fits (A B C : nat) (q : tq) : Prop :=
  forall a b c, (a < A)%nat -> (b < B)%nat -> (c < C)%nat -> (-128 <= t_i q a b c <= 127)%Z /\ (-128 <= t_f q a b c <= 127)%Z.
Definition ofits (A B C : nat) (q : option tq) : Prop := forall q', q = Some q' -> fits A B C q'.
Definition attn_fits (c : mha) : Prop :=
  (ofits (a_T c) (a_cq c) 1 (query_iq c) /\ ofits (a_S c) (a_ck c) 1 (key_iq c) /\ ofits (a_S c) (a_cv c) 1 (value_iq c)) /\
  (fits (a_T c) (a_heads c) (a_dk c) (p_oq (a_q c)) /\ fits (a_S c) (a_heads c) (a_dk c) (p_oq (a_k c)) /\ fits (a_S c) (a_heads c) (a_dv c) (p_oq (a_v c))) /\
  (fits (a_heads c) (a_T c) (a_S c) (a_exp_iq c) /\ fits (a_heads c) (a_T c) (a_S c) (a_exp_oq c)) /\
  (fits (a_heads c) (a_T c) 1 (a_inv_iq c) /\ fits (a_heads c) (a_T c) 1 (a_inv_oq c)) /\
  fits (a_heads c) (a_T c) (a_S c) (a_sm_oq c) /\ fits (a_T c) (a_heads c) (a_dv c) (a_o_iq c).
(** the tabulated functions are functions of the value *)
Definition attn_functions (c : mha) : Prop :=
  (forall n t s v w, v == w -> a_exp c n t s v == a_exp c n t s w) /\ (forall v w, v == w -> a_inv c v == a_inv c w).

(** configurations the replay of the projections supports *)
Definition fuse_supported (c : mha) : Prop :=
  match a_fuse c with FNone => a_enable_iq c = true | FKv => a_enable_iq c = true /\ a_dk c = a_dv c | FQkv => a_dk c = a_dv c end.
(** calls it supports: fuse="qkv" needs one array for all three inputs, fuse="kv" one for key and value *)
Definition call_supported (c : mha) (q k v : arr) : Prop :=
  match a_fuse c with FNone => True | FKv => r_id k = r_id v | FQkv => r_id q = r_id k /\ r_id k = r_id v end.
(** two names of one array hold the same values *)
Definition same_object_same_values (q k v : arr) : Prop :=
  (r_id q = r_id v -> forall p j, r_val q p j == r_val v p j) /\ (r_id k = r_id v -> forall p j, r_val k p j == r_val v p j).
(** the masks given all have one shape: a query mask is T x 1, key and value masks 1 x S, the others T x S *)
Definition masks_alike (c : mha) (m : masks) : Prop :=
  let q := m_query m <> None in let kv := m_value m <> None \/ m_key m <> None in let full := m_causal m = true \/ m_attn m <> None in
  (q -> kv -> a_T c = 1%nat /\ a_S c = 1%nat) /\ (q -> full -> a_S c = 1%nat) /\ (kv -> full -> a_T c = 1%nat).
(** query position t may look at key position s *)
Definition may_attend (m : masks) (t s : nat) : Prop :=
  (forall q, m_query m = Some q -> q t = true) /\ (forall v, m_value m = Some v -> v s = true) /\ (forall k, m_key m = Some k -> k s = true) /\
  (m_causal m = true -> (s <= t)%nat) /\ (forall a, m_attn m = Some a -> a t s = true).
(** the traced range of every score contains its value from below, and scores that count are above the constant -1e9 *)
Definition lower_bounds (c : mha) (lo scores : nat -> nat -> nat -> Q) : Prop :=
  forall n t s, (n < a_heads c)%nat -> (t < a_T c)%nat -> (s < a_S c)%nat -> lo n t s <= scores n t s.
Definition above_1e9 (c : mha) (m : masks) (scores : nat -> nat -> nat -> Q) : Prop :=
  forall n t s, (n < a_heads c)%nat -> (t < a_T c)%nat -> (s < a_S c)%nat -> may_attend m t s -> -1000000000 <= scores n t s.

(** outputs and attention weights agree *)
Definition same_result (c : mha) (r r' : (nat -> nat -> Q) * (nat -> nat -> nat -> Q)) : Prop :=
  same2 (a_T c) (a_out c) (fst r) (fst r') /\ same3 (a_heads c) (a_T c) (a_S c) (snd r) (snd r').

(** the arguments as the layer sees them *)
Definition given (o : option arr) : option (nat -> nat -> Q) := match o with Some a => Some (r_val a) | None => None end.

(** the scores image of SALT's convolution has at most 2^24 entries *)
Definition small_image (c : mha) : Prop := (Z.of_nat (a_heads c * (a_T c * a_S c)) <= 2 ^ 24)%Z.
(** the extra projections of Linformer and SALT *)
Definition lin_fits (len m d : nat) (l : lin) : Prop := ofits len d 1 (l_iq l) /\ ofits m d 1 (l_oq l).
Definition cluster_fits (m n d : nat) (l : lin) : Prop := ofits m n d (l_iq l) /\ ofits m d 1 (l_oq l).
Definition conv_fits (c : mha) (v : sconv) : Prop := ofits (a_heads c) (a_T c) (a_S c) (v_iq v) /\ ofits (a_heads c) (a_T c) (a_S c) (v_oq v).
Definition salt_fits (z : salt) : Prop :=
  let c := z_attn z in
  (if z_cluster_k z then cluster_fits (a_S c) (cluster_length (z_len_k z) (a_S c)) (a_ck c) (z_k z) else lin_fits (z_len_k z) (a_S c) (a_ck c) (z_k z)) /\
  (if z_cluster_v z then cluster_fits (a_S c) (cluster_length (z_len_v z) (a_S c)) (a_cv c) (z_v z) else lin_fits (z_len_v z) (a_S c) (a_cv c) (z_v z)) /\
  (forall v, z_conv z = Some v -> conv_fits c v).
