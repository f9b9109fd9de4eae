(** Specification vocabulary for C69: multi-head attention of Keras on one sample (functions of the positions). *)
From Coq Require Import String.
From Verif Require Import Num M_Ebops M_Mapper S_Mapper M_Net M_Attn M_Calib M_Prog M_Rnn S_Rnn S_Prog M_ProgAttn S_ProgAttn S_Limit S_Plain.
Local Open Scope list_scope.

Definition sum (n : nat) (f : nat -> Q) : Q := qsum (map f (seq 0 n)).
(** softmax of a vector; in the stable form the argument of the (decreasing) exponential is the distance to the greatest element *)
Definition softmax_of (stable : bool) (exp inv : Q -> Q) (n : nat) (x y : nat -> Q) : Prop :=
  exists g, is_softmax exp inv n g y /\ if stable then exists m, greatest n x m /\ same_vec n g (fun j => m - x j) else same_vec n g x.
(** projection of the features to heads: position [p], head [n], entry [d] *)
Definition head_bias (b : option (nat * tensor Q)) (n d : nat) : Q := match b with Some (_, t) => at_ t [n; d] | None => 0 end.
Definition heads (c : nat) (p : hproj) (x : nat -> nat -> Q) (pos n d : nat) : Q :=
  sum c (fun j => x pos j * at_ (snd (h_kernel p)) [j; n; d]) + head_bias (h_bias p) n d.
(** keras.layers.MultiHeadAttention: for some weights [w] that are, for every head and query position, the softmax over the key positions of the
    products of the query and the keys (the factor 1/sqrt(key_dim) is part of [ha_exp], mha.py 320-341), the weighted sums of the values, projected *)
Definition is_attention (a : hattn) (z : sizes) (q v k : nat -> nat -> Q) (y : nat -> nat -> Q) : Prop :=
  exists w : nat -> nat -> nat -> Q,
    (forall n t, (n < z_N z)%nat -> (t < z_T z)%nat ->
      softmax_of (ha_stable a) (ha_exp a) (ha_inv a) (z_S z) (fun s => sum (z_dk z) (fun d => heads (z_cq z) (ha_q a) q t n d * heads (z_ck z) (ha_k a) k s n d)) (w n t)) /\
    forall t e, (t < z_T z)%nat -> (e < z_E z)%nat ->
      y t e == sum (z_N z) (fun n => sum (z_dv z) (fun d => sum (z_S z) (fun s => w n t s * heads (z_cv z) (ha_v a) v s n d) * at_ (snd (ha_o_kernel a)) [n; d; e])) + bias_row (ha_o_bias a) e.
(** weights of the right shapes *)
Definition head_shapes (p : hproj) (c n d : nat) : Prop := shape (snd (h_kernel p)) = [c; n; d] /\ forall id b, h_bias p = Some (id, b) -> shape b = [n; d].
Definition attn_shapes (a : hattn) (z : sizes) : Prop :=
  head_shapes (ha_q a) (z_cq z) (z_N z) (z_dk z) /\ head_shapes (ha_k a) (z_ck z) (z_N z) (z_dk z) /\ head_shapes (ha_v a) (z_cv z) (z_N z) (z_dv z) /\
  shape (snd (ha_o_kernel a)) = [z_N z; z_dv z; z_E z] /\ forall id b, ha_o_bias a = Some (id, b) -> shape b = [z_E z].
(** QSoftmax with a mask [m] (1: used, 0: not used), softmax.py 112-132: masked entries get -1000000000 in the stable form, and no weight *)
Definition masked_input (m x : nat -> Q) (j : nat) : Q := m j * x j - (1 - m j) * 1000000000.
Definition masked_softmax (stable : bool) (exp inv : Q -> Q) (n : nat) (m x y : nat -> Q) : Prop :=
  exists g, (forall j, (j < n)%nat -> y j == m j * exp (g j) * inv (sum n (fun k => m k * exp (g k)))) /\
    if stable then exists M, greatest n (masked_input m x) M /\ same_vec n g (fun j => M - masked_input m x j) else same_vec n g x.
