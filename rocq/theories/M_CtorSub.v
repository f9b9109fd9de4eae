(** Model of the layers that the attention layers build inside themselves, and of the arguments they are given.

    Source: /repo/src/hgq/layers/attn/mha.py 61-95 (attributes and common keywords), 152-202, 219-223, 285-296
    (projections), 327-341 (softmax), 590-605 and 607-640 (table projections); /repo/src/hgq/layers/attn/linformer.py
    60-72, 114-122; /repo/src/hgq/layers/attn/salt.py 115-138.

    Every attribute is set in a constructor from one parameter of it.  [FromOr p d] is [p or d] in mha.py 62-71, 593.
    Arguments that do not come from one parameter (the einsum equation, the shapes, the enable flags, clones of beta0,
    the dtype policy that keras makes of dtype) are [Made] with their source text.  The keras part of the common
    keywords (kernel_regularizer, ..., clones of the initializers) is that of keras 3.11 and is trusted; a clone is
    taken to be the initializer itself. *)
From Coq Require Import List Bool String.
From Verif Require Import M_Ctor M_CtorTab.
Import ListNotations.
Open Scope string_scope.
Local Open Scope list_scope.

(** where an argument comes from: the parameter [p] of the constructor of class [c] *)
Inductive source := From (c p : string) | FromOr (c p : string) (d : val) | Made (text : string).
Record inner := mk_inner { in_attr : string; in_class : string; in_args : list (string * source) }.

Definition received (o : list (string * kwargs)) (c p : string) : val := match get c o with Some e => lookup p e | None => vnone end.
Definition supply (o : list (string * kwargs)) (s : source) : val :=
  match s with
  | From c p => received o c p
  | FromOr c p d => if truthy (received o c p) then received o c p else d
  | Made t => VLit t
  end.
Definition inner_kwargs (o : list (string * kwargs)) (s : inner) : kwargs := map (fun p => (fst p, supply o (snd p))) (in_args s).
(** the constructor call of the inner layer *)
Definition construct_inner (o : list (string * kwargs)) (s : inner) : option (list (string * kwargs)) := construct (in_class s) (inner_kwargs o s).

Local Notation Q := "QMultiHeadAttention" (only parsing).
(** mha.py 62-65 with 81-95; kernel_* and bias_* by keras *)
Definition common : list (string * source) :=
  [("kernel_regularizer", From "MultiHeadAttention" "kernel_regularizer"); ("bias_regularizer", From "MultiHeadAttention" "bias_regularizer");
   ("activity_regularizer", From "MultiHeadAttention" "activity_regularizer"); ("kernel_constraint", From "MultiHeadAttention" "kernel_constraint");
   ("bias_constraint", From "MultiHeadAttention" "bias_constraint"); ("dtype", Made "self.dtype_policy");
   ("kernel_initializer", From "MultiHeadAttention" "kernel_initializer"); ("bias_initializer", From "MultiHeadAttention" "bias_initializer");
   ("iq_conf", FromOr Q "qkvo_iq_conf" (VLit "QuantizerConfig(place='datalane')")); ("kq_conf", FromOr Q "qkvo_kq_conf" (VLit "QuantizerConfig(place='weight')"));
   ("bq_conf", FromOr Q "qkvo_bq_conf" (VLit "QuantizerConfig(place='bias')")); ("oq_conf", FromOr Q "qkvo_oq_conf" (VLit "QuantizerConfig(place='datalane')"));
   ("enable_ebops", Made "self.enable_ebops"); ("beta0", Made "self._beta0.clone()"); ("parallelization_factor", From Q "parallelization_factor")].
(** mha.py 152-202, 288-296 *)
Definition projection (attr eq shape bias name iq oq : string) : inner :=
  mk_inner attr "QEinsumDense"
    ([("equation", Made eq); ("output_shape", Made shape); ("bias_axes", Made bias); ("name", Made name); ("enable_iq", Made iq); ("enable_oq", Made oq)] ++ common).
Definition mha_projections : list inner :=
  [projection "_query_dense" "einsum_equation" "_get_output_shape(...)" "bias_axes if self._use_bias else None" "'query'" "self.enable_iq and not self._fuse == 'qkv'" "True";
   projection "_key_dense" "einsum_equation" "_get_output_shape(...)" "None" "'key'" "self.enable_iq and self._fuse not in ('qkv', 'kv')" "True";
   projection "_value_dense" "einsum_equation" "_get_output_shape(...)" "bias_axes if self._use_bias else None" "'value'" "self.enable_iq" "True";
   projection "_output_dense" "einsum_equation" "_get_output_shape(...)" "bias_axes if self._use_bias else None" "'attention_output'" "True" "self.enable_oq"].
(** mha.py 327-341, with 66-71 *)
Definition softmax : inner :=
  mk_inner "_softmax" "QSoftmax"
    [("enable_oq", Made "True"); ("axis", Made "norm_axes"); ("dtype", Made "self.dtype_policy"); ("stable", From Q "stable_softmax");
     ("iq_conf", FromOr Q "softmax_iq_conf" (VLit "QuantizerConfig(place='datalane')"));
     ("exp_iq_conf", FromOr Q "softmax_exp_iq_conf" (VLit "QuantizerConfig(place='datalane', overflow_mode='SAT')"));
     ("exp_oq_conf", FromOr Q "softmax_exp_oq_conf" (VLit "QuantizerConfig(place='table')"));
     ("inv_iq_conf", FromOr Q "softmax_inv_iq_conf" (VLit "QuantizerConfig(place='datalane')"));
     ("inv_oq_conf", FromOr Q "softmax_inv_oq_conf" (VLit "QuantizerConfig(place='table')"));
     ("oq_conf", FromOr Q "softmax_oq_conf" (VLit "QuantizerConfig(place='datalane')"));
     ("allow_heterogeneous_table", From Q "softmax_allow_heterogeneous_table"); ("input_scaler", Made "self._inverse_sqrt_key_dim");
     ("enable_ebops", Made "self.enable_ebops")].
Local Notation T := "QMultiHeadAttentionT" (only parsing).
(** mha.py 617-640, with 593-603 (table_spec: the pair made of an int is not modelled) *)
Definition table_projection (attr eq shape bias name iq oq : string) : inner :=
  mk_inner attr "QEinsumDenseT"
    [("equation", Made eq); ("output_shape", Made shape); ("bias_axes", Made bias); ("n_hl", From T "n_hl"); ("d_hl", From T "d_hl");
     ("subnn_activation", From T "subnn_activation"); ("toq_conf", FromOr T "qkvo_toq_conf" (VLit "QuantizerConfig(place='table')"));
     ("parallelization_factor", From Q "parallelization_factor"); ("batch_norm", From T "batch_norm"); ("bn_center", From T "bn_center");
     ("bn_scale", From T "bn_scale"); ("bn_momentum", From T "bn_momentum"); ("bn_epsilon", From T "bn_epsilon"); ("table_idxs", From T "table_spec");
     ("name", Made name); ("dtype", Made "self.dtype_policy"); ("enable_iq", Made iq);
     ("iq_conf", FromOr Q "qkvo_iq_conf" (VLit "QuantizerConfig(place='datalane')")); ("enable_oq", Made oq);
     ("oq_conf", FromOr Q "qkvo_oq_conf" (VLit "QuantizerConfig(place='datalane')")); ("enable_ebops", Made "self.enable_ebops");
     ("beta0", Made "self._beta0.clone()")].
(** mha.py 658-688, 723-730 *)
Definition table_projections : list inner :=
  [table_projection "_query_dense" "einsum_equation" "_get_output_shape(...)" "bias_axes if self._use_bias else None" "'query'" "self.enable_iq" "True";
   table_projection "_key_dense" "einsum_equation" "_get_output_shape(...)" "None" "'key'" "self.enable_iq" "True";
   table_projection "_value_dense" "einsum_equation" "_get_output_shape(...)" "bias_axes if self._use_bias else None" "'value'" "self.enable_iq" "True";
   table_projection "_output_dense" "einsum_equation" "_get_output_shape(...)" "bias_axes if self._use_bias else None" "name or 'attention_output'" "True" "self.enable_oq"].
(** linformer.py 72, 114-122 and salt.py 115-126, mode 'dense' *)
Definition linear (attr eq shape : string) : inner :=
  mk_inner attr "QEinsumDense" ([("equation", Made eq); ("output_shape", Made shape); ("bias_axes", Made "None")] ++ common).
(** linformer.py 64-71, mode 'dense_t' *)
Definition linear_t (attr eq shape name : string) : inner := table_projection attr eq shape "None" name "self.enable_iq" "self.enable_oq".
(** salt.py 130-138 *)
Definition salt_conv : inner :=
  mk_inner "conv" "QConv2D" ([("filters", Made "attn_score_shape[1]"); ("kernel_size", From "QSALTAttention" "conv_size"); ("padding", Made "'same'");
    ("groups", Made "self.num_heads if self.separate_conv else 1")] ++ common ++ [("data_format", Made "'channels_first'")]).

(** what an attention layer builds.  [dense_t]: lin_kv_proj_mode, only for the Linformer layers *)
Definition inners (k : string) (dense_t : bool) : list inner :=
  if String.eqb k "QMultiHeadAttention" then mha_projections ++ [softmax]
  else if String.eqb k "QMultiHeadAttentionT" then table_projections ++ [softmax]
  else if String.eqb k "QLinformerAttention" then
    (if dense_t then [] else [linear "_lin_k_proj" "eq_lin_kv_proj" "self._key_shape_proj[1:]"; linear "_lin_v_proj" "eq_lin_kv_proj" "self._value_shape_proj[1:]"]) ++ mha_projections ++ [softmax]
  else if String.eqb k "QLinformerAttentionT" then
    (if dense_t then [linear_t "_lin_k_proj" "eq_lin_kv_proj" "self._key_shape_proj[1:]" "'lin_key'"; linear_t "_lin_v_proj" "eq_lin_kv_proj" "self._value_shape_proj[1:]" "'lin_value'"]
     else [linear "_lin_k_proj" "eq_lin_kv_proj" "self._key_shape_proj[1:]"; linear "_lin_v_proj" "eq_lin_kv_proj" "self._value_shape_proj[1:]"]) ++ table_projections ++ [softmax]
  else if String.eqb k "QSALTAttention" then
    [linear "_lin_k_proj" "eq_lin_k_proj" "self._key_shape_proj[1:]"; linear "_lin_v_proj" "eq_lin_v_proj" "self._value_shape_proj[1:]"; salt_conv] ++ mha_projections ++ [softmax]
  else [].
