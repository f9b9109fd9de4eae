(** Model of the attention layers and of their hardware replay.

    Source: /repo/src/hgq/layers/attn/mha.py, /repo/src/hgq/layers/attn/linformer.py, /repo/src/hgq/layers/attn/salt.py,
    /repo/src/hgq/_dais_tracer/layers/attn.py (and _alkaid_keras_plugin/attn.py, which is the same code with a batch axis).

    One sample, inference.  Attention runs over all axes between the batch and the features; these axes are
    taken as one position index (row-major), so the rank of the input does not matter.  Tensors are functions of
    their indices, only those inside the shape matter.  Traced variables are modelled by their values, float
    arithmetic is exact (as in M_Mirror, M_Softmax). *)
From Verif Require Import Num M_Fixed M_State M_Mapper M_Contr M_Wrapper M_Mirror M_Ebops M_Rnn M_Softmax M_Patch.

Notation mat := (nat -> nat -> Q).
Notation ten := (nat -> nat -> nat -> Q).
Definition qsumn (n : nat) (f : nat -> Q) : Q := qsum (map f (seq 0 n)).

(** ** quantizers on tensors: one format per element, as bw_to_x gives it *)
Record tq := mk_tq { t_rm : rmode; t_om : omode; t_k : nat -> nat -> nat -> bool; t_i : nat -> nat -> nat -> Z; t_f : nat -> nat -> nat -> Z; t_aff : option (Q * Q) }.
(** Quantizer.call in inference (quantizer.py 49-60), no scaler *)
Definition lq (q : tq) (x : ten) : ten := fun a b c => affine_of (t_aff q) (base_call (t_rm q) (t_om q) false (t_k q a b c) (t_i q a b c) (t_f q a b c) (x a b c)).
(** mirror_quantizer (_dais_tracer/layers/_base.py 20-35), no scaler *)
Definition mq (q : tq) (x : ten) : ten := fun a b c => affine_of (t_aff q) (hw_quantize (t_rm q) (t_om q) (t_k q a b c) (to_int8 (t_i q a b c)) (to_int8 (t_f q a b c)) (x a b c)).
Definition oapp (app : tq -> ten -> ten) (q : option tq) (x : ten) : ten := match q with Some q => app q x | None => x end.
Definition lift (x : mat) : ten := fun a b _ => x a b.

(** ** the layer *)
Inductive fuse_mode := FNone | FQkv | FKv.
(** a projection of features to (heads, size): QEinsumDense with equation "abc,cde->abde" (mha.py 147-202), with its
    quantized kernel and bias *)
Record proj := mk_proj { p_kernel : nat -> nat -> nat -> Q; p_bias : option (nat -> nat -> Q); p_oq : tq }.
Record mha := mk_mha {
  a_T : nat; a_S : nat;                         (* positions of the query; positions of key and value *)
  a_cq : nat; a_ck : nat; a_cv : nat;           (* features of query, key, value *)
  a_heads : nat; a_dk : nat; a_dv : nat; a_out : nat;
  a_fuse : fuse_mode; a_enable_iq : bool;
  a_iq_q : tq; a_iq_k : tq; a_iq_v : tq;        (* the input quantizers of the three projections, before sharing *)
  a_q : proj; a_k : proj; a_v : proj;
  a_stable : bool;
  a_exp_iq : tq; a_exp : nat -> nat -> nat -> Q -> Q; a_exp_oq : tq;     (* exp_table, softmax.py 88-99 *)
  a_inv_iq : tq; a_inv : Q -> Q; a_inv_oq : tq;                           (* inv_table, softmax.py 77-87; quantizers indexed by head, query, 0 *)
  a_sm_oq : tq;                                  (* softmax output quantizer: enable_oq=True, mha.py 327-328 *)
  a_o_iq : tq; a_o_kernel : nat -> nat -> nat -> Q; a_o_bias : option (nat -> Q) }.
(** the output projection's own output quantizer exists only with enable_oq=True, which the class cannot be built with
    (_post_build, mha.py 380-384); it is left out *)

(** sharing of the input quantizers, mha.py 161, 180, 199, 205-210 *)
Definition query_iq (c : mha) : option tq :=
  if a_enable_iq c then Some (match a_fuse c with FQkv => a_iq_v c | _ => a_iq_q c end) else None.
Definition key_iq (c : mha) : option tq :=
  if a_enable_iq c then Some (match a_fuse c with FNone => a_iq_k c | _ => a_iq_v c end) else None.
Definition value_iq (c : mha) : option tq := if a_enable_iq c then Some (a_iq_v c) else None.
(** the assertions of build, mha.py 125-141 (the positions of key and value are equal by construction here) *)
Definition build_ok (c : mha) : Prop :=
  match a_fuse c with
  | FQkv => a_T c = a_S c /\ a_cq c = a_cv c /\ a_ck c = a_cv c
  | FKv => a_ck c = a_cv c
  | FNone => True
  end.

Definition bias2 (b : option (nat -> nat -> Q)) (n d : nat) : Q := match b with Some b => b n d | None => 0 end.
(** einsum "abc,cde->abde" plus bias *)
Definition project (cin : nat) (kernel : nat -> nat -> nat -> Q) (bias : nat -> nat -> Q) (x : ten) : ten :=
  fun p n d => qsumn cin (fun j => x p j 0%nat * kernel j n d) + bias n d.
(** QEinsumDense.call with input and output quantizer (QLayerBase.__call__) *)
Definition dense_call (app : tq -> ten -> ten) (iq : option tq) (cin : nat) (p : proj) (x : mat) : ten :=
  app (p_oq p) (project cin (p_kernel p) (bias2 (p_bias p)) (oapp app iq (lift x))).

(** mha.py 524: einsum "aecd,abcd->acbe" (key, query); 347, 520: the query is multiplied by 1.0 first *)
Definition dot_product (dk : nat) (k q : ten) : ten := fun n t s => qsumn dk (fun d => k s n d * q t n d).
(** mha.py 536: einsum "acbe,aecd->abcd" (weights, value) *)
Definition combine (S : nat) (w v : ten) : ten := fun t n d => qsumn S (fun s => w n t s * v s n d).
(** QUnaryFunctionLUT.call (layers/activation.py 58-61) and its output quantizer, at element (a, b, c) *)
Definition table (app : tq -> ten -> ten) (iq : option tq) (act : Q -> Q) (oq : tq) (a b c : nat) (v : Q) : Q :=
  app oq (fun _ _ _ => act (oapp app iq (fun _ _ _ => v) a b c)) a b c.
(** the softmax of one head and one query position: softmax.py 77-99; no input quantizer (enable_iq is False by
    default, 19, and not given in mha.py 327-341); the exp table quantizes its input only if stable (92) *)
Definition group_softmax (app : tq -> ten -> ten) (c : mha) (n t : nat) : softmax :=
  mk_softmax (a_stable c) (fun _ v => v)
    (fun s => table app (if a_stable c then Some (a_exp_iq c) else None) (a_exp c n t s) (a_exp_oq c) n t s)
    (table app (Some (a_inv_iq c)) (a_inv c) (a_inv_oq c) n t 0%nat).
(** the output projection: einsum "abcd,cde->abe", mha.py 283-296, 476 *)
Definition bias1 (b : option (nat -> Q)) (e : nat) : Q := match b with Some b => b e | None => 0 end.
Definition out_dense (app : tq -> ten -> ten) (c : mha) (ctx : ten) : mat :=
  let x := app (a_o_iq c) ctx in
  fun t e => qsumn (a_heads c) (fun n => qsumn (a_dv c) (fun d => x t n d * a_o_kernel c n d e)) + bias1 (a_o_bias c) e.

(** *** masks: keras _compute_attention_mask (external): the conjunction of the given masks, broadcast *)
Record masks := mk_masks { m_query : option (nat -> bool); m_value : option (nat -> bool); m_key : option (nat -> bool); m_causal : bool; m_attn : option (nat -> nat -> bool) }.
Definition no_masks : masks := mk_masks None None None false None.
Definition mask_list (m : masks) : list ((bool * bool) * (nat -> nat -> bool)) :=
  (* the booleans: does the mask have the query axis; the key axis (else 1) *)
  match m_query m with Some q => [((true, false), fun t _ => q t)] | None => [] end ++
  match m_value m with Some v => [((false, true), fun _ s => v s)] | None => [] end ++
  match m_key m with Some k => [((false, true), fun _ s => k s)] | None => [] end ++
  (if m_causal m then [((true, true), fun t s => (s <=? t)%nat)] else []) ++
  match m_attn m with Some a => [((true, true), a)] | None => [] end.
Definition layer_mask (m : masks) : option (nat -> nat -> bool) :=
  match mask_list m with [] => None | l => Some (fun t s => forallb (fun sm => snd sm t s) l) end.
Definition at_query (m : option (nat -> nat -> bool)) (t : nat) : option (nat -> bool) := match m with Some m => Some (m t) | None => None end.

(** the attention weights: keras _masked_softmax, QSoftmax.call, and the softmax's output quantizer *)
Definition layer_weights (c : mha) (mask : option (nat -> nat -> bool)) (scores : ten) : ten :=
  lq (a_sm_oq c) (fun n t s => sm_call (group_softmax lq c n t) (at_query mask t) (scores n t) (seq 0 (a_S c)) s).
(** _compute_attention and the output projection (mha.py 475-483, 485-537), given the three projected tensors; [pre] is
    what a subclass does to the scores before the softmax *)
Definition layer_attend (c : mha) (pre : ten -> ten) (mask : option (nat -> nat -> bool)) (q k v : ten) : mat * ten :=
  let scores := pre (dot_product (a_dk c) k (fun t n d => q t n d * 1)) in
  let w := layer_weights c mask scores in
  (out_dense lq c (combine (a_S c) w v), w).
(** QMultiHeadAttention.call (mha.py 434-483): value defaults to query, key to value *)
Definition layer_scores (c : mha) (pre : ten -> ten) (xq xk xv : mat) : ten :=
  pre (dot_product (a_dk c) (dense_call lq (key_iq c) (a_ck c) (a_k c) xk) (fun t n d => dense_call lq (query_iq c) (a_cq c) (a_q c) xq t n d * 1)).
Definition layer_core (c : mha) (pre : ten -> ten) (m : masks) (xq xk xv : mat) : mat * ten :=
  layer_attend c pre (layer_mask m) (dense_call lq (query_iq c) (a_cq c) (a_q c) xq)
    (dense_call lq (key_iq c) (a_ck c) (a_k c) xk) (dense_call lq (value_iq c) (a_cv c) (a_v c) xv).
Definition id_ten (x : ten) : ten := x.
Definition or_else {A} (o : option A) (d : A) : A := match o with Some a => a | None => d end.
Definition layer_mha (c : mha) (m : masks) (query : mat) (value key : option mat) : mat * ten :=
  let value := or_else value query in let key := or_else key value in
  layer_core c id_ten m query key value.

(** ** the replay *)
(** traced arrays are Python objects: [r_id] is their identity, which "is" compares *)
Record arr := mk_arr { r_id : nat; r_val : mat }.
(** np.split(x, m, axis=-1) of an axis of [total] entries: equal parts or ValueError *)
Definition np_split (m total : nat) : option nat := if (total mod m =? 0)%nat then Some (total / m)%nat else None.
Definition concat_kernel (sizes : list nat) (parts : list (nat -> Q)) (j : nat) : Q :=
  (fix go sizes parts j := match sizes, parts with
   | n :: sizes', f :: parts' => if (j <? n)%nat then f j else go sizes' parts' (j - n)%nat
   | _, _ => 0
   end) sizes parts j.
(** _fused_qkv_proj, attn.py 17-76; None: an exception.  After the split the parts must have the sizes the layer
    has (a part of another size meets the kernel of the output projection or the other operand of the dot product and is refused). *)
Definition replay_qkv (c : mha) (q k v : arr) : option (ten * ten * ten) :=
  let bq := bias2 (p_bias (a_q c)) in let bk := bias2 (p_bias (a_k c)) in let bv := bias2 (p_bias (a_v c)) in   (* 18-28 *)
  match a_fuse c with
  | FQkv =>
    if ((r_id q =? r_id k) && (r_id k =? r_id v))%nat then                                    (* 31 *)
      let x := oapp mq (query_iq c) (lift (r_val q)) in                                       (* 32-33 *)
      let sizes := [a_dk c; a_dk c; a_dv c] in
      let qkv := project (a_cq c)
        (fun j n => concat_kernel sizes [p_kernel (a_q c) j n; p_kernel (a_k c) j n; p_kernel (a_v c) j n])
        (fun n => concat_kernel sizes [bq n; bk n; bv n]) x in                               (* 35-38 *)
      match np_split 3 (a_dk c + a_dk c + a_dv c) with                                        (* 39 *)
      | Some w => if (w =? a_dk c)%nat && (w =? a_dv c)%nat then
          Some (mq (p_oq (a_q c)) (fun p n d => qkv p n d), mq (p_oq (a_k c)) (fun p n d => qkv p n (w + d)%nat),
                mq (p_oq (a_v c)) (fun p n d => qkv p n (2 * w + d)%nat))                     (* 41-43 *)
        else None
      | None => None
      end
    else None
  | FKv =>
    if (r_id k =? r_id v)%nat then                                                            (* 46 *)
      let x := oapp mq (key_iq c) (lift (r_val k)) in                                         (* 47-48 *)
      let sizes := [a_dk c; a_dv c] in
      let kv := project (a_ck c) (fun j n => concat_kernel sizes [p_kernel (a_k c) j n; p_kernel (a_v c) j n])
        (fun n => concat_kernel sizes [bk n; bv n]) x in                                      (* 50-52 *)
      match np_split 2 (a_dk c + a_dv c), query_iq c with                                     (* 53; 58: op._query_dense.iq *)
      | Some w, Some qi => if (w =? a_dk c)%nat && (w =? a_dv c)%nat then
          Some (mq (p_oq (a_q c)) (project (a_cq c) (p_kernel (a_q c)) bq (mq qi (lift (r_val q)))),
                mq (p_oq (a_k c)) (fun p n d => kv p n d), mq (p_oq (a_v c)) (fun p n d => kv p n (w + d)%nat))
        else None
      | _, _ => None
      end
    else None
  | FNone =>
    match query_iq c, key_iq c, value_iq c with                                               (* 63, 67, 71: [op._query_dense.iq] raises when enable_iq is False (core/base.py 264-268) *)
    | Some qi, Some ki, Some vi =>
      Some (mq (p_oq (a_q c)) (project (a_cq c) (p_kernel (a_q c)) bq (mq qi (lift (r_val q)))),
            mq (p_oq (a_k c)) (project (a_ck c) (p_kernel (a_k c)) bk (mq ki (lift (r_val k)))),
            mq (p_oq (a_v c)) (project (a_cv c) (p_kernel (a_v c)) bv (mq vi (lift (r_val v)))))
    | _, _, _ => None
    end
  end.
(** _compute_attention_mask, attn.py 83-109: the masks are stacked (np.stack: ValueError unless all shapes are equal)
    and multiplied.  Outer None: exception; inner None: no mask *)
Definition mask_shape (c : mha) (b : bool * bool) : nat * nat := ((if fst b then a_T c else 1)%nat, (if snd b then a_S c else 1)%nat).
Definition shape_eqb (a b : nat * nat) : bool := ((fst a =? fst b) && (snd a =? snd b))%nat.
Definition replay_mask (c : mha) (m : masks) : option (option (nat -> nat -> bool)) :=
  match mask_list m with
  | [] => Some None
  | sm :: l => if forallb (fun sm' => shape_eqb (mask_shape c (fst sm')) (mask_shape c (fst sm))) l
      then Some (Some (fun t s => forallb (fun sm' => snd sm' t s) (sm :: l)))
      else None
  end.
(** ReplayMHA._masked_softmax (111-123) with ReplayQSoftmax (activation.py 67-85); [lo] gives the lower ends of the ranges
    of the traced scores *)
Definition all_lows (c : mha) (lo : ten) : list Q :=
  flat_map (fun n => flat_map (fun t => map (fun s => lo n t s) (seq 0 (a_S c))) (seq 0 (a_T c))) (seq 0 (a_heads c)).
Definition replay_weights (c : mha) (lo : ten) (mask : option (nat -> nat -> bool)) (scores : ten) : ten :=
  mq (a_sm_oq c) (fun n t s => replay_softmax (group_softmax mq c n t) (all_lows c lo) (at_query mask t) (scores n t) (seq 0 (a_S c)) s).
(** ReplayMHA.call, attn.py 136-174 *)
Definition replay_core (c : mha) (pre : ten -> ten) (lo : ten) (m : masks) (q k v : arr) : option (mat * ten) :=
  match replay_mask c m with
  | Some mask =>
    match replay_qkv c q k v with
    | Some (q, k, v) =>
      let w := replay_weights c lo mask (pre (dot_product (a_dk c) k q)) in
      Some (out_dense mq c (combine (a_S c) w v), w)
    | None => None
    end
  | None => None
  end.
Definition replay_mha (c : mha) (lo : ten) (m : masks) (query : arr) (value key : option arr) : option (mat * ten) :=
  let value := or_else value query in let key := or_else key value in
  replay_core c id_ten lo m query key value.

(** ** QLinformerAttention *)
(** the projection of the positions: QEinsumDense with bias_axes=None, linformer.py 72, 105-122: equation "abc,bd->adc"; its quantizers
    follow the defaults of the scope it is built in *)
Record lin := mk_lin { l_iq : option tq; l_w : nat -> nat -> Q; l_oq : option tq }.
Definition lin_call (app : tq -> ten -> ten) (l : lin) (len : nat) (x : mat) : mat :=
  fun m d => oapp app (l_oq l) (fun m d _ => qsumn len (fun p => oapp app (l_iq l) (lift x) p d 0%nat * l_w l p m)) m d 0%nat.
(** call, linformer.py 126-154: the attention runs on the projected key and value (the layer is built with their shapes, 124) *)
Definition layer_linformer (c : mha) (lk lv : lin) (len : nat) (m : masks) (query : mat) (value key : option mat) : option (mat * ten) :=
  if m_causal m then None else                                                                  (* 139 *)
  let value := or_else value query in let key := or_else key value in
  Some (layer_core c id_ten m query (lin_call lq lk len key) (lin_call lq lv len value)).
(** ReplayQLinformerAttention.call, attn.py 177-207; the projected arrays are new objects *)
Definition replay_linformer (c : mha) (lk lv : lin) (len : nat) (fresh : nat) (lo : ten) (m : masks) (query : arr) (value key : option arr) : option (mat * ten) :=
  if m_causal m then None else
  let value := or_else value query in let key := or_else key value in
  replay_core c id_ten lo m query (mk_arr fresh (lin_call mq lk len (r_val key))) (mk_arr (S fresh) (lin_call mq lv len (r_val value))).

(** ** QSALTAttention *)
(** the convolution of the scores (salt.py 128-138): QConv2D, channels_first, padding same, stride 1, groups 1 or num_heads *)
Record sconv := mk_sconv { v_size : nat; v_separate : bool; v_iq : option tq; v_kernel : index -> Q; v_bias : option (nat -> Q); v_oq : option tq }.
Record salt := mk_salt {
  z_attn : mha; z_len_k : nat; z_len_v : nat; z_cluster_k : bool; z_cluster_v : bool; z_k : lin; z_v : lin; z_conv : option sconv }.
(** build, salt.py 101-113: the padding and the cluster length; ceil(a/b)*b - a *)
Definition n_pad (len m : nat) : nat := ((len + m - 1) / m * m - len)%nat.
Definition cluster_length (len m : nat) : nat := ((len + n_pad len m) / m)%nat.
Definition n_k_pad (z : salt) : nat := if z_cluster_k z then n_pad (z_len_k z) (a_S (z_attn z)) else 0%nat.
Definition n_v_pad (z : salt) : nat := if z_cluster_v z then n_pad (z_len_v z) (a_S (z_attn z)) else 0%nat.
(** pad with zeros and reshape to (m, cluster length, features): salt.py 165-167, 169-171 *)
Definition pad_rows (len : nat) (x : mat) : mat := fun p d => if (p <? len)%nat then x p d else 0.
Definition clusters (len m : nat) (x : mat) : ten := fun a b d => pad_rows len x (a * cluster_length len m + b)%nat d.
(** equation "bmnd,mn->bmd" (salt.py 98-99) *)
Definition cluster_call (app : tq -> ten -> ten) (l : lin) (n : nat) (x : ten) : mat :=
  fun m d => oapp app (l_oq l) (fun m d _ => qsumn n (fun b => oapp app (l_iq l) x m b d * l_w l m b)) m d 0%nat.
(** the key: reshaped when cluster_k_proj (165, 173) *)
Definition salt_key (app : tq -> ten -> ten) (z : salt) (x : mat) : mat :=
  if z_cluster_k z then cluster_call app (z_k z) (cluster_length (z_len_k z) (a_S (z_attn z))) (clusters (z_len_k z) (a_S (z_attn z)) x)
  else lin_call app (z_k z) (z_len_k z) x.
(** the value: reshaped when n_v_pad > 0 (169, 174); with cluster_v_proj the projection has four input labels and refuses a
    value that was not reshaped *)
Definition salt_value (app : tq -> ten -> ten) (z : salt) (x : mat) : option mat :=
  if (0 <? n_v_pad z)%nat then
    Some (cluster_call app (z_v z) (cluster_length (z_len_v z) (a_S (z_attn z))) (clusters (z_len_v z) (a_S (z_attn z)) x))
  else if z_cluster_v z then None
  else Some (lin_call app (z_v z) (z_len_v z) x).
Definition conv_dims (c : mha) (k : nat) : list cdim := [mk_cdim (a_T c) k 1 1; mk_cdim (a_S c) k 1 1].
Definition conv_groups (c : mha) (v : sconv) : nat := if v_separate v then a_heads c else 1%nat.
Definition conv_per_group (c : mha) (v : sconv) : nat := if v_separate v then 1%nat else a_heads c.
(** scores as an image: positions first, head last *)
Definition as_image (x : ten) : index -> Q := fun idx => match idx with [_; t; s; n] => x n t s | _ => 0 end.
Definition layer_conv (c : mha) (v : sconv) (x : ten) : ten :=
  oapp lq (v_oq v) (fun n t s =>
    conv 0 Qplus Qmult SAME (conv_dims c (v_size v)) (conv_per_group c v) (conv_per_group c v) (as_image (oapp lq (v_iq v) x)) (v_kernel v) [t; s] n + bias1 (v_bias v) n).
(** ReplayQConv (conv.py 112-146) *)
Definition replay_sconv (c : mha) (v : sconv) (x : ten) : ten :=
  oapp mq (v_oq v) (fun n t s =>
    replay_conv SAME (conv_dims c (v_size v)) (a_heads c) (conv_groups c v) (a_heads c)
      (ravel_img (conv_dims c (v_size v)) (a_heads c) (as_image (oapp mq (v_iq v) x)))
      (ravel_kernel (conv_dims c (v_size v)) (conv_per_group c v) (a_heads c) (v_kernel v)) (bias1 (v_bias v)) [t; s] n).
(** _masked_softmax, salt.py 142-146; ReplaySALTAttention._masked_softmax, attn.py 213-217 *)
Definition layer_pre (z : salt) (x : ten) : ten := match z_conv z with Some v => layer_conv (z_attn z) v x | None => x end.
Definition replay_pre (z : salt) (x : ten) : ten := match z_conv z with Some v => replay_sconv (z_attn z) v x | None => x end.
(** call, salt.py 148-186 *)
Definition layer_salt (z : salt) (m : masks) (query : mat) (value key : option mat) : option (mat * ten) :=
  if m_causal m then None else
  let value := or_else value query in let key := or_else key value in
  match salt_value lq z value with
  | Some value => Some (layer_core (z_attn z) (layer_pre z) m query (salt_key lq z key) value)
  | None => None
  end.
(** ReplaySALTAttention.call, attn.py 219-254 *)
Definition replay_salt (z : salt) (fresh : nat) (lo : ten) (m : masks) (query : arr) (value key : option arr) : option (mat * ten) :=
  if m_causal m then None else
  let value := or_else value query in let key := or_else key value in
  match salt_value mq z (r_val value) with
  | Some value => replay_core (z_attn z) (replay_pre z) lo m query (mk_arr fresh (salt_key mq z (r_val key))) (mk_arr (S fresh) value)
  | None => None
  end.
