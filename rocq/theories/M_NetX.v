(** Model of complete traced models with all kinds of layers the tracer handles: the layers of M_Net, and operations of
    keras.ops, global pooling, leaky activations, softmax, lookup-table layers and attention.

    Source: /repo/src/hgq/_dais_tracer/main.py 67-143, /repo/src/hgq/_dais_tracer/layers/_base.py 65-142, ops.py 62-243, activation.py 16-85, pool.py
    43-109, table.py 75-176, attn.py 79-254, and the layers they replay.

    Traced arrays are Python objects with a range for every variable in them (external: da4ml); which identity and which ranges a new array
    gets is given by a parameter [env] that may depend on anything.  Otherwise as in M_Net. *)
From Coq Require Import String.
From Verif Require Import Num M_Fixed M_State M_Wrapper M_Mapper M_Contr M_Ebops M_Pow2 M_Patch M_Ops M_Mirror M_Trace M_Table M_Softmax M_Attn M_Net.
Local Open Scope list_scope.

(** ** traced arrays *)
Record obj := mk_obj { ob_id : nat; ob_lhs : index -> lhs }.
Record da := mk_da { da_val : tensor Q; da_obj : obj }.
Fixpoint vmap {A B} (f : A -> B) (a : varg A) : varg B :=
  match a with VArr v => VArr (f v) | VList l => VList (map (vmap f) l) | VConst n => VConst n end.

(** ** numpy (external) *)
Inductive arith := RAdd | RSub | RMul | RMax | RMin.
Definition arith_fn (a : arith) : Q -> Q -> Q := match a with RAdd => Qplus | RSub => Qminus | RMul => Qmult | RMax => Qmax | RMin => Qmin end.
(** matmul of two stacks of matrices of the same rank; the leading axes broadcast.  Other ranks are not modelled. *)
Definition np_matmul (x y : tensor Q) : option (tensor Q) :=
  match rev (shape x), rev (shape y) with
  | c :: a :: rl, e :: c' :: rt =>
      if ((List.length rl =? List.length rt) && (c =? c'))%nat%bool then
        do ld <- join_shape (rev rl) (rev rt);
        Some (mk_tensor (ld ++ [a; e]) (fun idx =>
          let l := firstn (List.length ld) idx in let ij := skipn (List.length ld) idx in
          qsum (map (fun v => at_ x (bcast_index (rev rl) l ++ [nth 0 ij 0%nat; v]) * at_ y (bcast_index (rev rt) l ++ [v; nth 1 ij 0%nat])) (seq 0 c))))
      else None
  | _, _ => None
  end.
(** basic indexing: integers, slices, None and one ellipsis *)
Inductive ikey := IInt (n : Z) | ISlice (start stop step : option Z) | INew | IEll.
Definition consumes (k : ikey) : bool := match k with IInt _ | ISlice _ _ _ => true | _ => false end.
Definition full_slice : ikey := ISlice None None None.
(** the ellipsis stands for as many full slices as are missing *)
Definition expand_keys (ndim : nat) (ks : list ikey) : list ikey :=
  let fill := repeat full_slice (ndim - List.length (filter consumes ks)) in
  flat_map (fun k => match k with IEll => fill | _ => [k] end) ks.
(** slice.indices(d) of Python: start, step and number of elements *)
Definition slice_start (d : nat) (start : option Z) (step : Z) : Z :=
  let n := Z.of_nat d in
  if (0 <? step)%Z then match start with None => 0%Z | Some s => let s := if (s <? 0)%Z then (s + n)%Z else s in Z.min n (Z.max 0 s) end
  else match start with None => (n - 1)%Z | Some s => let s := if (s <? 0)%Z then (s + n)%Z else s in Z.min (n - 1) (Z.max (-1) s) end.
Definition slice_stop (d : nat) (stop : option Z) (step : Z) : Z :=
  let n := Z.of_nat d in
  if (0 <? step)%Z then match stop with None => n | Some s => let s := if (s <? 0)%Z then (s + n)%Z else s in Z.min n (Z.max 0 s) end
  else match stop with None => (-1)%Z | Some s => let s := if (s <? 0)%Z then (s + n)%Z else s in Z.min (n - 1) (Z.max (-1) s) end.
Definition slice_len (start stop step : Z) : nat :=
  if (0 <? step)%Z then Z.to_nat ((stop - start + step - 1) / step) else Z.to_nat ((start - stop - step - 1) / (- step)).
(** shape of the result and index of the source; [None]: IndexError, or a step of 0 *)
Fixpoint get_shape (ks : list ikey) (sh : list nat) : option (list nat) :=
  match ks, sh with
  | [], _ => Some sh
  | IInt i :: ks', d :: sh' => do _ <- np_axis i d; get_shape ks' sh'
  | ISlice a b c :: ks', d :: sh' =>
      let step := match c with Some s => s | None => 1%Z end in
      if (step =? 0)%Z then None else do r <- get_shape ks' sh'; Some (slice_len (slice_start d a step) (slice_stop d b step) step :: r)
  | INew :: ks', _ => do r <- get_shape ks' sh; Some (1%nat :: r)
  | _, _ => None
  end.
Fixpoint get_index (ks : list ikey) (sh : list nat) (idx : index) : index :=
  match ks, sh with
  | [], _ => idx
  | IInt i :: ks', d :: sh' => match np_axis i d with Some j => j | None => 0%nat end :: get_index ks' sh' idx
  | ISlice a b c :: ks', d :: sh' =>
      let step := match c with Some s => s | None => 1%Z end in
      Z.to_nat (slice_start d a step + Z.of_nat (hd 0%nat idx) * step) :: get_index ks' sh' (tl idx)
  | INew :: ks', _ => get_index ks' sh (tl idx)
  | _, _ => []
  end.
Definition np_getitem (ks : list ikey) (x : tensor Q) : option (tensor Q) :=
  let ks := expand_keys (List.length (shape x)) ks in
  do sh <- get_shape ks (shape x);
  Some (mk_tensor sh (fun idx => at_ x (get_index ks (shape x) idx))).

(** ** operations *)
(** QSoftmax: axes, stable, exp_table and inv_table (softmax.py 77-99: lookup tables with their quantizers) *)
Record smax := mk_smax { sx_axes : list nat; sx_stable : bool; sx_exp_iq : option quant; sx_exp : Q -> Q; sx_exp_oq : quant; sx_inv_iq : quant; sx_inv : Q -> Q; sx_inv_oq : quant }.
Definition exp_table (s : smax) : layer := LQ (match sx_exp_iq s with Some q => Some (QSingle q) | None => None end) CLut (AFn (sx_exp s)) (Some (sx_exp_oq s)).
Definition inv_table (s : smax) : layer := LQ (Some (QSingle (sx_inv_iq s))) CLut (AFn (sx_inv s)) (Some (sx_inv_oq s)).
(** what a layer returns: the single array under 'final' *)
Definition final1 (o : option (list (string * list (tensor Q)))) : option (tensor Q) :=
  do d <- o; do f <- assoc "final"%string d; match f with [y] => Some y | _ => None end.
(** QSoftmax.call without mask, softmax.py 118-132 *)
Definition keras_softmax (s : smax) (x : tensor Q) : option (tensor Q) :=
  do x <- (if sx_stable s then np_binary Qminus (np_reduce qmax_of (sx_axes s) true x) x else Some x);
  do e <- final1 (keras_layer (exp_table s) [VArr x] []);
  do d <- final1 (keras_layer (inv_table s) [VArr (np_reduce qsum (sx_axes s) true e)] []);
  np_binary Qmult e d.
(** ReplayQSoftmax.call without mask, activation.py 67-85 *)
Definition replay_softmax_layer (s : smax) (v : tensor Q) : option (tensor Q) :=
  let x := newaxis v in
  do x <- (if sx_stable s then np_binary Qminus (np_reduce qmax_of (sx_axes s) true x) x else Some x);
  do x <- first x;
  do e <- final1 (replay_layer (exp_table s) [VArr x] []);
  do sums <- first (np_reduce qsum (sx_axes s) true (newaxis e));
  do d <- final1 (replay_layer (inv_table s) [VArr sums] []);
  np_binary Qmult e d.

(** [rx], [ry], [ndim]: ranks of the inputs, fixed when the model is built, batch axis included *)
Inductive xop :=
  | OAbs                                                                 (* keras.ops.absolute, abs *)
  | OReduce (mx : bool) (axes : list nat) (keepdims : bool)              (* keras.ops.sum, max *)
  | OArith (a : arith) (rx ry : nat)                                     (* keras.ops.add, subtract, multiply, maximum, minimum *)
  | OConcat (axis : Z) (ndim : nat)                                      (* keras.ops.concatenate *)
  | OConcatLayer (axis : Z) (shapes : list (list nat))                   (* keras.layers.Concatenate; shapes of the inputs without batch *)
  | ORepeat (k : nat) (axis : Z) (ndim : nat)                            (* keras.ops.repeat *)
  | OMoveaxis (source destination : Z) (ndim : nat)                      (* keras.ops.moveaxis *)
  | OGetItem (key : list ikey) (ndim : nat)                              (* x[key] *)
  | OMatmul (ndim : nat)                                                 (* keras.ops.matmul *)
  | OEinsum (li lk lo : list nat)                                        (* keras.ops.einsum of two arrays *)
  | OQEinsum (li lk lo : list nat)                                       (* QEinsum: a list of two arrays.  (keras.layers.Dot computes otherwise, but is replayed by the same class) *)
  | OGlobalPool (mx : bool) (pool_dim : nat) (keepdims : bool)           (* (Q)GlobalMaxPooling, (Q)GlobalAveragePooling, channels_last *)
  | OLeaky (alpha : tensor Q)                                            (* LeakyReLU (no axes), PReLU *)
  | OReLU (neg : Q) (maxv : option Q)                                    (* keras.layers.ReLU, threshold 0 *)
  | OSoftmax (s : smax).                                                 (* QSoftmax *)
Definition rank_is (r : nat) (x : tensor Q) : bool := (List.length (shape x) =? r)%nat.
Definition shapes_are (shs : list (list nat)) (xs : list (tensor Q)) : bool := if list_eq_dec (list_eq_dec Nat.eq_dec) (map (fun x => tl (shape x)) xs) shs then true else false.
(** the array operations: the Keras operation (external) on batches; constants among the positional arguments (the key of an indexing) are in [o] *)
Definition keras_op (o : xop) (args : list (inp (tensor Q))) : option (tensor Q) :=
  match o, args with
  | OAbs, [One x] => Some (tmap Qabs x)
  | OReduce mx axes kd, [One x] => Some (np_reduce (if mx then qmax_of else qsum) axes kd x)
  | OArith a rx ry, [One x; One y] => if (rank_is rx x && rank_is ry y)%bool then np_binary (arith_fn a) x y else None
  | OConcat axis r, [Many xs] => if forallb (rank_is r) xs then np_concatenate axis xs else None
  | OConcatLayer axis shs, [Many xs] => if shapes_are shs xs then np_concatenate axis xs else None
  | ORepeat k axis r, [One x] => if rank_is r x then np_repeat k axis x else None
  | OMoveaxis s d r, [One x] => if rank_is r x then np_moveaxis s d x else None
  | OGetItem key r, [One x] => if rank_is r x then np_getitem key x else None
  | OMatmul r, [One x; One y] => if (rank_is r x && rank_is r y)%bool then np_matmul x y else None
  | OEinsum li lk lo, [One x; One y] => np_einsum li lk lo x y
  | OQEinsum li lk lo, [Many [x; y]] => np_einsum li lk lo x y             (* QEinsum.call, ops/einsum.py 56-59 *)
  | OGlobalPool mx pd kd, [One x] =>
      if (List.length (shape x) =? S (S pd))%nat then
        Some (if mx then np_reduce qmax_of (seq 1 pd) kd x
              else tmap (fun v => v / inject_Z (Z.of_nat (nprod (removelast (tl (shape x)))))) (np_reduce qsum (seq 1 pd) kd x))
      else None
  | OLeaky alpha, [One x] =>
      if (List.length (shape alpha) <? List.length (shape x))%nat then             (* alpha has no batch axis *)
        do y <- np_binary (fun v a => keras_prelu a v) x alpha; if nat_list_eqb (shape y) (shape x) then Some y else None
      else None
  | OReLU neg maxv, [One x] => Some (tmap (keras_relu 0 neg maxv) x)
  | OSoftmax s, [One x] => keras_softmax s x
  | _, _ => None
  end.
(** ReplayReLU.call, activation.py 19-44: [low i] is the lower end of the range of the variable at [i] *)
Definition replay_leaky (low : index -> Q) (alpha : tensor Q) (maxv : option Q) (v : tensor Q) : option (tensor Q) :=
  do t <- np_binary (fun _ a => a) (newaxis v) alpha;                                                        (* 41: broadcast of neg against inputs[None] *)
  if nat_list_eqb (shape t) (1%nat :: shape v)                                                               (* 42-44: zip stops at the shorter; a longer one is not modelled *)
  then Some (mk_tensor (shape v) (fun i => replay_relu (low i) 0 0 (at_ t (0%nat :: i)) maxv (at_ v i))) else None.
(** the [call] methods; [tup]: lists of arrays are tuples (they come from an input quantizer, _base.py 108) *)
Definition replay_op (o : xop) (tup : bool) (low : index -> Q) (args : list (inp (tensor Q))) : option (tensor Q) :=
  match o, args with
  | OAbs, [One x] => Some (tmap Qabs x)                                                                      (* ops.py 242-243 *)
  | OReduce mx axes kd, [One x] =>                                                                           (* ops.py 111-121: axis and keepdims are read from the call's arguments, but keras keeps them in the operation; so axis=None, keepdims=False *)
      replay_reduction (if mx then qmax_of else qsum) (seq 0 (S (List.length (shape x)))) false x
  | OArith a _ _, [One x; One y] => np_binary (arith_fn a) x y                                               (* ops.py 136-152 *)
  | OConcat axis _, [Many xs] => replay_concatenate axis xs
  | OConcatLayer axis _, [Many xs] => replay_concatenate_layer axis xs
  | ORepeat k axis _, [One x] => replay_repeat k axis x
  | OMoveaxis s d _, [One x] => replay_moveaxis s d x
  | OGetItem key _, [One x] => do r <- np_getitem key (newaxis x); first r                                     (* ops.py 105-108 *)
  | OMatmul _, [One x; One y] => np_matmul x y                                                               (* ops.py 235-236 *)
  | OEinsum li lk lo, [One x; One y] => do r <- np_einsum li lk lo (newaxis x) (newaxis y); first r          (* ops.py 204-229 *)
  | OQEinsum li lk lo, [Many [x; y]] =>                                                                      (* 207-212: a list is not a tuple, and one argument is not two *)
      if tup then do r <- np_einsum li lk lo (newaxis x) (newaxis y); first r else None
  | OGlobalPool mx pd kd, [One x] =>                                                                         (* pool.py 56-65 *)
      Some (if mx then np_reduce qmax_of (seq 0 pd) kd x
            else tmap (fun v => v / inject_Z (Z.of_nat (nprod (removelast (shape x))))) (np_reduce qsum (seq 0 pd) kd x))
  | OLeaky alpha, [One x] => replay_leaky low alpha None x
  | OReLU neg maxv, [One x] => replay_leaky low (mk_tensor [] (fun _ => neg)) maxv x
  | OSoftmax s, [One x] => replay_softmax_layer s x
  | _, _ => None
  end.

(** ** lookup-table layers *)
Record xtable := mk_xtable {
  xt_patch : option (padding * list cdim * nat);     (* QConvT: padding, sizes, input channels; rank 1 without the unit axis the code inserts and removes *)
  xt_in : nat; xt_out : nat; xt_net : list elayer; xt_bn : option bnorm; xt_isqrt : Q;
  xt_iq : option quant; xt_toq : quant; xt_act : act; xt_translate : (Q -> Q) -> Q -> Q; (* keras_act_to_numpy *)
  xt_oq : option quant }.
Definition table_of (t : xtable) (toq : nat -> Q -> Q) : table_layer := mk_table (xt_in t) (xt_out t) (xt_net t) (xt_bn t) (xt_isqrt t) toq.
(** ops.image.extract_patches (external), table/conv.py 73-78 *)
Definition keras_patches (p : option (padding * list cdim * nat)) (x : tensor Q) : option (tensor Q) :=
  match p with
  | None => Some x
  | Some (pad, cs, ch) =>
      match shape x with
      | n :: s =>
          if nat_list_eqb s (map c_in cs ++ [ch]) then
            Some (mk_tensor (n :: conv_out_shape pad cs ++ [(nprod (map c_k cs) * ch)%nat])
              (fun i => extract 0 pad cs ch (fun j => at_ x (hd 0%nat i :: unflat s j)) (removelast (tl i)) (last i 0%nat)))
          else None
      | [] => None
      end
  end.
(** symbolic_extract_patches, table.py 159-173 *)
Definition replay_patches (p : option (padding * list cdim * nat)) (v : tensor Q) : option (tensor Q) :=
  match p with
  | None => Some v
  | Some (pad, cs, ch) =>
      if nat_list_eqb (shape v) (map c_in cs ++ [ch]) then
        Some (mk_tensor (conv_out_shape pad cs ++ [(nprod (map c_k cs) * ch)%nat])
          (fun i => sym_extract 0 pad cs ch (fun j => at_ v (unflat (shape v) j)) (removelast i) (last i 0%nat)))
      else None
  end.
(** broadcast_to(x[..., None], (..., n_out)) *)
Definition spread (m : nat) (x : tensor Q) : tensor Q := mk_tensor (shape x ++ [m]) (fun i => at_ x (removelast i)).
(** sum over axis -2 *)
Definition sum_inputs (n m : nat) (x : tensor Q) : tensor Q :=
  mk_tensor (removelast (removelast (shape x)) ++ [m]) (fun i => qsum (map (fun j => at_ x (removelast i ++ [j; last i 0%nat])) (seq 0 n))).
(** QDenseT.call, table/dense.py 119-130, before the activation *)
Definition keras_table (t : xtable) (x : tensor Q) : option (tensor Q) :=
  do x <- keras_patches (xt_patch t) x;
  if (last (shape x) 0 =? xt_in t)%nat then
    let x := spread (xt_out t) x in
    do x <- match xt_iq t with Some q => quant_call q x | None => Some x end;
    let table_out := mk_tensor (shape x) (fun i =>
      let o := last i 0%nat in let j := last (removelast i) 0%nat in
      let y := subnet (xt_net t) (j * xt_out t + o) (at_ x i) in
      match xt_bn t with Some bn => bn_apply bn o y * xt_isqrt t | None => y end) in
    do r <- quant_call (xt_toq t) table_out;
    Some (sum_inputs (xt_in t) (xt_out t) r)
  else None.
(** table.py 135-149: the output quantizer at each flattened position; scaler and affine map are not used *)
Definition table_quant (q : quant) (sh : list nat) : option (nat -> Q -> Q) :=
  let '(k, i, f) := match q_s q with inl s => kif_widths s | inr s => kbi_widths s end in
  do kx <- broadcast_to k (1%nat :: sh); do ix <- broadcast_to i (1%nat :: sh); do fx <- broadcast_to f (1%nat :: sh);
  Some (fun p x => let j := 0%nat :: unflat sh p in hw_quantize (c_rm (q_c q)) (c_om (q_c q)) (at_ kx j) (at_ ix j) (at_ fx j) x).
(** ReplayDenseTable.call, table.py 80-156; [lhs_of] gives the ranges of the quantized inputs *)
Definition replay_table (t : xtable) (lhs_of : tensor Q -> index -> lhs) (v : tensor Q) : option (tensor Q) :=
  do v <- replay_patches (xt_patch t) v;
  let v := spread (xt_out t) v in                                                                            (* 83 *)
  do q <- xt_iq t;                                                                                           (* 84: op.iq raises without input quantizer *)
  do xq <- quant_mirror q v;
  let sh := shape xq in
  let vars := map (fun p => lhs_of xq (unflat sh p)) (seq 0 (nprod sh)) in                                   (* 86 *)
  do tq <- table_quant (xt_toq t) sh;
  let L := table_of t tq in
  if forallb (fun p => match replay_tables L (xt_translate t) tq vars p with Some _ => true | None => false end) (seq 0 (nprod sh)) then   (* 133 *)
    let lead := removelast (removelast sh) in
    Some (mk_tensor (lead ++ [xt_out t]) (fun i =>
      match replay_dense_table L (xt_translate t) tq vars (fun p => at_ xq (unflat sh p)) (flat lead (removelast i)) (last i 0%nat) with Some y => y | None => 0 end))
  else None.

(** ** attention layers *)
Inductive attn_kind := AMha (c : mha) | ALin (c : mha) (lk lv : lin) (len : nat) | ASalt (z : salt).
Definition attn_mha (k : attn_kind) : mha := match k with AMha c => c | ALin c _ _ _ => c | ASalt z => z_attn z end.
(** [xa_pos], [xa_vpos], [xa_kpos]: the axes between batch and features of query, value and key; [xa_spos]: the key axes of the attention scores *)
Record xattn := mk_xattn { xa_kind : attn_kind; xa_pos : list nat; xa_vpos : list nat; xa_kpos : list nat; xa_spos : list nat }.
Definition mat_of (pre : index) (pos : list nat) (x : tensor Q) : mat := fun p j => at_ x (pre ++ unflat pos p ++ [j]).
(** call(query, value=None, key=None): the positional arguments *)
Definition attn_args {V} (args : list V) : option (V * option V * option V) :=
  match args with [q] => Some (q, None, None) | [q; v] => Some (q, Some v, None) | [q; v; k] => Some (q, Some v, Some k) | _ => None end.
(** the keyword arguments that are not arrays: training=False, use_causal_mask, return_attention_scores; 0 stands for False *)
Fixpoint attn_kwargs {V} (kw : list (string * varg V)) : option (bool * bool) :=
  match kw with
  | [] => Some (false, false)
  | (k, VConst n) :: kw' =>
      do (causal, ret) <- attn_kwargs kw';
      if String.eqb k "training" then (if (n =? 0)%nat then Some (causal, ret) else None)
      else if String.eqb k "use_causal_mask" then Some (negb (n =? 0)%nat, ret)
      else if String.eqb k "return_attention_scores" then Some (causal, negb (n =? 0)%nat)
      else None
  | _ => None
  end.
Definition attn_masks (causal : bool) : masks := mk_masks None None None causal None.
(** shapes of the arguments after [pre] *)
Definition attn_shapes (a : xattn) (pre : list nat) (q : list nat) (v k : option (list nat)) : bool :=
  let c := attn_mha (xa_kind a) in let v := or_else v q in let k := or_else k v in
  (nat_list_eqb q (pre ++ xa_pos a ++ [a_cq c]) && nat_list_eqb v (pre ++ xa_vpos a ++ [a_cv c]) && nat_list_eqb k (pre ++ xa_kpos a ++ [a_ck c]))%bool.
Definition layer_attn (k : attn_kind) (m : masks) (query : mat) (value key : option mat) : option (mat * ten) :=
  match k with
  | AMha c => Some (layer_mha c m query value key)
  | ALin c lk lv len => layer_linformer c lk lv len m query value key
  | ASalt z => layer_salt z m query value key
  end.
Definition replay_attn (k : attn_kind) (fresh : nat) (lo : ten) (m : masks) (query : arr) (value key : option arr) : option (mat * ten) :=
  match k with
  | AMha c => replay_mha c lo m query value key
  | ALin c lk lv len => replay_linformer c lk lv len fresh lo m query value key
  | ASalt z => replay_salt z fresh lo m query value key
  end.
(** the traced attention scores, whose ranges the softmax reads (activation.py 73) *)
Definition core_scores (c : mha) (pre : ten -> ten) (q k v : arr) : option ten :=
  match replay_qkv c q k v with Some (q, k, _) => Some (pre (dot_product (a_dk c) k q)) | None => None end.
Definition replay_scores (kd : attn_kind) (fresh : nat) (query : arr) (value key : option arr) : option ten :=
  let value := or_else value query in let key := or_else key value in
  match kd with
  | AMha c => core_scores c id_ten query key value
  | ALin c lk lv len => core_scores c id_ten query (mk_arr fresh (lin_call mq lk len (r_val key))) (mk_arr (S fresh) (lin_call mq lv len (r_val value)))
  | ASalt z => do pv <- salt_value mq z (r_val value); core_scores (z_attn z) (replay_pre z) query (mk_arr fresh (salt_key mq z (r_val key))) (mk_arr (S fresh) pv)
  end.
Definition as_tensor (c : mha) (x : ten) : tensor Q := mk_tensor [a_heads c; a_T c; a_S c] (fun i => match i with [n; t; s] => x n t s | _ => 0 end).
(** output and scores as arrays: [pre] is the batch axis (or none), [r] the result for one sample *)
Definition attn_out (a : xattn) (pre : list nat) (r : index -> mat * ten) : tensor Q :=
  mk_tensor (pre ++ xa_pos a ++ [a_out (attn_mha (xa_kind a))]) (fun i =>
    let j := skipn (List.length pre) i in fst (r (firstn (List.length pre) i)) (flat (xa_pos a) (removelast j)) (last j 0%nat)).
Definition attn_scores (a : xattn) (pre : list nat) (r : index -> mat * ten) : tensor Q :=
  mk_tensor (pre ++ a_heads (attn_mha (xa_kind a)) :: xa_pos a ++ xa_spos a) (fun i =>
    let j := tl (skipn (List.length pre) i) in
    snd (r (firstn (List.length pre) i)) (hd 0%nat (skipn (List.length pre) i))
      (flat (xa_pos a) (firstn (List.length (xa_pos a)) j)) (flat (xa_spos a) (skipn (List.length (xa_pos a)) j))).
Definition zero_result : mat * ten := (fun _ _ => 0, fun _ _ _ => 0).
(** the causal mask is modelled for one axis of positions only *)
Definition causal_ok (a : xattn) (causal : bool) : bool := (negb causal || (List.length (xa_pos a) =? 1)%nat)%bool.
Definition keras_attn (a : xattn) (args : list (varg (tensor Q))) (kw : kwargs_t) : option (list (tensor Q)) :=
  do l <- all_arr args; do (q, v, k) <- attn_args l; do (causal, ret) <- attn_kwargs kw;
  match shape q with
  | n :: _ =>
      if (causal_ok a causal && attn_shapes a [n] (shape q) (option_map shape v) (option_map shape k))%bool then
        let run := fun pre => layer_attn (xa_kind a) (attn_masks causal) (mat_of pre (xa_pos a) q) (option_map (mat_of pre (xa_vpos a)) v) (option_map (mat_of pre (xa_kpos a)) k) in
        do _ <- run [0%nat];
        let r := fun pre => or_else (run pre) zero_result in
        Some (attn_out a [n] r :: if ret then [attn_scores a [n] r] else [])
      else None
  | [] => None
  end.
Definition da_arr (pos : list nat) (d : da) : arr := mk_arr (ob_id (da_obj d)) (mat_of [] pos (da_val d)).
(** ReplayMHA.call, ReplayQLinformerAttention.call, ReplaySALTAttention.call, attn.py 125-174, 180-207, 219-254; [lows] gives the ranges of the scores,
    [fresh] the identity of the projected arrays *)
Definition replay_attn_layer (a : xattn) (lhs_of : tensor Q -> index -> lhs) (fresh : nat) (args : list (varg da)) (kw : list (string * varg da)) : option (list (tensor Q)) :=
  do l <- all_arr args; do (q, v, k) <- attn_args l; do (causal, ret) <- attn_kwargs kw;
  if (causal_ok a causal && attn_shapes a [] (shape (da_val q)) (option_map (fun d => shape (da_val d)) v) (option_map (fun d => shape (da_val d)) k))%bool then
    let qa := da_arr (xa_pos a) q in let va := option_map (da_arr (xa_vpos a)) v in let ka := option_map (da_arr (xa_kpos a)) k in
    do sc <- replay_scores (xa_kind a) fresh qa va ka;
    let st := as_tensor (attn_mha (xa_kind a)) sc in
    do r <- replay_attn (xa_kind a) fresh (fun n t s => v_l (lhs_of st [n; t; s])) (attn_masks causal) qa va ka;
    Some (attn_out a [] (fun _ => r) :: if ret then [attn_scores a [] (fun _ => r)] else [])
  else None.

(** ** layers *)
Inductive xlayer :=
  | XBase (l : layer)                                                    (* M_Net *)
  | XNoOp                                                                (* Dropout, GaussianNoise, Random*, ... *)
  | XOp (o : xop)                                                        (* not a QLayerBase *)
  | XQOp (iq : option quants) (o : xop) (oq : option quant)              (* a QLayerBase without activation: QEinsum, QGlobal...Pooling, QSoftmax *)
  | XTable (t : xtable)                                                  (* QDenseT, QConvT1D, QConvT2D *)
  | XAttn (a : xattn).                                                   (* QMultiHeadAttention, QLinformerAttention, QSALTAttention *)
(** positional arguments; constants are left out *)
Fixpoint op_args {V} (args : list (varg V)) : option (list (inp V)) :=
  match args with
  | [] => Some []
  | VArr v :: args' => do r <- op_args args'; Some (One v :: r)
  | VList l :: args' => do vs <- all_arr l; do r <- op_args args'; Some (Many vs :: r)
  | VConst _ :: args' => op_args args'
  end.
Notation dump_t := (list (string * list (tensor Q))).
Definition keras_x (x : xlayer) (args : list (varg (tensor Q))) (kw : kwargs_t) : option dump_t :=
  match x with
  | XBase l => keras_layer l args kw
  | XNoOp => match args with [VArr v] => if training_off kw then Some [("final"%string, [v])] else None | _ => None end
  | XOp o => if no_kwargs kw then do l <- op_args args; do y <- keras_op o l; Some [("final"%string, [y])] else None
  | XQOp iq o oq =>
      if training_off kw then
        do i <- one_arg args;
        do i <- match iq with Some q => iq_call q i | None => Some i end;
        do y <- keras_op o [i];
        do y <- match oq with Some q => quant_call q y | None => Some y end;
        Some [("final"%string, [y])]
      else None
  | XTable t =>
      if training_off kw then
        do i <- one_arg args;
        match i with
        | One v =>
            do y <- keras_table t v;
            let y := tmap (act_fn (xt_act t)) y in
            do y <- match xt_oq t with Some q => quant_call q y | None => Some y end;
            Some [("final"%string, [y])]
        | Many _ => None
        end
      else None
  | XAttn a => do ys <- keras_attn a args kw; Some [("final"%string, ys)]
  end.

Section Replay.
  (** identity and ranges of a new array: layer, arguments, name and number of the array, its values *)
  Context (env : xlayer -> list (varg da) -> string -> nat -> tensor Q -> obj).
  Fixpoint number (x : xlayer) (args : list (varg da)) (name : string) (k : nat) (l : list (tensor Q)) : list da :=
    match l with [] => [] | t :: l' => mk_da t (env x args name k t) :: number x args name (S k) l' end.
  Definition new_arrays (x : xlayer) (args : list (varg da)) (d : dump_t) : list (string * list da) := map (fun kv => (fst kv, number x args (fst kv) 0 (snd kv))) d.
  Definition no_array_kwargs (kw : list (string * varg da)) : bool := forallb (fun kv => match snd kv with VArr _ => false | _ => true end) kw.
  Definition erase_kw (kw : list (string * varg da)) : kwargs_t := map (fun kv => (fst kv, vmap da_val (snd kv))) kw.
  (** _base.py 117-142: post_call, activation, output quantizer; one result *)
  Definition finish (tr : dump_t) (z : tensor Q) (a : act) (oq : option quant) : option dump_t :=
    let post_call := normalize z in
    do final <- match a with ALinear => Some post_call | ARelu => Some (tmap relu post_call) | AFn _ => None end;
    let tr := tr ++ [("post_call"%string, [post_call])] in
    match oq with
    | Some q => do r <- quant_mirror q final; Some (tr ++ [("post_oq"%string, [r]); ("final"%string, [r])])
    | None => Some (tr ++ [("final"%string, [final])])
    end.
  Fixpoint first_low (args : list (varg da)) (i : index) : Q := match args with VArr d :: _ => v_l (ob_lhs (da_obj d) i) | VConst _ :: args' => first_low args' i | _ => 0 end.
  (** ReplayOperationBase.__call__, _base.py 90-142 *)
  Definition replay_x (x : xlayer) (args : list (varg da)) (kw : list (string * varg da)) : option (list (string * list da)) :=
    if no_array_kwargs kw then
      let vargs := map (vmap da_val) args in
      match x with
      | XBase l => do d <- replay_layer l vargs (erase_kw kw); Some (new_arrays x args d)
      | XNoOp => match args with [VArr v] => if training_off (erase_kw kw) then Some [("final"%string, [v])] else None | _ => None end     (* ops.py 196-198: the same object *)
      | XOp o => if no_kwargs (erase_kw kw) then do l <- op_args vargs; do z <- replay_op o false (first_low args) l; Some (new_arrays x args [("final"%string, [normalize z])]) else None
      | XQOp iq o oq =>
          if training_off (erase_kw kw) then
            do i <- one_arg vargs;
            do i' <- match iq with Some q => iq_replay q i | None => Some i end;
            let tr := match iq with Some _ => [("post_iq"%string, arrays i')] | None => [] end in
            let low := fun j => match iq, i' with Some _, One t => v_l (ob_lhs (env x args "post_iq" 0 t) j) | _, _ => first_low args j end in
            do z <- replay_op o (match iq with Some _ => true | None => false end) low [i'];
            do d <- finish tr z ALinear oq; Some (new_arrays x args d)
          else None
      | XTable t =>
          if training_off (erase_kw kw) then
            do i <- one_arg vargs;
            match i with
            | One v => do z <- replay_table t (fun xq => ob_lhs (env x args "table_in" 0 xq)) v; do d <- finish [] z (xt_act t) (xt_oq t); Some (new_arrays x args d)
            | Many _ => None
            end
          else None
      | XAttn a =>
          do zs <- replay_attn_layer a (fun st => ob_lhs (env x args "scores" 0 st)) (ob_id (env x args "projected" 0 (mk_tensor [] (fun _ => 0)))) args kw;
          Some (new_arrays x args [("post_call"%string, zs); ("final"%string, zs)])
      end
    else None.
  (** trace_model, main.py 67-143 *)
  Definition trace_x (fuel : nat) (m : model xlayer) (inputs : list da) : option (list (string * list da)) := trace_model replay_x fuel 0 m inputs.
End Replay.
