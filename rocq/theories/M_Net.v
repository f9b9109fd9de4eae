(** Model of complete layers, in Keras and in the tracer: input quantizers, the operation, activation, output
    quantizer; and of the functional models made of them.

    Source: /repo/src/hgq/_dais_tracer/layers/_base.py 65-158 (ReplayOperationBase, ReplayQuantizer), dense.py, conv.py 109-146,
    batchnorm.py, activation.py 47-62, ops.py 48-91 and 174-182, pool.py 66-104, and the layers they replay:
    /repo/src/hgq/layers/core/base.py 82-118 (QLayerMeta: the wrapped call) and the layers' own [call].

    Operations as in M_Ops, quantizers as in M_Mirror, the walk over the model as in M_Trace.  Weights are given as
    their quantized values (qkernel, qbias, qscaler_and_qoffset): both sides read the same property.  channels_last.
    A keyword [mask=None] is not modelled. *)
From Coq Require Import String.
From Verif Require Import Num M_Fixed M_State M_Wrapper M_Mapper M_Contr M_Ebops M_Pow2 M_Patch M_Ops M_Mirror M_Trace.
Local Open Scope list_scope.

(** ** Quantizers *)
(** a built Quantizer: scaler and affine, configuration, homogeneous axes, state of the KIF or KBI quantizer *)
Record quant := mk_quant { q_w : wrapper; q_c : qconf; q_hom : list nat; q_s : kif_tstate + kbi_tstate }.
(** Quantizer.call in inference, quantizer/quantizer.py 49-60 *)
Definition quant_call (q : quant) (x : tensor Q) : option (tensor Q) :=
  quantizer_infer (q_w q) (match q_s q with inl s => kif_infer (q_c q) (q_hom q) s | inr s => kbi_infer (q_c q) (q_hom q) s end) x.
(** mirror_quantizer, _dais_tracer/layers/_base.py 20-34 *)
Definition quant_mirror (q : quant) (v : tensor Q) : option (tensor Q) :=
  mirror_with (q_w q) (q_c q) (match q_s q with inl s => kif_widths s | inr s => kbi_widths s end) v.
(** layer.iq: a Quantizer, or MultipleQuantizers (core/base.py 280-311) *)
Inductive quants := QSingle (q : quant) | QMulti (qs : list quant).
(** the first positional argument of a layer: an array or a list of arrays *)
Inductive inp (V : Type) := One (v : V) | Many (vs : list V).
Arguments One {V}. Arguments Many {V}.
Definition tin : Type := inp (tensor Q).
Fixpoint map2o (qs : list quant) (f : quant -> tensor Q -> option (tensor Q)) (xs : list (tensor Q)) : option (list (tensor Q)) :=
  match qs, xs with
  | q :: qs', x :: xs' => do y <- f q x; do ys <- map2o qs' f xs'; Some (y :: ys)
  | _, _ => Some []
  end.
(** self.iq(inputs): MultipleQuantizers.call, core/base.py 286-288, asserts the number of inputs *)
Definition iq_call (iq : quants) (x : tin) : option tin :=
  match iq, x with
  | QSingle q, One x => do y <- quant_call q x; Some (One y)
  | QMulti qs, Many xs => if (List.length qs =? List.length xs)%nat then do ys <- map2o qs quant_call xs; Some (Many ys) else None
  | _, _ => None
  end.
(** _base.py 105-111: zip stops at the shorter *)
Definition iq_replay (iq : quants) (v : tin) : option tin :=
  match iq, v with
  | QSingle q, One v => do y <- quant_mirror q v; Some (One y)
  | QMulti qs, Many vs => do ys <- map2o qs quant_mirror vs; Some (Many ys)
  | _, _ => None
  end.
Definition arrays {V} (x : inp V) : list V := match x with One v => [v] | Many vs => vs end.

(** ** Operations *)
Inductive act := ALinear | ARelu | AFn (f : Q -> Q).
Definition act_fn (a : act) : Q -> Q := match a with ALinear => fun x => x | ARelu => relu | AFn f => f end.
Inductive core :=
  | CQuantizer (q : quant)                                              (* Quantizer used as a layer *)
  | CDense (kernel : tensor Q) (bias : option (tensor Q))               (* QDense, QBatchNormDense *)
  | CEinsum (li lk lo : list nat) (kernel : tensor Q) (bias : option (tensor Q))  (* QEinsumDense, QEinsumDenseBatchnorm, EinsumDense *)
  | CConv (pad : padding) (cs : list cdim) (groups cin_g cout_g : nat) (kernel : tensor Q) (bias : option (tensor Q))
  | CBatchNorm (sh : list nat) (scale offset : tensor Q)                (* sh: layer._shape, one entry per axis of the input it was built for *)
  | CSum (ndim : nat) (axes : list nat) (keepdims : bool) (scale : Q)   (* QSum, QMeanPow2; ndim: rank it was built for *)
  | CAvgPool (pad : padding) (cs : list cdim) (ch : nat) | CMaxPool (pad : padding) (cs : list cdim) (ch : nat)
  | CMerge (op : merge_op)                                              (* Add, QAdd, ... *)
  | CReshape (sh : list nat) | CFlatten
  | CReLU                                                               (* keras.layers.ReLU() *)
  | CLut.                                                               (* QUnaryFunctionLUT *)

Definition nat_list_eqb (s t : list nat) : bool := if list_eq_dec Nat.eq_dec s t then true else false.

(** x + bias in the layers: core/dense.py 64-65, core/einsum_dense.py 76-77, conv.py 79-85 (broadcasting over leading axes) *)
Definition add_bias (y : tensor Q) (bias : option (tensor Q)) : option (tensor Q) :=
  match bias with Some b => np_binary Qplus y b | None => Some y end.
(** [+ qbias] in the replays: dense.py 37 and conv.py 141; None is a TypeError *)
Definition replay_add_bias (y : tensor Q) (bias : option (tensor Q)) : option (tensor Q) :=
  match bias with Some b => np_binary Qplus y b | None => None end.

(** ops.matmul(inputs, self.qkernel), core/dense.py 63 *)
Definition keras_matmul (x k : tensor Q) : option (tensor Q) :=
  match shape k with
  | [c; u] =>
      if (negb (nat_list_eqb (shape x) []) && (last (shape x) 0 =? c)%nat)%bool
      then Some (mk_tensor (removelast (shape x) ++ [u]) (matmul 0 Qplus Qmult c (at_ x) (at_ k))) else None
  | _ => None
  end.
(** einsum('...c,cC->...C', inputs[None], qkernel), dense.py 22 and 37: the axes under the ellipsis get labels 0 .. r-1 *)
Definition dense_labels (r : nat) : list nat * list nat * list nat := (seq 0 (S r), [r; S r], seq 0 r ++ [S r]).
Definition replay_dense (kernel : tensor Q) (bias : option (tensor Q)) (v : tensor Q) : option (tensor Q) :=
  let '(li, lk, lo) := dense_labels (List.length (shape v)) in
  do r <- np_einsum li lk lo (newaxis v) kernel;
  do s <- replay_add_bias r bias;
  first s.
(** dense.py 23-37, equation of the layer *)
Definition replay_einsum_dense (li lk lo : list nat) (kernel : tensor Q) (bias : option (tensor Q)) (v : tensor Q) : option (tensor Q) :=
  do r <- np_einsum li lk lo (newaxis v) kernel;
  do s <- replay_add_bias r bias;
  first s.

(** QConv call, conv.py 73-89 (channels_last), on a batch: each sample is convolved *)
Definition conv_fits (cs : list cdim) (groups cin_g cout_g : nat) (kernel : tensor Q) (s : list nat) : bool :=
  (nat_list_eqb s (map c_in cs ++ [(groups * cin_g)%nat]) && nat_list_eqb (shape kernel) (map c_k cs ++ [cin_g; (groups * cout_g)%nat]))%bool.
Definition keras_conv (pad : padding) (cs : list cdim) (groups cin_g cout_g : nat) (kernel x : tensor Q) : option (tensor Q) :=
  match shape x with
  | n :: s =>
      if conv_fits cs groups cin_g cout_g kernel s then
        Some (mk_tensor (n :: conv_out_shape pad cs ++ [(groups * cout_g)%nat])
          (fun i => conv 0 Qplus Qmult pad cs cin_g cout_g (fun j => at_ x (hd 0%nat i :: tl j)) (at_ kernel) (removelast (tl i)) (last (tl i) 0%nat)))
      else None
  | [] => None
  end.
(** ReplayQConv.call, conv.py 112-146 (channels_last) *)
Definition replay_conv_layer (pad : padding) (cs : list cdim) (groups cin_g cout_g : nat) (kernel v : tensor Q) : option (tensor Q) :=
  if conv_fits cs groups cin_g cout_g kernel (shape v) then
    Some (mk_tensor (conv_out_shape pad cs ++ [(groups * cout_g)%nat])
      (fun i => replay_conv pad cs (groups * cin_g)%nat groups (groups * cout_g)%nat
                  (fun j => at_ v (unflat (shape v) j)) (fun j => at_ kernel (unflat (shape kernel) j)) (fun _ => 0) (removelast i) (last i 0%nat)))
  else None.
(** AveragePooling, MaxPooling (Keras, external: [pool] is avg_pool or max_pool) and ReplayPool.call, pool.py 66-104 ([pool]
    is replay_avg_pool or replay_max_pool) *)
Definition keras_pool (pool : (index -> Q) -> index -> nat -> Q) (pad : padding) (cs : list cdim) (ch : nat) (x : tensor Q) : option (tensor Q) :=
  match shape x with
  | n :: s =>
      if nat_list_eqb s (map c_in cs ++ [ch]) then
        Some (mk_tensor (n :: conv_out_shape pad cs ++ [ch]) (fun i => pool (fun j => at_ x (hd 0%nat i :: tl j)) (removelast (tl i)) (last (tl i) 0%nat)))
      else None
  | [] => None
  end.
Definition replay_pool (pool : (nat -> Q) -> index -> nat -> Q) (pad : padding) (cs : list cdim) (ch : nat) (v : tensor Q) : option (tensor Q) :=
  if nat_list_eqb (shape v) (map c_in cs ++ [ch]) then
    Some (mk_tensor (conv_out_shape pad cs ++ [ch]) (fun i => pool (fun j => at_ v (unflat (shape v) j)) (removelast i) (last i 0%nat)))
  else None.

(** inputs * qscale + qoffset, batch_normalization.py 178-184: scale and offset have one axis and are reshaped to _shape *)
Definition keras_batchnorm (sh : list nat) (scale offset x : tensor Q) : option (tensor Q) :=
  do s <- np_reshape sh scale; do o <- np_reshape sh offset;
  do r <- np_binary Qmult x s; np_binary Qplus r o.
(** batchnorm.py 12-16: shape = layer._shape[1:] *)
Definition replay_batchnorm (sh : list nat) (scale offset v : tensor Q) : option (tensor Q) :=
  do s <- np_reshape (tl sh) scale; do o <- np_reshape (tl sh) offset;
  do r <- np_binary Qmult v s; np_binary Qplus r o.

(** the layers' own computation on a batch, without input quantizer, activation and output quantizer *)
Definition core_call (c : core) (x : tin) : option (tensor Q) :=
  match c, x with
  | CQuantizer q, One x => quant_call q x
  | CDense k b, One x => do y <- keras_matmul x k; add_bias y b
  | CEinsum li lk lo k b, One x => do y <- np_einsum li lk lo x k; add_bias y b
  | CConv pad cs g ci co k b, One x => do y <- keras_conv pad cs g ci co k x; add_bias y b
  | CBatchNorm sh s o, One x => if (List.length (shape x) =? List.length sh)%nat then keras_batchnorm sh s o x else None
  | CSum ndim axes kd scale, One x => if (List.length (shape x) =? ndim)%nat then Some (layer_qsum axes kd scale x) else None
  | CAvgPool pad cs ch, One x => keras_pool (avg_pool pad cs) pad cs ch x
  | CMaxPool pad cs ch, One x => keras_pool (max_pool pad cs) pad cs ch x
  | CMerge op, Many xs => keras_merge op xs
  | CReshape sh, One x => if (nprod sh =? nprod (tl (shape x)))%nat then keras_reshape sh x else None
  | CFlatten, One x => keras_flatten x
  | CReLU, One x => Some (tmap relu x)
  | CLut, One x => Some x                      (* layers/activation.py 58-61: the call is the activation alone *)
  | _, _ => None
  end.
(** the [call] methods of the replay classes on one sample.  CLut, activation.py 50-62: x.apply(op.activation); the table of the
    function on the values of the variable is the function (C34) *)
Definition core_replay (c : core) (a : act) (v : tin) : option (tensor Q) :=
  match c, v with
  | CQuantizer q, One v => quant_mirror q v                                                (* _base.py 152-158 *)
  | CDense k b, One v => replay_dense k b v
  | CEinsum li lk lo k b, One v => replay_einsum_dense li lk lo k b v
  | CConv pad cs g ci co k b, One v => do y <- replay_conv_layer pad cs g ci co k v; replay_add_bias y b
  | CBatchNorm sh s o, One v => replay_batchnorm sh s o v
  | CSum _ axes kd scale, One v => replay_qsum axes kd scale v
  | CAvgPool pad cs ch, One v => replay_pool (replay_avg_pool pad cs ch) pad cs ch v
  | CMaxPool pad cs ch, One v => replay_pool (replay_max_pool pad cs ch) pad cs ch v
  | CMerge op, Many vs => replay_merge op vs
  | CReshape sh, One v => replay_reshape sh v
  | CFlatten, One v => replay_flatten v
  | CReLU, One v => Some (tmap relu v)                                                     (* activation.py 30-31 *)
  | CLut, One v => Some (tmap (act_fn a) v)
  | _, _ => None
  end.
(** __activation_handled__ *)
Definition activation_handled (c : core) : bool := match c with CLut => true | _ => false end.

(** ** Layers *)
Inductive layer :=
  | LPlain (c : core) (a : act)                                           (* not a QLayerBase; keras.layers.EinsumDense has an activation *)
  | LQ (iq : option quants) (c : core) (a : act) (oq : option quant).     (* a QLayerBase; None: enable_iq / enable_oq is False *)

(** positional arguments: an array or a list of arrays *)
Definition one_arg {V} (args : list (varg V)) : option (inp V) :=
  match args with
  | [VArr v] => Some (One v)
  | [VList l] => do vs <- all_arr l; Some (Many vs)
  | _ => None
  end.
Notation kwargs_t := (list (string * varg (tensor Q))).
(** what is passed as [training]: absent, or a constant; 0 stands for False *)
Definition no_kwargs (kw : kwargs_t) : bool := match kw with [] => true | _ => false end.
Definition training_off (kw : kwargs_t) : bool :=
  match kw with [] => true | [(k, VConst 0)] => String.eqb k "training" | _ => false end.

(** calling the layer on a batch in inference: the layer's call (iq, operation, activation) and the wrapper's output quantizer,
    core/base.py 110-115 *)
Definition keras_layer (l : layer) (args : list (varg (tensor Q))) (kw : kwargs_t) : option (list (string * list (tensor Q))) :=
  do x <- one_arg args;
  do y <- match l with
          | LPlain c a => if no_kwargs kw then do y <- core_call c x; Some (tmap (act_fn a) y) else None
          | LQ iq c a oq =>
              if training_off kw then
                do x <- match iq with Some q => iq_call q x | None => Some x end;
                do y <- core_call c x;
                let y := tmap (act_fn a) y in
                match oq with Some q => quant_call q y | None => Some y end
              else None
          end;
  Some [("final"%string, [y])].

(** _normalize_to_tuple, _base.py 76-84: a single variable (the result of indexing or reducing an array of one axis)
    becomes an array of shape [1].  Here every array without axes does. *)
Definition normalize (z : tensor Q) : tensor Q := match shape z with [] => mk_tensor [1%nat] (fun _ => at_ z []) | _ => z end.

(** ReplayOperationBase.__call__, _base.py 90-142 *)
Definition replay_layer (l : layer) (args : list (varg (tensor Q))) (kw : kwargs_t) : option (list (string * list (tensor Q))) :=
  if forallb (fun kv => match snd kv with VArr _ => false | _ => true end) kw then                       (* 91 *)
    match l with
    | LPlain c a =>                                                                                      (* 93-95 *)
        if no_kwargs kw then do v <- one_arg args; do z <- core_replay c a v; Some [("final"%string, [normalize z])] else None
    | LQ iq c a oq =>
        if training_off kw then                                                                          (* 98 *)
          do v <- one_arg args;                                                                          (* 102-103 *)
          do v <- match iq with Some q => iq_replay q v | None => Some v end;                            (* 105-111 *)
          let trace := match iq with Some _ => [("post_iq"%string, arrays v)] | None => [] end in        (* 112 *)
          do z <- core_replay c a v;                                                                     (* 114 *)
          let post_call := normalize z in                                                                (* 117-118 *)
          do final <- (if activation_handled c then Some post_call                                       (* 120-131 *)
                       else match a with ALinear => Some post_call | ARelu => Some (tmap relu post_call) | AFn _ => None end);
          let trace := trace ++ [("post_call"%string, [post_call])] in
          match oq with                                                                                  (* 133-142: 'final' is popped and set last *)
          | Some q => do r <- quant_mirror q final; Some (trace ++ [("post_oq"%string, [r]); ("final"%string, [r])])
          | None => Some (trace ++ [("final"%string, [final])])
          end
        else None
    end
  else None.

(** trace_model on a functional model of these layers, main.py 67-143 *)
Definition trace_net (fuel : nat) (m : model layer) (sample_inputs : list (tensor Q)) : option (list (string * list (tensor Q))) :=
  trace_model replay_layer fuel 0 m sample_inputs.
