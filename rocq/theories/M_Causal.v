(** Model of the one-dimensional convolution layer and of its causal mode, on a batch.

    Source: /repo/src/hgq/layers/conv.py 54-70 and 72-102 (QBaseConv: build, call, _compute_ebops), 127-172 (QConv1D: causal padding, call),
    /repo/src/hgq/layers/core/base.py 82-113 (the wrapped call: EBOPs after the layer's own call),
    /repo/src/hgq/quantizer/quantizer.py 49-60 (Quantizer.call).

    channels_last (batch, steps, channels); the kernel and the bias are the quantized ones; no output quantizer (enable_oq is
    off by default, config/layer.py 17).  [None] as a result: the call raises.  The value of the EBOPs is modelled in
    M_Ebops; here only whether computing them raises. *)
From Verif Require Import Num M_Fixed M_State M_Wrapper M_Mapper M_Contr M_Ebops M_Pow2 M_Patch M_Ops M_Mirror M_Trace M_Net.

(** the attribute [padding] of the layer *)
Inductive padmode := PValid | PSame | PCausal.
Record conv1d := mk_conv1d {
  v_k : nat; v_stride : nat; v_dil : nat;                    (* kernel_size[0], strides[0], dilation_rate[0] *)
  v_groups : nat; v_cin_g : nat; v_cout_g : nat;             (* input / output channels per group *)
  v_kernel : tensor Q; v_bias : option (tensor Q);
  v_act : act; v_ebops : bool }.                             (* v_ebops: enable_ebops *)
(** what a call can change: the attribute [padding], and the state of the input quantizer ([None]: enable_iq is off) *)
Record vstate := mk_vstate { s_pad : padmode; s_iq : option quant }.

(** Quantizer.call, quantizer.py 49-60, in every mode; the flag of trace_minmax is false as a truth value *)
Definition inner_call (m : mode) (q : quant) (x : tensor Q) : option (quant * tensor Q) :=
  match q_s q with
  | inl s => do (s', y) <- kif_tcall (q_c q) (q_hom q) m s x; Some (mk_quant (q_w q) (q_c q) (q_hom q) (inl s'), y)
  | inr s => do (s', y) <- kbi_tcall (q_c q) (q_hom q) m s x; Some (mk_quant (q_w q) (q_c q) (q_hom q) (inr s'), y)
  end.
Definition quant_step (m : mode) (q : quant) (x : tensor Q) : option (quant * tensor Q) :=
  let inputs := match w_scaler (q_w q) with Some s => tmap (fun x => x / s) x | None => x end in
  do (q', outputs) <- inner_call m q inputs;
  let outputs := match w_scaler (q_w q) with Some s => tmap (fun y => y * s) outputs | None => outputs end in
  let outputs := match w_noise (q_w q) with
                 | Some n => if is_train m then tmap2 (fun x y => x + n * (y - x)) inputs outputs else outputs
                 | None => outputs end in
  Some (q', match w_affine (q_w q) with Some (a, b) => tmap (fun y => y * a + b) outputs | None => outputs end).
(** the shape of the bit-widths of a built quantizer *)
Definition width_shape (q : quant) : list nat := match q_s q with inl s => shape (t_f s) | inr s => shape (u_b s) end.

(** QConv1D._compute_causal_padding, conv.py 153-159 *)
Definition left_pad (v : conv1d) : nat := (v_dil v * (v_k v - 1))%nat.
(** ops.pad(inputs, [[0, 0], [p, 0], [0, 0]]) *)
Definition pad_steps (p : nat) (x : tensor Q) : option (tensor Q) :=
  match shape x with
  | [b; n; c] => Some (mk_tensor [b; (p + n)%nat; c] (fun i =>
      match i with [b; t; c] => if (t <? p)%nat then 0 else at_ x [b; (t - p)%nat; c] | _ => 0 end))
  | _ => None
  end.
(** BaseConv.convolution_op (external: ops.conv); the backends know 'valid' and 'same' only *)
Definition convolution_op (pad : padmode) (v : conv1d) (x : tensor Q) : option (tensor Q) :=
  let geo := [mk_cdim (nth 1 (shape x) 0%nat) (v_k v) (v_stride v) (v_dil v)] in
  match pad with
  | PValid => keras_conv VALID geo (v_groups v) (v_cin_g v) (v_cout_g v) (v_kernel v) x
  | PSame => keras_conv SAME geo (v_groups v) (v_cin_g v) (v_cout_g v) (v_kernel v) x
  | PCausal => None
  end.
(** QBaseConv.call, conv.py 72-89: the quantizer after the call (unchanged when it raises), and the result *)
Definition conv_body (pad : padmode) (v : conv1d) (iq : option quant) (m : mode) (x : tensor Q) : option quant * option (tensor Q) :=
  let post := fun x => do r <- convolution_op pad v x; do r <- add_bias r (v_bias v); Some (tmap (act_fn (v_act v)) r) in
  match iq with
  | None => (None, post x)
  | Some q => match quant_step m q x with
              | None => (Some q, None)
              | Some (q', xq) => (Some q', post xq)
              end
  end.
(** QConv1D.call, conv.py 161-172: the attribute is set back only after a super().call that returned *)
Definition conv1d_call (v : conv1d) (s : vstate) (m : mode) (x : tensor Q) : vstate * option (tensor Q) :=
  let is_causal := match s_pad s with PCausal => true | _ => false end in
  match (if is_causal then pad_steps (left_pad v) x else Some x) with
  | None => (s, None)
  | Some inputs =>
      let pad := if is_causal then PValid else s_pad s in
      let '(iq, r) := conv_body pad v (s_iq s) m inputs in
      match r with
      | None => (mk_vstate pad iq, None)
      | Some ret => (mk_vstate (if is_causal then PCausal else pad) iq, Some ret)
      end
  end.
(** QBaseConv._compute_ebops, conv.py 91-102, on the shape of the input of the call: whether it returns.  Line 92 needs the input
    quantizer, and line 94 convolves with the attribute [padding] as it is *)
Definition ebops_returns (s : vstate) (sh : list nat) : bool :=
  match s_iq s with
  | None => false
  | Some q => bcast_ok (width_shape q) (1%nat :: tl sh) && match s_pad s with PCausal => false | _ => true end
  end.
(** the wrapped call, core/base.py 88-112 *)
Definition conv1d_layer (v : conv1d) (s : vstate) (m : mode) (x : tensor Q) : vstate * option (tensor Q) :=
  let '(s', r) := conv1d_call v s m x in
  match r with
  | None => (s', None)
  | Some y =>
      let counted := match m with Infer => false | Train | Trace => v_ebops v end in
      if counted then (s', if ebops_returns s' (shape x) then Some y else None) else (s', Some y)
  end.
(** a history of calls; an exception of one call is caught by the user *)
Fixpoint conv1d_run (v : conv1d) (s : vstate) (h : list (mode * tensor Q)) : vstate * list (option (tensor Q)) :=
  match h with
  | [] => (s, [])
  | (m, x) :: h' =>
      let '(s1, y) := conv1d_layer v s m x in
      let '(s2, ys) := conv1d_run v s1 h' in
      (s2, y :: ys)
  end.
