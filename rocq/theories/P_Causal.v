(** C58: causal one-dimensional convolution. *)
From Verif Require Import Num M_Fixed M_State M_Wrapper M_Mapper S_Mapper M_Ebops M_Mirror M_Net M_Causal S_Causal L_Causal.

(** the quantizer of the input, when its widths do not depend on the step, maps every element by a function of channel and value,
    and keeps zero unless it has an affine map *)
Theorem C58_step_homogeneous_quantizer :
  forall nch q, step_homogeneous nch q ->
    exists qf, channelwise nch (Some q) qf /\ (w_affine (q_w q) = None -> forall c, qf c 0 == 0).
Proof. exact homogeneous_channelwise. Qed.
Print Assumptions C58_step_homogeneous_quantizer.
(** with such a quantizer (or none), every inference call returns the causal convolution of the quantized input, one output per
    stride, and leaves the layer as it was *)
Theorem C58_output_is_causal_convolution :
  forall v iq qf x b n, conv1d_ok v -> channelwise (channels v) iq qf -> shape x = [b; n; channels v] ->
    exists y, conv1d_layer v (mk_vstate PCausal iq) Infer x = (mk_vstate PCausal iq, Some y) /\
      shape y = [b; ((n + v_stride v - 1) / v_stride v)%nat; filters v] /\
      forall i t co, (i < b)%nat -> (t < (n + v_stride v - 1) / v_stride v)%nat -> (co < filters v)%nat -> at_ y [i; t; co] == causal_conv v qf x i t co.
Proof. exact causal_output. Qed.
Print Assumptions C58_output_is_causal_convolution.
(** outputs up to index t do not depend on inputs after step t * stride *)
Theorem C58_no_look_ahead :
  forall v iq qf x x' b n t, conv1d_ok v -> channelwise (channels v) iq qf -> shape x = [b; n; channels v] -> agree_until (t * v_stride v) (channels v) x x' ->
    exists y y', snd (conv1d_layer v (mk_vstate PCausal iq) Infer x) = Some y /\ snd (conv1d_layer v (mk_vstate PCausal iq) Infer x') = Some y' /\ shape y = shape y' /\
      forall i s co, (i < b)%nat -> (s <= t)%nat -> (s < nth 1 (shape y) 0)%nat -> (co < filters v)%nat -> at_ y [i; s; co] == at_ y' [i; s; co].
Proof. exact causal_causality. Qed.
Print Assumptions C58_no_look_ahead.
(** streaming: with stride 1, a later part [w] of the sequence, given the last (k-1)*dilation steps before it as context, gets the outputs of the whole sequence *)
Theorem C58_streaming :
  forall v iq qf x w b n1 n2, conv1d_ok v -> v_stride v = 1%nat -> channelwise (channels v) iq qf -> (reach v <= n1)%nat ->
    shape x = [b; (n1 + n2)%nat; channels v] -> shape w = [b; (reach v + n2)%nat; channels v] ->
    (forall i t c, (i < b)%nat -> (t < reach v + n2)%nat -> (c < channels v)%nat -> at_ w [i; t; c] == at_ x [i; (n1 - reach v + t)%nat; c]) ->
    exists y z, snd (conv1d_layer v (mk_vstate PCausal iq) Infer x) = Some y /\ snd (conv1d_layer v (mk_vstate PCausal iq) Infer w) = Some z /\
      forall i t co, (i < b)%nat -> (t < n2)%nat -> (co < filters v)%nat -> at_ y [i; (n1 + t)%nat; co] == at_ z [i; (reach v + t)%nat; co].
Proof. exact causal_stream. Qed.
Print Assumptions C58_streaming.
(** a history of calls, in any mode, none of which raises leaves the padding mode as it was *)
Theorem C58_history_keeps_the_mode :
  forall v h s s' ys, conv1d_run v s h = (s', ys) -> (forall y, In y ys -> y <> None) -> s_pad s' = s_pad s.
Proof. intros v h. exact (run_pad v h). Qed.
Print Assumptions C58_history_keeps_the_mode.
(** and a history of inference calls never raises, and gives every input what a fresh layer gives it *)
Theorem C58_inference_history :
  forall v iq qf h, conv1d_ok v -> channelwise (channels v) iq qf -> (forall m x, In (m, x) h -> m = Infer /\ exists b n, shape x = [b; n; channels v]) ->
    conv1d_run v (mk_vstate PCausal iq) h = (mk_vstate PCausal iq, map (fun mx => snd (conv1d_layer v (mk_vstate PCausal iq) (fst mx) (snd mx))) h) /\
    forall y, In y (snd (conv1d_run v (mk_vstate PCausal iq) h)) -> y <> None.
Proof. exact run_infer. Qed.
Print Assumptions C58_inference_history.

(** NOT true in general.  (1) With the default input quantizer, which has a width for every step, the padded input does not fit the
    widths: every call, in every mode, of a causal layer with more than one tap on more than one step raises, and leaves the layer in mode 'valid' *)
Theorem C58_default_quantizer_refuted :
  forall v q m x b n nch, (0 < reach v)%nat -> (1 < n)%nat -> default_axes n nch q -> shape x = [b; n; nch] ->
    conv1d_layer v (mk_vstate PCausal (Some q)) m x = (mk_vstate PValid (Some q), None).
Proof. exact default_raises. Qed.
Print Assumptions C58_default_quantizer_refuted.
(** (2) so the same call repeated after the exception returns, without an error, a shorter, not causal result *)
Theorem C58_retry_after_error_refuted :
  forall v q x b n, conv1d_ok v -> v_stride v = 1%nat -> (0 < reach v)%nat -> (1 < n)%nat -> default_axes n (channels v) q -> shape x = [b; n; channels v] ->
    exists y, snd (conv1d_run v (mk_vstate PCausal (Some q)) [(Infer, x); (Infer, x)]) = [None; Some y] /\ shape y = [b; (n - reach v)%nat; filters v].
Proof. exact retry. Qed.
Print Assumptions C58_retry_after_error_refuted.
(** (3) with EBOPs enabled every training call, and every call of trace_minmax, of a causal layer raises *)
Theorem C58_training_with_ebops_refuted :
  forall v iq m x, v_ebops v = true -> m <> Infer -> snd (conv1d_layer v (mk_vstate PCausal iq) m x) = None.
Proof. exact training_raises. Qed.
Print Assumptions C58_training_with_ebops_refuted.

(** a layer with 2 taps, dilation 2, 1 channel and bias; weights 1/2 and 3; 5 steps *)
Definition ex_conv : conv1d :=
  mk_conv1d 2 1 2 1 1 1 (mk_tensor [2; 1; 1]%nat (fun i => match i with 0%nat :: _ => 1#2 | _ => 3 end)) (Some (mk_tensor [1%nat] (fun _ => 1))) ARelu true.
Example C58_ok : conv1d_ok ex_conv.
Proof.
  unfold conv1d_ok. cbn. repeat split; try lia.
  - intros b E. assert (b = mk_tensor [1%nat] (fun _ => 1)) as -> by congruence. reflexivity.
  - intros a b E. unfold relu. rewrite E. reflexivity.
Qed.
Definition ex_scalar {A} (sh : list nat) (a : A) : tensor A := mk_tensor sh (fun _ => a).
(** widths shared by the steps: 4 integer bits, 1 fractional bit, signed *)
Definition ex_shared : quant :=
  mk_quant (mk_wrapper None None None) (mk_qconf RND SAT true false None None) [0; 1]%nat (inl (mk_kift (ex_scalar [1; 1; 1]%nat true) (ex_scalar [1; 1; 1]%nat 4) (ex_scalar [1; 1; 1]%nat 1))).
Example C58_homogeneous : step_homogeneous 1 ex_shared.
Proof.
  split; [reflexivity|]. exists (Some [2%Z]), None, (Some 5%nat), [2%nat], [1; 1; 1]%nat. split; [split; reflexivity|]. split; [cbn; intuition discriminate|]. repeat split.
Qed.
Definition ex_x : tensor Q := mk_tensor [1; 5; 1]%nat (fun i => inject_Z (Z.of_nat (nth 1 i 0%nat)) + (1#8)).
(** quantized input 0 1 2 3 4; output 3 x[t] + x[t-2]/2 + 1 *)
Example C58_values :
  option_map (fun y => (shape y, map (fun t => Qred (at_ y [0; t; 0]%nat)) (seq 0 5))) (snd (conv1d_layer ex_conv (mk_vstate PCausal (Some ex_shared)) Infer ex_x))
  = Some ([1; 5; 1]%nat, [1; 4; 7; 21#2; 14]).
Proof. vm_compute. reflexivity. Qed.
(** the default axes *)
Definition ex_default : quant :=
  mk_quant (mk_wrapper None None None) (mk_qconf RND WRAP true false None None) [0%nat] (inl (mk_kift (ex_scalar [1; 5; 1]%nat true) (ex_scalar [1; 5; 1]%nat 4) (ex_scalar [1; 5; 1]%nat 1))).
Example C58_default : default_axes 5 1 ex_default /\ (0 < reach ex_conv)%nat.
Proof.
  split; [|cbn; lia]. split; [reflexivity|]. exists [1; 2]%nat, [1; 5; 1]%nat. split; [split; reflexivity|]. repeat split.
Qed.
Example C58_retry_values :
  map (option_map (fun y => (shape y, map (fun t => Qred (at_ y [0; t; 0]%nat)) (seq 0 3)))) (snd (conv1d_run ex_conv (mk_vstate PCausal (Some ex_default)) [(Infer, ex_x); (Infer, ex_x)]))
  = [None; Some ([1; 3; 1]%nat, [7; 21#2; 14])].
Proof. vm_compute. reflexivity. Qed.
