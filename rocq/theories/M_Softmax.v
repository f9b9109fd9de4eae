(** Model of QSoftmax (/repo/src/hgq/layers/softmax.py 114-132), of its hardware replay
    (/repo/src/hgq/_dais_tracer/layers/activation.py 64-85) and of the attention scores
    (/repo/src/hgq/layers/attn/mha.py).

    One softmax group (the positions that share their coordinates off [axes]) is a list of
    positions; inputs and tables are functions of the position, since quantizers may be
    heterogeneous.  Inference mode; arithmetic is exact. *)
From Verif Require Import Num M_Fixed M_State M_Mapper M_Ebops.

Record softmax := mk_softmax {
  sm_stable : bool;
  sm_iq : nat -> Q -> Q;        (* input quantizer; identity when enable_iq is False (softmax.py 115-116) *)
  sm_exp : nat -> Q -> Q;       (* exp_table: input quantizer, exp(-x*s) or exp(x*s), output quantizer *)
  sm_inv : Q -> Q }.            (* inv_table: input quantizer, 1/(x+eps), output quantizer *)

(** ops.max over a non-empty group *)
Fixpoint qmax_of (l : list Q) : Q :=
  match l with
  | [] => 0                     (* not reached: an empty axis raises in the backend *)
  | [x] => x
  | x :: l' => Qmax x (qmax_of l')
  end.
(** ops.cast(mask, dtype) *)
Definition mz (m : bool) : Q := if m then 1 else 0.
(** softmax.py 119-121: [mask * inputs - (1 - mask) * 1e9] *)
Definition mask_input (mask : option (nat -> bool)) (x : nat -> Q) (p : nat) : Q :=
  match mask with None => x p | Some m => mz (m p) * x p - (1 - mz (m p)) * 1000000000 end.
(** what enters the exp table: softmax.py 115-122 *)
Definition sm_exp_input (s : softmax) (mask : option (nat -> bool)) (x : nat -> Q) (ps : list nat) (p : nat) : Q :=
  let inputs := fun q => sm_iq s q (x q) in
  if sm_stable s then qmax_of (map (mask_input mask inputs) ps) - mask_input mask inputs p
  else inputs p.
(** softmax.py 124-127 *)
Definition sm_exps (s : softmax) (mask : option (nat -> bool)) (x : nat -> Q) (ps : list nat) (p : nat) : Q :=
  let e := sm_exp s p (sm_exp_input s mask x ps p) in
  match mask with None => e | Some m => mz (m p) * e end.
(** softmax.py 129-132 *)
Definition sm_call (s : softmax) (mask : option (nat -> bool)) (x : nat -> Q) (ps : list nat) (p : nat) : Q :=
  sm_exps s mask x ps p * sm_inv s (qsum (map (sm_exps s mask x ps) ps)).

(** Replay, _dais_tracer/layers/activation.py 67-85: [low] is np.min(inputs.lhs[0]) - 1 (74), the smallest value the traced
    inputs can take, minus one; [lhs0] lists the lower ends of the ranges of all inputs of the layer (every
    group, not only this one) *)
Definition replay_low (lhs0 : list Q) : Q := - qmax_of (map Qopp lhs0) - 1.
Definition replay_exp_input (s : softmax) (lhs0 : list Q) (mask : option (nat -> bool)) (x : nat -> Q) (ps : list nat) (p : nat) : Q :=
  let inputs := fun q => sm_iq s q (x q) in
  if sm_stable s then
    let inputs := match mask with None => inputs | Some m => fun q => if m q then inputs q else replay_low lhs0 end in
    qmax_of (map inputs ps) - inputs p
  else inputs p.
Definition replay_exps s lhs0 (mask : option (nat -> bool)) x ps p : Q :=
  let e := sm_exp s p (replay_exp_input s lhs0 mask x ps p) in
  match mask with None => e | Some m => mz (m p) * e end.
Definition replay_softmax s lhs0 mask x ps p : Q :=
  replay_exps s lhs0 mask x ps p * sm_inv s (qsum (map (replay_exps s lhs0 mask x ps) ps)).

(** ** Attention scores of one head and one query position: mha.py 150-205 (projections) and
    keras _compute_attention (einsum over the key dimension); [bias] is the key bias, which the
    code does not create (174: [bias_axes=None]) *)
Definition scores (dk : nat) (query : nat -> Q) (key : nat -> nat -> Q) (bias : nat -> Q) (p : nat) : Q :=
  qsum (map (fun d => query d * (key p d + bias d)) (seq 0 dk)).
(** the attention output of one head: sum over the key positions of weight * value *)
Definition attention (s : softmax) (mask : option (nat -> bool)) (dk : nat) query key bias (value : nat -> nat -> Q) (ps : list nat) (d : nat) : Q :=
  qsum (map (fun p => sm_call s mask (scores dk query key bias) ps p * value p d) ps).

(** the widths of the exp table's input quantizer (kif, one shared width) after calibration on this
    group: the quantizer sees [sm_exp_input] at every position (QUnaryFunctionLUT.call, layers/activation.py 58-61) *)
Definition exp_calibration (c : qconf) (st : kif_state) (s : softmax) mask x ps : option (kif_state * list Q) :=
  kif_call c Trace st (map (sm_exp_input s mask x ps) ps).
