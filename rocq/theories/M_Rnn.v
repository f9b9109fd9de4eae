(** Model of the spiking and recurrent layers and of their hardware replay.

    Source: /repo/src/hgq/layers/snn/base.py, /repo/src/hgq/layers/rnn/simple_rnn.py, /repo/src/hgq/layers/rnn/gru.py,
    /repo/src/hgq/_alkaid_keras_plugin/snn.py, /repo/src/hgq/_alkaid_keras_plugin/rnn.py.

    All operations act on each row of the batch separately, so the model follows one row: a vector is a function
    from positions (only those below the layer's size matter).  Inference only (dropout and surrogate gradients
    have no part in it).  Traced variables are modelled by their values, as in M_Mirror. *)
From Verif Require Import Num M_Fixed M_Wrapper M_Mirror M_Ebops.

Notation vec := (nat -> Q).

(** ** quantizers on a vector of the cell (built with shape (None, n), so one format per position) *)
Record vquant := mk_vquant { q_rm : rmode; q_om : omode; q_k : nat -> bool; q_i : nat -> Z; q_f : nat -> Z; q_aff : option (Q * Q) }.
Definition affine_of (a : option (Q * Q)) (y : Q) : Q := match a with Some (s, b) => y * s + b | None => y end.
(** Quantizer.call in inference (quantizer.py 49-60), no scaler *)
Definition layer_q (q : vquant) (v : vec) : vec := fun j => affine_of (q_aff q) (base_call (q_rm q) (q_om q) false (q_k q j) (q_i q j) (q_f q j) (v j)).
(** mirror_quantizer (_alkaid_keras_plugin/_base.py 15-28), no scaler *)
Definition mirror_q (q : vquant) (v : vec) : vec :=
  fun j => affine_of (q_aff q) (hw_quantize (q_rm q) (q_om q) (q_k q j) (to_int8 (q_i q j)) (to_int8 (q_f q j)) (v j)).
Definition opt_q (app : vquant -> vec -> vec) (q : option vquant) (v : vec) : vec := match q with Some q => app q v | None => v end.

(** ** the time loop *)
(** keras RNN.call / backend.rnn (external): inputs reversed for go_backwards, outputs in processing order *)
Fixpoint scan {S X Y} (step : X -> S -> Y * S) (xs : list X) (s : S) : list Y * S :=
  match xs with
  | [] => ([], s)
  | x :: xs' => let '(y, s1) := step x s in let '(ys, s2) := scan step xs' s1 in (y :: ys, s2)
  end.
Definition keras_rnn {S X Y} (step : X -> S -> Y * S) (backwards : bool) (xs : list X) (s : S) : list Y * S :=
  scan step (if backwards then rev xs else xs) s.
(** _QSNNReplay.call (_alkaid_keras_plugin/snn.py 69-89) and _QRNNReplay.call (_alkaid_keras_plugin/rnn.py 31-48): outputs are appended while t runs up or down;
    [dx] stands for an index error, which range(seq_len) excludes *)
Definition replay_steps (backwards : bool) (len : nat) : list nat := if backwards then rev (seq 0 len) else seq 0 len.
Definition replay_rnn {S X Y} (dx : X) (step : X -> S -> Y * S) (backwards : bool) (xs : list X) (s : S) : list Y * S :=
  fold_left (fun acc t => let '(outputs, state) := acc in let '(y, state') := step (nth t xs dx) state in (outputs ++ [y], state'))
    (replay_steps backwards (length xs)) ([], s).

(** ** Spiking cells *)
Inductive reset_mech := RSubtract | RZero | RNone.
Record snn_cell := mk_snn {
  s_units : nat; s_iq : option vquant; s_oq : option vquant; s_sq : option vquant;
  s_beta : option vec;          (* QLIFCell.qlif_beta, snn/base.py 501-503; None: QSimpleSNNCell *)
  s_threshold : vec; s_factor : vec (* qgraded_spikes_factor 335-337 *);
  s_inhibition : bool; s_reset : reset_mech;
  s_soft : option (Q -> Q)      (* ATan's arctan term; None: surrogate_disable *) }.
Definition hard (x : Q) : Q := if qlt_b 0 x then 1 else 0.
(** spike_grad: ATan.__call__, snn/base.py 27-33 (stop_gradient(hard - soft) + soft), _surrogate_bypass 154-156; other callables: not modelled *)
Definition spike (c : snn_cell) (x : Q) : Q := match s_soft c with Some soft => (hard x - soft x) + soft x | None => hard x end.
(** ops.argmax: first position of the maximum *)
Fixpoint argmax (f : vec) (n : nat) : nat :=
  match n with
  | O => O
  | S m => match m with O => O | S _ => let a := argmax f m in if qlt_b (f a) (f m) then m else a end
  end.
Definition one_hot (i : nat) : vec := fun j => if (i =? j)%nat then 1 else 0.
(** fire, snn/base.py 357-362: the spikes, before the graded factor *)
Definition snn_spk (c : snn_cell) (mem : vec) : vec := fun j =>
  let spk := spike c (mem j - s_threshold c j) in
  if s_inhibition c then spk * one_hot (argmax (fun i => mem i - s_threshold c i) (s_units c)) j else spk.
(** reset, snn/base.py 364-370 *)
Definition snn_reset (c : snn_cell) (mem spk : vec) : vec := fun j =>
  match s_reset c with
  | RSubtract => mem j - spk j * s_threshold c j
  | RZero => mem j * (1 - spk j)
  | RNone => mem j
  end.
(** QSimpleSNNCell.call, QLIFCell.call, snn/base.py 408-414, 519-525 *)
Definition snn_call (c : snn_cell) (x state : vec) : vec * vec :=
  let qx := opt_q layer_q (s_iq c) x in
  let mem := match s_beta c with Some beta => fun j => beta j * state j + qx j | None => fun j => state j + qx j end in
  let spk := snn_spk c mem in
  let output := fun j => spk j * s_factor c j in
  (opt_q layer_q (s_oq c) output, opt_q layer_q (s_sq c) (snn_reset c mem spk)).

(** _spike, _alkaid_keras_plugin/snn.py 31-44: which units fire *)
Definition replay_fire (c : snn_cell) (state : vec) (i : nat) : bool :=
  let score := fun j => state j - s_threshold c j in
  let fire := qlt_b 0 (score i) in
  if s_inhibition c then
    fire && forallb (fun j => qlt_b (score j) (score i)) (seq 0 i)
         && forallb (fun j => Qle_bool (score j) (score i)) (seq (S i) (s_units c - S i))
  else fire.
(** _reset, _alkaid_keras_plugin/snn.py 47-52 *)
Definition replay_reset (c : snn_cell) (state : vec) (fire : nat -> bool) : vec := fun j =>
  match s_reset c with
  | RSubtract => if fire j then state j - s_threshold c j else state j
  | RZero => if fire j then 0 else state j
  | RNone => state j
  end.
(** _step, _alkaid_keras_plugin/snn.py 54-67 *)
Definition replay_snn (c : snn_cell) (x state : vec) : vec * vec :=
  let x := opt_q mirror_q (s_iq c) x in
  let mem := match s_beta c with Some beta => fun j => beta j * state j + x j | None => fun j => state j + x j end in
  let fire := replay_fire c mem in
  let output := fun j => if fire j then s_factor c j else 0 in
  (opt_q mirror_q (s_oq c) output, opt_q mirror_q (s_sq c) (replay_reset c mem fire)).

(** ** Recurrent cells.  A matrix is indexed by row and column. *)
Notation mat := (nat -> nat -> Q).
Definition vecmat (n : nat) (v : vec) (m : mat) : vec := fun j => qsum (map (fun i => v i * m i j) (seq 0 n)).

Record rnn_cell := mk_rnn {
  r_units : nat; r_in : nat; r_iq : vquant; r_sq : option vquant; r_paq : vquant;
  r_kernel : mat; r_rkernel : mat; r_bias : option vec (* the quantized weights *); r_act : Q -> Q }.
(** QSimpleRNNCell.call, simple_rnn.py 232-259 *)
Definition rnn_call (c : rnn_cell) (x state : vec) : vec * vec :=
  let qstate := opt_q layer_q (r_sq c) state in
  let qx := layer_q (r_iq c) x in
  let h := vecmat (r_in c) qx (r_kernel c) in
  let h := match r_bias c with Some b => fun j => h j + b j | None => h end in
  let output := fun j => h j + vecmat (r_units c) qstate (r_rkernel c) j in
  let output := layer_q (r_paq c) output in
  let output := fun j => r_act c (output j) in
  (output, output).
(** _QSimpleRNN._step, _alkaid_keras_plugin/rnn.py 59-70; [act'] is keras_unary_to_numpy(activation) (external) *)
Definition replay_rnn_cell (c : rnn_cell) (act' : Q -> Q) (x state : vec) : vec * vec :=
  let qx := mirror_q (r_iq c) x in
  let qstate := opt_q mirror_q (r_sq c) state in
  let y := vecmat (r_in c) qx (r_kernel c) in
  let y := match r_bias c with Some b => fun j => y j + b j | None => y end in
  let y := fun j => y j + vecmat (r_units c) qstate (r_rkernel c) j in
  let y := mirror_q (r_paq c) y in
  let y := fun j => act' (y j) in
  (y, y).

(** biases of a GRU cell: none; one vector (reset_after off); input and recurrent vector (reset_after on) *)
Inductive gru_bias := GNoBias | GBias (input : vec) (recurrent : vec).
Record gru_cell := mk_gru {
  g_units : nat; g_in : nat; g_iq : option vquant; g_sq : vquant; g_paq : vquant; g_praq : vquant; g_rhq : vquant;
  g_kernel : mat; g_rkernel : mat; g_bias : gru_bias; g_reset_after : bool; g_act : Q -> Q; g_ract : Q -> Q }.
Definition drop_cols (k : nat) (m : mat) : mat := fun i j => m i (k + j)%nat.
(** QGRUCell.call, gru.py 281-329.  With reset_after off, the recurrent bias of [GBias] is not used (286) *)
Definition gru_call (c : gru_cell) (x state : vec) : vec * vec :=
  let n := g_units c in
  let qh := layer_q (g_sq c) state in
  let qx := opt_q layer_q (g_iq c) x in
  let matrix_x := fun j => vecmat (g_in c) qx (g_kernel c) j + match g_bias c with GNoBias => 0 | GBias b _ => b j end in
  let x_h := fun j => matrix_x (2 * n + j)%nat in
  let inner :=
    if g_reset_after c
    then fun j => match g_bias c with GNoBias => vecmat n qh (g_rkernel c) j | GBias _ rb => vecmat n qh (g_rkernel c) j + rb j end
    else vecmat n qh (g_rkernel c) (* columns below 2n *) in
  let qzr := layer_q (g_praq c) (fun j => g_ract c (matrix_x j + inner j)) in
  let qz := qzr in let qr := fun j => qzr (n + j)%nat in
  let recurrent_h :=
    if g_reset_after c
    then fun j => qr j * layer_q (g_rhq c) (fun i => inner (2 * n + i)%nat) j
    else vecmat n (layer_q (g_rhq c) (fun i => qr i * qh i)) (drop_cols (2 * n) (g_rkernel c)) in
  let qhh := layer_q (g_paq c) (fun j => g_act c (x_h j + recurrent_h j)) in
  let h := fun j => qz j * qh j + (1 - qz j) * qhh j in
  (h, h).
(** _QGRU._step, _alkaid_keras_plugin/rnn.py 82-115 *)
Definition replay_gru_cell (c : gru_cell) (act' ract' : Q -> Q) (x state : vec) : vec * vec :=
  let n := g_units c in
  let qstate := mirror_q (g_sq c) state in
  let qx := opt_q mirror_q (g_iq c) x in
  let '(input_bias, recurrent_bias) :=
    match g_bias c with
    | GBias b rb => if g_reset_after c then (b, rb) else (b, fun _ => 0)
    | GNoBias => (fun _ => 0, fun _ => 0)
    end in
  let matrix_x := fun j => vecmat (g_in c) qx (g_kernel c) j + input_bias j in
  let x_h := fun j => matrix_x (2 * n + j)%nat in
  let inner :=
    if g_reset_after c then fun j => vecmat n qstate (g_rkernel c) j + recurrent_bias j
    else vecmat n qstate (g_rkernel c) in
  let zr := mirror_q (g_praq c) (fun j => ract' (matrix_x j + inner j)) in
  let z := zr in let r := fun j => zr (n + j)%nat in
  let recurrent_h :=
    if g_reset_after c
    then fun j => r j * mirror_q (g_rhq c) (fun i => inner (2 * n + i)%nat) j
    else vecmat n (mirror_q (g_rhq c) (fun i => r i * qstate i)) (drop_cols (2 * n) (g_rkernel c)) in
  let hh := mirror_q (g_paq c) (fun j => act' (x_h j + recurrent_h j)) in
  let state := fun j => z j * qstate j + (1 - z j) * hh j in
  (state, state).

(** ** Caching of the quantized weights: simple_rnn.py 114-152 and 389-399; gru.py 222-256 *)
Section Cache.
  Context {W X Y : Type} (quant : W -> W) (run : W -> X -> option Y) (* the time loop with the given quantized
    weights; [None]: it raises *).
  Record cell_state := mk_cell { cw : W; cache : option W }.
  Inductive event := SetWeights (w : W) | CallLayer (x : X) | ReadWeights.
  Inductive outcome := Done | Result (y : Y) | Raised | Weights (w : W).
  (** the property qkernel: the cache if present, else quantized now *)
  Definition read_q (s : cell_state) : W := match cache s with Some c => c | None => quant (cw s) end.
  Definition cell_step (e : event) (s : cell_state) : outcome * cell_state :=
    match e with
    | SetWeights w => (Done, mk_cell w (cache s))
    | CallLayer x =>
        let s1 := mk_cell (cw s) (Some (quant (cw s))) in          (* _set_weight_cache *)
        match run (read_q s1) x with
        | Some y => (Result y, mk_cell (cw s) None)                (* _invalidate_weight_cache *)
        | None => (Raised, s1)                                     (* no try/finally: the cache stays *)
        end
    | ReadWeights => (Weights (read_q s), s)
    end.
  Definition cell_run (es : list event) (s : cell_state) : list outcome * cell_state := scan (fun e s => cell_step e s) es s.
End Cache.
Arguments event : clear implicits. Arguments outcome : clear implicits. Arguments cell_state : clear implicits.
