(** Model of layers that call their quantizers many times in one call, and of the calibration of networks of such layers.

    Source: /repo/src/hgq/utils/minmax_trace.py 13-80 (reset, the loop over the batches), /repo/src/hgq/layers/rnn/simple_rnn.py 114-152,
    220-259, 389-399 (QSimpleRNN), /repo/src/hgq/layers/rnn/gru.py 222-329 (QGRU), /repo/src/hgq/layers/snn/base.py 335-414, 501-525
    (QSimpleSNN, QLIF), /repo/src/hgq/layers/softmax.py 112-132 (QSoftmax), /repo/src/hgq/layers/attn/mha.py 435-538 (QMultiHeadAttention),
    /repo/src/hgq/layers/table/dense.py 119-130 (QDenseT).

    A call of a layer is a program that asks quantizers and goes on with their answers: what a quantizer is asked may depend on all earlier
    answers, as in a recurrence.  The same quantizer may be asked any number of times.  Exact rationals; dropout is off (the flag of
    trace_minmax is false as a boolean, minmax_trace.py 31-32); the time loop is Keras' (external). *)
From Coq Require Import String.
From Verif Require Import Num M_Fixed M_State M_Wrapper M_Mapper M_Contr M_Ebops M_Pow2 M_Patch M_Ops M_Mirror M_Trace M_Net M_Causal M_Table M_Softmax M_Attn M_NetX M_Calib.
Local Open Scope list_scope.

(** ** programs *)
Inductive prog (A : Type) := Ret (a : A) | Raise | Ask (id : nat) (x : tensor Q) (k : tensor Q -> prog A).
Arguments Ret {A} a. Arguments Raise {A}. Arguments Ask {A} id x k.
(** running it: every question is a call of that quantizer in the mode of the pass (M_Calib.call_q) *)
Fixpoint exec {A} (m : mode) (p : prog A) (st : nstate) : option (nstate * A) :=
  match p with
  | Ret a => Some (st, a)
  | Raise => None
  | Ask id x k => do (st1, y) <- call_q m st id x; exec m (k y) st1
  end.
Fixpoint then_ {A B} (p : prog A) (f : A -> prog B) : prog B :=
  match p with Ret a => f a | Raise => Raise | Ask id x k => Ask id x (fun y => then_ (k y) f) end.
Definition ask (id : nat) (x : tensor Q) : prog (tensor Q) := Ask id x Ret.
(** a quantizer that may be switched off (enable_iq, enable_oq, enable_sq) *)
Definition ask_opt (id : option nat) (x : tensor Q) : prog (tensor Q) := match id with Some id => ask id x | None => Ret x end.
Definition lift {A} (o : option A) : prog A := match o with Some a => Ret a | None => Raise end.
Notation "'run' x <- p ; q" := (then_ p (fun x => q)) (at level 200, x pattern, right associativity).

(** ** networks of programs, as M_Calib *)
Record pnode := mk_pnode { pn_call : tin -> prog (tensor Q); pn_args : inp nat }.
Fixpoint prun_nodes (m : mode) (net : list pnode) (st : nstate) (env : list (tensor Q)) : option (nstate * list (tensor Q)) :=
  match net with
  | [] => Some (st, env)
  | n :: net' =>
      do x <- args_of env (pn_args n);
      do (st1, y) <- exec m (pn_call n x) st;
      prun_nodes m net' st1 (env ++ [y])
  end.
(** model(inputs, training=...) *)
Definition pforward (m : mode) (net : list pnode) (st : nstate) (inputs : list (tensor Q)) : option (nstate * list (tensor Q)) := prun_nodes m net st inputs.
(** the loop over the batches, minmax_trace.py 75-80 *)
Fixpoint ptrace_batches (net : list pnode) (st : nstate) (batches : list (list (tensor Q))) : option (nstate * list (list (tensor Q))) :=
  match batches with
  | [] => Some (st, [])
  | b :: bs =>
      do (st1, vs) <- pforward Trace net st b;
      do (st2, rest) <- ptrace_batches net st1 bs;
      Some (st2, vs :: rest)
  end.
(** trace_minmax, minmax_trace.py 35-80 *)
Definition ptrace_minmax (net : list pnode) (reset : bool) (tab : nat -> quant) (batches : list (list (tensor Q))) :=
  ptrace_batches net (mk_nstate (if reset then fun i => quant_reset (tab i) else tab) []) batches.

(** ** the layers of M_Calib as programs *)
Fixpoint ask_all (ids : list nat) (xs : list (tensor Q)) : prog (list (tensor Q)) :=
  match ids, xs with
  | id :: ids', x :: xs' => run y <- ask id x; run ys <- ask_all ids' xs'; Ret (y :: ys)
  | [], [] => Ret []
  | _, _ => Raise
  end.
Definition ask_iq (iq : iqs) (x : tin) : prog tin :=
  match iq, x with
  | IqNone, x => Ret x
  | IqOne id, One x => run y <- ask id x; Ret (One y)
  | IqMany ids, Many xs => run ys <- ask_all ids xs; Ret (Many ys)
  | _, _ => Raise
  end.
Fixpoint ask_ws (ws : list (option nat * tensor Q)) : prog (list (tensor Q)) :=
  match ws with
  | [] => Ret []
  | (id, w) :: ws' => run y <- ask_opt id w; run ys <- ask_ws ws'; Ret (y :: ys)
  end.
Definition layer_prog (l : clayer) (x : tin) : prog (tensor Q) :=
  run x' <- ask_iq (y_iq l) x; run ws <- ask_ws (y_ws l); run y <- lift (y_op l ws x'); ask_opt (y_oq l) y.

(** ** the time loop (Keras' RNN.call, backend.rnn, external; no mask): sequences of shape (batch, time, features), reversed for go_backwards;
    the initial state is zero *)
Definition step_at (x : tensor Q) (n f t : nat) : tensor Q := mk_tensor [n; f] (fun i => match i with [b; j] => at_ x [b; t; j] | _ => 0 end).
Definition zeros (sh : list nat) : tensor Q := mk_tensor sh (fun _ => 0).
(** the outputs of all steps, which must have shape (batch, units) *)
Definition stack_steps (n u : nat) (ys : list (tensor Q)) : option (tensor Q) :=
  if forallb (fun y => nat_list_eqb (shape y) [n; u]) ys
  then Some (mk_tensor [n; List.length ys; u] (fun i => match i with [b; t; j] => at_ (nth t ys (zeros [])) [b; j] | _ => 0 end)) else None.
Fixpoint time_loop (step : tensor Q -> tensor Q -> prog (tensor Q * tensor Q)) (xs : list (tensor Q)) (s : tensor Q) : prog (list (tensor Q)) :=
  match xs with
  | [] => Ret []
  | x :: xs' => run r <- step x s; run ys <- time_loop step xs' (snd r); Ret (fst r :: ys)
  end.
Definition rnn_prog (units : nat) (backwards sequences : bool) (step : tensor Q -> tensor Q -> prog (tensor Q * tensor Q)) (x : tin) : prog (tensor Q) :=
  match x with
  | One x =>
      match shape x with
      | [n; t; f] =>
          let steps := map (step_at x n f) (seq 0 t) in
          run ys <- time_loop step (if backwards then rev steps else steps) (zeros [n; units]);
          lift (do s <- stack_steps n units ys; if sequences then Some s else nth_error ys (List.length ys - 1))
      | _ => Raise
      end
  | Many _ => Raise
  end.

(** ** QSimpleRNN *)
Record srnn := mk_srnn {
  sr_units : nat; sr_iq : nat; sr_sq : option nat; sr_paq : nat;
  sr_kernel : nat * tensor Q; sr_rkernel : nat * tensor Q; sr_bias : option (nat * tensor Q); sr_act : Q -> Q;
  sr_backwards : bool; sr_sequences : bool }.
(** QSimpleRNNCell.call, simple_rnn.py 232-259, with the cached quantized weights *)
Definition srnn_step (l : srnn) (k rk : tensor Q) (b : option (tensor Q)) (x state : tensor Q) : prog (tensor Q * tensor Q) :=
  run qstate <- ask_opt (sr_sq l) state;
  run qx <- ask (sr_iq l) x;
  run o <- lift (do h <- keras_matmul qx k; do h <- add_bias h b; do r <- keras_matmul qstate rk; np_binary Qplus h r);
  run o <- ask (sr_paq l) o;
  let o := tmap (sr_act l) o in
  Ret (o, o).
(** QRNN.call, simple_rnn.py 389-399: _set_weight_cache (145-149), the loop *)
Definition srnn_prog (l : srnn) (x : tin) : prog (tensor Q) :=
  run k <- ask (fst (sr_kernel l)) (snd (sr_kernel l));
  run rk <- ask (fst (sr_rkernel l)) (snd (sr_rkernel l));
  run b <- match sr_bias l with Some (id, b) => run y <- ask id b; Ret (Some y) | None => Ret None end;
  rnn_prog (sr_units l) (sr_backwards l) (sr_sequences l) (srnn_step l k rk b) x.

(** ** QGRU *)
Record sgru := mk_sgru {
  sg_units : nat; sg_iq : option nat; sg_sq : nat; sg_paq : nat; sg_praq : nat; sg_rhq : nat;
  sg_kernel : nat * tensor Q; sg_rkernel : nat * tensor Q; sg_bias : option (nat * tensor Q); sg_reset_after : bool; sg_act : Q -> Q; sg_ract : Q -> Q;
  sg_backwards : bool; sg_sequences : bool }.
(** x[:, from:from+len] of a matrix with that many columns *)
Definition cols (from len : nat) (x : tensor Q) : option (tensor Q) :=
  match shape x with
  | [n; c] => if (from + len <=? c)%nat then Some (mk_tensor [n; len] (fun i => match i with [b; j] => at_ x [b; (from + j)%nat] | _ => 0 end)) else None
  | _ => None
  end.
(** input_qbias, recurrent_qbias = self.qbias, gru.py 288-293: one vector, or the two rows of a matrix; (0, 0) without bias *)
Definition gru_biases (l : sgru) (b : option (tensor Q)) : option (option (tensor Q) * option (tensor Q)) :=
  match b with
  | None => Some (None, None)
  | Some b =>
      if sg_reset_after l then
        match shape b with
        | [2; c]%nat => Some (Some (mk_tensor [c] (fun i => at_ b (0%nat :: i))), Some (mk_tensor [c] (fun i => at_ b (1%nat :: i))))
        | _ => None
        end
      else Some (Some b, None)
  end.
(** QGRUCell.call, gru.py 281-329 *)
Definition sgru_step (l : sgru) (k rk : tensor Q) (b : option (tensor Q)) (x state : tensor Q) : prog (tensor Q * tensor Q) :=
  let n := sg_units l in
  run qh <- ask (sg_sq l) state;
  run qx <- ask_opt (sg_iq l) x;
  run (xm, inner, s) <- lift (
    do (ib, rb) <- gru_biases l b;
    do m <- keras_matmul qx k; do xm <- add_bias m ib;
    do inner <- (if sg_reset_after l then do r <- keras_matmul qh rk; add_bias r rb
                 else do rk2 <- cols 0 (2 * n) rk; keras_matmul qh rk2);
    do xzr <- cols 0 (2 * n) xm; do rzr <- cols 0 (2 * n) inner;
    do s <- np_binary Qplus xzr rzr;
    Some (xm, inner, tmap (sg_ract l) s));
  run qzr <- ask (sg_praq l) s;
  run (z, r) <- lift (do z <- cols 0 n qzr; do r <- cols n n qzr; Some (z, r));
  run rh <- (if sg_reset_after l
         then run i <- lift (cols (2 * n) n inner); run q <- ask (sg_rhq l) i; lift (np_binary Qmult r q)
         else run p <- lift (np_binary Qmult r qh); run q <- ask (sg_rhq l) p; lift (do rk3 <- cols (2 * n) n rk; keras_matmul q rk3));
  run h <- lift (do xh <- cols (2 * n) n xm; do s <- np_binary Qplus xh rh; Some (tmap (sg_act l) s));
  run qhh <- ask (sg_paq l) h;
  run y <- lift (do a <- np_binary Qmult z qh; do c <- np_binary Qmult (tmap (fun v => 1 - v) z) qhh; np_binary Qplus a c);
  Ret (y, y).
Definition sgru_prog (l : sgru) (x : tin) : prog (tensor Q) :=
  run k <- ask (fst (sg_kernel l)) (snd (sg_kernel l));
  run rk <- ask (fst (sg_rkernel l)) (snd (sg_rkernel l));
  run b <- match sg_bias l with Some (id, b) => run y <- ask id b; Ret (Some y) | None => Ret None end;
  rnn_prog (sg_units l) (sg_backwards l) (sg_sequences l) (sgru_step l k rk b) x.

(** ** QSimpleSNN and QLIF *)
Inductive reset_kind := Subtract | Zero | NoReset.
Record ssnn := mk_ssnn {
  sn_units : nat; sn_iq : option nat; sn_oq : option nat; sn_sq : option nat;
  sn_beta : option (nat * tensor Q);        (* QLIFCell: beta_q and lif_beta; None: QSimpleSNNCell *)
  sn_threshold : tensor Q; sn_factor : nat * tensor Q; (* graded_spikes_factor_q and its weight *)
  sn_inhibition : bool; sn_reset : reset_kind;
  sn_spike : Q -> Q;                        (* spike_grad, on one value *)
  sn_backwards : bool; sn_sequences : bool }.
(** ops.argmax on a row of [u] values: the first position of the maximum *)
Fixpoint argmax_row (f : nat -> Q) (u : nat) : nat :=
  match u with
  | O => O
  | S m => match m with O => O | S _ => let a := argmax_row f m in if qlt_b (f a) (f m) then m else a end
  end.
(** spk * one_hot(argmax(mem - threshold, axis=1)), snn/base.py 360-361 *)
Definition inhibit (u : nat) (score spk : tensor Q) : option (tensor Q) :=
  match shape score with
  | [n; c] =>
      if ((c =? u)%nat && nat_list_eqb (shape spk) [n; c])%bool
      then Some (mk_tensor [n; c] (fun i => match i with
        | [b; j] => at_ spk i * (if (argmax_row (fun j => at_ score [b; j]) u =? j)%nat then 1 else 0)
        | _ => 0 end))
      else None
  | _ => None
  end.
(** QSimpleSNNCell.call 408-414, QLIFCell.call 519-525; fire 357-362, reset 364-370 *)
Definition ssnn_step (l : ssnn) (x state : tensor Q) : prog (tensor Q * tensor Q) :=
  run m <- match sn_beta l with Some (id, b) => run qb <- ask id b; lift (np_binary Qmult qb state) | None => Ret state end;
  run qx <- ask_opt (sn_iq l) x;
  run mem <- lift (np_binary Qplus m qx);
  run score <- lift (np_binary Qminus mem (sn_threshold l));
  run spk <- lift (let spk := tmap (sn_spike l) score in if sn_inhibition l then inhibit (sn_units l) score spk else Some spk);
  run factor <- ask (fst (sn_factor l)) (snd (sn_factor l));
  run out <- lift (np_binary Qmult spk factor);
  run y <- ask_opt (sn_oq l) out;
  run r <- lift (match sn_reset l with
    | Subtract => do d <- np_binary Qmult spk (sn_threshold l); np_binary Qminus mem d
    | Zero => np_binary Qmult mem (tmap (fun v => 1 - v) spk)
    | NoReset => Some mem end);
  run s <- ask_opt (sn_sq l) r;
  Ret (y, s).
Definition ssnn_prog (l : ssnn) : tin -> prog (tensor Q) := rnn_prog (sn_units l) (sn_backwards l) (sn_sequences l) (ssnn_step l).

(** ** QSoftmax, with its output quantizer (core/base.py 113) *)
Record ssoft := mk_ssoft {
  so_iq : option nat; so_axes : list nat; so_stable : bool; so_mask : option (tensor Q);
  so_exp_iq : option nat; so_exp : Q -> Q; so_exp_oq : nat; so_inv_iq : nat; so_inv : Q -> Q; so_inv_oq : nat; so_oq : option nat }.
(** QSoftmax.call, softmax.py 112-132; the mask is cast to 0 and 1 *)
Definition ssoft_core (l : ssoft) (x : tensor Q) : prog (tensor Q) :=
  run x <- ask_opt (so_iq l) x;
  run x <- lift (if so_stable l then
      do x <- match so_mask l with
              | Some m => do a <- np_binary Qmult m x; np_binary Qminus a (tmap (fun v => (1 - v) * 1000000000) m)
              | None => Some x end;
      np_binary Qminus (np_reduce qmax_of (so_axes l) true x) x
    else Some x);
  run x <- ask_opt (so_exp_iq l) x;
  run e <- ask (so_exp_oq l) (tmap (so_exp l) x);
  run e <- lift (match so_mask l with Some m => np_binary Qmult m e | None => Some e end);
  run s <- ask (so_inv_iq l) (np_reduce qsum (so_axes l) true e);
  run d <- ask (so_inv_oq l) (tmap (so_inv l) s);
  run y <- lift (np_binary Qmult e d);
  ask_opt (so_oq l) y.
Definition ssoft_prog (l : ssoft) (x : tin) : prog (tensor Q) := match x with One x => ssoft_core l x | Many _ => Raise end.

(** ** QMultiHeadAttention: projections (QEinsumDense; with fuse their input quantizers are the same, mha.py 205-211), dot product, softmax,
    combination, output projection.  Without masks and dropout; only the first output *)
Record smha := mk_smha {
  sm_query : clayer; sm_key : clayer; sm_value : clayer; sm_scale : Q;                (* _inverse_sqrt_key_dim, 1 after 347 *)
  sm_dot : list nat * list nat * list nat; sm_soft : ssoft; sm_combine : list nat * list nat * list nat;
  sm_out : clayer; sm_oq : option nat }.
(** call and _compute_attention, mha.py 435-538 *)
Definition smha_prog (l : smha) (x : tin) : prog (tensor Q) :=
  run (q, v, k) <- lift (match x with One q => Some (q, q, q) | Many [q; v] => Some (q, v, v) | Many [q; v; k] => Some (q, v, k) | _ => None end);
  run q <- layer_prog (sm_query l) (One q);
  run k <- layer_prog (sm_key l) (One k);
  run v <- layer_prog (sm_value l) (One v);
  let '(li, lk, lo) := sm_dot l in
  run s <- lift (np_einsum li lk lo k (tmap (fun y => y * sm_scale l) q));
  run s <- ssoft_core (sm_soft l) s;
  let '(ci, ck, co) := sm_combine l in
  run a <- lift (np_einsum ci ck co s v);
  run y <- layer_prog (sm_out l) (One a);
  ask_opt (sm_oq l) y.

(** ** QDenseT and QConvT (M_NetX.keras_table) with their quantizers by number, and the output quantizer *)
Record stable := mk_stable {
  sl_patch : option (padding * list cdim * nat); sl_in : nat; sl_out : nat; sl_net : list elayer; sl_bn : option bnorm; sl_isqrt : Q;
  sl_iq : option nat; sl_toq : nat; sl_act : Q -> Q; sl_oq : option nat }.
(** table/dense.py 119-130; a tensor without axes is refused (Keras' input_spec) *)
Definition stable_prog (l : stable) (x : tin) : prog (tensor Q) :=
  match x with
  | One x =>
      run x <- lift (do x <- keras_patches (sl_patch l) x; if (negb (nat_list_eqb (shape x) []) && (last (shape x) 0 =? sl_in l)%nat)%bool then Some (spread (sl_out l) x) else None);
      run x <- ask_opt (sl_iq l) x;
      run r <- ask (sl_toq l) (mk_tensor (shape x) (fun i =>
        let o := last i 0%nat in let j := last (removelast i) 0%nat in
        let y := subnet (sl_net l) (j * sl_out l + o) (at_ x i) in
        match sl_bn l with Some bn => bn_apply bn o y * sl_isqrt l | None => y end));
      ask_opt (sl_oq l) (tmap (sl_act l) (sum_inputs (sl_in l) (sl_out l) r))
  | Many _ => Raise
  end.
