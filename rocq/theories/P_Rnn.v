(** C32: spiking layers, C33: recurrent layers: the hardware replay equals the layer;
    C46: caching quantized weights changes nothing. *)
From Verif Require Import Num M_Fixed L_Fixed M_Mirror M_Rnn S_Rnn L_Rnn.

(** QSimpleSNN and QLIF, from every initial state and for every input sequence, forward or backward: the
    same outputs at every time step and the same final state; every reset mechanism, with or without inhibition,
    input, output and state quantizers on or off, any thresholds, leaks and graded factors *)
Theorem C32_spiking_replay :
  forall dx c backwards xs s,
    owidths_ok (s_units c) (s_iq c) /\ owidths_ok (s_units c) (s_oq c) /\ owidths_ok (s_units c) (s_sq c) ->
    let r := replay_rnn dx (replay_snn c) backwards xs s in let k := keras_rnn (snn_call c) backwards xs s in
    same_seq (s_units c) (fst r) (fst k) /\ same_vec (s_units c) (snd r) (snd k).
Proof. exact snn_replay. Qed.
Print Assumptions C32_spiking_replay.
(** inhibition: a unit spikes exactly when it is the winner, and there is at most one *)
Theorem C32_inhibition :
  forall c mem i, s_inhibition c = true -> (i < s_units c)%nat ->
    (winner (s_units c) (fun j => mem j - s_threshold c j) i -> snn_spk c mem i == 1) /\
    (~ winner (s_units c) (fun j => mem j - s_threshold c j) i -> snn_spk c mem i == 0).
Proof. exact inhibition_winner. Qed.
Print Assumptions C32_inhibition.
Theorem C32_one_winner : forall n score i j, winner n score i -> winner n score j -> i = j.
Proof. exact winner_unique. Qed.
Print Assumptions C32_one_winner.
(** without inhibition a unit spikes exactly when its membrane exceeds the threshold, whatever the surrogate *)
Theorem C32_spike_is_threshold :
  forall c mem j, s_inhibition c = false ->
    (s_threshold c j < mem j -> snn_spk c mem j == 1) /\ (mem j <= s_threshold c j -> snn_spk c mem j == 0).
Proof.
  intros c mem j I. unfold snn_spk. cbv zeta. rewrite I, !spike_hard. unfold hard.
  destruct (qlt_b 0 (mem j - s_threshold c j)) eqn:E.
  - apply qlt_b_iff in E. split; intros H; [reflexivity|lra].
  - split; intros H; [|reflexivity]. assert (T : qlt_b 0 (mem j - s_threshold c j) = true) by (apply qlt_b_iff; lra). congruence.
Qed.
Print Assumptions C32_spike_is_threshold.
(** the time loop visits every step once, in order or reversed *)
Theorem C32_time_order :
  forall (S X Y : Type) (dx : X) (step : X -> S -> Y * S) backwards xs s,
    replay_rnn dx step backwards xs s = scan step (if backwards then rev xs else xs) s.
Proof. intros. exact (replay_is_keras dx step backwards xs s). Qed.
Print Assumptions C32_time_order.

Theorem C33_simple_rnn_replay :
  forall dx c act' backwards xs s,
    widths_ok (r_in c) (r_iq c) /\ owidths_ok (r_units c) (r_sq c) /\ widths_ok (r_units c) (r_paq c) ->
    (forall y z, y == z -> act' y == r_act c z) ->
    let r := replay_rnn dx (replay_rnn_cell c act') backwards xs s in let k := keras_rnn (rnn_call c) backwards xs s in
    same_seq (r_units c) (fst r) (fst k) /\ same_vec (r_units c) (snd r) (snd k).
Proof. exact rnn_replay. Qed.
Print Assumptions C33_simple_rnn_replay.
Theorem C33_gru_replay :
  forall dx c act' ract' backwards xs s,
    owidths_ok (g_in c) (g_iq c) /\ widths_ok (g_units c) (g_sq c) /\ widths_ok (g_units c) (g_paq c) /\
      widths_ok (2 * g_units c) (g_praq c) /\ widths_ok (g_units c) (g_rhq c) ->
    (forall y z, y == z -> act' y == g_act c z) -> (forall y z, y == z -> ract' y == g_ract c z) ->
    let r := replay_rnn dx (replay_gru_cell c act' ract') backwards xs s in let k := keras_rnn (gru_call c) backwards xs s in
    same_seq (g_units c) (fst r) (fst k) /\ same_vec (g_units c) (snd r) (snd k).
Proof. exact gru_replay. Qed.
Print Assumptions C33_gru_replay.

(** C46: as long as no call raises, every history of weight updates, calls and reads of the quantized weights
    has the outcomes it would have without a cache *)
Theorem C46_cache_transparent :
  forall (W X Y : Type) (quant : W -> W) (run : W -> X -> option Y) es,
    (forall w x, In (CallLayer x) es -> run w x <> None) ->
    forall w, fst (cell_run quant run es (mk_cell w None)) = uncached quant run es w.
Proof. intros W X Y. exact cache_transparent. Qed.
Print Assumptions C46_cache_transparent.
(** and on every history, whatever raised before, the calls themselves give the uncached results *)
Theorem C46_calls_right :
  forall (W X Y : Type) (quant : W -> W) (run : W -> X -> option Y) es w c,
    call_outcomes (fst (cell_run quant run es (mk_cell w c))) = call_outcomes (uncached quant run es w).
Proof. intros W X Y. exact calls_right. Qed.
Print Assumptions C46_calls_right.
(** but reading the quantized weights after a call that raised returns the old ones *)
Theorem C46_stale_after_exception_refuted :
  exists (quant : nat -> nat) (run : nat -> nat -> option nat) es w,
    fst (cell_run quant run es (mk_cell w None)) = [Raised; Done; Weights 1%nat] /\
    uncached quant run es w = [Raised; Done; Weights 2%nat].
Proof. exists (fun w => w), (fun _ _ => None), [CallLayer 0; SetWeights 2; ReadWeights]%nat, 1%nat. split; reflexivity. Qed.
Print Assumptions C46_stale_after_exception_refuted.

(** ** concrete cases *)
Ltac widths := repeat match goal with |- _ /\ _ => split end; repeat (let q := fresh in let E := fresh in intros q E; try discriminate E; try (injection E as <-)); intros; cbn; lia.
Definition fmt (i f : Z) : vquant := mk_vquant RND SAT (fun _ => true) (fun _ => i) (fun _ => f) None.
Definition ex_snn := mk_snn 3 (Some (fmt 3 2)) None (Some (fmt 4 3)) (Some (fun _ => 1#2)) (fun j => inject_Z (Z.of_nat j) + 1) (fun _ => 2) true RSubtract (Some (fun x => x * (1#10))).
Definition ex_in (a b c : Q) : nat -> Q := fun j => match j with 0 => a | 1 => b | _ => c end%nat.
Definition show (n : nat) (v : nat -> Q) : list Q := map (fun j => Qred (v j)) (seq 0 n).
(** a tie between units 0 and 1 (scores 2 and 2): the first wins *)
Example C32_ex :
  (owidths_ok 3 (s_iq ex_snn) /\ owidths_ok 3 (s_oq ex_snn) /\ owidths_ok 3 (s_sq ex_snn)) /\
  map (show 3) (fst (replay_rnn (fun _ => 0) (replay_snn ex_snn) true [ex_in 1 2 (1#2); ex_in 3 4 0] (fun _ => 0))) = [[2; 0; 0]; [0; 2; 0]] /\
  map (show 3) (fst (keras_rnn (snn_call ex_snn) true [ex_in 1 2 (1#2); ex_in 3 4 0] (fun _ => 0))) = [[2; 0; 0]; [0; 2; 0]] /\
  winner 3 (fun j => ex_in 3 4 0 j - s_threshold ex_snn j) 0.
Proof.
  split; [cbn [s_iq s_oq s_sq ex_snn]; unfold owidths_ok, widths_ok; widths|]. split; [vm_compute; reflexivity|]. split; [vm_compute; reflexivity|].
  split; [lia|]. split; [vm_compute; reflexivity|]. split; [|lia]. intros j Hj. destruct j as [|[|[|j]]]; [| | |lia]; vm_compute; discriminate.
Qed.
Definition ex_mat : nat -> nat -> Q := fun i j => inject_Z (Z.of_nat i - Z.of_nat j) * (1#4).
Definition ex_gru (ra : bool) := mk_gru 2 3 (Some (fmt 2 3)) (fmt 1 4) (fmt 0 5) (mk_vquant RND SAT (fun _ => false) (fun _ => 0%Z) (fun _ => 4%Z) None) (fmt 2 4)
  ex_mat (fun i j => ex_mat j i) (GBias (fun j => inject_Z (Z.of_nat j) * (1#8)) (fun _ => 1#8)) ra (fun x => x) (fun x => x * (1#4) + (1#2)).
Example C33_ex_gru :
  (owidths_ok 3 (g_iq (ex_gru true)) /\ widths_ok 2 (g_sq (ex_gru true)) /\ widths_ok 2 (g_paq (ex_gru true)) /\ widths_ok 4 (g_praq (ex_gru true)) /\ widths_ok 2 (g_rhq (ex_gru true))) /\
  map (show 2) (fst (replay_rnn (fun _ => 0) (replay_gru_cell (ex_gru true) (fun x => x) (fun x => x * (1#4) + (1#2))) false [ex_in 1 2 3; ex_in (1#2) (-1) 0] (fun _ => 0)))
  = map (show 2) (fst (keras_rnn (gru_call (ex_gru true)) false [ex_in 1 2 3; ex_in (1#2) (-1) 0] (fun _ => 0))) /\
  map (show 2) (fst (keras_rnn (gru_call (ex_gru true)) false [ex_in 1 2 3; ex_in (1#2) (-1) 0] (fun _ => 0))) <>
  map (show 2) (fst (keras_rnn (gru_call (ex_gru false)) false [ex_in 1 2 3; ex_in (1#2) (-1) 0] (fun _ => 0))).
Proof.
  split; [cbn [g_iq g_sq g_paq g_praq g_rhq ex_gru]; unfold owidths_ok, widths_ok; widths|].
  split; [vm_compute; reflexivity|vm_compute; discriminate].
Qed.
Definition ex_rnn := mk_rnn 2 3 (fmt 2 3) None (fmt 0 4) ex_mat (fun i j => ex_mat j i) (Some (fun _ => 1#8)) (fun x => x).
Example C33_ex_rnn :
  (widths_ok 3 (r_iq ex_rnn) /\ owidths_ok 2 (r_sq ex_rnn) /\ widths_ok 2 (r_paq ex_rnn)) /\
  map (show 2) (fst (replay_rnn (fun _ => 0) (replay_rnn_cell ex_rnn (fun x => x)) true [ex_in 1 2 3; ex_in (1#2) (-1) 0] (fun _ => 0))) = [[-1#8; 0]; [15#16; 5#8]].
Proof. split; [cbn [r_iq r_sq r_paq ex_rnn]; unfold owidths_ok, widths_ok; widths|]. vm_compute. reflexivity. Qed.
Example C46_ex :
  fst (cell_run (fun w => w + 1)%nat (fun w x => Some (w * x)%nat) [CallLayer 3; SetWeights 5; CallLayer 3; ReadWeights]%nat (mk_cell 1 None)%nat) = [Result 6; Done; Result 18; Weights 6]%nat.
Proof. reflexivity. Qed.
