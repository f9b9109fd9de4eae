(** C65: calibration of networks whose layers call a quantizer many times: recurrent and spiking layers, softmax, attention, lookup tables, shared quantizers. *)
From Coq Require Import String.
From Verif Require Import Num M_Fixed L_Fixed M_State S_State M_Wrapper M_Mapper S_Mapper L_Mapper M_Contr M_Ebops M_Pow2 M_Patch M_Ops M_Mirror S_Mirror M_Trace S_Trace M_Table M_Softmax M_Net S_Net M_NetX M_Causal M_Calib S_Ops S_Calib L_Calib L_Net3 M_Prog M_Rnn S_Rnn S_Prog L_Prog L_Prog2 L_Prog3 L_Prog4 L_Prog5.
Local Open Scope list_scope.

(** trace_minmax on any batches and any network of such layers: inference on each of the batches with the calibrated quantizers succeeds, gives
    every value computed while tracing it, although quantizers were widened by later steps of the same call and by later batches, and leaves the
    quantizers as they are *)
Theorem C65_calibrated :
  forall net reset tab batches st rec, Forall (fun n => values_only (pn_call n)) net ->
    ptrace_minmax net reset tab batches = Some (st, rec) ->
    (forall id, calibratable (tab id) (inputs_of id (n_log st))) ->
    Forall2 (fun b vs => exists st' vs', pforward Infer net (mk_nstate (n_tab st) []) b = Some (st', vs') /\
      (forall id, n_tab st' id = n_tab st id) /\ Forall2 same_tensor vs vs') batches rec.
Proof. exact pnetwork_calibrated. Qed.
Print Assumptions C65_calibrated.
(** and in that inference every call of a KIF WRAP quantizer, at every time step, only rounds: no overflow *)
Theorem C65_no_overflow :
  forall net reset tab batches st rec, Forall (fun n => values_only (pn_call n)) net ->
    ptrace_minmax net reset tab batches = Some (st, rec) ->
    (forall id, calibratable (tab id) (inputs_of id (n_log st))) ->
    forall b st' vs, In b batches -> pforward Infer net (mk_nstate (n_tab st) []) b = Some (st', vs) ->
    forall e s, In e (n_log st') -> kif_wrap (tab (e_q e)) s -> only_rounded (tab (e_q e)) s (e_in e) (e_out e).
Proof. exact pno_overflow. Qed.
Print Assumptions C65_no_overflow.
(** inference evaluates the layer with fixed quantizers and changes none of them *)
Theorem C65_inference :
  forall A (p : prog A) st,
    match eval (n_tab st) p with
    | Some a => exists st', exec Infer p st = Some (st', a) /\ forall i, n_tab st' i = n_tab st i
    | None => exec Infer p st = None
    end.
Proof. intros A p st. apply (exec_infer (n_tab st) p st). intros i. reflexivity. Qed.
Print Assumptions C65_inference.
(** what was recorded at each node is what inference computes there from the recorded arguments *)
Theorem C65_recorded :
  forall net reset tab batches st rec, Forall (fun n => values_only (pn_call n)) net ->
    ptrace_minmax net reset tab batches = Some (st, rec) ->
    (forall id, calibratable (tab id) (inputs_of id (n_log st))) ->
    forall ins vs, In (ins, vs) (combine batches rec) -> forall j n, nth_error net j = Some n ->
    exists x y y', args_of vs (pn_args n) = Some x /\ nth_error vs (List.length ins + j) = Some y /\
      eval (n_tab st) (pn_call n x) = Some y' /\ same_tensor y y'.
Proof. exact recorded. Qed.
Print Assumptions C65_recorded.

(** ** the layers *)
(** those of C59 *)
Theorem C65_plain_layers : forall m l x st, exec m (layer_prog l x) st = layer_call m l st x.
Proof. intros m l x st. exact (exec_layer m l x st). Qed.
Print Assumptions C65_plain_layers.
Theorem C65_plain_values : forall l, by_value (y_op l) -> values_only (layer_prog l).
Proof. exact layer_values_only. Qed.
Print Assumptions C65_plain_values.
Theorem C65_simple_rnn_values : forall l, on_numbers (sr_act l) -> values_only (srnn_prog l).
Proof. exact srnn_values_only. Qed.
Print Assumptions C65_simple_rnn_values.
Theorem C65_gru_values : forall l, on_numbers (sg_act l) -> on_numbers (sg_ract l) -> values_only (sgru_prog l).
Proof. exact sgru_values_only. Qed.
Print Assumptions C65_gru_values.
Theorem C65_spiking_values : forall l, on_numbers (sn_spike l) -> values_only (ssnn_prog l).
Proof. exact ssnn_values_only. Qed.
Print Assumptions C65_spiking_values.
Theorem C65_softmax_values : forall l, on_numbers (so_exp l) -> on_numbers (so_inv l) -> values_only (ssoft_prog l).
Proof. exact ssoft_values_only. Qed.
Print Assumptions C65_softmax_values.
Theorem C65_attention_values :
  forall l, by_value (y_op (sm_query l)) -> by_value (y_op (sm_key l)) -> by_value (y_op (sm_value l)) -> by_value (y_op (sm_out l)) ->
    on_numbers (so_exp (sm_soft l)) -> on_numbers (so_inv (sm_soft l)) -> values_only (smha_prog l).
Proof. exact smha_values_only. Qed.
Print Assumptions C65_attention_values.
Theorem C65_table_values :
  forall l, on_numbers (sl_act l) -> (forall e, In e (sl_net l) -> on_numbers (e_act e)) ->
    match sl_patch l with None => True | Some (_, _, channels) => (0 < channels)%nat end -> values_only (stable_prog l).
Proof. intros l H1 H2 H3. exact (stable_values_only l (conj H1 (conj H2 H3))). Qed.
Print Assumptions C65_table_values.
(** a quantizer used for a weight only receives that weight in every call and at every time step: what [kbi_constant] asks for *)
Theorem C65_weight_inputs :
  forall id w net reset tab batches st rec, (forall n, In n net -> forall x, asks_only id w (pn_call n x)) ->
    ptrace_minmax net reset tab batches = Some (st, rec) -> forall x, In x (inputs_of id (n_log st)) -> x = w.
Proof. exact pweight_inputs. Qed.
Print Assumptions C65_weight_inputs.
Theorem C65_simple_rnn_weights :
  forall id w l, weight_of id w [Some (sr_iq l); sr_sq l; Some (sr_paq l)] ([sr_kernel l; sr_rkernel l] ++ listed (sr_bias l)) -> forall x, asks_only id w (srnn_prog l x).
Proof. exact srnn_weights. Qed.
Print Assumptions C65_simple_rnn_weights.
Theorem C65_gru_weights :
  forall id w l, weight_of id w [sg_iq l; Some (sg_sq l); Some (sg_paq l); Some (sg_praq l); Some (sg_rhq l)] ([sg_kernel l; sg_rkernel l] ++ listed (sg_bias l)) ->
    forall x, asks_only id w (sgru_prog l x).
Proof. exact sgru_weights. Qed.
Print Assumptions C65_gru_weights.
Theorem C65_spiking_weights :
  forall id w l, weight_of id w [sn_iq l; sn_oq l; sn_sq l] (sn_factor l :: listed (sn_beta l)) -> forall x, asks_only id w (ssnn_prog l x).
Proof. exact ssnn_weights. Qed.
Print Assumptions C65_spiking_weights.

(** ** inference, sample by sample, is the layer of C33 and C32 with the quantizers' present widths *)
Theorem C65_simple_rnn_inference :
  forall tab B b, (b < B)%nat -> forall l f T x y, on_numbers (sr_act l) -> rnn_built tab l f -> shape x = [B; T; f] ->
    eval tab (srnn_prog l (One x)) = Some y ->
    exists c, rnn_of tab l f = Some c /\ returned (sr_sequences l) (sr_units l) b (fst (keras_rnn (rnn_call c) (sr_backwards l) (rows b x) (fun _ => 0))) y.
Proof. exact srnn_row. Qed.
Print Assumptions C65_simple_rnn_inference.
Theorem C65_gru_inference :
  forall tab B b, (b < B)%nat -> forall l f T x y, on_numbers (sg_act l) -> on_numbers (sg_ract l) -> gru_built tab l f -> shape x = [B; T; f] ->
    eval tab (sgru_prog l (One x)) = Some y ->
    exists c, gru_of tab l f = Some c /\ returned (sg_sequences l) (sg_units l) b (fst (keras_rnn (gru_call c) (sg_backwards l) (rows b x) (fun _ => 0))) y.
Proof. exact sgru_row. Qed.
Print Assumptions C65_gru_inference.
Theorem C65_spiking_inference :
  forall tab B b, (b < B)%nat -> forall l T x y, snn_built tab l -> shape x = [B; S T; sn_units l] ->
    eval tab (ssnn_prog l (One x)) = Some y ->
    exists c, snn_of tab l = Some c /\ returned (sn_sequences l) (sn_units l) b (fst (keras_rnn (snn_call c) (sn_backwards l) (rows b x) (fun _ => 0))) y.
Proof. exact ssnn_row. Qed.
Print Assumptions C65_spiking_inference.
(** softmax without mask and table layers: inference is the layer of C63 *)
Theorem C65_softmax_inference :
  forall tab l x y, so_mask l = None -> eval tab (ssoft_prog l (One x)) = Some y -> keras_x (soft_of tab l) [VArr x] [] = Some [("final"%string, [y])].
Proof. exact soft_frozen. Qed.
Print Assumptions C65_softmax_inference.
Theorem C65_table_inference :
  forall tab l a translate x y, sl_act l = act_fn a -> eval tab (stable_prog l (One x)) = Some y ->
    keras_x (table_frozen tab l a translate) [VArr x] [] = Some [("final"%string, [y])].
Proof. exact table_frozen_eq. Qed.
Print Assumptions C65_table_inference.

(** ** end to end: on every sample of every calibration batch the hardware replay of a recurrent or spiking layer, wherever in the network, gives the outputs
    recorded during calibration *)
Theorem C65_simple_rnn_hardware :
  forall net reset tab batches st rec, Forall (fun n => values_only (pn_call n)) net ->
    ptrace_minmax net reset tab batches = Some (st, rec) ->
    (forall id, calibratable (tab id) (inputs_of id (n_log st))) ->
    forall ins vs j l args x y B T f dx act', In (ins, vs) (combine batches rec) -> nth_error net j = Some (mk_pnode (srnn_prog l) args) ->
    args_of vs args = Some (One x) -> nth_error vs (List.length ins + j) = Some y -> shape x = [B; T; f] ->
    rnn_built (n_tab st) l f ->
    int8_quant f (n_tab st (sr_iq l)) -> int8_quants (sr_units l) (n_tab st) (sr_sq l) -> int8_quant (sr_units l) (n_tab st (sr_paq l)) ->
    (forall p q, p == q -> act' p == sr_act l q) ->
    exists c, rnn_of (n_tab st) l f = Some c /\
      forall b, (b < B)%nat -> returned (sr_sequences l) (sr_units l) b (fst (replay_rnn dx (replay_rnn_cell c act') (sr_backwards l) (rows b x) (fun _ => 0))) y.
Proof. exact srnn_hardware. Qed.
Print Assumptions C65_simple_rnn_hardware.
Theorem C65_gru_hardware :
  forall net reset tab batches st rec, Forall (fun n => values_only (pn_call n)) net ->
    ptrace_minmax net reset tab batches = Some (st, rec) ->
    (forall id, calibratable (tab id) (inputs_of id (n_log st))) ->
    forall ins vs j l args x y B T f dx act' ract', In (ins, vs) (combine batches rec) -> nth_error net j = Some (mk_pnode (sgru_prog l) args) ->
    args_of vs args = Some (One x) -> nth_error vs (List.length ins + j) = Some y -> shape x = [B; T; f] ->
    gru_built (n_tab st) l f ->
    int8_quants f (n_tab st) (sg_iq l) -> int8_quant (sg_units l) (n_tab st (sg_sq l)) -> int8_quant (sg_units l) (n_tab st (sg_paq l)) ->
    int8_quant (2 * sg_units l) (n_tab st (sg_praq l)) -> int8_quant (sg_units l) (n_tab st (sg_rhq l)) ->
    (forall p q, p == q -> act' p == sg_act l q) -> (forall p q, p == q -> ract' p == sg_ract l q) ->
    exists c, gru_of (n_tab st) l f = Some c /\
      forall b, (b < B)%nat -> returned (sg_sequences l) (sg_units l) b (fst (replay_rnn dx (replay_gru_cell c act' ract') (sg_backwards l) (rows b x) (fun _ => 0))) y.
Proof. exact sgru_hardware. Qed.
Print Assumptions C65_gru_hardware.
Theorem C65_spiking_hardware :
  forall net reset tab batches st rec, Forall (fun n => values_only (pn_call n)) net ->
    ptrace_minmax net reset tab batches = Some (st, rec) ->
    (forall id, calibratable (tab id) (inputs_of id (n_log st))) ->
    forall ins vs j l args x y B T dx, In (ins, vs) (combine batches rec) -> nth_error net j = Some (mk_pnode (ssnn_prog l) args) ->
    args_of vs args = Some (One x) -> nth_error vs (List.length ins + j) = Some y -> shape x = [S B; S T; sn_units l] ->
    snn_built (n_tab st) l ->
    int8_quants (sn_units l) (n_tab st) (sn_iq l) -> int8_quants (sn_units l) (n_tab st) (sn_oq l) -> int8_quants (sn_units l) (n_tab st) (sn_sq l) ->
    exists c, snn_of (n_tab st) l = Some c /\
      forall b, (b < S B)%nat -> returned (sn_sequences l) (sn_units l) b (fst (replay_rnn dx (replay_snn c) (sn_backwards l) (rows b x) (fun _ => 0))) y.
Proof. exact ssnn_hardware. Qed.
Print Assumptions C65_spiking_hardware.

(** ** a concrete network: x -> QSimpleRNN (sequences) -> QLIF (sequences) -> QGRU (last state), two batches of sequences *)
Definition ex_kif (n : nat) (f : Q) : quant := mk_quant (mk_wrapper None None None) (mk_qconf RND WRAP true false None None) [0%nat]
  (inl (mk_kift (mk_tensor [1;n]%nat (fun _ => true)) (mk_tensor [1;n]%nat (fun _ => -(10))) (mk_tensor [1;n]%nat (fun g => match g with [_; 0]%nat => f | _ => f - 1 end)))).
Definition ex_wq (sh : list nat) : quant := mk_quant (mk_wrapper None None None) (mk_qconf RND WRAP true true None None) []
  (inr (mk_kbit (mk_tensor sh (fun _ => true)) (mk_tensor sh (fun _ => 4)) (mk_tensor sh (fun _ => 1)))).
Definition ex_w (sh : list nat) (s : Q) : tensor Q := mk_tensor sh (fun g => s + inject_Z (Z.of_nat (hd 0%nat g)) - (1#2) * inject_Z (Z.of_nat (last g 0%nat))).
Definition ex_relu (x : Q) : Q := if qlt_b 0 x then x else 0.
Definition ex_step (x : Q) : Q := if qlt_b 0 x then 1 else 0.
Definition ex_gate (x : Q) : Q := (1#2) + (1#8) * x.
Definition ex_rnn : srnn := mk_srnn 2 0 (Some 1%nat) 2 (3%nat, ex_w [2;2]%nat (1#3)) (4%nat, ex_w [2;2]%nat (-(1))) (Some (5%nat, ex_w [2]%nat (1#4))) ex_relu true true.
Definition ex_lif : ssnn := mk_ssnn 2 None None (Some 6%nat) (Some (7%nat, ex_w [2]%nat (3#4))) (ex_w [2]%nat (1#2)) (8%nat, ex_w [2]%nat 1) true Subtract ex_step false true.
Definition ex_gru : sgru := mk_sgru 2 (Some 9%nat) 10 11 12 13 (14%nat, ex_w [2;6]%nat (5#2)) (15%nat, ex_w [2;6]%nat (-(1#2))) None false ex_relu ex_gate false false.
Definition ex_net : list pnode := [mk_pnode (srnn_prog ex_rnn) (One 0%nat); mk_pnode (ssnn_prog ex_lif) (One 1%nat); mk_pnode (sgru_prog ex_gru) (One 2%nat)].
Definition ex_tab (id : nat) : quant :=
  match id with
  | 3%nat | 4%nat => ex_wq [2;2]%nat | 5%nat | 7%nat | 8%nat => ex_wq [2]%nat | 14%nat | 15%nat => ex_wq [2;6]%nat
  | 12%nat => ex_kif 4 2 | _ => ex_kif 2 3
  end.
Definition ex_batches : list (list (tensor Q)) :=
  [[mk_tensor [2;2;2]%nat (fun g => match g with [b; t; j]%nat => (1#3) * inject_Z (Z.of_nat (1 + b + 2 * t)) - (1#4) * inject_Z (Z.of_nat j) | _ => 0 end)];
   [mk_tensor [1;2;2]%nat (fun g => match g with [_; t; j]%nat => 5 - 7 * inject_Z (Z.of_nat (t * j)) | _ => 0 end)]].
Notation ex_run := (ptrace_minmax ex_net true ex_tab ex_batches).
Definition is_weight (id : nat) : bool := match id with 3%nat | 4%nat | 5%nat | 7%nat | 8%nat | 14%nat | 15%nat => true | _ => false end.
Definition ex_width (id : nat) : nat := match id with 12%nat => 4 | _ => 2 end.
Definition ex_shapes_ok (st : nstate) : bool :=
  forallb (fun e => (is_weight (e_q e) || match shape (e_in e) with [_; n]%nat => (n =? ex_width (e_q e))%nat | _ => false end)%bool) (n_log st).
(** 2 + 2 time steps: quantizer 1 (state of the QSimpleRNN) was called four times *)
Example C65_shapes : match ex_run with Some (st, rec) => (ex_shapes_ok st, List.length rec, List.length (inputs_of 1 (n_log st))) | None => (false, 0%nat, 0%nat) end = (true, 2%nat, 4%nat).
Proof. vm_compute. reflexivity. Qed.
Lemma ex_kif_ok n f xs : (forall x, In x xs -> exists m, shape x = [m; n]%nat) -> calibratable (ex_kif n f) xs.
Proof.
  intros S. right. left. eexists. split; [reflexivity|]. right. exists None, (Some [0%Z]), [None; Some n], [1%nat], [1;n]%nat. split; [split; reflexivity|]. split; [repeat split|].
  intros x Hx. destruct (S x Hx) as (m & ->). split; [repeat constructor|]. intros g i _ _ hi [=].
Qed.
Lemma ex_on_relu : on_numbers ex_relu.
Proof. intros p q E. unfold ex_relu. rewrite (qlt_b_comp 0 p 0 q) by (assumption || reflexivity). destruct (qlt_b 0 q); [exact E|reflexivity]. Qed.
Lemma ex_on_step : on_numbers ex_step.
Proof. intros p q E. unfold ex_step. rewrite (qlt_b_comp 0 p 0 q) by (assumption || reflexivity). reflexivity. Qed.
Lemma ex_on_gate : on_numbers ex_gate.
Proof. intros p q E. unfold ex_gate. rewrite E. reflexivity. Qed.
Lemma ex_values : Forall (fun n => values_only (pn_call n)) ex_net.
Proof.
  constructor; [exact (C65_simple_rnn_values ex_rnn ex_on_relu)|]. constructor; [exact (C65_spiking_values ex_lif ex_on_step)|].
  constructor; [exact (C65_gru_values ex_gru ex_on_relu ex_on_gate)|constructor].
Qed.
Definition ex_weight (id : nat) : tensor Q :=
  match id with 3%nat => snd (sr_kernel ex_rnn) | 4%nat => snd (sr_rkernel ex_rnn) | 5%nat => ex_w [2]%nat (1#4) | 7%nat => ex_w [2]%nat (3#4) | 8%nat => snd (sn_factor ex_lif)
  | 14%nat => snd (sg_kernel ex_gru) | _ => snd (sg_rkernel ex_gru) end.
Lemma ex_asks id n : is_weight id = true -> In n ex_net -> forall x, asks_only id (ex_weight id) (pn_call n x).
Proof.
  intros W Hn. assert (I : In id [3;4;5;7;8;14;15]%nat) by (do 16 (destruct id as [|id]; [try discriminate W; cbn; tauto|]); discriminate W).
  destruct Hn as [<-|[<-|[<-|[]]]]; cbn [pn_call]; [apply C65_simple_rnn_weights|apply C65_spiking_weights|apply C65_gru_weights];
    (split; [intros H; cbn in H; repeat destruct H as [H|H]; try discriminate H; try contradiction; injection H as <-; discriminate W|]);
    intros w H; cbn in H; repeat destruct H as [H|H]; try contradiction; injection H as <- <-; reflexivity.
Qed.
Lemma ex_calibratable st rec : ex_run = Some (st, rec) -> ex_shapes_ok st = true -> forall id, calibratable (ex_tab id) (inputs_of id (n_log st)).
Proof.
  intros E Sh id. destruct (is_weight id) eqn:W.
  - pose proof (C65_weight_inputs id (ex_weight id) ex_net true ex_tab ex_batches st rec (fun n Hn => ex_asks id n W Hn) E) as X. clear E Sh.
    assert (Q : exists sh, ex_tab id = ex_wq sh) by (do 16 (destruct id as [|id]; [try discriminate W; eexists; reflexivity|]); discriminate W). destruct Q as (sh & ->).
    right. right. eexists _, (ex_weight id). split; [reflexivity|]. split; [exact X|]. left. split; reflexivity.
  - assert (Q : exists f, ex_tab id = ex_kif (ex_width id) f) by (clear E Sh; do 16 (destruct id as [|id]; [try discriminate W; eexists; reflexivity|]); eexists; reflexivity). destruct Q as (f & ->). apply ex_kif_ok.
    intros x Hx. unfold inputs_of in Hx. apply in_map_iff in Hx as (e & <- & He). apply filter_In in He as (He & Eq). apply Nat.eqb_eq in Eq. unfold ex_shapes_ok in Sh. rewrite forallb_forall in Sh. specialize (Sh e He). cbn beta in Sh. rewrite Eq, W in Sh. cbn [orb] in Sh.
    destruct (shape (e_in e)) as [|m [|n [|? ?]]]; try discriminate Sh. exists m. apply Nat.eqb_eq in Sh. subst n. reflexivity.
Qed.
Example C65_hypotheses : exists st rec, ptrace_minmax ex_net true ex_tab ex_batches = Some (st, rec) /\ (List.length rec = 2)%nat /\
  Forall (fun n => values_only (pn_call n)) ex_net /\ (forall id, calibratable (ex_tab id) (inputs_of id (n_log st))).
Proof.
  pose proof C65_shapes as Sh. destruct ex_run as [[st rec]|] eqn:E; [|discriminate Sh]. injection Sh as Sh L _.
  exists st, rec. split; [reflexivity|]. split; [exact L|]. split; [exact ex_values|exact (ex_calibratable st rec E Sh)].
Qed.
(** the values recorded on the first batch: the QSimpleRNN's outputs, the spikes, and the GRU's last state *)
Example C65_values :
  match ex_run with
  | Some (_, (_ :: h :: s :: y :: _) :: _) =>
      (map (fun i => Qred (at_ h i)) [[0;0;0];[0;0;1];[1;0;0];[1;0;1];[1;1;1]]%nat, map (fun i => Qred (at_ s i)) [[0;0;0];[0;0;1];[0;1;0];[1;0;1]]%nat, map (fun i => Qred (at_ y i)) [[0;0];[0;1];[1;0];[1;1]]%nat)
  | _ => ([], [], [])
  end = ([13#8; 5#4; 17#8; 5#4; 0], [1; 0; 0; 0], [-11#32; 0; 5#32; 0]).
Proof. vm_compute. reflexivity. Qed.

(** the calibrated layers meet the hypotheses of the hardware theorems *)
Definition row_b (n : nat) (q : quant) : bool :=
  (match w_scaler (q_w q) with None => negb (c_weight (q_c q)) | Some _ => false end &&
   match q_s q with
   | inl s => nat_list_eqb (shape (t_k s)) [1; n]%nat && nat_list_eqb (shape (t_i s)) [1; n]%nat && nat_list_eqb (shape (t_f s)) [1; n]%nat
   | inr _ => false end &&
   forallb (fun j => (-128 <=? q_i (vq_of q) j)%Z && (q_i (vq_of q) j <=? 127)%Z && (-128 <=? q_f (vq_of q) j)%Z && (q_f (vq_of q) j <=? 127)%Z) (seq 0 n))%bool.
Lemma row_b_ok n q : row_b n q = true -> row_quant n q /\ int8_quant n q.
Proof.
  unfold row_b. rewrite !andb_true_iff, forallb_forall. intros ((W & Sh) & F). split.
  - unfold row_quant. destruct (w_scaler (q_w q)); [discriminate W|]. apply negb_true_iff in W. split; [reflexivity|]. split; [exact W|].
    destruct (q_s q) as [s|s]; [|discriminate Sh]. rewrite !andb_true_iff in Sh. destruct Sh as ((A & B) & C). apply nat_list_eqb_eq in A, B, C. auto.
  - intros j Hj. specialize (F j). rewrite !andb_true_iff in F. destruct F as (((F1 & F2) & F3) & F4); [apply in_seq; lia|]. apply Z.leb_le in F1, F2, F3, F4. lia.
Qed.
Example C65_hardware_check :
  match ex_run with Some (st, _) => forallb (fun id => row_b (ex_width id) (n_tab st id)) [0;1;2;6;9;10;11;12;13]%nat | None => false end = true.
Proof. vm_compute. reflexivity. Qed.
Example C65_hardware_hypotheses : exists st rec, ptrace_minmax ex_net true ex_tab ex_batches = Some (st, rec) /\
  rnn_built (n_tab st) ex_rnn 2 /\ int8_quant 2 (n_tab st (sr_iq ex_rnn)) /\ int8_quants 2 (n_tab st) (sr_sq ex_rnn) /\ int8_quant 2 (n_tab st (sr_paq ex_rnn)) /\
  gru_built (n_tab st) ex_gru 2 /\ int8_quants 2 (n_tab st) (sg_iq ex_gru) /\ int8_quant 2 (n_tab st (sg_sq ex_gru)) /\ int8_quant 2 (n_tab st (sg_paq ex_gru)) /\
  int8_quant 4 (n_tab st (sg_praq ex_gru)) /\ int8_quant 2 (n_tab st (sg_rhq ex_gru)) /\
  snn_built (n_tab st) ex_lif /\ int8_quants 2 (n_tab st) (sn_iq ex_lif) /\ int8_quants 2 (n_tab st) (sn_oq ex_lif) /\ int8_quants 2 (n_tab st) (sn_sq ex_lif).
Proof.
  pose proof C65_hardware_check as H. destruct ex_run as [[st rec]|]; [|discriminate H]. exists st, rec. split; [reflexivity|]. rewrite forallb_forall in H.
  assert (R : forall id, In id [0;1;2;6;9;10;11;12;13]%nat -> row_quant (ex_width id) (n_tab st id) /\ int8_quant (ex_width id) (n_tab st id)) by (intros id Hid; apply row_b_ok, H, Hid). clear H.
  assert (Rs : forall id o, In id [0;1;2;6;9;10;11;12;13]%nat -> o = Some id -> row_quants (ex_width id) (n_tab st) o /\ int8_quants (ex_width id) (n_tab st) o) by (intros id o Hid ->; split; intros i [= <-]; apply R, Hid).
  assert (N : forall n, row_quants n (n_tab st) None /\ int8_quants n (n_tab st) None) by (split; intros i [=]).
  pose proof (R 0%nat ltac:(cbn; tauto)). pose proof (R 2%nat ltac:(cbn; tauto)). pose proof (R 10%nat ltac:(cbn; tauto)). pose proof (R 11%nat ltac:(cbn; tauto)). pose proof (R 12%nat ltac:(cbn; tauto)). pose proof (R 13%nat ltac:(cbn; tauto)).
  pose proof (Rs 1%nat _ ltac:(cbn; tauto) eq_refl). pose proof (Rs 6%nat _ ltac:(cbn; tauto) eq_refl). pose proof (Rs 9%nat _ ltac:(cbn; tauto) eq_refl). pose proof (N 2%nat).
  cbn [ex_width] in *.
  split; [split; [tauto|]; split; [tauto|]; split; [tauto|]; split; [reflexivity|]; split; [reflexivity|]; intros id b [= _ <-]; reflexivity|]. split; [tauto|]. split; [tauto|]. split; [tauto|].
  split; [split; [tauto|]; do 4 (split; [tauto|]); split; [reflexivity|]; split; [reflexivity|]; intros id b [=]|]. do 5 (split; [tauto|]).
  split; [|tauto]. split; [tauto|]. split; [tauto|]. split; [tauto|]. split; [reflexivity|]. split; [reflexivity|]. split; [intros id b [= _ <-]; reflexivity|].
  intros v. cbn [sn_spike ex_lif]. unfold ex_step. split; intros V.
  - replace (qlt_b 0 v) with true; [reflexivity|]. symmetry. apply qlt_b_iff, V.
  - replace (qlt_b 0 v) with false; [reflexivity|]. symmetry. apply not_true_iff_false. rewrite qlt_b_iff. lra.
Qed.

(** ** calibration is not idempotent with a KBI quantizer on data: QSimpleRNN, one unit, weights 1, the state quantizer has two bits.  At the second
    step the state 1/4 is representable; the third step widens the integer part, so that in inference the same state becomes 0 and the second output,
    33/4 while tracing, is 8 *)
Definition kbi_state : quant := mk_quant (mk_wrapper None None None) (mk_qconf RND WRAP true false None None) [0%nat]
  (inr (mk_kbit (mk_tensor [1;1]%nat (fun _ => true)) (mk_tensor [1;1]%nat (fun _ => 2)) (mk_tensor [1;1]%nat (fun _ => 0)))).
Definition kbi_rnn : srnn := mk_srnn 1 0 (Some 1%nat) 2 (3%nat, ex_w [1;1]%nat 1) (4%nat, ex_w [1;1]%nat 1) None (fun x => x) false true.
Definition kbi_net : list pnode := [mk_pnode (srnn_prog kbi_rnn) (One 0%nat)].
Definition kbi_tab (id : nat) : quant := match id with 1%nat => kbi_state | 3%nat | 4%nat => ex_wq [1;1]%nat | _ => ex_kif 1 3 end.
Definition kbi_x : tensor Q := mk_tensor [1;3;1]%nat (fun g => match g with [_; 0; _]%nat => 1#4 | [_; 1; _]%nat => 8 | _ => 0 end).
Theorem C65_kbi_state_refuted :
  exists st vs y st' vs' y', ptrace_minmax kbi_net true kbi_tab [[kbi_x]] = Some (st, [vs]) /\ nth_error vs 1 = Some y /\
    pforward Infer kbi_net (mk_nstate (n_tab st) []) [kbi_x] = Some (st', vs') /\ nth_error vs' 1 = Some y' /\
    at_ y [0;1;0]%nat == 33#4 /\ at_ y' [0;1;0]%nat == 8.
Proof.
  assert (H : match ptrace_minmax kbi_net true kbi_tab [[kbi_x]] with
    | Some (st, [vs]) => match nth_error vs 1, pforward Infer kbi_net (mk_nstate (n_tab st) []) [kbi_x] with
        | Some y, Some (st', vs') => match nth_error vs' 1 with
            | Some y' => (Qeq_bool (at_ y [0;1;0]%nat) (33#4) && Qeq_bool (at_ y' [0;1;0]%nat) 8)%bool
            | None => false end
        | _, _ => false end
    | _ => false end = true) by (vm_compute; reflexivity).
  destruct (ptrace_minmax kbi_net true kbi_tab [[kbi_x]]) as [[st [|vs [|? ?]]]|]; try discriminate H.
  destruct (nth_error vs 1) as [y|] eqn:E1; [|discriminate H]. destruct (pforward Infer kbi_net (mk_nstate (n_tab st) []) [kbi_x]) as [[st' vs']|] eqn:E2; [|discriminate H].
  destruct (nth_error vs' 1) as [y'|] eqn:E3; [|discriminate H]. apply andb_true_iff in H as (H1 & H2). apply Qeq_bool_eq in H1, H2.
  exists st, vs, y, st', vs', y'. auto 10.
Qed.
Print Assumptions C65_kbi_state_refuted.
