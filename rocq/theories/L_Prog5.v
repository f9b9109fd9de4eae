(** Lemmas for C65: the recorded values of a calibrated network, layer by layer, and hardware. *)
From Coq Require Import String.
From Verif Require Import Num M_Fixed L_Fixed M_State S_State L_State M_Wrapper M_Mapper S_Mapper L_Mapper M_Contr M_Ebops L_Ebops M_Pow2 M_Patch L_Patch M_Ops L_Ops M_Mirror L_Mirror M_Trace L_Trace M_Table S_Table L_Table M_Softmax M_Net S_Net L_Net L_Net2 L_Net3 M_NetX M_Causal L_Causal M_Calib S_Ops S_Calib L_Calib L_Calib2 L_Calib3 M_Prog M_Rnn S_Rnn L_Rnn S_Prog L_Prog L_Prog2 L_Prog3 L_Prog4.
Local Open Scope list_scope.

Lemma eval_same {A} (R : A -> A -> Prop) tab p p' : same_prog R p p' -> forall a, eval tab p = Some a -> exists a', eval tab p' = Some a' /\ R a a'.
Proof.
  induction 1 as [a a' H|p|id x x' k k' S Sk IH]; intros r E; cbn [eval] in *; [apply some_inj in E; subst r; exists a'; split; [reflexivity|exact H]|discriminate|].
  destruct (quant_call (tab id) x) as [y|] eqn:Ey; [|discriminate]. destruct (quant_call_same _ _ _ _ S Ey) as (y' & -> & Sy). cbn [bind] in *. exact (IH y y' Sy (quant_shape _ _ _ Ey) r E).
Qed.
Lemma same_inputs_sym x y : same_inputs x y -> same_inputs y x.
Proof. destruct x, y; cbn [same_inputs]; try exact (fun H => H); [apply st_sym|]. induction 1; constructor; [apply st_sym|]; assumption. Qed.

(** what a pass computed, node by node *)
Lemma prun_app m net : forall env st st' vs, prun_nodes m net st env = Some (st', vs) -> exists ex, vs = env ++ ex.
Proof.
  induction net as [|n net IH]; intros env st st' vs H; cbn [prun_nodes] in H; [injection H as <- <-; exists []; rewrite app_nil_r; reflexivity|].
  destruct (args_of env (pn_args n)) as [x|]; [|discriminate]. cbn [bind] in H. destruct (exec m (pn_call n x) st) as [[st1 y]|]; [|discriminate]. cbn [bind] in H. destruct (IH _ _ _ _ H) as (ex & ->). exists (y :: ex). rewrite <- app_assoc. reflexivity.
Qed.
Lemma pinfer_nodes tab net : forall env st st' vs, sametab (n_tab st) tab -> prun_nodes Infer net st env = Some (st', vs) ->
  forall j n, nth_error net j = Some n -> exists x y, args_of vs (pn_args n) = Some x /\ nth_error vs (List.length env + j) = Some y /\ eval tab (pn_call n x) = Some y.
Proof.
  induction net as [|n net IH]; intros env st st' vs T H j m Hj; [destruct j; discriminate|]. cbn [prun_nodes] in H. destruct (args_of env (pn_args n)) as [x|] eqn:Ea; [|discriminate]. cbn [bind] in H.
  pose proof (exec_infer tab (pn_call n x) st T) as X. destruct (eval tab (pn_call n x)) as [y|] eqn:Ev; [|rewrite X in H; discriminate]. destruct X as (st1 & E1 & T1). rewrite E1 in H. cbn [bind] in H.
  destruct j as [|j]; cbn [nth_error] in Hj.
  - injection Hj as <-. destruct (prun_app _ _ _ _ _ _ H) as (ex & ->). exists x, y. rewrite <- app_assoc. split; [exact (proj1 (args_app _ _ _ _ Ea))|]. split; [|exact Ev]. rewrite Nat.add_0_r, nth_error_app2, Nat.sub_diag by lia. reflexivity.
  - destruct (IH _ _ _ _ T1 H j m Hj) as (x' & y' & A & B & C). exists x', y'. split; [exact A|]. split; [|exact C]. rewrite app_length in B. cbn [List.length] in B. rewrite <- B. f_equal. lia.
Qed.
Lemma recorded net reset tab bs st rec : Forall (fun n => values_only (pn_call n)) net -> ptrace_minmax net reset tab bs = Some (st, rec) ->
  (forall id, calibratable (tab id) (inputs_of id (n_log st))) ->
  forall ins vs, In (ins, vs) (combine bs rec) -> forall j n, nth_error net j = Some n ->
  exists x y y', args_of vs (pn_args n) = Some x /\ nth_error vs (List.length ins + j) = Some y /\ eval (n_tab st) (pn_call n x) = Some y' /\ same_tensor y y'.
Proof.
  intros V H C ins vs Hin j n Hj. pose proof (In_combine_Forall2 _ _ _ (pnetwork_calibrated _ _ _ _ _ _ V H C) _ _ Hin) as (st' & vs' & F & _ & S). cbn beta in *. unfold pforward in F.
  destruct (pinfer_nodes (n_tab st) net ins (mk_nstate (n_tab st) []) st' vs' (fun i => eq_refl) F j n Hj) as (x' & y' & A & B & E).
  assert (S' : Forall2 same_tensor vs' vs) by (clear -S; induction S; constructor; [apply st_sym|]; assumption).
  destruct (args_same _ _ _ _ S' A) as (x & Ax & Sx). destruct (value_same _ _ _ _ S' B) as (y & By & Sy). rewrite Forall_forall in V. pose proof (V n (nth_error_In _ _ Hj)) as Vn.
  destruct (eval_same same_tensor (n_tab st) _ _ (Vn _ _ Sx) _ E) as (z & Ez & Sz). exists x, y, z. split; [exact Ax|]. split; [exact By|]. split; [exact Ez|]. exact (st_trans _ _ _ (st_sym _ _ Sy) Sz).
Qed.

(** *** the shape of the result of a recurrent layer *)
Lemma rnn_shape tab u backwards (sequences : bool) step x y B T f : shape x = [B; T; f] -> eval tab (rnn_prog u backwards sequences step (One x)) = Some y ->
  if sequences then exists T', shape y = [B; T'; u] else shape y = [B; u].
Proof.
  intros E. cbn [rnn_prog]. rewrite E. cbv zeta. rewrite eval_then. destruct (eval tab (time_loop _ _ _)) as [ys|] eqn:El; [|discriminate]. cbn [bind]. rewrite eval_lift. unfold stack_steps.
  destruct (forallb _ ys) eqn:V; [|discriminate]. cbn [bind]. intros H. destruct sequences; [apply some_inj in H; subst y; eexists; reflexivity|]. rewrite forallb_forall in V. specialize (V y (nth_error_In _ _ H)). apply nat_list_eqb_eq in V. exact V.
Qed.
Lemma returned_same (sequences : bool) u b B outs y y' : (b < B)%nat -> (if sequences then exists T, shape y = [B; T; u] else shape y = [B; u]) -> same_tensor y y' -> returned sequences u b outs y -> returned sequences u b outs y'.
Proof.
  intros Hb Sh (S & A) R. unfold returned in *. destruct sequences.
  - destruct Sh as (T & E). unfold rows in *. rewrite <- S, E in *. cbn [nth] in *. unfold same_seq in *. assert (G : forall l outs, (forall t, In t l -> (t < T)%nat) -> Forall2 (same_vec u) outs (map (fun t j => at_ y [b; t; j]) l) -> Forall2 (same_vec u) outs (map (fun t j => at_ y' [b; t; j]) l)).
    { induction l as [|t l IH]; intros os Hl F; cbn [map] in *; inversion F as [|o ? os' ? H F']; subst; [constructor|]. constructor; [|apply IH; [intros t' Ht'; apply Hl; right; exact Ht'|exact F']]. intros j Hj. rewrite (H j Hj). apply A. repeat constructor; [exact Hb|apply Hl; left; reflexivity|exact Hj]. }
    apply G; [|exact R]. intros t Ht. apply in_seq in Ht. lia.
  - destruct R as (N & R). split; [exact N|]. intros j Hj. rewrite (R j Hj). apply A. rewrite Sh. repeat constructor; assumption.
Qed.
Lemma srnn_shape tab l x y B T f : shape x = [B; T; f] -> eval tab (srnn_prog l (One x)) = Some y -> if sr_sequences l then exists T', shape y = [B; T'; sr_units l] else shape y = [B; sr_units l].
Proof.
  intros E. unfold srnn_prog. rewrite eval_then, eval_ask. destruct (quant_call _ _); [|discriminate]. cbn [bind]. rewrite eval_then, eval_ask. destruct (quant_call (tab (fst (sr_rkernel l))) _); [|discriminate]. cbn [bind]. rewrite eval_then, eval_bias. destruct (match sr_bias l with Some _ => _ | None => _ end); [|discriminate]. cbn [bind]. apply (rnn_shape _ _ _ _ _ _ _ _ _ _ E).
Qed.
Lemma sgru_shape tab l x y B T f : shape x = [B; T; f] -> eval tab (sgru_prog l (One x)) = Some y -> if sg_sequences l then exists T', shape y = [B; T'; sg_units l] else shape y = [B; sg_units l].
Proof.
  intros E. unfold sgru_prog. rewrite eval_then, eval_ask. destruct (quant_call _ _); [|discriminate]. cbn [bind]. rewrite eval_then, eval_ask. destruct (quant_call (tab (fst (sg_rkernel l))) _); [|discriminate]. cbn [bind]. rewrite eval_then, eval_bias. destruct (match sg_bias l with Some _ => _ | None => _ end); [|discriminate]. cbn [bind]. apply (rnn_shape _ _ _ _ _ _ _ _ _ _ E).
Qed.

(** *** hardware *)
Lemma last_same {u : nat} r k : Forall2 (same_vec u) r k -> k <> [] -> r <> [] /\ same_vec u (last r (fun _ => 0)) (last k (fun _ => 0)).
Proof.
  induction 1 as [|a c r k H F IH]; intros N; [destruct N; reflexivity|]. split; [discriminate|]. destruct F as [|a2 c2 r k H2 F]; [exact H|]. change (last (a :: a2 :: r) (fun _ => 0)) with (last (a2 :: r) (fun _ => 0)). change (last (c :: c2 :: k) (fun _ => 0)) with (last (c2 :: k) (fun _ => 0)). apply IH. discriminate.
Qed.
Lemma returned_replay (sequences : bool) u b r k y : same_seq u r k -> returned sequences u b k y -> returned sequences u b r y.
Proof.
  intros S R. unfold returned in *. destruct sequences.
  - unfold same_seq in *. clear -S R. revert R. generalize (rows b y). induction S as [|a c r k H F IH]; intros l R; inversion R as [|? d ? l' H' R']; subst; constructor; [intros j Hj; rewrite (H j Hj); apply H', Hj|exact (IH _ R')].
  - destruct R as (N & R). destruct (last_same _ _ S N) as (N' & L). split; [exact N'|]. intros j Hj. rewrite (L j Hj). apply R, Hj.
Qed.
Lemma rnn_of_ok tab l f c : rnn_of tab l f = Some c -> int8_quant f (tab (sr_iq l)) -> int8_quants (sr_units l) tab (sr_sq l) -> int8_quant (sr_units l) (tab (sr_paq l)) ->
  r_units c = sr_units l /\ r_act c = sr_act l /\ widths_ok (r_in c) (r_iq c) /\ owidths_ok (r_units c) (r_sq c) /\ widths_ok (r_units c) (r_paq c).
Proof.
  unfold rnn_of. intros H W1 W2 W3. destruct (quant_call _ _) as [k|]; [|discriminate]. cbn [bind] in H. destruct (quant_call (tab (fst (sr_rkernel l))) _) as [rk|]; [|discriminate]. cbn [bind] in H. destruct (match sr_bias l with Some _ => _ | None => _ end) as [b|]; [|discriminate]. cbn [bind] in H. apply some_inj in H. subst c.
  cbn [r_units r_act r_in r_iq r_sq r_paq]. split; [reflexivity|]. split; [reflexivity|]. split; [exact W1|]. split; [|exact W3]. intros q Hq. destruct (sr_sq l) as [i|]; [|discriminate]. cbn [option_map] in Hq. apply some_inj in Hq. subst q. apply W2. reflexivity.
Qed.
Lemma srnn_hardware net reset tab bs st rec : Forall (fun n => values_only (pn_call n)) net -> ptrace_minmax net reset tab bs = Some (st, rec) ->
  (forall id, calibratable (tab id) (inputs_of id (n_log st))) ->
  forall ins vs j l args x y B T f dx act', In (ins, vs) (combine bs rec) -> nth_error net j = Some (mk_pnode (srnn_prog l) args) ->
  args_of vs args = Some (One x) -> nth_error vs (List.length ins + j) = Some y -> shape x = [B; T; f] ->
  rnn_built (n_tab st) l f -> int8_quant f (n_tab st (sr_iq l)) -> int8_quants (sr_units l) (n_tab st) (sr_sq l) -> int8_quant (sr_units l) (n_tab st (sr_paq l)) ->
  (forall p q, p == q -> act' p == sr_act l q) ->
  exists c, rnn_of (n_tab st) l f = Some c /\
    forall b, (b < B)%nat -> returned (sr_sequences l) (sr_units l) b (fst (replay_rnn dx (replay_rnn_cell c act') (sr_backwards l) (rows b x) (fun _ => 0))) y.
Proof.
  intros V H C ins vs j l args x y B T f dx act' Hin Hj Ax Hy Ex Rb W1 W2 W3 Ha. destruct (recorded _ _ _ _ _ _ V H C _ _ Hin _ _ Hj) as (x0 & y0 & z & A & Y & E & S). cbn [pn_args pn_call] in *. rewrite Ax in A. apply some_inj in A. subst x0. rewrite Hy in Y. apply some_inj in Y. subst y0.
  assert (On : on_numbers (sr_act l)) by (intros p q Hpq; rewrite <- (Ha p p (Qeq_refl p)); apply Ha, Hpq).
  assert (K : exists c, rnn_of (n_tab st) l f = Some c).
  { unfold srnn_prog in E. rewrite eval_then, eval_ask in E. unfold rnn_of. destruct (quant_call (n_tab st (fst (sr_kernel l))) _); [|discriminate]. cbn [bind] in *. rewrite eval_then, eval_ask in E. destruct (quant_call (n_tab st (fst (sr_rkernel l))) _); [|discriminate]. cbn [bind] in *. rewrite eval_then, eval_bias in E.
    destruct (sr_bias l) as [[i bs0]|]; [|eexists; reflexivity]. destruct (quant_call (n_tab st i) bs0); [|discriminate]. eexists. reflexivity. }
  destruct K as (c & Ec). exists c. split; [exact Ec|]. intros b Hb. destruct (srnn_row (n_tab st) B b Hb l f T x z On Rb Ex E) as (c' & Ec' & R). rewrite Ec in Ec'. apply some_inj in Ec'. subst c'.
  pose proof (srnn_shape _ _ _ _ _ _ _ Ex E) as Sz. destruct (rnn_of_ok _ _ _ _ Ec W1 W2 W3) as (Eu & Ea & Ok).
  apply (returned_same _ _ b B _ z y Hb Sz (st_sym _ _ S)). refine (returned_replay _ _ _ _ _ _ _ R). rewrite <- Eu. rewrite <- Ea in Ha. exact (proj1 (rnn_replay dx c act' (sr_backwards l) (rows b x) (fun _ => 0) Ok Ha)).
Qed.
Lemma gru_of_ok tab l f c : gru_of tab l f = Some c -> int8_quants f tab (sg_iq l) -> int8_quant (sg_units l) (tab (sg_sq l)) -> int8_quant (sg_units l) (tab (sg_paq l)) -> int8_quant (2 * sg_units l) (tab (sg_praq l)) -> int8_quant (sg_units l) (tab (sg_rhq l)) ->
  g_units c = sg_units l /\ g_act c = sg_act l /\ g_ract c = sg_ract l /\ owidths_ok (g_in c) (g_iq c) /\ widths_ok (g_units c) (g_sq c) /\ widths_ok (g_units c) (g_paq c) /\ widths_ok (2 * g_units c) (g_praq c) /\ widths_ok (g_units c) (g_rhq c).
Proof.
  unfold gru_of. intros H W1 W2 W3 W4 W5. destruct (quant_call _ _) as [k|]; [|discriminate]. cbn [bind] in H. destruct (quant_call (tab (fst (sg_rkernel l))) _) as [rk|]; [|discriminate]. cbn [bind] in H. destruct (match sg_bias l with Some _ => _ | None => _ end) as [b|]; [|discriminate]. cbn [bind] in H. apply some_inj in H. subst c.
  cbn [g_units g_act g_ract g_in g_iq g_sq g_paq g_praq g_rhq]. repeat (split; [solve [reflexivity|assumption|intros q Hq; destruct (sg_iq l) as [i|]; [|discriminate]; cbn [option_map] in Hq; apply some_inj in Hq; subst q; apply W1; reflexivity]|]). exact W5.
Qed.
Lemma sgru_hardware net reset tab bs st rec : Forall (fun n => values_only (pn_call n)) net -> ptrace_minmax net reset tab bs = Some (st, rec) ->
  (forall id, calibratable (tab id) (inputs_of id (n_log st))) ->
  forall ins vs j l args x y B T f dx act' ract', In (ins, vs) (combine bs rec) -> nth_error net j = Some (mk_pnode (sgru_prog l) args) ->
  args_of vs args = Some (One x) -> nth_error vs (List.length ins + j) = Some y -> shape x = [B; T; f] ->
  gru_built (n_tab st) l f -> int8_quants f (n_tab st) (sg_iq l) -> int8_quant (sg_units l) (n_tab st (sg_sq l)) -> int8_quant (sg_units l) (n_tab st (sg_paq l)) -> int8_quant (2 * sg_units l) (n_tab st (sg_praq l)) -> int8_quant (sg_units l) (n_tab st (sg_rhq l)) ->
  (forall p q, p == q -> act' p == sg_act l q) -> (forall p q, p == q -> ract' p == sg_ract l q) ->
  exists c, gru_of (n_tab st) l f = Some c /\
    forall b, (b < B)%nat -> returned (sg_sequences l) (sg_units l) b (fst (replay_rnn dx (replay_gru_cell c act' ract') (sg_backwards l) (rows b x) (fun _ => 0))) y.
Proof.
  intros V H C ins vs j l args x y B T f dx act' ract' Hin Hj Ax Hy Ex Rb W1 W2 W3 W4 W5 Ha Hr. destruct (recorded _ _ _ _ _ _ V H C _ _ Hin _ _ Hj) as (x0 & y0 & z & A & Y & E & S). cbn [pn_args pn_call] in *. rewrite Ax in A. apply some_inj in A. subst x0. rewrite Hy in Y. apply some_inj in Y. subst y0.
  assert (On : on_numbers (sg_act l)) by (intros p q Hpq; rewrite <- (Ha p p (Qeq_refl p)); apply Ha, Hpq). assert (On' : on_numbers (sg_ract l)) by (intros p q Hpq; rewrite <- (Hr p p (Qeq_refl p)); apply Hr, Hpq).
  assert (K : exists c, gru_of (n_tab st) l f = Some c).
  { unfold sgru_prog in E. rewrite eval_then, eval_ask in E. unfold gru_of. destruct (quant_call (n_tab st (fst (sg_kernel l))) _); [|discriminate]. cbn [bind] in *. rewrite eval_then, eval_ask in E. destruct (quant_call (n_tab st (fst (sg_rkernel l))) _); [|discriminate]. cbn [bind] in *. rewrite eval_then, eval_bias in E.
    destruct (sg_bias l) as [[i bs0]|]; [|eexists; reflexivity]. destruct (quant_call (n_tab st i) bs0); [|discriminate]. eexists. reflexivity. }
  destruct K as (c & Ec). exists c. split; [exact Ec|]. intros b Hb. destruct (sgru_row (n_tab st) B b Hb l f T x z On On' Rb Ex E) as (c' & Ec' & R). rewrite Ec in Ec'. apply some_inj in Ec'. subst c'.
  pose proof (sgru_shape _ _ _ _ _ _ _ Ex E) as Sz. destruct (gru_of_ok _ _ _ _ Ec W1 W2 W3 W4 W5) as (Eu & Ea & Er & Ok).
  apply (returned_same _ _ b B _ z y Hb Sz (st_sym _ _ S)). refine (returned_replay _ _ _ _ _ _ _ R). rewrite <- Eu. rewrite <- Ea in Ha. rewrite <- Er in Hr. exact (proj1 (gru_replay dx c act' ract' (sg_backwards l) (rows b x) (fun _ => 0) Ok Ha Hr)).
Qed.
Lemma snn_of_ok tab l c : snn_of tab l = Some c -> int8_quants (sn_units l) tab (sn_iq l) -> int8_quants (sn_units l) tab (sn_oq l) -> int8_quants (sn_units l) tab (sn_sq l) ->
  s_units c = sn_units l /\ owidths_ok (s_units c) (s_iq c) /\ owidths_ok (s_units c) (s_oq c) /\ owidths_ok (s_units c) (s_sq c).
Proof.
  unfold snn_of. intros H W1 W2 W3. destruct (match sn_beta l with Some _ => _ | None => _ end) as [b|]; [|discriminate]. cbn [bind] in H. destruct (quant_call _ _) as [k|]; [|discriminate]. cbn [bind] in H. apply some_inj in H. subst c.
  cbn [s_units s_iq s_oq s_sq]. split; [reflexivity|]. split; [|split]; intros q Hq; [destruct (sn_iq l) as [i|]|destruct (sn_oq l) as [i|]|destruct (sn_sq l) as [i|]]; try discriminate; cbn [option_map] in Hq; apply some_inj in Hq; subst q; [apply W1|apply W2|apply W3]; reflexivity.
Qed.
Lemma ssnn_hardware net reset tab bs st rec : Forall (fun n => values_only (pn_call n)) net -> ptrace_minmax net reset tab bs = Some (st, rec) ->
  (forall id, calibratable (tab id) (inputs_of id (n_log st))) ->
  forall ins vs j l args x y B T dx, In (ins, vs) (combine bs rec) -> nth_error net j = Some (mk_pnode (ssnn_prog l) args) ->
  args_of vs args = Some (One x) -> nth_error vs (List.length ins + j) = Some y -> shape x = [S B; S T; sn_units l] ->
  snn_built (n_tab st) l -> int8_quants (sn_units l) (n_tab st) (sn_iq l) -> int8_quants (sn_units l) (n_tab st) (sn_oq l) -> int8_quants (sn_units l) (n_tab st) (sn_sq l) ->
  exists c, snn_of (n_tab st) l = Some c /\
    forall b, (b < S B)%nat -> returned (sn_sequences l) (sn_units l) b (fst (replay_rnn dx (replay_snn c) (sn_backwards l) (rows b x) (fun _ => 0))) y.
Proof.
  intros V H C ins vs j l args x y B T dx Hin Hj Ax Hy Ex Rb W1 W2 W3. destruct (recorded _ _ _ _ _ _ V H C _ _ Hin _ _ Hj) as (x0 & y0 & z & A & Y & E & Sm). cbn [pn_args pn_call] in *. rewrite Ax in A. apply some_inj in A. subst x0. rewrite Hy in Y. apply some_inj in Y. subst y0.
  destruct (ssnn_row (n_tab st) (S B) 0 ltac:(lia) l T x z Rb Ex E) as (c & Ec & _). exists c. split; [exact Ec|]. intros b Hb. destruct (ssnn_row (n_tab st) (S B) b Hb l T x z Rb Ex E) as (c' & Ec' & R). rewrite Ec in Ec'. apply some_inj in Ec'. subst c'.
  unfold ssnn_prog in E. pose proof (rnn_shape _ _ _ _ _ _ _ _ _ _ Ex E) as Sz. destruct (snn_of_ok _ _ _ Ec W1 W2 W3) as (Eu & Ok).
  apply (returned_same _ _ b (S B) _ z y Hb Sz (st_sym _ _ Sm)). refine (returned_replay _ _ _ _ _ _ _ R). rewrite <- Eu. exact (proj1 (snn_replay dx c (sn_backwards l) (rows b x) (fun _ => 0) Ok)).
Qed.

(** *** softmax and tables as layers of C63 *)
Lemma soft_frozen tab l x y : so_mask l = None -> eval tab (ssoft_prog l (One x)) = Some y -> keras_x (soft_of tab l) [VArr x] [] = Some [("final"%string, [y])].
Proof.
  intros M. cbn [ssoft_prog]. unfold ssoft_core. rewrite M. intros E. rewrite eval_then, eval_ask_opt in E. unfold soft_of, keras_x. cbn [training_off one_arg bind].
  assert (I : match option_map (fun i => QSingle (tab i)) (so_iq l) with Some q => iq_call q (One x) | None => Some (One x) end = do z <- match so_iq l with Some i => quant_call (tab i) x | None => Some x end; Some (One z)) by (destruct (so_iq l); reflexivity).
  rewrite I. clear I. destruct (match so_iq l with Some i => quant_call (tab i) x | None => Some x end) as [z|]; [|discriminate]. cbn [bind] in *. cbn [keras_op]. unfold keras_softmax, exp_table, inv_table. cbn [sx_stable sx_axes sx_exp_iq sx_exp sx_exp_oq sx_inv_iq sx_inv sx_inv_oq].
  rewrite eval_then, eval_lift in E. destruct (if so_stable l then _ else _) as [w|]; [|discriminate]. cbn [bind] in *. rewrite eval_then, eval_ask_opt in E.
  assert (X : forall d iq f oq v, final1 (keras_layer (LQ (match option_map tab iq with Some q => Some (QSingle q) | None => None end) CLut (AFn f) (Some oq)) [VArr v] []) = d -> d = do u <- match iq with Some i => quant_call (tab i) v | None => Some v end; quant_call oq (tmap f u)).
  { intros d iq f oq v <-. unfold keras_layer. cbn [training_off one_arg bind]. destruct iq as [i|]; cbn [option_map iq_call]; [destruct (quant_call (tab i) v) as [u|]; [|reflexivity]|]; cbn [bind core_call act_fn]; destruct (quant_call oq _); reflexivity. }
  rewrite (X _ (so_exp_iq l) (so_exp l) (tab (so_exp_oq l)) w eq_refl). destruct (match so_exp_iq l with Some i => quant_call (tab i) w | None => Some w end) as [u|]; [|discriminate]. cbn [bind] in *. rewrite eval_then, eval_ask in E.
  destruct (quant_call (tab (so_exp_oq l)) _) as [e|]; [|discriminate]. cbn [bind] in *. rewrite eval_then, eval_lift in E. cbn [bind] in E. rewrite eval_then, eval_ask in E.
  pose proof (X _ (Some (so_inv_iq l)) (so_inv l) (tab (so_inv_oq l)) (np_reduce qsum (so_axes l) true e) eq_refl) as X2. cbn [option_map] in X2. rewrite X2. clear X X2.
  destruct (quant_call (tab (so_inv_iq l)) _) as [s|]; [|discriminate]. cbn [bind] in *. rewrite eval_then, eval_ask in E. destruct (quant_call (tab (so_inv_oq l)) _) as [d|]; [|discriminate]. cbn [bind] in *.
  rewrite eval_then, eval_lift in E. destruct (np_binary Qmult e d) as [r|]; [|discriminate]. cbn [bind] in *. rewrite eval_ask_opt in E. destruct (so_oq l) as [i|]; cbn [option_map]; [rewrite E|apply some_inj in E; subst r]; reflexivity.
Qed.
Lemma table_frozen_eq tab l a tr x y : sl_act l = act_fn a -> eval tab (stable_prog l (One x)) = Some y -> keras_x (table_frozen tab l a tr) [VArr x] [] = Some [("final"%string, [y])].
Proof.
  intros Ea. cbn [stable_prog]. intros E. rewrite eval_then, eval_lift in E. unfold table_frozen, keras_x. cbn [training_off one_arg bind]. unfold keras_table. cbn [xt_patch xt_in xt_out xt_net xt_bn xt_isqrt xt_iq xt_toq xt_act xt_oq].
  destruct (keras_patches (sl_patch l) x) as [p|]; [|discriminate]. cbn [bind] in *. destruct (negb _ && _)%bool eqn:G; [|discriminate]. apply andb_prop in G as (_ & G). rewrite G. cbn [bind] in E. cbv zeta. rewrite eval_then, eval_ask_opt in E.
  assert (I : match option_map tab (sl_iq l) with Some q => quant_call q (spread (sl_out l) p) | None => Some (spread (sl_out l) p) end = match sl_iq l with Some i => quant_call (tab i) (spread (sl_out l) p) | None => Some (spread (sl_out l) p) end) by (destruct (sl_iq l); reflexivity).
  rewrite I. clear I. destruct (match sl_iq l with Some i => quant_call (tab i) _ | None => Some _ end) as [q|]; [|discriminate]. cbn [bind] in *. rewrite eval_then, eval_ask in E. cbv zeta in E. destruct (quant_call (tab (sl_toq l)) _) as [r|]; [|discriminate]. cbn [bind] in *.
  rewrite eval_ask_opt, Ea in E. destruct (sl_oq l) as [i|]; cbn [option_map]; [rewrite E|apply some_inj in E; subst y]; reflexivity.
Qed.

(** *** quantizers of weights *)
Lemma asks_then {A C} id w (p : prog A) (f : A -> prog C) : asks_only id w p -> (forall a, asks_only id w (f a)) -> asks_only id w (then_ p f).
Proof. intros H F. induction p as [a| |i x k IH]; cbn [then_ asks_only] in *; [apply F|exact I|]. destruct H as (H1 & H2). split; [exact H1|]. intros y. apply IH, H2. Qed.
Lemma asks_ask id w i x : i <> id -> asks_only id w (ask i x).
Proof. intros N. cbn [ask asks_only]. split; [intros E; destruct (N E)|intros; exact I]. Qed.
Lemma asks_ask_opt id w o x : o <> Some id -> asks_only id w (ask_opt o x).
Proof. intros N. destruct o as [i|]; cbn [ask_opt]; [apply asks_ask; intros ->; apply N; reflexivity|exact I]. Qed.
Lemma asks_weight id w i v : (i = id -> v = w) -> asks_only id w (ask i v).
Proof. intros H. cbn [ask asks_only]. split; [exact H|intros; exact I]. Qed.
Lemma asks_lift {A} id w (o : option A) : asks_only id w (lift o).
Proof. destruct o; exact I. Qed.
Lemma exec_log {A} m id w (p : prog A) : asks_only id w p -> forall st st' a, exec m p st = Some (st', a) -> (forall x, In x (inputs_of id (n_log st)) -> x = w) -> forall x, In x (inputs_of id (n_log st')) -> x = w.
Proof.
  induction p as [a0| |i x k IH]; intros H st st' a E L; cbn [exec asks_only] in *; [injection E as <- <-; exact L|discriminate|]. destruct H as (H1 & H2). destruct (call_q m st i x) as [[st1 y]|] eqn:Ec; [|discriminate]. cbn [bind] in E. apply (IH y (H2 y) _ _ _ E).
  unfold call_q in Ec. destruct (quant_step m (n_tab st i) x) as [[q' y']|]; [|discriminate]. cbn [bind] in Ec. injection Ec as <- <-. cbn [n_log]. unfold inputs_of. rewrite filter_app, map_app. cbn [filter e_q]. intros v Hv. apply in_app_or in Hv as [Hv|Hv]; [apply L, Hv|].
  destruct (Nat.eqb_spec i id) as [->|]; [|destruct Hv]. cbn [map e_in In] in Hv. destruct Hv as [<-|[]]. apply H1. reflexivity.
Qed.
Lemma pnodes_log m id w net : (forall n, In n net -> forall x, asks_only id w (pn_call n x)) -> forall env st st' vs, prun_nodes m net st env = Some (st', vs) -> (forall x, In x (inputs_of id (n_log st)) -> x = w) -> forall x, In x (inputs_of id (n_log st')) -> x = w.
Proof.
  induction net as [|n net IH]; intros H env st st' vs E L; cbn [prun_nodes] in E; [injection E as <- <-; exact L|]. destruct (args_of env (pn_args n)) as [x|]; [|discriminate]. cbn [bind] in E. destruct (exec m (pn_call n x) st) as [[st1 y]|] eqn:E1; [|discriminate]. cbn [bind] in E.
  apply (IH (fun n' Hn' => H n' (or_intror Hn')) _ _ _ _ E). exact (exec_log m id w _ (H n (or_introl eq_refl) x) _ _ _ E1 L).
Qed.
Lemma pweight_inputs id w net reset tab bs st rec : (forall n, In n net -> forall x, asks_only id w (pn_call n x)) -> ptrace_minmax net reset tab bs = Some (st, rec) -> forall x, In x (inputs_of id (n_log st)) -> x = w.
Proof.
  intros H E. unfold ptrace_minmax in E. assert (G : forall bs st0 st rec, ptrace_batches net st0 bs = Some (st, rec) -> (forall x, In x (inputs_of id (n_log st0)) -> x = w) -> forall x, In x (inputs_of id (n_log st)) -> x = w).
  { clear -H. induction bs as [|b bs IH]; intros st0 st rec E L; cbn [ptrace_batches] in E; [injection E as <- <-; exact L|]. destruct (pforward Trace net st0 b) as [[st1 vs]|] eqn:E1; [|discriminate]. cbn [bind] in E. destruct (ptrace_batches net st1 bs) as [[st2 rest]|] eqn:E2; [|discriminate]. cbn [bind] in E. injection E as <- <-.
    apply (IH _ _ _ E2). exact (pnodes_log Trace id w net H _ _ _ _ E1 L). }
  apply (G _ _ _ _ E). intros x [].
Qed.
Lemma asks_loop id w step : (forall x s, asks_only id w (step x s)) -> forall xs s, asks_only id w (time_loop step xs s).
Proof. intros H. induction xs as [|x xs IH]; intros s; cbn [time_loop]; [exact I|]. apply asks_then; [apply H|]. intros r. apply asks_then; [apply IH|]. intros ys. exact I. Qed.
Lemma asks_rnn id w u bw sq step x : (forall x s, asks_only id w (step x s)) -> asks_only id w (rnn_prog u bw sq step x).
Proof. intros H. destruct x as [x|]; cbn [rnn_prog]; [|exact I]. destruct (shape x) as [|n [|t [|f [|? ?]]]]; try exact I. apply asks_then; [apply asks_loop, H|]. intros ys. apply asks_lift. Qed.
Lemma asks_bias id w (b : option (nat * tensor Q)) : (forall w', In (id, w') (listed b) -> w' = w) -> asks_only id w (match b with Some (id, b) => run y <- ask id b; Ret (Some y) | None => Ret None end).
Proof. intros H. destruct b as [[i b]|]; [|exact I]. apply asks_then; [|intros y; exact I]. apply asks_weight. intros ->. apply H. left. reflexivity. Qed.
Lemma srnn_weights id w l : weight_of id w [Some (sr_iq l); sr_sq l; Some (sr_paq l)] ([sr_kernel l; sr_rkernel l] ++ listed (sr_bias l)) -> forall x, asks_only id w (srnn_prog l x).
Proof.
  intros (N & W) x. unfold srnn_prog. apply asks_then; [apply asks_weight; intros E; apply W; left; rewrite <- E; destruct (sr_kernel l); reflexivity|]. intros k. apply asks_then; [apply asks_weight; intros E; apply W; right; left; rewrite <- E; destruct (sr_rkernel l); reflexivity|]. intros rk.
  apply asks_then; [apply asks_bias; intros w' Hw; apply W; right; right; exact Hw|]. intros b. apply asks_rnn. intros y s. unfold srnn_step. apply asks_then; [apply asks_ask_opt; intros E; apply N; right; left; exact E|]. intros qs. apply asks_then; [apply asks_ask; intros E; apply N; left; rewrite E; reflexivity|]. intros qx.
  apply asks_then; [apply asks_lift|]. intros o. apply asks_then; [apply asks_ask; intros E; apply N; right; right; left; rewrite E; reflexivity|]. intros p. exact I.
Qed.
Lemma sgru_weights id w l : weight_of id w [sg_iq l; Some (sg_sq l); Some (sg_paq l); Some (sg_praq l); Some (sg_rhq l)] ([sg_kernel l; sg_rkernel l] ++ listed (sg_bias l)) -> forall x, asks_only id w (sgru_prog l x).
Proof.
  intros (N & W) x. unfold sgru_prog. apply asks_then; [apply asks_weight; intros E; apply W; left; rewrite <- E; destruct (sg_kernel l); reflexivity|]. intros k. apply asks_then; [apply asks_weight; intros E; apply W; right; left; rewrite <- E; destruct (sg_rkernel l); reflexivity|]. intros rk.
  assert (N1 : sg_iq l <> Some id) by (intros E; apply N; left; exact E). assert (N2 : sg_sq l <> id) by (intros E; apply N; right; left; rewrite E; reflexivity). assert (N3 : sg_paq l <> id) by (intros E; apply N; right; right; left; rewrite E; reflexivity).
  assert (N4 : sg_praq l <> id) by (intros E; apply N; right; right; right; left; rewrite E; reflexivity). assert (N5 : sg_rhq l <> id) by (intros E; apply N; right; right; right; right; left; rewrite E; reflexivity).
  apply asks_then; [apply asks_bias; intros w' Hw; apply W; right; right; exact Hw|]. intros b. apply asks_rnn. intros y s. unfold sgru_step. cbv zeta. apply asks_then; [apply asks_ask, N2|]. intros qh. apply asks_then; [apply asks_ask_opt, N1|]. intros qx.
  apply asks_then; [apply asks_lift|]. intros [[xm inner] z]. apply asks_then; [apply asks_ask, N4|]. intros qzr. apply asks_then; [apply asks_lift|]. intros [zg r]. apply asks_then.
  { destruct (sg_reset_after l); (apply asks_then; [apply asks_lift|]); intros i; (apply asks_then; [apply asks_ask, N5|]); intros q; apply asks_lift. }
  intros rh. apply asks_then; [apply asks_lift|]. intros h. apply asks_then; [apply asks_ask, N3|]. intros qhh. apply asks_then; [apply asks_lift|]. intros o. exact I.
Qed.
Lemma ssnn_weights id w l : weight_of id w [sn_iq l; sn_oq l; sn_sq l] (sn_factor l :: listed (sn_beta l)) -> forall x, asks_only id w (ssnn_prog l x).
Proof.
  intros (N & W) x. unfold ssnn_prog. apply asks_rnn. intros y s. unfold ssnn_step. apply asks_then.
  { destruct (sn_beta l) as [[i b]|]; [|exact I]. apply asks_then; [|intros q; apply asks_lift]. apply asks_weight. intros ->. apply W. right. left. reflexivity. }
  intros m. apply asks_then; [apply asks_ask_opt; intros E; apply N; left; exact E|]. intros qx. apply asks_then; [apply asks_lift|]. intros mem. apply asks_then; [apply asks_lift|]. intros sc. apply asks_then; [apply asks_lift|]. intros spk.
  apply asks_then; [apply asks_weight; intros E; apply W; left; rewrite <- E; destruct (sn_factor l); reflexivity|]. intros fac. apply asks_then; [apply asks_lift|]. intros o. apply asks_then; [apply asks_ask_opt; intros E; apply N; right; left; exact E|]. intros q.
  apply asks_then; [apply asks_lift|]. intros r. apply asks_then; [apply asks_ask_opt; intros E; apply N; right; right; left; exact E|]. intros t. exact I.
Qed.
