(** Lemmas for C65: attention end to end. *)
From Coq Require Import String.
From Verif Require Import Num M_Fixed L_Fixed M_State S_State L_State M_Wrapper M_Mapper S_Mapper L_Mapper M_Contr M_Ops L_Ops M_Mirror M_Softmax M_Net S_Net L_Net L_Net2 L_Net3 M_Calib S_Ops S_Calib L_Calib L_Calib2 M_Rnn M_Attn S_Attn L_Attn M_Prog S_Prog L_Prog L_Prog2 L_Prog3 L_Prog5 M_ProgAttn S_ProgAttn L_ProgAttn.
Local Open Scope list_scope.

Lemma attn_sample tab B b (Hb : (b < B)%nat) a z x q v k y : on_numbers (ha_exp a) -> on_numbers (ha_inv a) -> attn_built tab a z -> qvk x = Some (q, v, k) -> sizes_of B z q v k ->
  eval tab (smha_prog (attn_prog a) x) = Some y ->
  exists c, mha_of tab a z = Some c /\ shape y = [B; z_T z; z_E z] /\
    forall t e, (t < z_T z)%nat -> (e < z_E z)%nat -> at_ y [b; t; e] == fst (layer_mha c no_masks (sample2 b q) (option_map (sample2 b) v) (option_map (sample2 b) k)) t e.
Proof.
  intros Fe Fi (A1 & A2 & A3 & A4 & A5 & A6 & A7 & A8 & A9 & A10 & A11 & A12 & A13 & A14) X (Z1 & Z2 & Z3). unfold smha_prog. rewrite eval_then, eval_lift.
  set (V := or_else v q) in *. set (K := or_else k V) in *.
  assert (EX : match x with One q => Some (q, q, q) | Many [q; v] => Some (q, v, v) | Many [q; v; k] => Some (q, v, k) | _ => None end = Some (q, V, K)).
  { unfold qvk in X. destruct x as [q0|[|q0 [|v0 [|k0 [|? ?]]]]]; try discriminate X; injection X as <- <- <-; reflexivity. }
  rewrite EX. cbn [bind]. clear X EX. unfold attn_prog. cbn [sm_query sm_key sm_value sm_scale sm_dot sm_soft sm_combine sm_out sm_oq].
  rewrite eval_then. destruct (eval tab (layer_prog (head_layer (ha_query_iq a) (ha_q a)) (One q))) as [yq|] eqn:E1; [|discriminate]. cbn [bind].
  rewrite eval_then. destruct (eval tab (layer_prog (head_layer (ha_key_iq a) (ha_k a)) (One K))) as [yk|] eqn:E2; [|discriminate]. cbn [bind].
  rewrite eval_then. destruct (eval tab (layer_prog (head_layer (ha_value_iq a) (ha_v a)) (One V))) as [yv|] eqn:E3; [|discriminate]. cbn [bind].
  destruct (head_sample tab B b Hb _ _ _ _ _ _ _ (sample2 b q) _ A1 A4 Z1 ltac:(intros; reflexivity) E1) as (pq & P1 & O1).
  destruct (head_sample tab B b Hb _ _ _ _ _ _ _ (sample2 b K) _ A2 A5 Z3 ltac:(intros; reflexivity) E2) as (pk & P2 & O2).
  destruct (head_sample tab B b Hb _ _ _ _ _ _ _ (sample2 b V) _ A3 A6 Z2 ltac:(intros; reflexivity) E3) as (pv & P3 & O3).
  rewrite eval_then, eval_lift. destruct (np_einsum _ _ _ yk (tmap _ yq)) as [s|] eqn:E4; [|discriminate]. cbn [bind].
  assert (On1 : on_numbers (fun y => y * 1)) by (intros p r ->; reflexivity). pose proof (e_dot B b Hb _ _ _ _ _ _ _ _ _ O2 (act3 B b _ _ _ _ _ _ On1 O1) E4) as O4. rewrite eval_then.
  destruct (eval tab (ssoft_core (attn_softmax a) s)) as [w|] eqn:E5; [|discriminate]. cbn [bind]. rewrite eval_then, eval_lift. destruct (np_einsum _ _ _ w yv) as [x2|] eqn:E6; [|discriminate]. cbn [bind]. rewrite eval_then.
  destruct (eval tab (layer_prog (out_layer a) (One x2))) as [y2|] eqn:E7; [|discriminate]. cbn [bind]. rewrite eval_ask_opt. intros H. apply some_inj in H. subst y2.
  assert (OK : exists ok ob, quant_call (tab (fst (ha_o_kernel a))) (snd (ha_o_kernel a)) = Some ok /\ match ha_o_bias a with Some (id, t) => do u <- quant_call (tab id) t; Some (Some (fun e => at_ u [e])) | None => Some None end = Some ob).
  { pose proof E7 as E8. unfold layer_prog, out_layer in E8. cbn [y_iq y_ws y_op y_oq] in E8. rewrite eval_then in E8. change (IqOne (ha_o_iq a)) with (opt_iq (Some (ha_o_iq a))) in E8. rewrite eval_iq, eval_ask_opt in E8.
    destruct (quant_call (tab (ha_o_iq a)) x2); [|discriminate]. cbn [bind] in E8. rewrite eval_then, eval_ws in E8. destruct (quant_call (tab (fst (ha_o_kernel a))) _) as [ok|]; [|discriminate]. cbn [bind] in E8.
    destruct (ha_o_bias a) as [[id0 bt]|]; [destruct (quant_call (tab id0) bt) as [u|]; [|discriminate]|]; eexists; eexists; split; reflexivity. }
  destruct OK as (ok & ob & Q1 & Q2).
  set (c := mk_mha (z_T z) (z_S z) (z_cq z) (z_ck z) (z_cv z) (z_N z) (z_dk z) (z_dv z) (z_E z) (ha_fuse a) (ha_enable_iq a)
    (tq2 (tab (ha_iq_q a))) (tq2 (tab (ha_iq_k a))) (tq2 (tab (ha_iq_v a))) pq pk pv (ha_stable a)
    (tq3 (tab (ha_exp_iq a))) (fun _ _ _ => ha_exp a) (tq3 (tab (ha_exp_oq a))) (tq3 (tab (ha_inv_iq a))) (ha_inv a) (tq3 (tab (ha_inv_oq a))) (tq3 (tab (ha_sm_oq a)))
    (tq3 (tab (ha_o_iq a))) (kernel3 ok) ob).
  exists c. split; [unfold mha_of; rewrite P1, P2, P3, Q1, Q2; reflexivity|].
  pose proof (soft_sample tab B b Hb a c _ _ _ _ _ _ Fe Fi A7 A8 A9 A10 A11 eq_refl eq_refl eq_refl eq_refl eq_refl eq_refl eq_refl eq_refl eq_refl O4 E5) as O5.
  pose proof (e_comb B b Hb _ _ _ _ _ _ _ _ _ O5 O3 E6) as O6. destruct (out_sample tab B b Hb a _ _ _ _ _ _ _ A12 A13 A14 O6 E7) as (ok' & ob' & Q1' & Q2' & O7).
  rewrite Q1 in Q1'. apply some_inj in Q1'. subst ok'. rewrite Q2 in Q2'. apply some_inj in Q2'. subst ob'.
  split; [exact (proj1 O7)|]. intros t e Ht He. rewrite (on2_elim B b _ _ _ _ _ _ O7 Ht He).
  assert (IQ1 : query_iq c = otq2 tab (ha_query_iq a)) by (unfold query_iq, ha_query_iq, otq2; cbn [c a_enable_iq a_fuse a_iq_v a_iq_q]; destruct (ha_enable_iq a), (ha_fuse a); reflexivity).
  assert (IQ2 : key_iq c = otq2 tab (ha_key_iq a)) by (unfold key_iq, ha_key_iq, otq2; cbn [c a_enable_iq a_fuse a_iq_v a_iq_k]; destruct (ha_enable_iq a), (ha_fuse a); reflexivity).
  assert (IQ3 : value_iq c = otq2 tab (ha_value_iq a)) by (unfold value_iq, ha_value_iq, otq2; cbn [c a_enable_iq a_iq_v]; destruct (ha_enable_iq a); reflexivity).
  assert (EV : or_else (option_map (sample2 b) v) (sample2 b q) = sample2 b V) by (subst V; destruct v; reflexivity).
  assert (EK : or_else (option_map (sample2 b) k) (sample2 b V) = sample2 b K) by (subst K; destruct k; reflexivity).
  unfold layer_mha. cbv zeta. rewrite EV, EK. unfold layer_core, layer_attend. cbv zeta. cbn [fst]. rewrite IQ1, IQ2, IQ3. reflexivity.
Qed.

Lemma attn_hardware net reset tab bs st rec : Forall (fun n => values_only (pn_call n)) net -> ptrace_minmax net reset tab bs = Some (st, rec) ->
  (forall id, calibratable (tab id) (inputs_of id (n_log st))) ->
  forall ins vs j a args z x q v k y B, In (ins, vs) (List.combine bs rec) -> nth_error net j = Some (mk_pnode (smha_prog (attn_prog a)) args) ->
  args_of vs args = Some x -> qvk x = Some (q, v, k) -> nth_error vs (List.length ins + j) = Some y -> sizes_of B z q v k ->
  on_numbers (ha_exp a) -> on_numbers (ha_inv a) -> attn_built (n_tab st) a z ->
  forall b, (b < B)%nat -> exists c, mha_of (n_tab st) a z = Some c /\
    forall lo qa va ka, r_val qa = sample2 b q -> given va = option_map (sample2 b) v -> given ka = option_map (sample2 b) k ->
    build_ok c -> attn_fits c -> fuse_supported c ->
    let va' := or_else va qa in let ka' := or_else ka va' in
    call_supported c qa ka' va' -> same_object_same_values qa ka' va' ->
    let scores := layer_scores c id_ten (r_val qa) (r_val ka') (r_val va') in
    lower_bounds c lo scores -> (ha_stable a = true -> above_1e9 c no_masks scores) ->
    exists r, replay_mha c lo no_masks qa va ka = Some r /\ forall t e, (t < z_T z)%nat -> (e < z_E z)%nat -> fst r t e == at_ y [b; t; e].
Proof.
  intros V H C ins vs j a args z x q v k y B Hin Hj Ax X Hy Sz Fe Fi Ab b Hb. destruct (recorded _ _ _ _ _ _ V H C _ _ Hin _ _ Hj) as (x0 & y0 & w & A & Y & E & S). cbn [pn_args pn_call] in *. rewrite Ax in A. apply some_inj in A. subst x0. rewrite Hy in Y. apply some_inj in Y. subst y0.
  destruct (attn_sample (n_tab st) B b Hb a z x q v k w Fe Fi Ab X Sz E) as (c & Ec & Sw & R). exists c. split; [exact Ec|].
  assert (Cz : a_T c = z_T z /\ a_out c = z_E z /\ a_stable c = ha_stable a /\ a_exp c = (fun _ _ _ => ha_exp a) /\ a_inv c = ha_inv a).
  { unfold mha_of in Ec. destruct (proj_of (n_tab st) (ha_q a)); [|discriminate]. cbn [bind] in Ec. destruct (proj_of (n_tab st) (ha_k a)); [|discriminate]. cbn [bind] in Ec. destruct (proj_of (n_tab st) (ha_v a)); [|discriminate]. cbn [bind] in Ec.
    destruct (quant_call _ _); [|discriminate]. cbn [bind] in Ec. destruct (match ha_o_bias a with Some _ => _ | None => _ end); [|discriminate]. cbn [bind] in Ec. apply some_inj in Ec. subst c. repeat split. }
  destruct Cz as (CT & CE & CS & Cexp & Cinv). intros lo qa va ka Eq Ev Ek Bo Fo Fu Cs Ss Lo Ab9. rewrite <- CS in Ab9.
  assert (Fn : attn_functions c) by (split; [rewrite Cexp; intros n t s p r Hpr; apply Fe, Hpr|rewrite Cinv; exact Fi]).
  assert (Ma : masks_alike c no_masks).
  { unfold masks_alike, no_masks. cbn [m_query m_value m_key m_causal m_attn]. cbv zeta. split; [|split]; intros N1 N2; exfalso; intuition congruence. }
  destruct (mha_same c lo no_masks qa va ka Bo Fo Fn Fu Ma Cs Ss Lo Ab9) as (r & Er & Same & _). exists r. split; [exact Er|]. intros t e Ht He. rewrite <- CT in Ht. rewrite <- CE in He. rewrite (Same t e Ht He). rewrite Eq, Ev, Ek. rewrite CT in Ht. rewrite CE in He. rewrite <- (R t e Ht He).
  symmetry. destruct S as (S1 & S2). apply S2. rewrite S1, Sw. repeat constructor; assumption.
Qed.

(** values and weights *)
Lemma attn_values_only a : on_numbers (ha_exp a) -> on_numbers (ha_inv a) -> values_only (smha_prog (attn_prog a)).
Proof. intros He Hi. apply smha_values_only; try exact He; try exact Hi; apply net_op_by_value; intros p q E; exact E. Qed.
Lemma asks_ws id w ws : (forall w', In (Some id, w') ws -> w' = w) -> asks_only id w (ask_ws ws).
Proof.
  induction ws as [|[o v] ws IH]; intros H; cbn [ask_ws]; [exact I|]. apply asks_then.
  - destruct o as [i|]; cbn [ask_opt]; [|exact I]. apply asks_weight. intros ->. apply H. left. reflexivity.
  - intros y. apply asks_then; [apply IH; intros w' Hw; apply H; right; exact Hw|]. intros ys. exact I.
Qed.
Lemma asks_layer id w iq ws op oq x : iq <> Some id -> (forall w', In (Some id, w') ws -> w' = w) -> oq <> Some id -> asks_only id w (layer_prog (mk_clayer (opt_iq iq) ws op oq) x).
Proof.
  intros N W O. unfold layer_prog. cbn [y_iq y_ws y_op y_oq]. apply asks_then.
  - destruct iq as [i|]; cbn [opt_iq ask_iq]; [|exact I]. destruct x as [x|]; [|exact I]. apply asks_then; [apply asks_ask; intros ->; apply N; reflexivity|]. intros y. exact I.
  - intros x'. apply asks_then; [apply asks_ws, W|]. intros qs. apply asks_then; [apply asks_lift|]. intros y. apply asks_ask_opt, O.
Qed.
Lemma in_kernel_bias id (w : tensor Q) k bias : In (Some id, w) (kernel_bias k bias) -> In (id, w) (k :: listed bias).
Proof. unfold kernel_bias. destruct k as [i k]. cbn [fst snd In]. intros [E|H]; [left; congruence|right]. destruct bias as [[j t]|]; [|destruct H]. destruct H as [E|[]]. left. cbn [fst snd] in E. congruence. Qed.
Lemma attn_asks id w a : weight_of id w (attn_data a) (attn_weights a) -> forall x, asks_only id w (smha_prog (attn_prog a) x).
Proof.
  intros (N & W) x. unfold attn_data in N. cbn [In] in N.
  assert (W1 : forall w', In (id, w') (h_kernel (ha_q a) :: listed (h_bias (ha_q a))) -> w' = w) by (intros w' H; apply W; unfold attn_weights; rewrite !in_app_iff; tauto).
  assert (W2 : forall w', In (id, w') (h_kernel (ha_k a) :: listed (h_bias (ha_k a))) -> w' = w) by (intros w' H; apply W; unfold attn_weights; rewrite !in_app_iff; tauto).
  assert (W3 : forall w', In (id, w') (h_kernel (ha_v a) :: listed (h_bias (ha_v a))) -> w' = w) by (intros w' H; apply W; unfold attn_weights; rewrite !in_app_iff; tauto).
  assert (W4 : forall w', In (id, w') (ha_o_kernel a :: listed (ha_o_bias a)) -> w' = w) by (intros w' H; apply W; unfold attn_weights; rewrite !in_app_iff; tauto). clear W.
  unfold smha_prog. apply asks_then; [apply asks_lift|]. intros [[q v] k]. unfold attn_prog. cbn [sm_query sm_key sm_value sm_scale sm_dot sm_soft sm_combine sm_out sm_oq].
  apply asks_then; [apply asks_layer; [tauto|intros w' H; apply W1, in_kernel_bias, H|tauto]|]. intros yq.
  apply asks_then; [apply asks_layer; [tauto|intros w' H; apply W2, in_kernel_bias, H|tauto]|]. intros yk.
  apply asks_then; [apply asks_layer; [tauto|intros w' H; apply W3, in_kernel_bias, H|tauto]|]. intros yv.
  apply asks_then; [apply asks_lift|]. intros s. apply asks_then.
  { unfold ssoft_core, attn_softmax. cbn [so_iq so_axes so_stable so_mask so_exp_iq so_exp so_exp_oq so_inv_iq so_inv so_inv_oq so_oq].
    assert (Nn : forall i, ~ Some i = Some id -> i <> id) by (intros i H ->; apply H; reflexivity).
    apply asks_then; [exact I|]. intros x1. apply asks_then; [apply asks_lift|]. intros x2. apply asks_then; [apply asks_ask_opt; destruct (ha_stable a); [tauto|discriminate]|]. intros x3. apply asks_then; [apply asks_ask, Nn; tauto|]. intros x4.
    apply asks_then; [exact I|]. intros x5. apply asks_then; [apply asks_ask, Nn; tauto|]. intros x6. apply asks_then; [apply asks_ask, Nn; tauto|]. intros x7. apply asks_then; [apply asks_lift|]. intros x8. apply asks_ask_opt. tauto. }
  intros s2. apply asks_then; [apply asks_lift|]. intros c. apply asks_then; [|intros y; exact I].
  apply (asks_layer id w (Some (ha_o_iq a)) (kernel_bias (ha_o_kernel a) (ha_o_bias a)) (net_op (TEinsum [0;1;2;3] [2;3;4] [0;1;4])%nat ALinear) None); [tauto|intros w' H; apply W4, in_kernel_bias, H|discriminate].
Qed.
