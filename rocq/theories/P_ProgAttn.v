(** C65 for QMultiHeadAttention, end to end: calibration, inference, and the hardware description of C50. *)
From Coq Require Import String.
From Verif Require Import Num M_Fixed L_Fixed M_State M_Wrapper M_Mapper S_Mapper M_Ops M_Net M_Attn S_Attn M_Calib S_Calib M_Prog M_Rnn S_Rnn S_Prog M_ProgAttn S_ProgAttn L_Prog5 L_ProgAttn2.
Local Open Scope list_scope.

(** inference of the layer with any quantizers it may be built with: sample by sample it is the attention of C50 whose weights are the quantized
    weights and whose quantizers are those of the layer *)
Theorem C65_attention_inference :
  forall tab B b, (b < B)%nat -> forall a z x q v k y, on_numbers (ha_exp a) -> on_numbers (ha_inv a) -> attn_built tab a z ->
    qvk x = Some (q, v, k) -> sizes_of B z q v k ->
    eval tab (smha_prog (attn_prog a) x) = Some y ->
    exists c, mha_of tab a z = Some c /\ shape y = [B; z_T z; z_E z] /\
      forall t e, (t < z_T z)%nat -> (e < z_E z)%nat ->
        at_ y [b; t; e] == fst (layer_mha c no_masks (sample2 b q) (option_map (sample2 b) v) (option_map (sample2 b) k)) t e.
Proof. intros tab B b Hb a z x q v k y. exact (attn_sample tab B b Hb a z x q v k y). Qed.
Print Assumptions C65_attention_inference.
(** a calibrated network with such a layer in it: the traced hardware description of the layer computes, for each sample of each calibration batch,
    what was recorded there *)
Theorem C65_attention_hardware :
  forall net reset tab batches st rec, Forall (fun n => values_only (pn_call n)) net ->
    ptrace_minmax net reset tab batches = Some (st, rec) ->
    (forall id, calibratable (tab id) (inputs_of id (n_log st))) ->
    forall ins vs j a args z x q v k y B, In (ins, vs) (List.combine batches rec) -> nth_error net j = Some (mk_pnode (smha_prog (attn_prog a)) args) ->
    args_of vs args = Some x -> qvk x = Some (q, v, k) -> nth_error vs (List.length ins + j) = Some y -> sizes_of B z q v k ->
    on_numbers (ha_exp a) -> on_numbers (ha_inv a) -> attn_built (n_tab st) a z ->
    forall b, (b < B)%nat -> exists c, mha_of (n_tab st) a z = Some c /\
      forall lo qa va ka, r_val qa = sample2 b q -> given va = option_map (sample2 b) v -> given ka = option_map (sample2 b) k ->
      build_ok c -> attn_fits c -> fuse_supported c ->
      let va' := or_else va qa in let ka' := or_else ka va' in
      call_supported c qa ka' va' -> same_object_same_values qa ka' va' ->
      let scores := layer_scores c id_ten (r_val qa) (r_val ka') (r_val va') in
      lower_bounds c lo scores -> (ha_stable a = true -> above_1e9 c no_masks scores) ->
      exists r, replay_mha c lo no_masks qa va ka = Some r /\ forall t e, (t < z_T z)%nat -> (e < z_E z)%nat -> fst r t e == at_ y [b; t; e].
Proof. exact attn_hardware. Qed.
Print Assumptions C65_attention_hardware.
Theorem C65_multihead_values : forall a, on_numbers (ha_exp a) -> on_numbers (ha_inv a) -> values_only (smha_prog (attn_prog a)).
Proof. exact attn_values_only. Qed.
Print Assumptions C65_multihead_values.
Theorem C65_multihead_weights : forall id w a, weight_of id w (attn_data a) (attn_weights a) -> forall x, asks_only id w (smha_prog (attn_prog a) x).
Proof. exact attn_asks. Qed.
Print Assumptions C65_multihead_weights.

(** ** a concrete case: self-attention on two positions, the shared input quantizer of fuse="qkv", a batch of two samples and one of one sample *)
Definition at_kif (ds : list nat) (f : Q) : quant := mk_quant (mk_wrapper None None None) (mk_qconf RND WRAP true false None None) [0%nat]
  (inl (mk_kift (mk_tensor (1%nat :: ds) (fun _ => true)) (mk_tensor (1%nat :: ds) (fun _ => -(10))) (mk_tensor (1%nat :: ds) (fun g => match g with (_ :: O :: _)%nat => f | _ => f - 1 end)))).
Definition at_wq (sh : list nat) : quant := mk_quant (mk_wrapper None None None) (mk_qconf RND WRAP true true None None) []
  (inr (mk_kbit (mk_tensor sh (fun _ => true)) (mk_tensor sh (fun _ => 4)) (mk_tensor sh (fun _ => 1)))).
Definition at_w (sh : list nat) (s : Q) : tensor Q := mk_tensor sh (fun _ => s).
Definition at_exp (v : Q) : Q := if Qle_bool v (1 # 2) then 1 else if Qle_bool v (3 # 2) then 1 # 2 else 1 # 4.
Definition at_inv (v : Q) : Q := if Qle_bool v 1 then 1 else if Qle_bool v (3 # 2) then 3 # 4 else 1 # 2.
Definition at_layer : hattn := mk_hattn FQkv true 0 1 2 (mk_hproj (3%nat, at_w [1;1;1]%nat (5#8)) (Some (4%nat, at_w [1;1]%nat (1#4))) 5) (mk_hproj (6%nat, at_w [1;1;1]%nat (-(3#4))) None 7) (mk_hproj (8%nat, at_w [1;1;1]%nat (1#2)) None 9)
  true 10 at_exp 11 12 at_inv 13 14 15 (16%nat, at_w [1;1;1]%nat (7#8)) None.
Definition at_z : sizes := mk_sizes 2 2 1 1 1 1 1 1 1.
Definition at_tab (id : nat) : quant :=
  match id with
  | 3%nat | 6%nat | 8%nat | 16%nat => at_wq [1;1;1]%nat | 4%nat => at_wq [1;1]%nat
  | 0%nat | 1%nat | 2%nat => at_kif [2;1]%nat 2 | 5%nat | 7%nat | 9%nat | 15%nat => at_kif [2;1;1]%nat 2
  | 10%nat | 11%nat | 14%nat => at_kif [1;2;2]%nat 3 | _ => at_kif [1;2;1]%nat 2
  end.
Definition at_net : list pnode := [mk_pnode (smha_prog (attn_prog at_layer)) (One 0%nat)].
Definition at_x (B : nat) : tensor Q := mk_tensor [B;2;1]%nat (fun g => match g with [b; t; _]%nat => 3 - (2 # 1) * inject_Z (Z.of_nat t) - (3 # 4) * inject_Z (Z.of_nat b) | _ => 0 end).
Definition at_batches : list (list (tensor Q)) := [[at_x 2]; [at_x 1]].
Notation at_run := (ptrace_minmax at_net true at_tab at_batches).
Definition at_is_weight (id : nat) : bool := match id with 3%nat | 4%nat | 6%nat | 8%nat | 16%nat => true | _ => false end.
Definition at_dims (id : nat) : list nat :=
  match id with 0%nat | 1%nat | 2%nat => [2;1] | 5%nat | 7%nat | 9%nat | 15%nat => [2;1;1] | 10%nat | 11%nat | 14%nat => [1;2;2] | _ => [1;2;1] end%nat.
Fixpoint nats_eqb (a b : list nat) : bool := match a, b with [], [] => true | x :: a, y :: b => ((x =? y)%nat && nats_eqb a b)%bool | _, _ => false end.
Lemma nats_eqb_eq a b : nats_eqb a b = true -> a = b.
Proof. revert b. induction a as [|x a IH]; intros [|y b] H; try discriminate H; [reflexivity|]. cbn [nats_eqb] in H. apply andb_prop in H as (E & H). apply Nat.eqb_eq in E. subst y. f_equal. apply IH, H. Qed.
Definition pos_quant_b (ds : list nat) (q : quant) : bool :=
  match w_scaler (q_w q), c_weight (q_c q), q_s q with
  | None, false, inl s => (bcast_ok ds ds && nats_eqb (shape (M_Mapper.t_k s)) (1%nat :: ds) && nats_eqb (shape (M_Mapper.t_i s)) (1%nat :: ds) && nats_eqb (shape (M_Mapper.t_f s)) (1%nat :: ds))%bool
  | _, _, _ => false
  end.
Lemma pos_quant_ok ds q : pos_quant_b ds q = true -> pos_quant ds q.
Proof.
  unfold pos_quant_b, pos_quant. destruct (w_scaler (q_w q)); [discriminate|]. destruct (c_weight (q_c q)); [discriminate|]. destruct (q_s q) as [s|s]; [|discriminate]. intros H.
  apply andb_prop in H as (H & H4). apply andb_prop in H as (H & H3). apply andb_prop in H as (H1 & H2). split; [reflexivity|]. split; [reflexivity|]. exists ds. split; [exact H1|]. repeat split; apply nats_eqb_eq; assumption.
Qed.
Definition at_shapes_ok (st : nstate) : bool :=
  forallb (fun e => (at_is_weight (e_q e) || nats_eqb (tl (shape (e_in e))) (at_dims (e_q e)) && (1 <=? List.length (shape (e_in e)))%nat)%bool) (n_log st).
Definition at_built_ok (st : nstate) : bool := forallb (fun id => (at_is_weight id || pos_quant_b (at_dims id) (n_tab st id))%bool) (seq 0 17).
Definition fits_b (A B C : nat) (q : tq) : bool :=
  forallb (fun a => forallb (fun b => forallb (fun c => ((-128 <=? t_i q a b c) && (t_i q a b c <=? 127) && (-128 <=? t_f q a b c) && (t_f q a b c <=? 127))%Z%bool) (seq 0 C)) (seq 0 B)) (seq 0 A).
Lemma in_seq0 n k : (k < n)%nat -> In k (seq 0 n).
Proof. intros H. apply in_seq. lia. Qed.
Lemma fits_ok A B C q : fits_b A B C q = true -> S_Attn.fits A B C q.
Proof.
  intros H a b c Ha Hb Hc. unfold fits_b in H. rewrite forallb_forall in H. specialize (H a (in_seq0 _ _ Ha)). cbn beta in H. rewrite forallb_forall in H. specialize (H b (in_seq0 _ _ Hb)).
  cbn beta in H. rewrite forallb_forall in H. specialize (H c (in_seq0 _ _ Hc)). cbn beta in H. rewrite !andb_true_iff, !Z.leb_le in H. tauto.
Qed.
Definition ofits_b (A B C : nat) (q : option tq) : bool := match q with Some q => fits_b A B C q | None => true end.
Lemma ofits_ok A B C q : ofits_b A B C q = true -> ofits A B C q.
Proof. intros H q' ->. apply fits_ok, H. Qed.
Definition at_fits_b (c : mha) : bool :=
  (ofits_b (a_T c) (a_cq c) 1 (query_iq c) && ofits_b (a_S c) (a_ck c) 1 (key_iq c) && ofits_b (a_S c) (a_cv c) 1 (value_iq c) &&
   fits_b (a_T c) (a_heads c) (a_dk c) (p_oq (a_q c)) && fits_b (a_S c) (a_heads c) (a_dk c) (p_oq (a_k c)) && fits_b (a_S c) (a_heads c) (a_dv c) (p_oq (a_v c)) &&
   fits_b (a_heads c) (a_T c) (a_S c) (a_exp_iq c) && fits_b (a_heads c) (a_T c) (a_S c) (a_exp_oq c) && fits_b (a_heads c) (a_T c) 1 (a_inv_iq c) && fits_b (a_heads c) (a_T c) 1 (a_inv_oq c) &&
   fits_b (a_heads c) (a_T c) (a_S c) (a_sm_oq c) && fits_b (a_T c) (a_heads c) (a_dv c) (a_o_iq c))%bool.
Lemma at_fits_ok c : at_fits_b c = true -> attn_fits c.
Proof. unfold at_fits_b, attn_fits. rewrite !andb_true_iff. intros H. repeat match goal with |- _ /\ _ => split end; first [apply ofits_ok; tauto|apply fits_ok; tauto]. Qed.
Definition at_lo : nat -> nat -> nat -> Q := fun _ _ _ => - (100).
Definition at_arr (b : nat) : arr := mk_arr 7 (sample2 b (at_x 2)).
Definition at_above (c : mha) (b : nat) : bool :=
  forallb (fun n => forallb (fun t => forallb (fun s => Qle_bool (- (100)) (layer_scores c id_ten (sample2 b (at_x 2)) (sample2 b (at_x 2)) (sample2 b (at_x 2)) n t s)) (seq 0 (a_S c))) (seq 0 (a_T c))) (seq 0 (a_heads c)).
Definition at_layer_ok (st : nstate) (b : nat) : bool :=
  match mha_of (n_tab st) at_layer at_z with Some c => (at_fits_b c && at_above c b)%bool | None => false end.
Example C65_attention_checks :
  match at_run with Some (st, rec) => (at_shapes_ok st && at_built_ok st && at_layer_ok st 0 && at_layer_ok st 1)%bool && (List.length rec =? 2)%nat | None => false end%bool = true.
Proof. vm_compute. reflexivity. Qed.
Lemma at_on_exp : on_numbers at_exp.
Proof. intros p q E. unfold at_exp. rewrite !E. reflexivity. Qed.
Lemma at_on_inv : on_numbers at_inv.
Proof. intros p q E. unfold at_inv. rewrite !E. reflexivity. Qed.
Lemma at_values : Forall (fun n => values_only (pn_call n)) at_net.
Proof. constructor; [exact (C65_multihead_values at_layer at_on_exp at_on_inv)|constructor]. Qed.
Lemma at_kif_ok ds f xs : In ds [[2;1]; [2;1;1]; [1;2;2]; [1;2;1]]%nat -> (forall x, In x xs -> exists m, shape x = m :: ds) -> calibratable (at_kif ds f) xs.
Proof.
  intros D S. right. left. eexists. split; [reflexivity|]. right. destruct D as [<-|D].
  - exists None, (Some [0%Z]), [None; Some 2; Some 1]%nat, [1;2]%nat, [1;2;1]%nat. split; [split; reflexivity|]. split; [repeat split|].
    intros x Hx. destruct (S x Hx) as (m & ->). split; [repeat constructor|]. intros g i _ _ hi [=].
  - assert (E : exists p q r, ds = [p; q; r]) by (destruct D as [<-|[<-|[<-|[]]]]; eauto). destruct E as (p & q & r & ->).
    exists None, (Some [0%Z]), [None; Some p; Some q; Some r], [1;2;3]%nat, [1%nat; p; q; r]. split; [split; reflexivity|]. split; [repeat split|].
    intros x Hx. destruct (S x Hx) as (m & ->). split; [repeat constructor|]. intros g i _ _ hi [=].
Qed.
Definition at_weight (id : nat) : tensor Q :=
  match id with 3%nat => at_w [1;1;1]%nat (5#8) | 4%nat => at_w [1;1]%nat (1#4) | 6%nat => at_w [1;1;1]%nat (-(3#4)) | 8%nat => at_w [1;1;1]%nat (1#2) | _ => at_w [1;1;1]%nat (7#8) end.
Lemma at_asks id n : at_is_weight id = true -> In n at_net -> forall x, asks_only id (at_weight id) (pn_call n x).
Proof.
  intros W [<-|[]]. cbn [pn_call]. apply C65_multihead_weights. split.
  - intros H. cbn in H. repeat destruct H as [H|H]; try discriminate H; try contradiction; injection H as <-; discriminate W.
  - intros w H. cbn in H. repeat destruct H as [H|H]; try contradiction; injection H as <- <-; reflexivity.
Qed.
Lemma at_calibratable st rec : at_run = Some (st, rec) -> at_shapes_ok st = true -> forall id, calibratable (at_tab id) (inputs_of id (n_log st)).
Proof.
  intros E Sh id. destruct (at_is_weight id) eqn:W.
  - pose proof (pweight_inputs id (at_weight id) at_net true at_tab at_batches st rec (fun n Hn => at_asks id n W Hn) E) as X. clear E Sh.
    assert (Q : exists sh, at_tab id = at_wq sh) by (do 17 (destruct id as [|id]; [try discriminate W; eexists; reflexivity|]); discriminate W). destruct Q as (sh & ->).
    right. right. eexists _, (at_weight id). split; [reflexivity|]. split; [exact X|]. left. split; reflexivity.
  - assert (Q : exists f, at_tab id = at_kif (at_dims id) f) by (clear E Sh; do 17 (destruct id as [|id]; [try discriminate W; eexists; reflexivity|]); eexists; reflexivity). destruct Q as (f & ->).
    apply at_kif_ok; [clear; do 17 (destruct id as [|id]; [cbn; tauto|]); cbn; tauto|].
    intros x Hx. unfold inputs_of in Hx. apply in_map_iff in Hx as (e & <- & He). apply filter_In in He as (He & Eq). apply Nat.eqb_eq in Eq. unfold at_shapes_ok in Sh. rewrite forallb_forall in Sh. specialize (Sh e He). cbn beta in Sh. rewrite Eq, W in Sh. cbn [orb] in Sh.
    apply andb_prop in Sh as (S1 & S2). destruct (shape (e_in e)) as [|m s]; [discriminate S2|]. exists m. f_equal. apply nats_eqb_eq, S1.
Qed.
Lemma at_is_built st : at_built_ok st = true -> attn_built (n_tab st) at_layer at_z.
Proof.
  intros H. assert (G : forall id, at_is_weight id = false -> (id < 17)%nat -> pos_quant (at_dims id) (n_tab st id)).
  { intros id W L. unfold at_built_ok in H. rewrite forallb_forall in H. specialize (H id (in_seq0 17 id L)). cbn beta in H. rewrite W in H. apply pos_quant_ok, H. }
  unfold attn_built, proj_built, at_layer, ha_query_iq, ha_key_iq, ha_value_iq, at_z.
  cbn [ha_fuse ha_enable_iq ha_iq_q ha_iq_k ha_iq_v ha_q ha_k ha_v ha_stable ha_exp_iq ha_exp ha_exp_oq ha_inv_iq ha_inv ha_inv_oq ha_sm_oq ha_o_iq ha_o_kernel ha_o_bias h_kernel h_bias h_oq fst snd z_T z_S z_cq z_ck z_cv z_N z_dk z_dv z_E].
  repeat match goal with |- _ /\ _ => split end; try reflexivity;
    first [intros id b [=]; fail|intros id b [= <- <-]; reflexivity|intros i [= <-]; apply (G 2%nat); [reflexivity|lia]|intros _; apply (G 10%nat); [reflexivity|lia]|
      apply (G 5%nat); [reflexivity|lia]|apply (G 7%nat); [reflexivity|lia]|apply (G 9%nat); [reflexivity|lia]|apply (G 11%nat); [reflexivity|lia]|apply (G 12%nat); [reflexivity|lia]|apply (G 13%nat); [reflexivity|lia]|apply (G 14%nat); [reflexivity|lia]|apply (G 15%nat); [reflexivity|lia]|idtac].
Qed.
(** every hypothesis of the two theorems holds there, and their conclusion: for both samples of the first batch *)
Example C65_attention_case :
  exists st rec, at_run = Some (st, rec) /\ (List.length rec = 2)%nat /\ Forall (fun n => values_only (pn_call n)) at_net /\ (forall id, calibratable (at_tab id) (inputs_of id (n_log st))) /\
    attn_built (n_tab st) at_layer at_z /\ sizes_of 2 at_z (at_x 2) None None /\
    forall b, (b < 2)%nat -> exists c, mha_of (n_tab st) at_layer at_z = Some c /\ build_ok c /\ attn_fits c /\ fuse_supported c /\
      call_supported c (at_arr b) (at_arr b) (at_arr b) /\ same_object_same_values (at_arr b) (at_arr b) (at_arr b) /\
      let scores := layer_scores c id_ten (r_val (at_arr b)) (r_val (at_arr b)) (r_val (at_arr b)) in lower_bounds c at_lo scores /\ above_1e9 c no_masks scores.
Proof.
  pose proof C65_attention_checks as Ch. destruct at_run as [[st rec]|] eqn:E; [|discriminate Ch].
  apply andb_prop in Ch as (Ch & L). apply andb_prop in Ch as (Ch & K1). apply andb_prop in Ch as (Ch & K0). apply andb_prop in Ch as (Sh & Bu). apply Nat.eqb_eq in L.
  exists st, rec. split; [reflexivity|]. split; [exact L|]. split; [exact at_values|]. split; [exact (at_calibratable st rec E Sh)|]. split; [exact (at_is_built st Bu)|]. split; [repeat split|].
  intros b Hb. assert (K : at_layer_ok st b = true) by (destruct b as [|[|b]]; [exact K0|exact K1|lia]). clear K0 K1 Sh Bu E L. unfold at_layer_ok in K.
  destruct (mha_of (n_tab st) at_layer at_z) as [c|] eqn:Ec; [|discriminate K]. apply andb_prop in K as (Fi & Ab). exists c. split; [reflexivity|].
  assert (Cz : a_fuse c = FQkv /\ a_T c = 2%nat /\ a_S c = 2%nat /\ a_cq c = 1%nat /\ a_ck c = 1%nat /\ a_cv c = 1%nat /\ a_dk c = 1%nat /\ a_dv c = 1%nat).
  { clear Fi Ab. unfold mha_of in Ec. do 4 match type of Ec with bind ?e _ = _ => destruct e; [cbn [bind] in Ec|discriminate Ec] end. cbn [at_layer ha_o_bias bind] in Ec. injection Ec as <-. repeat split. }
  destruct Cz as (Z0 & Z1 & Z2 & Z3 & Z4 & Z5 & Z6 & Z7). unfold build_ok, fuse_supported, call_supported. rewrite Z0. split; [split; [congruence|split; congruence]|]. split; [apply at_fits_ok, Fi|]. split; [congruence|].
  split; [split; reflexivity|]. split; [split; intros; reflexivity|]. cbv zeta. unfold at_arr. cbn [r_val].
  assert (G : forall n t s, (n < a_heads c)%nat -> (t < a_T c)%nat -> (s < a_S c)%nat -> - (100) <= layer_scores c id_ten (sample2 b (at_x 2)) (sample2 b (at_x 2)) (sample2 b (at_x 2)) n t s).
  { intros n t s Hn Ht Hs. unfold at_above in Ab. rewrite forallb_forall in Ab. specialize (Ab n (in_seq0 _ _ Hn)). cbn beta in Ab. rewrite forallb_forall in Ab. specialize (Ab t (in_seq0 _ _ Ht)). cbn beta in Ab. rewrite forallb_forall in Ab. specialize (Ab s (in_seq0 _ _ Hs)). cbn beta in Ab. apply Qle_bool_iff, Ab. }
  split; [exact G|]. intros n t s Hn Ht Hs _. eapply Qle_trans; [|exact (G n t s Hn Ht Hs)]. vm_compute. discriminate.
Qed.
(** the values recorded: both positions of the three samples *)
Example C65_attention_values :
  match at_run with Some (st, rec) => map (fun vs => match vs with [_; y] => map (fun i => Qred (at_ y i)) (indices (shape y)) | _ => [] end) rec | None => [] end = [[21 # 32; 7 # 8; 21 # 32; 7 # 8]; [21 # 32; 7 # 8]].
Proof. vm_compute. reflexivity. Qed.
