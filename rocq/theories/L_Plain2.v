(** Lemmas for C69: attention without quantizers is that of Keras. *)
From Coq Require Import String.
From Verif Require Import Num M_Fixed L_Fixed M_State S_State L_State M_Wrapper M_Mapper S_Mapper L_Mapper M_Contr M_Ebops L_Ebops M_Pow2 M_Patch L_Patch M_Ops L_Ops M_Mirror L_Mirror M_Trace M_Softmax M_Net S_Net L_Net L_Net2 L_Net3 M_NetX L_NetX3 M_Causal M_Calib S_Ops S_Calib L_Calib L_Calib2 M_Rnn S_Rnn M_Attn S_Attn L_Attn M_Prog S_Prog L_Prog L_Prog2 L_Prog3 M_ProgAttn S_ProgAttn L_ProgAttn S_Cost S_Limit S_Plain S_Plain2 L_Plain.
Local Open Scope list_scope.

Lemma plain_ws k bias : plain (ask_ws (kernel_bias k bias)) = Some (snd k :: match bias with Some (_, t) => [t] | None => [] end).
Proof. destruct bias as [[id t]|]; reflexivity. Qed.
Lemma plain_iq iq x : plain (ask_iq (opt_iq iq) (One x)) = Some (One x).
Proof. destruct iq; reflexivity. Qed.
Section Sample.
  Context (B b : nat) (Hb : (b < B)%nat).
  Notation on2 d1 d2 x v := (on B b [d1; d2] x (i2 v)).
  Notation on3 d1 d2 d3 x v := (on B b [d1; d2; d3] x (i3 v)).
  Lemma head_plain iq p T C N D x y : head_shapes p C N D -> shape x = [B; T; C] -> plain (layer_prog (head_layer iq p) (One x)) = Some y -> on3 T N D y (heads C p (sample2 b x)).
  Proof.
    intros (Sk & Sb) Ex H. unfold layer_prog, head_layer in H. cbn [y_iq y_ws y_op y_oq] in H. rewrite plain_then, plain_iq in H. cbn [bind] in H. rewrite plain_then, plain_ws in H. cbn [bind] in H. rewrite plain_then, plain_lift in H.
    assert (O : on2 T C x (M_Attn.lift (sample2 b x))) by (apply on2_intro; [exact Ex|intros p' c Hp Hc; reflexivity]).
    unfold heads. destruct (h_bias p) as [[id t]|] eqn:Eb; unfold net_op, core_of in H; cbn [bind core_call add_bias] in H; (destruct (np_einsum _ _ _ x _) as [z|] eqn:E4; [|discriminate]); cbn [bind] in H.
    - destruct (np_binary Qplus z t) as [z2|] eqn:E5; [|discriminate]. cbn [bind] in H. rewrite plain_ask_opt in H. apply some_inj in H. subst y.
      exact (act3 B b (act_fn ALinear) _ _ _ _ _ lin_num (bias3 B b Hb _ _ _ _ _ _ _ (e_proj B b Hb _ _ _ _ _ _ _ _ O Sk E4) (Sb _ _ eq_refl) E5)).
    - rewrite plain_ask_opt in H. apply some_inj in H. subst y. apply (act3 B b (act_fn ALinear) _ _ _ _ _ lin_num). refine (on3_ext B b _ _ _ _ _ _ (e_proj B b Hb _ _ _ _ _ _ _ _ O Sk E4) _). intros. symmetry. apply Qplus_0_r.
  Qed.
  Lemma out_plain a T N D F x v y : shape (snd (ha_o_kernel a)) = [N; D; F] -> (forall id t, ha_o_bias a = Some (id, t) -> shape t = [F]) -> on3 T N D x v -> plain (layer_prog (out_layer a) (One x)) = Some y ->
    on2 T F y (fun t e _ => sum N (fun n => sum D (fun d => v t n d * at_ (snd (ha_o_kernel a)) [n; d; e])) + bias_row (ha_o_bias a) e).
  Proof.
    intros Sk Sb O H. unfold layer_prog, out_layer in H. cbn [y_iq y_ws y_op y_oq] in H. change (IqOne (ha_o_iq a)) with (opt_iq (Some (ha_o_iq a))) in H. rewrite plain_then, plain_iq in H. cbn [bind] in H. rewrite plain_then, plain_ws in H. cbn [bind] in H. rewrite plain_then, plain_lift in H.
    destruct (ha_o_bias a) as [[id t]|] eqn:Eb; unfold net_op, core_of in H; cbn [bind core_call add_bias] in H; (destruct (np_einsum _ _ _ x _) as [z|] eqn:E4; [|discriminate]); cbn [bind] in H.
    - destruct (np_binary Qplus z t) as [z2|] eqn:E5; [|discriminate]. cbn [bind] in H. rewrite plain_ask_opt in H. apply some_inj in H. subst y.
      exact (bias2_ B b Hb _ _ _ _ _ _ (e_out B b Hb _ _ _ _ _ _ _ _ O Sk E4) (Sb _ _ eq_refl) E5).
    - rewrite plain_ask_opt in H. apply some_inj in H. subst y. pose proof (e_out B b Hb _ _ _ _ _ _ _ _ O Sk E4) as O2. apply on2_intro; [exact (proj1 O2)|]. intros t e Ht He. cbn [tmap at_ act_fn]. rewrite (on2_elim B b _ _ _ _ _ _ O2 Ht He). cbn [bias_row]. symmetry. apply Qplus_0_r.
  Qed.
  Lemma greatest_max n x : (0 < n)%nat -> greatest n x (qmax_of (map x (seq 0 n))).
  Proof.
    intros Hn. split.
    - destruct (qmax_is (map x (seq 0 n))) as [X|(v & X & E)]; [destruct n; [lia|discriminate]| |]; apply in_map_iff in X as (k & Ek & Hk); apply in_seq in Hk; exists k; (split; [lia|]); rewrite Ek; [reflexivity|exact E].
    - intros k Hk. apply qmax_above, in_map, in_seq. lia.
  Qed.
  Lemma soft3_plain a N T S x v y : on_numbers (ha_exp a) -> on_numbers (ha_inv a) -> (0 < S)%nat -> on3 N T S x v -> plain (ssoft_core (attn_softmax a) x) = Some y ->
    exists w, on3 N T S y w /\ forall n t, (n < N)%nat -> (t < T)%nat -> softmax_of (ha_stable a) (ha_exp a) (ha_inv a) S (v n t) (w n t).
  Proof.
    intros Fe Fi HS O H. unfold ssoft_core, attn_softmax in H. cbn [so_iq so_axes so_stable so_mask so_exp_iq so_exp so_exp_oq so_inv_iq so_inv so_inv_oq so_oq] in H.
    rewrite plain_then, plain_ask_opt in H. cbn [bind] in H. rewrite plain_then, plain_lift in H.
    set (g := fun n t s => if ha_stable a then qmax_of (map (v n t) (seq 0 S)) - v n t s else v n t s).
    assert (G : forall x1, (if ha_stable a then np_binary Qminus (np_reduce qmax_of [3%nat] true x) x else Some x) = Some x1 -> on3 N T S x1 g).
    { intros x1. unfold g. destruct (ha_stable a); [|intros E; apply some_inj in E; subst x1; exact O]. intros E. exact (bin_l B b Hb Qminus N T S _ _ _ _ _ Qminus_ext (red3 B b Hb qmax_of N T S x v qmax_Forall2 O) O E). }
    destruct (if ha_stable a then np_binary Qminus (np_reduce qmax_of [3%nat] true x) x else Some x) as [x1|] eqn:E1; [|discriminate]. cbn [bind] in H. specialize (G x1 eq_refl).
    rewrite plain_then, plain_ask_opt in H. cbn [bind] in H. rewrite plain_then, plain_ask in H. cbn [bind] in H. rewrite plain_then, plain_lift in H. cbn [bind] in H. rewrite plain_then, plain_ask in H. cbn [bind] in H. rewrite plain_then, plain_ask in H. cbn [bind] in H. rewrite plain_then, plain_lift in H.
    pose proof (act3 B b _ _ _ _ _ _ Fe G) as G3. pose proof (act3 B b _ _ _ _ _ _ Fi (red3 B b Hb qsum _ _ _ _ _ qsum_Forall2 G3)) as G5.
    destruct (np_binary Qmult _ _) as [z|] eqn:E6; [|discriminate]. cbn [bind] in H. rewrite plain_ask_opt in H. apply some_inj in H. subst z.
    eexists. split; [exact (bin_r B b Hb Qmult _ _ _ _ _ _ _ _ Qmult_ext G3 G5 E6)|]. intros n t Hn Ht. exists (g n t). split; [intros j Hj; reflexivity|]. unfold g. destruct (ha_stable a); [|intros j _; reflexivity].
    exists (qmax_of (map (v n t) (seq 0 S))). split; [exact (greatest_max S (v n t) HS)|intros j _; reflexivity].
  Qed.
  Lemma softmax_of_ext st e i n x x' y : same_vec n x x' -> softmax_of st e i n x y -> softmax_of st e i n x' y.
  Proof.
    intros E (g & G & R). exists g. split; [exact G|]. destruct st.
    - destruct R as (m & ((k & Hk & Ek) & M) & R). exists m. split; [split; [exists k; split; [exact Hk|rewrite <- (E k Hk); exact Ek]|intros j Hj; rewrite <- (E j Hj); apply M, Hj]|]. intros j Hj. rewrite (R j Hj), (E j Hj). reflexivity.
    - intros j Hj. rewrite (R j Hj). apply E, Hj.
  Qed.
  Lemma attn_plain a z x q v k y : on_numbers (ha_exp a) -> on_numbers (ha_inv a) -> attn_shapes a z -> (0 < z_S z)%nat -> qvk x = Some (q, v, k) -> sizes_of B z q v k ->
    plain (smha_prog (attn_prog a) x) = Some y -> shape y = [B; z_T z; z_E z] /\ is_attention a z (sample2 b q) (sample2 b (or_else v q)) (sample2 b (or_else k (or_else v q))) (sample2 b y).
  Proof.
    intros Fe Fi (A4 & A5 & A6 & A13 & A14) HS X (Z1 & Z2 & Z3). unfold smha_prog. rewrite plain_then, plain_lift.
    set (V := or_else v q) in *. set (K := or_else k V) in *.
    assert (EX : match x with One q => Some (q, q, q) | Many [q; v] => Some (q, v, v) | Many [q; v; k] => Some (q, v, k) | _ => None end = Some (q, V, K)).
    { unfold qvk in X. destruct x as [q0|[|q0 [|v0 [|k0 [|? ?]]]]]; try discriminate X; injection X as <- <- <-; reflexivity. }
    rewrite EX. cbn [bind]. clear X EX. unfold attn_prog. cbn [sm_query sm_key sm_value sm_scale sm_dot sm_soft sm_combine sm_out sm_oq].
    rewrite plain_then. destruct (plain (layer_prog (head_layer (ha_query_iq a) (ha_q a)) (One q))) as [yq|] eqn:E1; [|discriminate]. cbn [bind].
    rewrite plain_then. destruct (plain (layer_prog (head_layer (ha_key_iq a) (ha_k a)) (One K))) as [yk|] eqn:E2; [|discriminate]. cbn [bind].
    rewrite plain_then. destruct (plain (layer_prog (head_layer (ha_value_iq a) (ha_v a)) (One V))) as [yv|] eqn:E3; [|discriminate]. cbn [bind].
    pose proof (head_plain _ _ _ _ _ _ _ _ A4 Z1 E1) as O1. pose proof (head_plain _ _ _ _ _ _ _ _ A5 Z3 E2) as O2. pose proof (head_plain _ _ _ _ _ _ _ _ A6 Z2 E3) as O3.
    rewrite plain_then, plain_lift. destruct (np_einsum _ _ _ yk (tmap _ yq)) as [s|] eqn:E4; [|discriminate]. cbn [bind].
    assert (On1 : on_numbers (fun y => y * 1)) by (intros p r ->; reflexivity). pose proof (e_dot B b Hb _ _ _ _ _ _ _ _ _ O2 (act3 B b _ _ _ _ _ _ On1 O1) E4) as O4. rewrite plain_then.
    destruct (plain (ssoft_core (attn_softmax a) s)) as [w|] eqn:E5; [|discriminate]. cbn [bind]. rewrite plain_then, plain_lift. destruct (np_einsum _ _ _ w yv) as [x2|] eqn:E6; [|discriminate]. cbn [bind]. rewrite plain_then.
    destruct (plain (layer_prog (out_layer a) (One x2))) as [y2|] eqn:E7; [|discriminate]. cbn [bind]. rewrite plain_ask_opt. intros H. apply some_inj in H. subst y2.
    destruct (soft3_plain a _ _ _ _ _ _ Fe Fi HS O4 E5) as (ws & O5 & Sw). pose proof (e_comb B b Hb _ _ _ _ _ _ _ _ _ O5 O3 E6) as O6. pose proof (out_plain a _ _ _ _ _ _ _ A13 A14 O6 E7) as O7.
    split; [exact (proj1 O7)|]. exists ws. split.
    - intros n t Hn Ht. refine (softmax_of_ext _ _ _ _ _ _ _ _ (Sw n t Hn Ht)). intros j Hj. apply qsum_ext. intros d Hd. ring.
    - intros t e Ht He. unfold sample2 at 1. rewrite (on2_elim B b _ _ _ _ _ _ O7 Ht He). reflexivity.
  Qed.
End Sample.
From Verif Require Import L_Limit L_Limit2 L_Limit3 L_Limit4 L_Limit5.
Lemma heads_op iq p : op_layer (head_layer iq p).
Proof. exists (TEinsum [0;1;2] [2;3;4] [0;1;3;4])%nat, ALinear. split; [reflexivity|]. split; [exact I|]. intros x e He. exists e. split; [exact He|]. intros y Hy. exact Hy. Qed.
Lemma out_op a : op_layer (out_layer a).
Proof. exists (TEinsum [0;1;2;3] [2;3;4] [0;1;4])%nat, ALinear. split; [reflexivity|]. split; [exact I|]. intros x e He. exists e. split; [exact He|]. intros y Hy. exact Hy. Qed.
Lemma const_all xs : tends_all (fun _ => xs) xs.
Proof. induction xs as [|x xs IH]; [exact ta_nil|]. exact (ta_cons (fun _ => x) x (fun _ => xs) xs (tends_refl x) IH). Qed.
Lemma const_in x : tends_in (fun _ => x) x.
Proof. destruct x as [x|xs]; [exists (fun _ => x); split; [reflexivity|apply tends_refl]|exists (fun _ => xs); split; [reflexivity|apply const_all]]. Qed.
Lemma attn_limit tab a x Y y : widening tab -> soft_layer (attn_softmax a) -> plain (smha_prog (attn_prog a) x) = Some y -> (forall n, eval (tab n) (smha_prog (attn_prog a) x) = Some (Y n)) -> tends_to Y y.
Proof.
  intros W S Ey EY. destruct (track_eval tends_to _ _ (smooth_tracks _ (smooth_attn (attn_prog a) (heads_op _ _) (heads_op _ _) (heads_op _ _) (out_op a) S) (fun _ => x) x (const_in x)) tab W Y y EY Ey) as (Y' & E & T).
  apply (tends_to_ext Y'); [intros n; symmetry; apply E|exact T].
Qed.
Section Vectors.
  Context (B b : nat) (Hb : (b < B)%nat).
  Notation onrow := (onrow B b).
  Lemma on_row_self n x : shape x = [B; n] -> onrow n x (row b x).
  Proof. intros E. split; [exact E|]. intros j _. reflexivity. Qed.
  Lemma masked_plain l n m x y : on_numbers (so_exp l) -> on_numbers (so_inv l) -> so_axes l = [1%nat] -> so_mask l = Some m -> shape m = [B; n] -> shape x = [B; n] -> (0 < n)%nat -> plain (ssoft_prog l (One x)) = Some y ->
    masked_softmax (so_stable l) (so_exp l) (so_inv l) n (row b m) (row b x) (row b y).
  Proof.
    intros He Hi Ax Mk Em Ex Hn. cbn [ssoft_prog]. unfold ssoft_core. rewrite Ax, Mk. rewrite plain_then, plain_ask_opt. cbn [bind]. rewrite plain_then, plain_lift. intros H.
    pose proof (on_row_self n x Ex) as Ox. pose proof (on_row_self n m Em) as Om.
    destruct (if so_stable l then _ else _) as [d|] eqn:Ed; [|discriminate]. cbn [bind] in H.
    assert (Od : exists g, onrow n d g /\ if so_stable l then exists M, greatest n (masked_input (row b m) (row b x)) M /\ same_vec n g (fun j => M - masked_input (row b m) (row b x) j) else same_vec n g (row b x)).
    { destruct (so_stable l); [|apply some_inj in Ed; subst d; exists (row b x); split; [exact Ox|intros j _; reflexivity]].
      destruct (np_binary Qmult m x) as [p|] eqn:Ep; [|discriminate]. cbn [bind] in Ed. destruct (np_binary Qminus p _) as [p2|] eqn:Ep2; [|discriminate]. cbn [bind] in Ed.
      assert (Num : on_numbers (fun v => (1 - v) * 1000000000)) by (intros u w E; rewrite E; reflexivity).
      pose proof (on_binary B b Hb _ _ _ _ _ _ _ Qminus_ext (on_binary B b Hb _ _ _ _ _ _ _ Qmult_ext Om Ox Ep) (on_act B b _ _ _ _ Num Om) Ep2) as Op.
      assert (Op' : onrow n p2 (masked_input (row b m) (row b x))) by exact Op. clear Op.
      pose proof (on_binary_1 B b Hb Qminus _ _ _ _ _ _ Qminus_ext (on_reduce B b Hb qmax_of n p2 (proj1 Op')) Op' Ed) as O. eexists. split; [exact O|].
      exists (qmax_of (map (row b p2) (seq 0 n))). split; [|intros j _; reflexivity]. destruct (greatest_max B b Hb n (row b p2) Hn) as ((k & Hk & Ek) & G). split; [exists k; split; [exact Hk|rewrite <- (proj2 Op' k Hk); exact Ek]|]. intros j Hj. rewrite <- (proj2 Op' j Hj). apply G, Hj. }
    destruct Od as (g & Od & Sg). exists g. split; [|exact Sg]. clear Sg Ed.
    rewrite plain_then, plain_ask_opt in H. cbn [bind] in H. rewrite plain_then, plain_ask in H. cbn [bind] in H. rewrite plain_then, plain_lift in H. pose proof (on_act B b _ _ _ _ He Od) as Oe.
    destruct (np_binary Qmult m _) as [e|] eqn:Ee; [|discriminate]. cbn [bind] in H. pose proof (on_binary B b Hb _ _ _ _ _ _ _ Qmult_ext Om Oe Ee) as Oe2. rewrite plain_then, plain_ask in H. cbn [bind] in H. rewrite plain_then, plain_ask in H. cbn [bind] in H. rewrite plain_then, plain_lift in H.
    destruct (np_binary Qmult e _) as [z|] eqn:Ez; [|discriminate]. cbn [bind] in H. rewrite plain_ask_opt in H. apply some_inj in H. subst z.
    pose proof (on_act B b _ _ _ _ Hi (on_reduce B b Hb qsum n _ (proj1 Oe2))) as Oi. pose proof (on_binary_2 B b Hb Qmult _ _ _ _ _ _ Qmult_ext Oe2 Oi Ez) as (_ & O). intros j Hj. rewrite (O j Hj). apply Qmult_ext; [reflexivity|]. apply Hi. apply qsum_ext. intros k Hk. apply (proj2 Oe2). apply in_seq in Hk. lia.
  Qed.
End Vectors.
Lemma vidx3 B T E b t e : (b < B)%nat -> (t < T)%nat -> (e < E)%nat -> valid_index [B; T; E] [b; t; e].
Proof. intros. repeat constructor; assumption. Qed.
Lemma attn_keras_limit tab a z x q v k y Y B b : widening tab -> soft_layer (attn_softmax a) -> on_numbers (ha_inv a) -> attn_shapes a z -> (0 < z_S z)%nat -> qvk x = Some (q, v, k) -> sizes_of B z q v k ->
  plain (smha_prog (attn_prog a) x) = Some y -> (forall n, eval (tab n) (smha_prog (attn_prog a) x) = Some (Y n)) -> (b < B)%nat ->
  exists o, is_attention a z (sample2 b q) (sample2 b (or_else v q)) (sample2 b (or_else k (or_else v q))) o /\
    forall t e, (t < z_T z)%nat -> (e < z_E z)%nat -> tends (fun n => at_ (Y n) [b; t; e]) (o t e).
Proof.
  intros W S Fi A HS X Z Ey EY Hb. destruct (attn_plain B b Hb a z x q v k y (continuous_numbers _ (proj1 S)) Fi A HS X Z Ey) as (Sy & At). exists (sample2 b y). split; [exact At|].
  intros t e Ht He. apply (proj2 (attn_limit tab a x Y y W S Ey EY)). rewrite Sy. apply vidx3; assumption.
Qed.
Lemma dense_keras_limit tab iq kq w bias a oq f u x y Y B b j : widening tab -> continuous (act_fn a) -> shape x = [B; f] -> shape w = [f; u] -> (forall id t, bias = Some (id, t) -> shape t = [u]) ->
  plain (layer_prog (layer_of iq kq w bias TDense a oq) (One x)) = Some y -> (forall n, eval (tab n) (layer_prog (layer_of iq kq w bias TDense a oq) (One x)) = Some (Y n)) -> (b < B)%nat -> (j < u)%nat ->
  tends (fun n => at_ (Y n) [b; j]) (act_fn a (dot f (row b x) (mat_of w) j + bias_row bias j)).
Proof.
  intros W C Ex Ew Eb Ey EY Hb Hj. destruct (dense_plain B b Hb iq kq w bias a oq f u x y (continuous_numbers _ C) Ex Ew Eb Ey) as (Sy & V).
  assert (L : op_layer (layer_of iq kq w bias TDense a oq)) by (exists TDense, a; split; [reflexivity|split; [exact I|exact C]]).
  eapply tends_ext; [intros n; reflexivity|exact (V j Hj)|]. apply (proj2 (layer_limit (layer_prog (layer_of iq kq w bias TDense a oq)) tab (fun _ => x) x Y y W (smooth_op _ L) (tends_refl x) Ey EY)). rewrite Sy. repeat constructor; assumption.
Qed.
