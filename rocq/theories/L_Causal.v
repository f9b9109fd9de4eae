(** Proofs about the causal one-dimensional convolution (C58). *)
From Verif Require Import Num M_Fixed S_Fixed L_Fixed M_State M_Wrapper M_Mapper S_Mapper L_Mapper M_Contr M_Ebops L_Ebops M_Pow2 M_Patch L_Patch M_Ops M_Mirror L_Mirror M_Trace M_Net S_Ops L_Ops L_Net L_Net4 L_Spike M_Causal S_Causal.

Lemma valid3 b n c i : valid_index [b; n; c] i -> exists x y z, i = [x; y; z] /\ (x < b)%nat /\ (y < n)%nat /\ (z < c)%nat.
Proof.
  intros H. inversion H as [|x ? r ? Hx H1]; subst. inversion H1 as [|y ? r1 ? Hy H2]; subst. inversion H2 as [|z ? r2 ? Hz H3]; subst. inversion H3; subst.
  exists x, y, z. repeat split; assumption.
Qed.
Lemma in3 b n c x y z : (x < b)%nat -> (y < n)%nat -> (z < c)%nat -> valid_index [b; n; c] [x; y; z].
Proof. intros. repeat constructor; assumption. Qed.

(** *** the quantizer at inference *)
Lemma step_infer q x : quant_step Infer q x = do y <- quant_call q x; Some (q, y).
Proof.
  unfold quant_step, quant_call, quantizer_infer, inner_call. cbv zeta. destruct q as [w c hom s]. cbn [q_w q_c q_hom q_s]. set (x' := match w_scaler w with Some s0 => _ | None => x end).
  destruct s as [s|s].
  - unfold kif_infer. destruct (kif_tcall c hom Infer s x') as [[s' y]|] eqn:E; [|reflexivity]. cbn [bind]. rewrite (kif_tcall_infer_state _ _ _ _ _ _ E).
    cbn [is_train]. destruct (w_noise w); reflexivity.
  - unfold kbi_infer. destruct (kbi_tcall c hom Infer s x') as [[s' y]|] eqn:E; [|reflexivity]. cbn [bind]. rewrite (kbi_tcall_infer_state _ _ _ _ _ _ E).
    cbn [is_train]. destruct (w_noise w); reflexivity.
Qed.
Definition wrap_fn (w : wrapper) (g : Q -> Q) (a : Q) : Q :=
  let o := g (match w_scaler w with Some s => a / s | None => a end) in
  let o := match w_scaler w with Some s => o * s | None => o end in
  match w_affine w with Some (m, b) => o * m + b | None => o end.
Lemma call_base q x : c_weight (q_c q) = false -> exists k i f,
  (shape k, shape i, shape f) = match q_s q with inl s => (shape (t_k s), shape (t_i s), shape (t_f s)) | inr s => (shape (u_k s), shape (u_i s), shape (u_b s)) end /\
  quant_call q x = quantizer_infer (q_w q) (base_tcall (q_c q) false k i f) x.
Proof.
  intros W. unfold quant_call. destruct (q_s q) as [s|s].
  - exists (t_k s), (tmap round_even (t_i s)), (tmap round_even (t_f s)). split; [reflexivity|]. apply quantizer_infer_ext. intros y. apply kif_infer_base, W.
  - exists (u_k s), (tmap round_even (u_i s)), (tmap2 Z.sub (tmap round_even (u_b s)) (tmap round_even (u_i s))). split; [reflexivity|]. apply quantizer_infer_ext. intros y. apply kbi_infer_base, W.
Qed.
Lemma call_base' q : c_weight (q_c q) = false -> exists k i f,
  (shape k, shape i, shape f) = match q_s q with inl s => (shape (t_k s), shape (t_i s), shape (t_f s)) | inr s => (shape (u_k s), shape (u_i s), shape (u_b s)) end /\
  forall x, quant_call q x = quantizer_infer (q_w q) (base_tcall (q_c q) false k i f) x.
Proof.
  intros W. unfold quant_call. destruct (q_s q) as [s|s].
  - exists (t_k s), (tmap round_even (t_i s)), (tmap round_even (t_f s)). split; [reflexivity|]. intros x. apply quantizer_infer_ext. intros y. apply kif_infer_base, W.
  - exists (u_k s), (tmap round_even (u_i s)), (tmap2 Z.sub (tmap round_even (u_b s)) (tmap round_even (u_i s))). split; [reflexivity|]. intros x. apply quantizer_infer_ext. intros y. apply kbi_infer_base, W.
Qed.
Lemma base_tcall_at c k i f x w : shape k = w -> shape i = w -> shape f = w -> bcast_ok w (shape x) = true ->
  exists y, base_tcall c false k i f x = Some y /\ shape y = shape x /\
    forall j, at_ y j = base_call (c_rm c) (c_om c) false (at_ k (bcast_index w j)) (at_ i (bcast_index w j)) (at_ f (bcast_index w j)) (at_ x j).
Proof.
  intros K I F B. unfold base_tcall, broadcast_to. rewrite K, I, F, B. cbn [bind]. eexists. split; [reflexivity|]. split; [reflexivity|]. intros j. reflexivity.
Qed.
Lemma base_tcall_not c t k i f x w : shape k = w -> bcast_ok w (shape x) = false -> base_tcall c t k i f x = None.
Proof. intros K B. unfold base_tcall, broadcast_to. rewrite K, B. reflexivity. Qed.
Lemma zero_kept rm om k i f : base_call rm om false k i f 0 == 0.
Proof.
  destruct (Z_lt_le_dec 0 (kz k + i + f)) as [W|W]; [|rewrite base_call_npos by exact W; reflexivity].
  apply inference_fixes_representable; [exact W|]. apply zero_representable, W.
Qed.
Lemma quantizer_infer_at w c k i f ws x : shape k = ws -> shape i = ws -> shape f = ws -> bcast_ok ws (shape x) = true ->
  exists y, quantizer_infer w (base_tcall c false k i f) x = Some y /\ shape y = shape x /\
    forall j, at_ y j = wrap_fn w (base_call (c_rm c) (c_om c) false (at_ k (bcast_index ws j)) (at_ i (bcast_index ws j)) (at_ f (bcast_index ws j))) (at_ x j).
Proof.
  intros K I F B. unfold quantizer_infer. cbv zeta. set (x' := match w_scaler w with Some s => _ | None => x end).
  assert (Sx : shape x' = shape x) by (unfold x'; destruct (w_scaler w); reflexivity).
  assert (Ax : forall j, at_ x' j = match w_scaler w with Some s => at_ x j / s | None => at_ x j end) by (intros j; unfold x'; destruct (w_scaler w); reflexivity).
  clearbody x'. destruct (base_tcall_at c k i f x' ws K I F) as (y & -> & Sy & Ay); [rewrite Sx; exact B|]. cbn [bind]. eexists. split; [reflexivity|]. split.
  - destruct (w_affine w) as [[m b]|], (w_scaler w); cbn [tmap shape]; congruence.
  - intros j. unfold wrap_fn. cbv zeta. rewrite <- Ax, <- Ay. destruct (w_affine w) as [[m b]|], (w_scaler w); reflexivity.
Qed.
Lemma quantizer_infer_not w c k i f ws x : shape k = ws -> bcast_ok ws (shape x) = false -> quantizer_infer w (base_tcall c false k i f) x = None.
Proof.
  intros K B. unfold quantizer_infer. cbv zeta. rewrite (base_tcall_not c false k i f _ ws K); [reflexivity|]. destruct (w_scaler w); cbn [tmap shape]; exact B.
Qed.
Lemma wrap_fn_Proper w rm om k i f a b : a == b -> wrap_fn w (base_call rm om false k i f) a == wrap_fn w (base_call rm om false k i f) b.
Proof.
  intros E. unfold wrap_fn. cbv zeta.
  assert (B : base_call rm om false k i f (match w_scaler w with Some s => a / s | None => a end) == base_call rm om false k i f (match w_scaler w with Some s => b / s | None => b end)).
  { apply base_call_Proper. destruct (w_scaler w); [rewrite E; reflexivity|exact E]. }
  destruct (w_affine w) as [[m c]|], (w_scaler w); rewrite B; reflexivity.
Qed.

Lemma steps_shape ha oa n0 nch het hom w : built_for ha oa [None; n0; Some nch] het hom w -> ~ In 1%nat het -> w = [1%nat; 1%nat; 1%nat] \/ w = [1%nat; 1%nat; nch].
Proof.
  intros (R & W) N. unfold weight_shape in W. cbn [weight_shape_from] in W. destruct (memb 1 het) eqn:M1; [apply memb_In in M1; contradiction|].
  destruct (memb 2 het), (memb 0 het); try discriminate; apply some_inj in W; subst w; [right|left]; reflexivity.
Qed.
Lemma homogeneous_channelwise nch q : step_homogeneous nch q ->
  exists qf, channelwise nch (Some q) qf /\ (w_affine (q_w q) = None -> forall c, qf c 0 == 0).
Proof.
  intros (W & ha & oa & n0 & het & wsh & Hb & N & K). destruct (steps_shape _ _ _ _ _ _ _ Hb N) as [E|E].
  - destruct (call_base' q W) as (k & i & f & S & Hc).
    assert (S' : shape k = wsh /\ shape i = wsh /\ shape f = wsh) by (destruct (q_s q) as [s|s]; destruct K as (K1 & K2 & K3); repeat split; congruence).
    destruct S' as (S1 & S2 & S3).
    exists (fun c => wrap_fn (q_w q) (base_call (c_rm (q_c q)) (c_om (q_c q)) false (at_ k [0;0;0]%nat) (at_ i [0;0;0]%nat) (at_ f [0;0;0]%nat))). split.
    + split; [intros c a b; apply wrap_fn_Proper|]. intros x b n Sx. destruct (quantizer_infer_at (q_w q) (q_c q) k i f wsh x S1 S2 S3) as (y & Ey & Sy & Ay).
      { rewrite Sx, E. reflexivity. }
      exists y. split; [rewrite Hc; exact Ey|]. split; [congruence|]. intros i0 t c _ _ _. rewrite Ay, E. reflexivity.
    + intros A c. unfold wrap_fn. rewrite A. destruct (w_scaler (q_w q)) as [s|]; [|apply zero_kept].
      rewrite (base_call_Proper _ _ _ _ _ _ (0 / s) 0); [rewrite zero_kept; ring|]. unfold Qdiv. ring.
  - destruct (call_base' q W) as (k & i & f & S & Hc).
    assert (S' : shape k = wsh /\ shape i = wsh /\ shape f = wsh) by (destruct (q_s q) as [s|s]; destruct K as (K1 & K2 & K3); repeat split; congruence).
    destruct S' as (S1 & S2 & S3).
    exists (fun c => let g := [0; 0; if (nch =? 1)%nat then 0 else c]%nat in wrap_fn (q_w q) (base_call (c_rm (q_c q)) (c_om (q_c q)) false (at_ k g) (at_ i g) (at_ f g))). split.
    + split; [intros c a b; apply wrap_fn_Proper|]. intros x b n Sx. destruct (quantizer_infer_at (q_w q) (q_c q) k i f wsh x S1 S2 S3) as (y & Ey & Sy & Ay).
      { rewrite Sx, E. cbn [bcast_ok]. rewrite (Nat.eqb_refl nch), orb_true_r. reflexivity. }
      exists y. split; [rewrite Hc; exact Ey|]. split; [congruence|]. intros i0 t c _ _ _. rewrite Ay, E. reflexivity.
    + intros A c. cbv zeta. unfold wrap_fn. rewrite A. destruct (w_scaler (q_w q)) as [s|]; [|apply zero_kept].
      rewrite (base_call_Proper _ _ _ _ _ _ (0 / s) 0); [rewrite zero_kept; ring|]. unfold Qdiv. ring.
Qed.

(** *** bias *)
Lemma add_bias_at v y b n : conv1d_ok v -> shape y = [b; n; filters v] ->
  exists z, add_bias y (v_bias v) = Some z /\ shape z = [b; n; filters v] /\
    forall i t co, (i < b)%nat -> (t < n)%nat -> (co < filters v)%nat -> at_ z [i; t; co] == at_ y [i; t; co] + match v_bias v with Some w => at_ w [co] | None => 0 end.
Proof.
  intros (_ & _ & _ & _ & _ & _ & _ & Hb & _) Sy. unfold add_bias. destruct (v_bias v) as [w|].
  2:{ exists y. split; [reflexivity|]. split; [exact Sy|]. intros. ring. }
  specialize (Hb w eq_refl). unfold np_binary. cbv zeta. rewrite Sy, Hb. cbn [length Nat.max lpad Nat.sub repeat app join_shape join_dim].
  assert (J : forall d, join_dim d 1 = Some d).
  { intros d. unfold join_dim. destruct (Nat.eqb_spec d 1) as [->|]; reflexivity. }
  assert (J' : forall d, join_dim d d = Some d).
  { intros d. unfold join_dim. destruct (Nat.eqb_spec d 1) as [->|]; [reflexivity|]. rewrite (Nat.eqb_refl d), orb_true_r. reflexivity. }
  change (v_groups v * v_cout_g v)%nat with (filters v) in *.
  change (lpad 3 [b; n; filters v]) with [b; n; filters v]. change (lpad 3 [filters v]) with [1%nat; 1%nat; filters v].
  unfold lpad. cbn [length Nat.sub repeat app]. cbn [join_shape]. rewrite !J, J'. cbn [bind]. eexists. split; [reflexivity|]. split; [reflexivity|].
  intros i t co Hi Ht Hco. cbn [at_]. unfold bcast_at. rewrite Sy, Hb. change (v_groups v * v_cout_g v)%nat with (filters v). unfold lpad. cbn [length Nat.sub repeat app bcast_index skipn].
  assert (Z : forall d j, (j < d)%nat -> (if (d =? 1)%nat then 0%nat else j) = j) by (intros d j Hj; destruct (Nat.eqb_spec d 1); [lia|reflexivity]).
  rewrite !Z by assumption. reflexivity.
Qed.

Lemma indices_one d : indices [d] = map (fun j => [j]) (seq 0 d).
Proof. cbn [indices]. induction (seq 0 d) as [|j l IH]; [reflexivity|]. cbn [flat_map map app]. f_equal. Qed.
(** *** one-dimensional valid convolution *)
Lemma keras_conv1 v x b n : conv1d_ok v -> shape x = [b; n; channels v] ->
  exists y, convolution_op PValid v x = Some y /\
    shape y = [b; (if (n <? reach v + 1)%nat then 0 else (n - (reach v + 1)) / v_stride v + 1)%nat; filters v] /\
    forall i t co, (t < nth 1 (shape y) 0)%nat ->
      at_ y [i; t; co] == qsum (map (fun j => qsum (map (fun ci => at_ x [i; (t * v_stride v + j * v_dil v)%nat; (co / v_cout_g v * v_cin_g v + ci)%nat] * at_ (v_kernel v) [j; ci; co]) (seq 0 (v_cin_g v)))) (seq 0 (v_k v))).
Proof.
  intros (Hk & Hs & Hd & Hg & Hci & Hco & Sk & _ & _) Sx. unfold convolution_op. cbv zeta. rewrite Sx. cbn [nth]. unfold keras_conv. rewrite Sx. unfold conv_fits. cbn [map c_in c_k app].
  unfold nat_list_eqb. fold (channels v). destruct (list_eq_dec Nat.eq_dec [n; channels v] [n; channels v]) as [_|A]; [|contradiction (A eq_refl)]. rewrite Sk.
  destruct (list_eq_dec Nat.eq_dec [v_k v; v_cin_g v; (v_groups v * v_cout_g v)%nat] [v_k v; v_cin_g v; (v_groups v * v_cout_g v)%nat]) as [_|A]; [|contradiction (A eq_refl)].
  cbn [andb]. eexists. split; [reflexivity|]. unfold conv_out_shape. cbn [map]. unfold c_out, c_eff. cbn [c_in c_k c_stride c_dil]. fold (reach v). split; [reflexivity|].
  intros i t co Ht. cbn [at_ shape hd tl removelast last app nth] in *. unfold conv, csum. change (fold_right Qplus 0) with qsum. cbn [map c_k].
  assert (Hin : forall j, (j < v_k v)%nat -> (t * v_stride v + j * v_dil v < n)%nat).
  { intros j Hj. destruct (Nat.ltb_spec n (reach v + 1)); [lia|]. assert (t <= (n - (reach v + 1)) / v_stride v)%nat as T by lia.
    assert (t * v_stride v <= n - (reach v + 1))%nat.
    { apply Nat.le_trans with (v_stride v * ((n - (reach v + 1)) / v_stride v))%nat; [nia|]. apply Nat.mul_div_le. lia. }
    unfold reach in *. assert (j * v_dil v <= (v_k v - 1) * v_dil v)%nat by nia. lia. }
  rewrite indices_one.
  assert (G : forall js, (forall j, In j js -> (j < v_k v)%nat) ->
    qsum (flat_map (fun t0 => map (fun ci => match c_positions VALID [mk_cdim n (v_k v) (v_stride v) (v_dil v)] [t] t0 with
       | Some p => at_ x (i :: p ++ [(co / v_cout_g v * v_cin_g v + ci)%nat]) * at_ (v_kernel v) (t0 ++ [ci; co]) | None => 0 end) (seq 0 (v_cin_g v))) (map (fun j => [j]) js))
    == qsum (map (fun j => qsum (map (fun ci => at_ x [i; (t * v_stride v + j * v_dil v)%nat; (co / v_cout_g v * v_cin_g v + ci)%nat] * at_ (v_kernel v) [j; ci; co]) (seq 0 (v_cin_g v)))) js)).
  { induction js as [|j js IH]; intros Hjs; [reflexivity|]. cbn [map flat_map]. rewrite qsum_app, qsum_cons, IH; [|intros j' I; apply Hjs; right; exact I].
    apply Qplus_comp; [|reflexivity]. specialize (Hin j (Hjs j (or_introl eq_refl))). cbn [c_positions]. unfold c_pos. cbn [c_left c_stride c_dil c_in]. rewrite Nat.sub_0_r.
    change (t * v_stride v + j * v_dil v <? 0)%nat with false. destruct (Nat.ltb_spec (t * v_stride v + j * v_dil v) n); [|lia]. reflexivity. }
  apply G. intros j I. apply in_seq in I. lia.
Qed.

(** *** the layer *)
Lemma body_valid v iq qf x b n : conv1d_ok v -> channelwise (channels v) iq qf -> shape x = [b; n; channels v] ->
  exists y, conv_body PValid v iq Infer x = (iq, Some y) /\
    shape y = [b; (if (n <? reach v + 1)%nat then 0 else (n - (reach v + 1)) / v_stride v + 1)%nat; filters v] /\
    forall i t co, (i < b)%nat -> (t < nth 1 (shape y) 0)%nat -> (co < filters v)%nat ->
      at_ y [i; t; co] == act_fn (v_act v) (qsum (map (fun j => qsum (map (fun ci =>
          qf (co / v_cout_g v * v_cin_g v + ci)%nat (at_ x [i; (t * v_stride v + j * v_dil v)%nat; (co / v_cout_g v * v_cin_g v + ci)%nat]) * at_ (v_kernel v) [j; ci; co])
            (seq 0 (v_cin_g v)))) (seq 0 (v_k v))) + match v_bias v with Some w => at_ w [co] | None => 0 end).
Proof.
  intros Ok (Qp & Hq) Sx.
  assert (X : exists xq, match iq with None => Some (None, x) | Some q => match quant_step Infer q x with Some (q', y) => Some (Some q', y) | None => None end end = Some (iq, xq) /\ shape xq = [b; n; channels v] /\
    forall i t c, (i < b)%nat -> (t < n)%nat -> (c < channels v)%nat -> at_ xq [i; t; c] == qf c (at_ x [i; t; c])).
  { destruct iq as [q|].
    - destruct (Hq x b n Sx) as (y & E & Sy & A). exists y. rewrite step_infer, E. cbn [bind]. split; [reflexivity|]. split; [exact Sy|exact A].
    - exists x. split; [reflexivity|]. split; [exact Sx|]. intros. symmetry. apply Hq. }
  destruct X as (xq & E & Sq & A). destruct (keras_conv1 v xq b n Ok Sq) as (r & Er & Sr & Ar). destruct (add_bias_at v r b _ Ok Sr) as (z & Ez & Sz & Az).
  exists (tmap (act_fn (v_act v)) z). split.
  - unfold conv_body. destruct iq as [q|].
    + destruct (quant_step Infer q x) as [[q' y']|]; [|discriminate]. assert (q' = q /\ y' = xq) as (-> & ->) by (split; congruence). rewrite Er. cbn [bind]. rewrite Ez. reflexivity.
    + assert (x = xq) as <- by congruence. rewrite Er. cbn [bind]. rewrite Ez. reflexivity.
  - cbn [tmap shape]. split; [exact Sz|]. intros i t co Hi Ht Hco. rewrite Sz in Ht. cbn [nth] in Ht. cbn [tmap at_]. destruct Ok as (Hk & Hs & Hd & Hg & Hci & Hcog & Sk & Hb & Ha). apply Ha.
    rewrite Az by assumption. apply Qplus_comp; [|reflexivity]. rewrite Ar by (rewrite Sr; exact Ht).
    apply qsum_ext. intros j Hj. apply in_seq in Hj. apply qsum_ext. intros ci Hc. apply in_seq in Hc. apply Qmult_comp; [|reflexivity]. apply A; [exact Hi| |].
    + destruct (Nat.ltb_spec n (reach v + 1)); [lia|]. assert (t <= (n - (reach v + 1)) / v_stride v)%nat as T by lia.
      assert (t * v_stride v <= n - (reach v + 1))%nat.
      { apply Nat.le_trans with (v_stride v * ((n - (reach v + 1)) / v_stride v))%nat; [nia|]. apply Nat.mul_div_le. lia. }
      unfold reach in *. assert (j * v_dil v <= (v_k v - 1) * v_dil v)%nat by nia. lia.
    + unfold channels, filters in *. assert (co / v_cout_g v < v_groups v)%nat by (apply Nat.div_lt_upper_bound; lia). nia.
Qed.
Lemma left_reach v : left_pad v = reach v.
Proof. unfold left_pad, reach. apply Nat.mul_comm. Qed.
Lemma pad_steps_at p x b n c : shape x = [b; n; c] -> exists y, pad_steps p x = Some y /\ shape y = [b; (p + n)%nat; c] /\
  forall i t ch, at_ y [i; t; ch] = if (t <? p)%nat then 0 else at_ x [i; (t - p)%nat; ch].
Proof. intros Sx. unfold pad_steps. rewrite Sx. eexists. split; [reflexivity|]. split; [reflexivity|]. intros. reflexivity. Qed.
Lemma causal_len n p s : (0 < s)%nat -> (if (p + n <? p + 1)%nat then 0 else (p + n - (p + 1)) / s + 1)%nat = ((n + s - 1) / s)%nat.
Proof.
  intros Hs. destruct (Nat.ltb_spec (p + n) (p + 1)) as [L|L].
  - assert (n = 0%nat) as -> by lia. rewrite Nat.div_small by lia. reflexivity.
  - replace (p + n - (p + 1))%nat with (n - 1)%nat by lia. replace (n + s - 1)%nat with (n - 1 + 1 * s)%nat by lia. rewrite Nat.div_add by lia. reflexivity.
Qed.
Lemma causal_output v iq qf x b n : conv1d_ok v -> channelwise (channels v) iq qf -> shape x = [b; n; channels v] ->
  exists y, conv1d_layer v (mk_vstate PCausal iq) Infer x = (mk_vstate PCausal iq, Some y) /\
    shape y = [b; ((n + v_stride v - 1) / v_stride v)%nat; filters v] /\
    forall i t co, (i < b)%nat -> (t < (n + v_stride v - 1) / v_stride v)%nat -> (co < filters v)%nat -> at_ y [i; t; co] == causal_conv v qf x i t co.
Proof.
  intros Ok Hq Sx. destruct (pad_steps_at (left_pad v) x b n _ Sx) as (xp & Ep & Sp & Ap). destruct (body_valid v iq qf xp b _ Ok Hq Sp) as (y & Ey & Sy & Ay).
  rewrite left_reach in Sy. rewrite causal_len in Sy by apply Ok. exists y. split; [|split; [exact Sy|]].
  - unfold conv1d_layer, conv1d_call. cbn [s_pad s_iq]. rewrite Ep, Ey. reflexivity.
  - intros i t co Hi Ht Hco. rewrite Ay; [|exact Hi|rewrite Sy; exact Ht|exact Hco]. unfold causal_conv. cbv zeta. pose proof Ok as (Hk & Hs & Hd & Hg & Hci & Hcog & Sk & Hb & Ha). apply Ha.
    apply Qplus_comp; [|reflexivity]. apply qsum_ext. intros j Hj. apply in_seq in Hj. apply qsum_ext. intros ci _. apply Qmult_comp; [|reflexivity].
    unfold past. rewrite Ap, left_reach. unfold reach.
    assert (J : ((v_k v - 1) * v_dil v = (v_k v - 1 - j) * v_dil v + j * v_dil v)%nat) by (rewrite <- Nat.mul_add_distr_r; f_equal; lia).
    destruct (Nat.ltb_spec (t * v_stride v + j * v_dil v) ((v_k v - 1) * v_dil v)); destruct (Nat.leb_spec ((v_k v - 1 - j) * v_dil v) (t * v_stride v)); try lia; [reflexivity|].
    replace (t * v_stride v + j * v_dil v - (v_k v - 1) * v_dil v)%nat with (t * v_stride v - (v_k v - 1 - j) * v_dil v)%nat by lia. reflexivity.
Qed.
Lemma past_ext qf x x' i c c' t d : (forall c a b, a == b -> qf c a == qf c b) -> c = c' -> ((d <= t)%nat -> at_ x [i; (t - d)%nat; c] == at_ x' [i; (t - d)%nat; c]) ->
  past qf x i c t d == past qf x' i c' t d.
Proof. intros Hq -> H. unfold past. destruct (Nat.leb_spec d t); [|reflexivity]. apply Hq, H. lia. Qed.
Lemma channel_lt v co ci : conv1d_ok v -> (co < filters v)%nat -> (ci < v_cin_g v)%nat -> (co / v_cout_g v * v_cin_g v + ci < channels v)%nat.
Proof.
  intros (_ & _ & _ & Hg & Hci & Hcog & _) Hco Hc. unfold channels, filters in *. assert (co / v_cout_g v < v_groups v)%nat by (apply Nat.div_lt_upper_bound; lia). nia.
Qed.
Lemma in_range_step n s t : (0 < s)%nat -> (t < (n + s - 1) / s)%nat -> (t * s < n)%nat.
Proof.
  intros Hs Ht. assert (S t * s <= n + s - 1)%nat; [|lia]. apply Nat.le_trans with (s * ((n + s - 1) / s))%nat; [nia|]. apply Nat.mul_div_le. lia.
Qed.
Lemma causal_causality v iq qf x x' b n t : conv1d_ok v -> channelwise (channels v) iq qf -> shape x = [b; n; channels v] -> agree_until (t * v_stride v) (channels v) x x' ->
  exists y y', snd (conv1d_layer v (mk_vstate PCausal iq) Infer x) = Some y /\ snd (conv1d_layer v (mk_vstate PCausal iq) Infer x') = Some y' /\ shape y = shape y' /\
    forall i s co, (i < b)%nat -> (s <= t)%nat -> (s < nth 1 (shape y) 0)%nat -> (co < filters v)%nat -> at_ y [i; s; co] == at_ y' [i; s; co].
Proof.
  intros Ok Hq Sx (Ss & Ag). rewrite Sx in Ag, Ss. cbn [nth] in Ag. destruct (causal_output v iq qf x b n Ok Hq Sx) as (y & E & Sy & A). destruct (causal_output v iq qf x' b n Ok Hq (eq_sym Ss)) as (y' & E' & Sy' & A').
  exists y, y'. rewrite E, E'. split; [reflexivity|]. split; [reflexivity|]. split; [congruence|]. intros i s co Hi Hs Hl Hco. rewrite Sy in Hl. cbn [nth] in Hl. rewrite A, A' by assumption.
  unfold causal_conv. cbv zeta. pose proof Ok as (Hk & Hst & Hd & Hg & Hci & Hcog & Sk & Hb & Ha). apply Ha. apply Qplus_comp; [|reflexivity]. apply qsum_ext. intros j Hj. apply qsum_ext. intros ci Hc. apply in_seq in Hc.
  apply Qmult_comp; [|reflexivity]. pose proof (in_range_step _ _ _ Hst Hl) as R. apply past_ext; [apply Hq|reflexivity|]. intros L. assert (s * v_stride v <= t * v_stride v)%nat by (apply Nat.mul_le_mono_r; exact Hs). generalize dependent ((v_k v - 1 - j) * v_dil v)%nat. intros D L. apply Ag; [exact Hi|lia|lia|]. apply channel_lt; [exact Ok|exact Hco|lia].
Qed.
Lemma causal_stream v iq qf x w b n1 n2 : conv1d_ok v -> v_stride v = 1%nat -> channelwise (channels v) iq qf -> (reach v <= n1)%nat ->
  shape x = [b; (n1 + n2)%nat; channels v] -> shape w = [b; (reach v + n2)%nat; channels v] ->
  (forall i t c, (i < b)%nat -> (t < reach v + n2)%nat -> (c < channels v)%nat -> at_ w [i; t; c] == at_ x [i; (n1 - reach v + t)%nat; c]) ->
  exists y z, snd (conv1d_layer v (mk_vstate PCausal iq) Infer x) = Some y /\ snd (conv1d_layer v (mk_vstate PCausal iq) Infer w) = Some z /\
    forall i t co, (i < b)%nat -> (t < n2)%nat -> (co < filters v)%nat -> at_ y [i; (n1 + t)%nat; co] == at_ z [i; (reach v + t)%nat; co].
Proof.
  intros Ok S1 Hq Hn Sx Sw Ag. destruct (causal_output v iq qf x b _ Ok Hq Sx) as (y & E & Sy & A). destruct (causal_output v iq qf w b _ Ok Hq Sw) as (z & E' & Sz & A').
  exists y, z. rewrite E, E'. split; [reflexivity|]. split; [reflexivity|]. intros i t co Hi Ht Hco. rewrite S1 in A, A'.
  assert (Dv : forall m, ((m + 1 - 1) / 1 = m)%nat) by (intros m; rewrite Nat.div_1_r; lia).
  rewrite A, A'; [|exact Hi|rewrite Dv; lia|exact Hco|exact Hi|rewrite Dv; lia|exact Hco].
  unfold causal_conv. cbv zeta. pose proof Ok as (Hk & Hst & Hd & Hg & Hci & Hcog & Sk & Hb & Ha). apply Ha. apply Qplus_comp; [|reflexivity]. apply qsum_ext. intros j Hj. apply in_seq in Hj. apply qsum_ext. intros ci Hc. apply in_seq in Hc.
  apply Qmult_comp; [|reflexivity]. rewrite S1, !Nat.mul_1_r.
  assert (J : ((v_k v - 1 - j) * v_dil v <= reach v)%nat) by (unfold reach; nia).
  generalize dependent ((v_k v - 1 - j) * v_dil v)%nat. intros D J.
  unfold past. destruct (Nat.leb_spec D (n1 + t)); [|lia]. destruct (Nat.leb_spec D (reach v + t)); [|lia].
  apply Hq. rewrite Ag; [|exact Hi|lia|apply channel_lt; [exact Ok|exact Hco|lia]].
  replace (n1 - reach v + (reach v + t - D))%nat with (n1 + t - D)%nat by lia. reflexivity.
Qed.

(** *** histories *)
Lemma layer_pad v s m x s' y : conv1d_layer v s m x = (s', Some y) -> s_pad s' = s_pad s.
Proof.
  unfold conv1d_layer, conv1d_call. destruct s as [p q]. cbn [s_pad s_iq].
  destruct (if match p with PCausal => true | _ => false end then pad_steps (left_pad v) x else Some x) as [xi|]; [|discriminate].
  destruct (conv_body (if match p with PCausal => true | _ => false end then PValid else p) v q m xi) as [iq [r|]]; [|discriminate]. cbv zeta.
  destruct (match m with Infer => false | _ => v_ebops v end).
  - destruct (ebops_returns _ _); intros H; [|discriminate]. assert (s' = mk_vstate (if match p with PCausal => true | _ => false end then PCausal else if match p with PCausal => true | _ => false end then PValid else p) iq) as -> by congruence. destruct p; reflexivity.
  - intros H. assert (s' = mk_vstate (if match p with PCausal => true | _ => false end then PCausal else if match p with PCausal => true | _ => false end then PValid else p) iq) as -> by congruence. destruct p; reflexivity.
Qed.
Lemma run_pad v h : forall s s' ys, conv1d_run v s h = (s', ys) -> (forall y, In y ys -> y <> None) -> s_pad s' = s_pad s.
Proof.
  induction h as [|[m x] h IH]; intros s s' ys H N; cbn [conv1d_run] in H; [congruence|].
  destruct (conv1d_layer v s m x) as [s1 y] eqn:E. destruct (conv1d_run v s1 h) as [s2 ys'] eqn:R. assert (s' = s2 /\ ys = y :: ys') as (-> & ->) by (split; congruence).
  destruct y as [y|]; [|destruct (N None (or_introl eq_refl) eq_refl)]. rewrite (IH _ _ _ R); [apply (layer_pad _ _ _ _ _ _ E)|]. intros z I. apply N. right. exact I.
Qed.
Lemma run_infer v iq qf h : conv1d_ok v -> channelwise (channels v) iq qf -> (forall m x, In (m, x) h -> m = Infer /\ exists b n, shape x = [b; n; channels v]) ->
  conv1d_run v (mk_vstate PCausal iq) h = (mk_vstate PCausal iq, map (fun mx => snd (conv1d_layer v (mk_vstate PCausal iq) (fst mx) (snd mx))) h) /\
  forall y, In y (snd (conv1d_run v (mk_vstate PCausal iq) h)) -> y <> None.
Proof.
  intros Ok Hq. induction h as [|[m x] h IH]; intros H; [split; [reflexivity|intros y []]|]. destruct (H m x (or_introl eq_refl)) as (-> & b & n & Sx).
  destruct IH as (IH1 & IH2); [intros m' x' I; apply H; right; exact I|]. destruct (causal_output v iq qf x b n Ok Hq Sx) as (y & E & _). cbn [conv1d_run map fst snd]. rewrite E. rewrite IH1 in *. cbn [snd] in *. split; [reflexivity|].
  intros z [<-|I]; [discriminate|apply IH2, I].
Qed.

(** *** failures *)
Lemma default_shape n nch het hom w : built_for None (Some [0%Z]) [None; Some n; Some nch] het hom w -> w = [1%nat; n; nch].
Proof.
  intros (R & W). unfold resolve_axes in R. change (check_axis [0%Z] (length [None; Some n; Some nch])) with (Some [0%nat]) in R. cbn [length] in R. assert (het = [1; 2]%nat) as -> by (change (setdiff 3 [0%nat]) with [1; 2]%nat in R; congruence).
  unfold weight_shape in W. cbn in W. congruence.
Qed.
Lemma kif_not c hom m s x w : kif_built w s -> bcast_ok w (shape x) = false -> kif_tcall c hom m s x = None.
Proof.
  intros (K & I & F) B. unfold kif_tcall. cbv zeta. destruct (is_wrap (c_om c) && c_trainable c).
  - assert (E : broadcast_to (tmap round_even (t_f s)) (shape x) = None) by (unfold broadcast_to; cbn [tmap shape]; rewrite F, B; reflexivity). rewrite E. reflexivity.
  - rewrite (base_tcall_not _ _ _ _ _ _ w K B). reflexivity.
Qed.
Lemma kbi_not c hom m s x w : kbi_built w s -> bcast_ok w (shape x) = false -> kbi_tcall c hom m s x = None.
Proof.
  intros (K & Hb & I) B. unfold kbi_tcall. cbv zeta.
  assert (N : forall {A} (t : tensor A), shape t = w -> broadcast_to t (shape x) = None) by (intros A t E; unfold broadcast_to; rewrite E, B; reflexivity).
  destruct (is_wrap (c_om c) && c_trainable c).
  - destruct m.
    + rewrite N by (cbn [tmap2 tmap shape]; exact Hb). reflexivity.
    + destruct (x_to_bw_absmax hom x); [|reflexivity]. cbn [bind]. rewrite N by (cbn [tmap2 tmap shape]; exact Hb). reflexivity.
    + destruct (x_to_bw_absmax hom x); [|reflexivity]. cbn [bind]. rewrite N by (cbn [tmap2 tmap shape]; exact Hb). reflexivity.
  - rewrite (base_tcall_not _ _ _ _ _ _ w K B). reflexivity.
Qed.
Lemma step_not m q x w : match q_s q with inl s => kif_built w s | inr s => kbi_built w s end -> bcast_ok w (shape x) = false -> quant_step m q x = None.
Proof.
  intros K B. unfold quant_step, inner_call. cbv zeta. set (x' := match w_scaler (q_w q) with Some s => _ | None => x end).
  assert (B' : bcast_ok w (shape x') = false) by (unfold x'; destruct (w_scaler (q_w q)); exact B).
  destruct (q_s q) as [s|s]; [rewrite (kif_not _ _ _ _ _ w K B')|rewrite (kbi_not _ _ _ _ _ w K B')]; reflexivity.
Qed.
Lemma default_raises v q m x b n nch : (0 < reach v)%nat -> (1 < n)%nat -> default_axes n nch q -> shape x = [b; n; nch] ->
  conv1d_layer v (mk_vstate PCausal (Some q)) m x = (mk_vstate PValid (Some q), None).
Proof.
  intros Hr Hn (Wf & het & wsh & Hb & K) Sx. pose proof (default_shape _ _ _ _ _ Hb) as ->. destruct (pad_steps_at (left_pad v) x b n nch Sx) as (xp & Ep & Sp & _).
  unfold conv1d_layer, conv1d_call. cbn [s_pad s_iq]. rewrite Ep. unfold conv_body. rewrite (step_not m q xp _ K); [reflexivity|]. rewrite Sp, left_reach. cbn [bcast_ok].
  destruct (Nat.eqb_spec n 1); [lia|]. destruct (Nat.eqb_spec n (reach v + n)); [lia|]. reflexivity.
Qed.
Lemma retry v q x b n : conv1d_ok v -> v_stride v = 1%nat -> (0 < reach v)%nat -> (1 < n)%nat -> default_axes n (channels v) q -> shape x = [b; n; channels v] ->
  exists y, snd (conv1d_run v (mk_vstate PCausal (Some q)) [(Infer, x); (Infer, x)]) = [None; Some y] /\ shape y = [b; (n - reach v)%nat; filters v].
Proof.
  intros Ok S1 Hr Hn Hd Sx. cbn [conv1d_run]. rewrite (default_raises v q Infer x b n _ Hr Hn Hd Sx).
  assert (X : exists xq, quant_call q x = Some xq /\ shape xq = [b; n; channels v]).
  { destruct Hd as (W & het & wsh & Hb & K). pose proof (default_shape _ _ _ _ _ Hb) as ->. destruct (call_base' q W) as (k & i & f & S & Hc).
    assert (S' : shape k = [1%nat; n; channels v] /\ shape i = [1%nat; n; channels v] /\ shape f = [1%nat; n; channels v]) by (destruct (q_s q) as [s|s]; destruct K as (K1 & K2 & K3); repeat split; congruence).
    destruct S' as (A1 & A2 & A3). destruct (quantizer_infer_at (q_w q) (q_c q) k i f _ x A1 A2 A3) as (y & Ey & Sy & _).
    { rewrite Sx. cbn [bcast_ok]. rewrite !Nat.eqb_refl, !orb_true_r. reflexivity. }
    exists y. split; [rewrite Hc; exact Ey|congruence]. }
  destruct X as (xq & Eq & Sq). destruct (keras_conv1 v xq b n Ok Sq) as (r & Er & Sr & _). destruct (add_bias_at v r b _ Ok Sr) as (z & Ez & Sz & _).
  exists (tmap (act_fn (v_act v)) z). split.
  - unfold conv1d_layer at 1, conv1d_call. cbn [s_pad s_iq]. unfold conv_body. rewrite step_infer, Eq. cbn [bind]. rewrite Er. cbn [bind]. rewrite Ez. reflexivity.
  - cbn [tmap shape]. rewrite Sz, S1, Nat.div_1_r. do 2 f_equal. destruct (Nat.ltb_spec n (reach v + 1)); lia.
Qed.
Lemma training_raises v iq m x : v_ebops v = true -> m <> Infer -> snd (conv1d_layer v (mk_vstate PCausal iq) m x) = None.
Proof.
  intros He Hm. unfold conv1d_layer, conv1d_call. cbn [s_pad s_iq]. destruct (pad_steps (left_pad v) x) as [xp|]; [|reflexivity].
  destruct (conv_body PValid v iq m xp) as [iq' [r|]]; [|reflexivity]. rewrite He. destruct m; [contradiction|..]; cbn [snd]; unfold ebops_returns; cbn [s_iq s_pad]; destruct iq'; try rewrite andb_false_r; reflexivity.
Qed.
