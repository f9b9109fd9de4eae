(** Lemmas for C65: GRU and spiking layers, row by row; hardware. *)
From Coq Require Import String.
From Verif Require Import Num M_Fixed L_Fixed M_State S_State L_State M_Wrapper M_Mapper S_Mapper L_Mapper M_Contr M_Ebops L_Ebops M_Pow2 M_Patch L_Patch M_Ops L_Ops M_Mirror L_Mirror M_Trace L_Trace M_Table S_Table L_Table M_Softmax M_Net S_Net L_Net L_Net2 L_Net3 M_NetX M_Causal L_Causal M_Calib S_Ops S_Calib L_Calib L_Calib2 L_Calib3 M_Prog M_Rnn S_Rnn L_Rnn S_Prog L_Prog L_Prog2 L_Prog3.
Local Open Scope list_scope.

Section Row.
  Context (tab : nat -> quant) (B b : nat) (Hb : (b < B)%nat).
  Notation onrow := (onrow B b).
  Definition gbias_of (l : sgru) (bias : option (tensor Q)) : gru_bias :=
    match bias with Some y => if sg_reset_after l then GBias (fun j => at_ y [0; j]%nat) (fun j => at_ y [1; j]%nat) else GBias (vec_of y) (fun _ => 0) | None => GNoBias end.
  Definition gcell (l : sgru) (f : nat) (k rk : tensor Q) (bias : option (tensor Q)) : gru_cell :=
    mk_gru (sg_units l) f (option_map (fun i => vq_of (tab i)) (sg_iq l)) (vq_of (tab (sg_sq l))) (vq_of (tab (sg_paq l))) (vq_of (tab (sg_praq l))) (vq_of (tab (sg_rhq l)))
          (mat_of k) (mat_of rk) (gbias_of l bias) (sg_reset_after l) (sg_act l) (sg_ract l).
  Lemma cols_shape from len x y n c : shape x = [n; c] -> cols from len x = Some y -> shape y = [n; len] /\ forall i j, at_ y [i; j] = at_ x [i; (from + j)%nat].
  Proof. unfold cols. intros ->. destruct (_ <=? _)%nat; [|discriminate]. intros H. apply some_inj in H. subst y. split; reflexivity. Qed.
  Lemma on_cols_matmul f u from len x v k k2 y : shape k = [f; u] -> cols from len k = Some k2 -> onrow f x v -> keras_matmul x k2 = Some y -> onrow len y (fun j => vecmat f v (mat_of k) (from + j)%nat).
  Proof.
    intros Ek Ec O E. destruct (cols_shape _ _ _ _ _ _ Ek Ec) as (S2 & A2). pose proof (on_matmul B b Hb f len x v k2 y S2 O E) as G. apply (on_ext B b _ _ _ _ G). intros j _. unfold vecmat, mat_of. assert (M : map (fun i => v i * at_ k2 [i; j]) (seq 0 f) = map (fun i => v i * at_ k [i; (from + j)%nat]) (seq 0 f)) by (apply map_ext; intros i; rewrite A2; reflexivity).
    rewrite M. reflexivity.
  Qed.
  Lemma gru_step_row l f k rk bias x v s w r : on_numbers (sg_act l) -> on_numbers (sg_ract l) -> gru_built tab l f -> shape k = [f; (3 * sg_units l)%nat] -> shape rk = [sg_units l; (3 * sg_units l)%nat] ->
    (forall t, bias = Some t -> shape t = if sg_reset_after l then [2; 3 * sg_units l]%nat else [(3 * sg_units l)%nat]) ->
    onrow f x v -> onrow (sg_units l) s w -> eval tab (sgru_step l k rk bias x s) = Some r -> onrow (sg_units l) (fst r) (fst (gru_call (gcell l f k rk bias) v w)) /\ onrow (sg_units l) (snd r) (snd (gru_call (gcell l f k rk bias) v w)).
  Proof.
    intros Ha Hr (R1 & R2 & R3 & R4 & R5 & _) Ek Erk Eb Ox Os. unfold sgru_step. cbv zeta. rewrite eval_then, eval_ask. destruct (quant_call (tab (sg_sq l)) s) as [qh|] eqn:E1; [|discriminate]. cbn [bind]. rewrite eval_then.
    destruct (eval tab (ask_opt (sg_iq l) x)) as [qx|] eqn:E2; [|discriminate]. cbn [bind]. pose proof (on_q B b Hb _ _ _ _ _ R2 Os E1) as Oh. pose proof (on_oq tab B b Hb _ _ _ _ _ R1 Ox E2) as Oq.
    rewrite eval_then, eval_lift. destruct (gru_biases l bias) as [[ib rb]|] eqn:E3; [|discriminate]. cbn [bind].
    destruct (keras_matmul qx k) as [m|] eqn:E4; [|discriminate]. cbn [bind]. pose proof (on_matmul B b Hb _ _ _ _ _ _ Ek Oq E4) as Om. destruct (add_bias m ib) as [xm|] eqn:E5; [|discriminate]. cbn [bind].
    assert (Oxm : onrow (3 * sg_units l) xm (fun j => vecmat f (opt_q layer_q (option_map (fun i => vq_of (tab i)) (sg_iq l)) v) (mat_of k) j + match gbias_of l bias with GNoBias => 0 | GBias b _ => b j end)).
    { assert (Sib : forall t, ib = Some t -> shape t = [(3 * sg_units l)%nat]).
      { intros t ->. unfold gru_biases in E3. destruct bias as [bs|]; [|discriminate]. specialize (Eb bs eq_refl). destruct (sg_reset_after l); [|injection E3 as -> _; exact Eb]. rewrite Eb in E3. injection E3 as <- _. reflexivity. }
      pose proof (on_bias B b Hb _ _ _ _ _ Om Sib E5) as O. apply (on_ext B b _ _ _ _ O). intros j _. unfold gru_biases in E3. unfold gbias_of. destruct bias as [bs|]; [|injection E3 as <- _; cbn [option_map]; ring].
      specialize (Eb bs eq_refl). destruct (sg_reset_after l); [rewrite Eb in E3; injection E3 as <- _|injection E3 as <- _]; cbn [option_map]; reflexivity. }
    clear Om. assert (Oi : forall inner, (if sg_reset_after l then do r <- keras_matmul qh rk; add_bias r rb else do rk2 <- cols 0 (2 * sg_units l) rk; keras_matmul qh rk2) = Some inner ->
      onrow (if sg_reset_after l then 3 * sg_units l else 2 * sg_units l) inner (if sg_reset_after l
        then fun j => match gbias_of l bias with GNoBias => vecmat (sg_units l) (layer_q (vq_of (tab (sg_sq l))) w) (mat_of rk) j | GBias _ rb => vecmat (sg_units l) (layer_q (vq_of (tab (sg_sq l))) w) (mat_of rk) j + rb j end
        else vecmat (sg_units l) (layer_q (vq_of (tab (sg_sq l))) w) (mat_of rk))).
    { intros inner. unfold gbias_of. destruct (sg_reset_after l) eqn:Er.
      - intros H. destruct (keras_matmul qh rk) as [t|] eqn:E6; [|discriminate]. cbn [bind] in H. pose proof (on_matmul B b Hb _ _ _ _ _ _ Erk Oh E6) as Ot.
        assert (Srb : forall t, rb = Some t -> shape t = [(3 * sg_units l)%nat]).
        { intros t0 ->. unfold gru_biases in E3. rewrite Er in E3. destruct bias as [bs|]; [|discriminate]. rewrite (Eb bs eq_refl) in E3. injection E3 as _ <-. reflexivity. }
        pose proof (on_bias B b Hb _ _ _ _ _ Ot Srb H) as O. apply (on_ext B b _ _ _ _ O). intros j _. unfold gru_biases in E3. rewrite Er in E3. destruct bias as [bs|]; [rewrite (Eb bs eq_refl) in E3; injection E3 as _ <-|injection E3 as _ <-]; cbn [option_map]; reflexivity.
      - intros H. destruct (cols 0 _ rk) as [rk2|] eqn:E6; [|discriminate]. cbn [bind] in H. exact (on_cols_matmul _ _ _ _ _ _ _ _ _ Erk E6 Oh H). }
    destruct (if sg_reset_after l then do r <- keras_matmul qh rk; add_bias r rb else do rk2 <- cols 0 (2 * sg_units l) rk; keras_matmul qh rk2) as [inner|] eqn:E6; [|discriminate]. specialize (Oi inner eq_refl). cbn [bind]. clear E6.
    destruct (cols 0 _ xm) as [xzr|] eqn:E7; [|discriminate]. cbn [bind]. pose proof (on_cols B b Hb _ _ _ _ _ _ Oxm E7) as Oxzr. destruct (cols 0 _ inner) as [rzr|] eqn:E8; [|discriminate]. cbn [bind]. pose proof (on_cols B b Hb _ _ _ _ _ _ Oi E8) as Orzr.
    destruct (np_binary Qplus xzr rzr) as [t|] eqn:E9; [|discriminate]. cbn [bind]. pose proof (on_act B b _ _ _ _ Hr (on_binary B b Hb _ _ _ _ _ _ _ Qplus_ext Oxzr Orzr E9)) as Ot.
    rewrite eval_then, eval_ask. destruct (quant_call (tab (sg_praq l)) _) as [qzr|] eqn:E10; [|discriminate]. cbn [bind]. pose proof (on_q B b Hb _ _ _ _ _ R4 Ot E10) as Oqzr.
    rewrite eval_then, eval_lift. destruct (cols 0 _ qzr) as [z|] eqn:E11; [|discriminate]. cbn [bind]. destruct (cols (sg_units l) _ qzr) as [rr|] eqn:E12; [|discriminate]. cbn [bind].
    pose proof (on_cols B b Hb _ _ _ _ _ _ Oqzr E11) as Oz. pose proof (on_cols B b Hb _ _ _ _ _ _ Oqzr E12) as Or. clear Oxzr Orzr Ot Oqzr E7 E8 E9 E10 E11 E12.
    rewrite eval_then. destruct (eval tab (if sg_reset_after l then _ else _)) as [rh|] eqn:E13; [|discriminate]. cbn [bind]. rewrite eval_then, eval_lift.
    destruct (cols (2 * sg_units l) _ xm) as [xh|] eqn:E14; [|discriminate]. cbn [bind]. pose proof (on_cols B b Hb _ _ _ _ _ _ Oxm E14) as Oxh.
    destruct (np_binary Qplus xh rh) as [sm|] eqn:E15; [|discriminate]. cbn [bind]. rewrite eval_then, eval_ask. destruct (quant_call (tab (sg_paq l)) _) as [qhh|] eqn:E16; [|discriminate]. cbn [bind].
    rewrite eval_then, eval_lift. destruct (np_binary Qmult z qh) as [a1|] eqn:E17; [|discriminate]. cbn [bind]. destruct (np_binary Qmult _ qhh) as [a2|] eqn:E18; [|discriminate]. cbn [bind].
    destruct (np_binary Qplus a1 a2) as [y|] eqn:E19; [|discriminate]. cbn [bind eval]. intros H. apply some_inj in H. subst r. cbn [fst snd].
    assert (One_minus : on_numbers (fun v => 1 - v)) by (intros p q ->; reflexivity).
    assert (G : onrow (sg_units l) y (fst (gru_call (gcell l f k rk bias) v w))).
    { unfold gru_call, gcell. cbn [g_units g_in g_iq g_sq g_paq g_praq g_rhq g_kernel g_rkernel g_bias g_reset_after g_act g_ract fst]. cbv zeta. destruct (sg_reset_after l) eqn:Er.
      - rewrite eval_then, eval_lift in E13. destruct (cols (2 * sg_units l) _ inner) as [i|] eqn:F1; [|discriminate]. cbn [bind] in E13. rewrite eval_then, eval_ask in E13. destruct (quant_call (tab (sg_rhq l)) i) as [q|] eqn:F2; [|discriminate]. cbn [bind] in E13. rewrite eval_lift in E13.
        pose proof (on_binary B b Hb _ _ _ _ _ _ _ Qmult_ext Or (on_q B b Hb _ _ _ _ _ R5 (on_cols B b Hb _ _ _ _ _ _ Oi F1) F2) E13) as Orh.
        pose proof (on_q B b Hb _ _ _ _ _ R3 (on_act B b _ _ _ _ Ha (on_binary B b Hb _ _ _ _ _ _ _ Qplus_ext Oxh Orh E15)) E16) as Ohh.
        exact (on_binary B b Hb _ _ _ _ _ _ _ Qplus_ext (on_binary B b Hb _ _ _ _ _ _ _ Qmult_ext Oz Oh E17) (on_binary B b Hb _ _ _ _ _ _ _ Qmult_ext (on_act B b _ _ _ _ One_minus Oz) Ohh E18) E19).
      - rewrite eval_then, eval_lift in E13. destruct (np_binary Qmult rr qh) as [i|] eqn:F1; [|discriminate]. cbn [bind] in E13. rewrite eval_then, eval_ask in E13. destruct (quant_call (tab (sg_rhq l)) i) as [q|] eqn:F2; [|discriminate]. cbn [bind] in E13. rewrite eval_lift in E13.
        destruct (cols (2 * sg_units l) _ rk) as [rk3|] eqn:F3; [|discriminate]. cbn [bind] in E13.
        pose proof (on_cols_matmul _ _ _ _ _ _ _ _ _ Erk F3 (on_q B b Hb _ _ _ _ _ R5 (on_binary B b Hb _ _ _ _ _ _ _ Qmult_ext Or Oh F1) F2) E13) as Orh.
        pose proof (on_q B b Hb _ _ _ _ _ R3 (on_act B b _ _ _ _ Ha (on_binary B b Hb _ _ _ _ _ _ _ Qplus_ext Oxh Orh E15)) E16) as Ohh.
        exact (on_binary B b Hb _ _ _ _ _ _ _ Qplus_ext (on_binary B b Hb _ _ _ _ _ _ _ Qmult_ext Oz Oh E17) (on_binary B b Hb _ _ _ _ _ _ _ Qmult_ext (on_act B b _ _ _ _ One_minus Oz) Ohh E18) E19). }
    split; exact G.
  Qed.
  Lemma sgru_row l f T x y : on_numbers (sg_act l) -> on_numbers (sg_ract l) -> gru_built tab l f -> shape x = [B; T; f] -> eval tab (sgru_prog l (One x)) = Some y ->
    exists c, gru_of tab l f = Some c /\ returned (sg_sequences l) (sg_units l) b (fst (keras_rnn (gru_call c) (sg_backwards l) (rows b x) (fun _ => 0))) y.
  Proof.
    intros Ha Hr R Ex. unfold sgru_prog. rewrite eval_then, eval_ask. destruct (quant_call (tab (fst (sg_kernel l))) _) as [k|] eqn:E1; [|discriminate]. cbn [bind]. rewrite eval_then, eval_ask. destruct (quant_call (tab (fst (sg_rkernel l))) _) as [rk|] eqn:E2; [|discriminate]. cbn [bind].
    rewrite eval_then, eval_bias. pose proof R as (_ & _ & _ & _ & _ & K1 & K2 & K3). pose proof (quant_shape _ _ _ E1) as S1. pose proof (quant_shape _ _ _ E2) as S2. rewrite K1 in S1. rewrite K2 in S2. unfold gru_of. rewrite E1, E2. cbn [bind].
    destruct (sg_bias l) as [[id bs]|] eqn:E3.
    - destruct (quant_call (tab id) bs) as [t|] eqn:E4; [|discriminate]. cbn [bind]. intros H. eexists. split; [reflexivity|]. refine (rnn_rows tab B b Hb _ _ _ _ _ _ _ _ _ _ Ex H). intros x0 v s w r Ox Os Er.
      apply (gru_step_row l f k rk (Some t) x0 v s w r Ha Hr R S1 S2); [|exact Ox|exact Os|exact Er]. intros t' [= <-]. rewrite (quant_shape _ _ _ E4). exact (K3 _ _ eq_refl).
    - cbn [bind]. intros H. eexists. split; [reflexivity|]. refine (rnn_rows tab B b Hb _ _ _ _ _ _ _ _ _ _ Ex H). intros x0 v s w r Ox Os Er.
      apply (gru_step_row l f k rk None x0 v s w r Ha Hr R S1 S2); [|exact Ox|exact Os|exact Er]. intros t' [=].
  Qed.

  (** *** spiking *)
  Lemma argmax_row_eq f u : argmax_row f u = argmax f u.
  Proof. induction u as [|u IH]; [reflexivity|]. cbn [argmax_row argmax]. rewrite IH. reflexivity. Qed.
  Definition scell (l : ssnn) (beta : option (nat -> Q)) (fac : tensor Q) : snn_cell :=
    mk_snn (sn_units l) (option_map (fun i => vq_of (tab i)) (sn_iq l)) (option_map (fun i => vq_of (tab i)) (sn_oq l)) (option_map (fun i => vq_of (tab i)) (sn_sq l))
          beta (vec_of (sn_threshold l)) (vec_of fac) (sn_inhibition l) (reset_of (sn_reset l)) None.
  Lemma onvec_self n x : shape x = [n] -> onvec n x (vec_of x).
  Proof. intros E. split; [exact E|]. intros j _. reflexivity. Qed.
  Lemma spike_row l v : (forall v, (0 < v -> sn_spike l v == 1) /\ (v <= 0 -> sn_spike l v == 0)) -> sn_spike l v == hard v.
  Proof.
    intros H. destruct (H v) as (H1 & H2). unfold hard. destruct (qlt_b 0 v) eqn:E; [apply H1, qlt_b_iff, E|]. apply H2. apply Qnot_lt_le. intros L. apply qlt_b_iff in L. congruence.
  Qed.
  Lemma snn_step_row l beta x v s w r : snn_built tab l -> match sn_beta l with Some (id, bt) => exists y, quant_call (tab id) bt = Some y /\ beta = Some (vec_of y) | None => beta = None end ->
    onrow (sn_units l) x v -> onrow (sn_units l) s w -> eval tab (ssnn_step l x s) = Some r ->
    exists fac, quant_call (tab (fst (sn_factor l))) (snd (sn_factor l)) = Some fac /\ onrow (sn_units l) (fst r) (fst (snn_call (scell l beta fac) v w)) /\ onrow (sn_units l) (snd r) (snd (snn_call (scell l beta fac) v w)).
  Proof.
    intros (R1 & R2 & R3 & K1 & K2 & K3 & Hs) Hbeta Ox Os. unfold ssnn_step. rewrite eval_then. destruct (eval tab (match sn_beta l with Some _ => _ | None => _ end)) as [m|] eqn:E1; [|discriminate]. cbn [bind].
    assert (Om : onrow (sn_units l) m (match beta with Some bt => fun j => bt j * w j | None => w end)).
    { destruct (sn_beta l) as [[id bt]|]; [|subst beta; cbn [eval] in E1; apply some_inj in E1; subst m; exact Os]. destruct Hbeta as (y & Ey & ->). rewrite eval_then, eval_ask, Ey in E1. cbn [bind] in E1. rewrite eval_lift in E1.
      refine (on_binary_l B b Hb Qmult _ _ _ _ _ _ Qmult_ext _ Os E1). apply onvec_self. rewrite (quant_shape _ _ _ Ey). exact (K3 _ _ eq_refl). }
    rewrite eval_then. destruct (eval tab (ask_opt (sn_iq l) x)) as [qx|] eqn:E2; [|discriminate]. cbn [bind]. pose proof (on_oq tab B b Hb _ _ _ _ _ R1 Ox E2) as Oq. rewrite eval_then, eval_lift.
    destruct (np_binary Qplus m qx) as [mem|] eqn:E3; [|discriminate]. cbn [bind]. pose proof (on_binary B b Hb _ _ _ _ _ _ _ Qplus_ext Om Oq E3) as Ome. rewrite eval_then, eval_lift.
    destruct (np_binary Qminus mem (sn_threshold l)) as [sc|] eqn:E4; [|discriminate]. cbn [bind]. pose proof (on_binary_r B b Hb _ _ _ _ _ _ _ Qminus_ext Ome (onvec_self _ _ K1) E4) as Osc. rewrite eval_then, eval_lift. cbv zeta.
    match type of Ome with onrow _ _ ?g => set (memv := g) in * end. match type of Osc with onrow _ _ ?g => set (scv := g) in * end.
    destruct (if sn_inhibition l then inhibit (sn_units l) sc _ else Some _) as [spk|] eqn:E5; [|discriminate]. cbn [bind]. rewrite eval_then, eval_ask. destruct (quant_call (tab (fst (sn_factor l))) _) as [fac|] eqn:E6; [|discriminate]. cbn [bind].
    set (c := scell l beta fac).
    assert (Osp : onrow (sn_units l) spk (snn_spk c memv)).
    { assert (O : onrow (sn_units l) (tmap (sn_spike l) sc) (fun j => hard (scv j))).
      { destruct Osc as (S & V). split; [exact S|]. intros j Hj. unfold row. cbn [tmap at_]. rewrite (spike_row l _ Hs). specialize (V j Hj). unfold row in V. unfold hard. rewrite (qlt_b_comp 0 (at_ sc [b; j]) 0 (scv j)); [reflexivity|reflexivity|exact V]. }
      unfold snn_spk, c, scell, spike. cbn [s_soft s_threshold s_inhibition s_units]. cbv zeta. destruct (sn_inhibition l).
      - unfold inhibit in E5. destruct Osc as (S & V). rewrite S in E5. destruct (_ && _)%bool; [|discriminate]. apply some_inj in E5. subst spk. split; [reflexivity|]. intros j Hj. unfold row. cbn [at_]. destruct O as (_ & O). specialize (O j Hj). unfold row in O. cbn [tmap at_] in O. cbn [tmap at_]. rewrite O.
        rewrite (argmax_row_same _ scv (sn_units l)); [|intros i Hi; apply V, Hi]. rewrite argmax_row_eq. unfold one_hot. reflexivity.
      - apply some_inj in E5. subst spk. exact O. }
    rewrite eval_then, eval_lift. destruct (np_binary Qmult spk fac) as [out|] eqn:E7; [|discriminate]. cbn [bind]. assert (Ofac : onvec (sn_units l) fac (vec_of fac)) by (apply onvec_self; rewrite (quant_shape _ _ _ E6); exact K2).
    pose proof (on_binary_r B b Hb _ _ _ _ _ _ _ Qmult_ext Osp Ofac E7) as Oo. rewrite eval_then. destruct (eval tab (ask_opt (sn_oq l) out)) as [y|] eqn:E8; [|discriminate]. cbn [bind]. pose proof (on_oq tab B b Hb _ _ _ _ _ R2 Oo E8) as Oy.
    rewrite eval_then, eval_lift. destruct (match sn_reset l with Subtract => _ | Zero => _ | NoReset => _ end) as [rs|] eqn:E9; [|discriminate]. cbn [bind]. rewrite eval_then. destruct (eval tab (ask_opt (sn_sq l) rs)) as [st|] eqn:E10; [|discriminate]. cbn [bind eval].
    intros H. apply some_inj in H. subst r. exists fac. split; [reflexivity|]. cbn [fst snd].
    assert (Ors : onrow (sn_units l) rs (snn_reset c memv (snn_spk c memv))).
    { unfold snn_reset. unfold c at 1, scell. cbn [s_reset]. destruct (sn_reset l); cbn [reset_of].
      - destruct (np_binary Qmult spk (sn_threshold l)) as [d|] eqn:F1; [|discriminate]. cbn [bind] in E9. exact (on_binary B b Hb _ _ _ _ _ _ _ Qminus_ext Ome (on_binary_r B b Hb _ _ _ _ _ _ _ Qmult_ext Osp (onvec_self _ _ K1) F1) E9).
      - refine (on_binary B b Hb _ _ _ _ _ _ _ Qmult_ext Ome (on_act B b _ _ _ _ _ Osp) E9). intros p q ->. reflexivity.
      - apply some_inj in E9. subst rs. exact Ome. }
    pose proof (on_oq tab B b Hb _ _ _ _ _ R3 Ors E10) as Ost.
    subst memv scv. subst c. unfold snn_call, scell. cbn [s_beta s_iq s_oq s_sq s_factor]. cbv zeta. clear -Oy Ost. unfold scell in *. destruct beta as [bt|]; cbn [fst snd]; split; [exact Oy|exact Ost|exact Oy|exact Ost].
  Qed.
  Lemma loop_first step xs s ys : eval tab (time_loop step xs s) = Some ys -> xs <> [] -> exists x r, eval tab (step x s) = Some r.
  Proof. destruct xs as [|x xs]; [intros _ N; destruct N; reflexivity|]. cbn [time_loop]. rewrite eval_then. intros H _. exists x. destruct (eval tab (step x s)) as [r|]; [exists r; reflexivity|discriminate]. Qed.
  Lemma ssnn_row l T x y : snn_built tab l -> shape x = [B; S T; sn_units l] -> eval tab (ssnn_prog l (One x)) = Some y ->
    exists c, snn_of tab l = Some c /\ returned (sn_sequences l) (sn_units l) b (fst (keras_rnn (snn_call c) (sn_backwards l) (rows b x) (fun _ => 0))) y.
  Proof.
    intros R Ex H. assert (C : exists c, snn_of tab l = Some c).
    { unfold ssnn_prog in H. cbn [rnn_prog] in H. rewrite Ex in H. cbv zeta in H. rewrite eval_then in H. destruct (eval tab (time_loop _ _ _)) as [ys|] eqn:El; [|discriminate].
      destruct (loop_first _ _ _ _ El) as (x0 & r & Er); [destruct (sn_backwards l); cbn [seq map rev]; [intros E; apply app_eq_nil in E as (_ & E); discriminate E|discriminate]|].
      unfold snn_of. unfold ssnn_step in Er. rewrite eval_then in Er. destruct (sn_beta l) as [[id bt]|].
      - rewrite eval_then, eval_ask in Er. destruct (quant_call (tab id) bt) as [q|]; [|discriminate]. cbn [bind] in *. rewrite eval_lift in Er. destruct (np_binary Qmult q _); [|discriminate]. cbn [bind] in Er. rewrite eval_then in Er. destruct (eval tab (ask_opt (sn_iq l) x0)); [|discriminate]. cbn [bind] in Er.
        rewrite eval_then, eval_lift in Er. destruct (np_binary Qplus _ _); [|discriminate]. cbn [bind] in Er. rewrite eval_then, eval_lift in Er. destruct (np_binary Qminus _ _); [|discriminate]. cbn [bind] in Er. rewrite eval_then, eval_lift in Er. cbv zeta in Er; destruct (if sn_inhibition l then inhibit _ _ _ else Some _); [|discriminate]. cbn [bind] in Er.
        rewrite eval_then, eval_ask in Er. destruct (quant_call (tab (fst (sn_factor l))) _); [|discriminate]. cbn [bind]. eexists. reflexivity.
      - cbn [eval bind] in *. rewrite eval_then in Er. destruct (eval tab (ask_opt (sn_iq l) x0)); [|discriminate]. cbn [bind] in Er.
        rewrite eval_then, eval_lift in Er. destruct (np_binary Qplus _ _); [|discriminate]. cbn [bind] in Er. rewrite eval_then, eval_lift in Er. destruct (np_binary Qminus _ _); [|discriminate]. cbn [bind] in Er. rewrite eval_then, eval_lift in Er. cbv zeta in Er; destruct (if sn_inhibition l then inhibit _ _ _ else Some _); [|discriminate]. cbn [bind] in Er.
        rewrite eval_then, eval_ask in Er. destruct (quant_call (tab (fst (sn_factor l))) _); [|discriminate]. cbn [bind]. eexists. reflexivity. }
    destruct C as (c & Ec). exists c. split; [exact Ec|]. unfold snn_of in Ec.
    destruct (match sn_beta l with Some _ => _ | None => Some None end) as [beta|] eqn:Eb; [|discriminate]. cbn [bind] in Ec. destruct (quant_call (tab (fst (sn_factor l))) _) as [fac|] eqn:Ef; [|discriminate]. cbn [bind] in Ec. apply some_inj in Ec.
    refine (rnn_rows tab B b Hb _ _ _ _ _ _ _ _ _ _ Ex H). intros x0 v s w r Ox Os Er. destruct (snn_step_row l beta x0 v s w r R) as (fac' & Ef' & G); [|exact Ox|exact Os|exact Er|].
    - destruct (sn_beta l) as [[id bt]|]; [|apply some_inj in Eb; subst beta; reflexivity]. destruct (quant_call (tab id) bt) as [q|]; [|discriminate]. cbn [bind] in Eb. apply some_inj in Eb. subst beta. exists q. split; reflexivity.
    - rewrite Ef in Ef'. apply some_inj in Ef'. subst fac'. subst c. exact G.
  Qed.
End Row.
