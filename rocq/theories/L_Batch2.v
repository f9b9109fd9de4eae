From Coq Require Import String.
From Verif Require Import Num M_Fixed L_Fixed M_State M_Wrapper M_Mapper S_Mapper L_Mapper M_Contr M_Ebops M_Pow2 M_Patch S_Patch M_Ops L_Ops M_Mirror S_Mirror M_Trace S_Trace M_Table M_Softmax M_Net S_Net L_Net L_Net2 L_Net3 L_Net5 S_Ops.
From Verif Require Import M_Calib S_Calib L_Calib L_Calib2 L_Calib3 M_Prog M_Rnn S_Rnn S_Prog L_Prog L_Prog2 L_Prog3 L_Prog5 S_ProgAttn S_Batch L_Batch.
Local Open Scope list_scope.

Lemma ss_tmap n b n' b' (f : Q -> Q) x x' : on_numbers f -> same_sample n b n' b' x x' -> same_sample n b n' b' (tmap f x) (tmap f x').
Proof. intros F (B1 & B2 & S). split; [exact B1|]. split; [exact B2|]. exact (st_tmap f (sample b x) (sample b' x') F S). Qed.
Lemma bcast_lead {A} (w : tensor A) n n' b b' s w1 : over_batch w -> broadcast_to w (n :: s) = Some w1 -> exists w2, broadcast_to w (n' :: s) = Some w2 /\ forall r, at_ w1 (b :: r) = at_ w2 (b' :: r).
Proof.
  intros (t & E). unfold broadcast_to. rewrite E. cbn [bcast_ok Nat.eqb orb andb]. destruct (bcast_ok t s); [|discriminate]. intros H. apply some_inj in H. subst w1. eexists. split; [reflexivity|]. intros r. reflexivity.
Qed.
Lemma base_batch c k i f n b n' b' x x' y y' : over_batch k -> over_batch i -> over_batch f -> same_sample n b n' b' x x' ->
  base_tcall c false k i f x = Some y -> base_tcall c false k i f x' = Some y' -> same_sample n b n' b' y y'.
Proof.
  intros K I F ((d & s & Ex) & (d' & s' & Ex') & Se & Sv). cbn [sample shape] in Se. rewrite Ex, Ex' in Se. cbn [tl] in Se. injection Se as <- <-. unfold base_tcall. rewrite Ex, Ex'.
  destruct (broadcast_to k (n :: d :: s)) as [k1|] eqn:E1; [|discriminate]. destruct (broadcast_to i (n :: d :: s)) as [i1|] eqn:E2; [|discriminate]. destruct (broadcast_to f (n :: d :: s)) as [f1|] eqn:E3; [|discriminate]. cbn [bind]. intros H. apply some_inj in H. subst y.
  destruct (bcast_lead k n n' b b' _ _ K E1) as (k2 & -> & A1). destruct (bcast_lead i n n' b b' _ _ I E2) as (i2 & -> & A2). destruct (bcast_lead f n n' b b' _ _ F E3) as (f2 & -> & A3). cbn [bind]. intros H. apply some_inj in H. subst y'.
  split; [exists d, s; reflexivity|]. split; [exists d, s; reflexivity|]. split; [reflexivity|]. intros r Hr. cbn [sample shape at_ tl] in *. rewrite A1, A2, A3. apply base_call_Proper. apply Sv. cbn [sample shape]. rewrite Ex. exact Hr.
Qed.
Lemma quant_batch q n b n' b' x x' y y' : shared_quant q -> same_sample n b n' b' x x' -> quant_call q x = Some y -> quant_call q x' = Some y' -> same_sample n b n' b' y y'.
Proof.
  intros Q S. unfold quant_call, quantizer_infer. cbv zeta.
  assert (S0 : same_sample n b n' b' (match w_scaler (q_w q) with Some s => tmap (fun x => x / s) x | None => x end) (match w_scaler (q_w q) with Some s => tmap (fun x => x / s) x' | None => x' end)).
  { destruct (w_scaler (q_w q)) as [s|]; [|exact S]. apply ss_tmap; [|exact S]. intros p r E. rewrite E. reflexivity. }
  revert S0. generalize (match w_scaler (q_w q) with Some s => tmap (fun x => x / s) x | None => x end). generalize (match w_scaler (q_w q) with Some s => tmap (fun x => x / s) x' | None => x' end). intros u' u S0.
  destruct (match q_s q with inl s => _ | inr s => _ end u) as [o|] eqn:E; [|discriminate]. destruct (match q_s q with inl s => _ | inr s => _ end u') as [o'|] eqn:E'; [|discriminate]. cbn [bind]. intros H H'. apply some_inj in H. apply some_inj in H'. subst y y'.
  assert (So : same_sample n b n' b' o o').
  { unfold shared_quant in Q. destruct Q as (Nw & Q). destruct (q_s q) as [s|s]; destruct Q as (Q1 & Q2 & Q3).
    - assert (Y : forall u o, kif_infer (q_c q) (q_hom q) s u = Some o -> base_tcall (q_c q) false (t_k s) (tmap round_even (t_i s)) (tmap round_even (t_f s)) u = Some o).
      { clear - Nw. intros u o E. unfold kif_infer in E. destruct (kif_tcall (q_c q) (q_hom q) Infer s u) as [[s' o']|] eqn:K; [|discriminate]. cbn [bind] in E. apply some_inj in E. subst o'. unfold kif_tcall in K. cbv zeta in K. cbn [is_train] in K. rewrite Nw in K. cbn [andb] in K. destruct (is_wrap (c_om (q_c q)) && c_trainable (q_c q))%bool; try (destruct (broadcast_to _ (shape u)); [cbn [bind] in K|discriminate]); (destruct (base_tcall _ _ _ _ _ u) as [y|]; [|discriminate]); cbn [bind] in K; try (injection K as <- <-; reflexivity). }
      apply Y in E. apply Y in E'. exact (base_batch _ (t_k s) (tmap round_even (t_i s)) (tmap round_even (t_f s)) _ _ _ _ _ _ _ _ Q1 Q2 Q3 S0 E E').
    - assert (Y : forall u o, kbi_infer (q_c q) (q_hom q) s u = Some o -> base_tcall (q_c q) false (u_k s) (tmap round_even (u_i s)) (tmap2 Z.sub (tmap round_even (u_b s)) (tmap round_even (u_i s))) u = Some o).
      { clear - Nw. intros u o E. unfold kbi_infer in E. destruct (kbi_tcall (q_c q) (q_hom q) Infer s u) as [[s' o']|] eqn:K; [|discriminate]. cbn [bind] in E. apply some_inj in E. subst o'. unfold kbi_tcall in K. cbv zeta in K. cbn [is_train] in K. rewrite Nw in K. cbn [andb] in K. destruct (is_wrap (c_om (q_c q)) && c_trainable (q_c q))%bool; try (destruct (broadcast_to _ (shape u)); [cbn [bind] in K|discriminate]); (destruct (base_tcall _ _ _ _ _ u) as [y|]; [|discriminate]); cbn [bind] in K; try (injection K as <- <-; reflexivity). }
      apply Y in E. apply Y in E'. exact (base_batch _ (u_k s) (tmap round_even (u_i s)) (tmap2 Z.sub (tmap round_even (u_b s)) (tmap round_even (u_i s))) _ _ _ _ _ _ _ _ Q1 Q3 Q2 S0 E E'). }
  assert (St : same_sample n b n' b' (match w_scaler (q_w q) with Some s => tmap (fun y => y * s) o | None => o end) (match w_scaler (q_w q) with Some s => tmap (fun y => y * s) o' | None => o' end)).
  { destruct (w_scaler (q_w q)) as [s|]; [|exact So]. apply ss_tmap; [|exact So]. intros p r Ep. rewrite Ep. reflexivity. }
  destruct (w_affine (q_w q)) as [[a c]|]; [|exact St]. apply ss_tmap; [|exact St]. intros p r Ep. rewrite Ep. reflexivity.
Qed.
Lemma plus_zero (y : tensor Q) : exists y0, np_binary Qplus y (mk_tensor [] (fun _ => 0)) = Some y0 /\ same_tensor y y0.
Proof.
  unfold np_binary. cbn [shape length]. rewrite Nat.max_0_r, lpad_id. unfold lpad at 1. cbn [length]. rewrite Nat.sub_0_r, app_nil_r.
  assert (J : forall s, join_shape s (repeat 1%nat (length s)) = Some s).
  { induction s as [|d s IH]; [reflexivity|]. cbn [length repeat join_shape]. rewrite IH. unfold join_dim. cbn [Nat.eqb orb]. destruct (Nat.eqb_spec d 1) as [->|_]; reflexivity. }
  rewrite J. cbn [bind]. eexists. split; [reflexivity|]. split; [reflexivity|]. intros i Hi. cbn [at_]. rewrite (bcast_at_valid (shape y) y i eq_refl Hi). unfold bcast_at. cbn [shape at_]. ring.
Qed.
Lemma add_none (y : tensor Q) : exists y0, add_bias y (Some (mk_tensor [] (fun _ => 0))) = Some y0 /\ same_tensor y y0.
Proof. exact (plus_zero y). Qed.
Lemma sample_same_l n b n' b' y y2 y' : (b < n)%nat -> same_tensor y y2 -> same_sample n b n' b' y2 y' -> same_sample n b n' b' y y'.
Proof.
  intros Hb (Se & Sv) ((d & sh & E) & B & S1 & S2). split; [exists d, sh; congruence|]. split; [exact B|]. split; [cbn [sample shape] in *; congruence|].
  intros i Hi. cbn [sample shape at_] in *. rewrite (Sv (b :: i)); [apply S2; congruence|]. rewrite Se, E. constructor; [exact Hb|]. rewrite Se, E in Hi. exact Hi.
Qed.
Lemma same_rel n b n' b' x x' : same_samples n b n' b' x x' -> exists v, rel_inp (holds n b) x v /\ rel_inp (holds n' b') x' v.
Proof.
  assert (G : forall x x', same_sample n b n' b' x x' -> holds n b x (sample b x) /\ holds n' b' x' (sample b x)).
  { intros u u' (B1 & B2 & S). split; (split; [assumption|]); [apply st_refl|apply st_sym, S]. }
  destruct x as [x|xs], x' as [x'|xs']; cbn [same_samples]; try contradiction.
  - intros S. exists (One (sample b x)). destruct (G _ _ S). split; constructor; assumption.
  - intros S. exists (Many (map (sample b) xs)). split; constructor; induction S as [|u u' us us' H S IH]; cbn [map]; constructor; try apply G with (x := u) (x' := u'); assumption.
Qed.
Lemma traced_batch c n b n' b' x x' y y' : (b < n)%nat -> (b' < n')%nat -> traceable_core c -> activation_handled c = false -> same_samples n b n' b' x x' -> core_call c x = Some y -> core_call c x' = Some y' -> same_sample n b n' b' y y'.
Proof.
  intros Hb Hb' T A S E E'. destruct (same_rel _ _ _ _ _ _ S) as (v & R & R').
  destruct (core_traced n b c ALinear x v y Hb T (fun _ p q E => E) R E) as (z & Z & (B1 & S1)). destruct (core_traced n' b' c ALinear x' v y' Hb' T (fun _ p q E => E) R' E') as (z' & Z' & (B2 & S2)).
  rewrite A in *. rewrite Z in Z'. apply some_inj in Z'. subst z'. split; [exact B1|]. split; [exact B2|]. exact (st_trans _ _ _ S1 (st_sym _ _ S2)).
Qed.
Lemma bias_batch bias n b n' b' y y' z z' : (b < n)%nat -> (b' < n')%nat -> small_bias bias 1 -> same_sample n b n' b' y y' -> add_bias y bias = Some z -> add_bias y' bias = Some z' -> same_sample n b n' b' z z'.
Proof.
  intros Hb Hb' L S. destruct bias as [w|]; cbn [add_bias]; [|intros H H'; apply some_inj in H; apply some_inj in H'; subst; exact S]. specialize (L w eq_refl). intros E E'. destruct S as (B1 & B2 & S).
  destruct (const_traced Qplus n b y (sample b y) w z Qplus_ext Hb (conj B1 (st_refl _))) with (2 := E) as (v & V & (C1 & S1)). { destruct B1 as (d & s & ->). cbn [length]. lia. }
  destruct (const_traced Qplus n' b' y' (sample b y) w z' Qplus_ext Hb' (conj B2 (st_sym _ _ S))) with (2 := E') as (v' & V' & (C2 & S2)). { destruct B2 as (d & s & ->). cbn [length]. lia. }
  rewrite V in V'. apply some_inj in V'. subst v'. split; [exact C1|]. split; [exact C2|]. exact (st_trans _ _ _ S1 (st_sym _ _ S2)).
Qed.
Lemma core_graft c n b n' b' x x' y y' : (b < n)%nat -> (b' < n')%nat ->
  (forall y2, core_call c (One (graft b b' x x')) = Some y2 -> same_sample n b n' b' y y2) ->
  same_sample n b n' b' x x' -> core_call c (One x') = Some y' -> same_sample n b n' b' y y'.
Proof.
  intros Hb Hb' G S E'. destruct (core_same c c (One x') (One (graft b b' x x')) y' (core_sim_refl c) (graft_same _ _ _ _ _ _ S) E') as (y2 & E2 & S2). exact (sample_same_r _ _ _ _ _ _ _ Hb' S2 (G _ E2)).
Qed.
Lemma conv_batch pad cs g ci co k n b n' b' x x' y y' : (b < n)%nat -> (b' < n')%nat -> same_sample n b n' b' x x' -> keras_conv pad cs g ci co k x = Some y -> keras_conv pad cs g ci co k x' = Some y' -> same_sample n b n' b' y y'.
Proof.
  intros Hb Hb' S E E'. apply (core_graft (CConv pad cs g ci co k None) n b n' b' x x' y y' Hb Hb'); [|exact S|cbn [core_call]; rewrite E'; reflexivity].
  intros y2 E2. cbn [core_call] in E2. destruct (keras_conv pad cs g ci co k (graft b b' x x')) as [y3|] eqn:E3; [|discriminate]. cbn [bind add_bias] in E2. apply some_inj in E2. subst y3. clear E'.
  destruct S as ((d & s & Ex) & (d' & s' & Ex') & Se & _). cbn [sample shape] in Se. rewrite Ex, Ex' in Se. cbn [tl] in Se. injection Se as <- <-. unfold keras_conv in E, E3. cbn [graft shape at_] in E3. rewrite Ex in E. rewrite Ex' in E3. destruct (conv_fits _ _ _ _ _ _); [|discriminate].
  apply some_inj in E. apply some_inj in E3. subst y y2. assert (Ne : exists d' s', conv_out_shape pad cs ++ [(g * co)%nat] = d' :: s') by (destruct (conv_out_shape pad cs); cbn [app]; eauto). destruct Ne as (d' & s' & Ne).
  split; [exists d', s'; cbn [shape]; rewrite Ne; reflexivity|]. split; [exists d', s'; cbn [shape]; rewrite Ne; reflexivity|]. split; [reflexivity|]. intros r Hr. cbn [sample at_ hd tl]. rewrite (Nat.eqb_refl b'). reflexivity.
Qed.
Lemma pool_batch (c : core) (pool : (index -> Q) -> index -> nat -> Q) pad cs ch n b n' b' x x' y y' : (b < n)%nat -> (b' < n')%nat -> (forall u, core_call c (One u) = keras_pool pool pad cs ch u) ->
  same_sample n b n' b' x x' -> keras_pool pool pad cs ch x = Some y -> keras_pool pool pad cs ch x' = Some y' -> same_sample n b n' b' y y'.
Proof.
  intros Hb Hb' C S E E'. apply (core_graft c n b n' b' x x' y y' Hb Hb'); [|exact S|rewrite C; exact E'].
  intros y2 E3. rewrite C in E3. clear E'.
  destruct S as ((d & s & Ex) & (d' & s' & Ex') & Se & _). cbn [sample shape] in Se. rewrite Ex, Ex' in Se. cbn [tl] in Se. injection Se as <- <-. unfold keras_pool in E, E3. cbn [graft shape at_] in E3. rewrite Ex in E. rewrite Ex' in E3. destruct (nat_list_eqb _ _); [|discriminate].
  apply some_inj in E. apply some_inj in E3. subst y y2. assert (Ne : exists d' s', conv_out_shape pad cs ++ [ch] = d' :: s') by (destruct (conv_out_shape pad cs); cbn [app]; eauto). destruct Ne as (d' & s' & Ne).
  split; [exists d', s'; cbn [shape]; rewrite Ne; reflexivity|]. split; [exists d', s'; cbn [shape]; rewrite Ne; reflexivity|]. split; [reflexivity|]. intros r Hr. cbn [sample at_ hd tl]. rewrite (Nat.eqb_refl b'). reflexivity.
Qed.
Lemma core_batch c n b n' b' x x' y y' : (b < n)%nat -> (b' < n')%nat -> per_sample c -> same_samples n b n' b' x x' -> core_call c x = Some y -> core_call c x' = Some y' -> same_sample n b n' b' y y'.
Proof.
  intros Hb Hb' P S E E'. assert (TB : forall T : traceable_core c, activation_handled c = false -> same_sample n b n' b' y y') by (intros T A; exact (traced_batch c n b n' b' x x' y y' Hb Hb' T A S E E')).
  destruct c as [q|k bias|li lk lo k bias|pad cs g ci co k bias|sh s o|ndim axes kd scale|pad cs ch|pad cs ch|op|sh| | |]; cbn [per_sample] in P; try (apply TB; [exact P|reflexivity]); destruct x as [x|xs], x' as [x'|xs']; cbn [same_samples] in S; try contradiction; try discriminate E.
  - exact (quant_batch q n b n' b' x x' y y' P S E E').
  - destruct bias as [w|]; [apply TB; [exists w; split; [reflexivity|exact (P w eq_refl)]|reflexivity]|]. cbn [core_call] in E, E'.
    destruct (keras_matmul x k) as [z|] eqn:Z; [|discriminate]. destruct (keras_matmul x' k) as [z'|] eqn:Z'; [|discriminate]. cbn [bind add_bias] in E, E'. apply some_inj in E. apply some_inj in E'. subst z z'.
    destruct (add_none y) as (y0 & E0 & S0). destruct (add_none y') as (y0' & E0' & S0'). apply (sample_same_l _ _ _ _ _ _ _ Hb S0). apply (sample_same_r _ _ _ _ _ _ _ Hb' S0').
    apply (traced_batch (CDense k (Some (mk_tensor [] (fun _ => 0)))) n b n' b' (One x) (One x') y0 y0' Hb Hb'); [eexists; split; [reflexivity|cbn [shape length]; lia]|reflexivity|exact S|cbn [core_call]; rewrite Z; exact E0|cbn [core_call]; rewrite Z'; exact E0'].
  - destruct P as (a & li' & lo' & E1 & E2 & Na & Nl & P). destruct bias as [w|]; [apply TB; [exists a, li', lo'; repeat (split; [assumption|]); exists w; split; [reflexivity|exact (P w eq_refl)]|reflexivity]|]. cbn [core_call] in E, E'.
    destruct (np_einsum li lk lo x k) as [z|] eqn:Z; [|discriminate]. destruct (np_einsum li lk lo x' k) as [z'|] eqn:Z'; [|discriminate]. cbn [bind add_bias] in E, E'. apply some_inj in E. apply some_inj in E'. subst z z'.
    destruct (add_none y) as (y0 & E0 & S0). destruct (add_none y') as (y0' & E0' & S0'). apply (sample_same_l _ _ _ _ _ _ _ Hb S0). apply (sample_same_r _ _ _ _ _ _ _ Hb' S0').
    apply (traced_batch (CEinsum li lk lo k (Some (mk_tensor [] (fun _ => 0)))) n b n' b' (One x) (One x') y0 y0' Hb Hb'); [exists a, li', lo'; repeat (split; [assumption|]); eexists; split; [reflexivity|cbn [shape length]; lia]|reflexivity|exact S|cbn [core_call]; rewrite Z; exact E0|cbn [core_call]; rewrite Z'; exact E0'].
  - cbn [core_call] in E, E'. destruct (keras_conv pad cs g ci co k x) as [z|] eqn:Z; [|discriminate]. destruct (keras_conv pad cs g ci co k x') as [z'|] eqn:Z'; [|discriminate]. cbn [bind] in E, E'.
    exact (bias_batch bias n b n' b' z z' y y' Hb Hb' P (conv_batch pad cs g ci co k n b n' b' x x' z z' Hb Hb' S Z Z') E E').
  - exact (pool_batch (CAvgPool pad cs ch) _ pad cs ch n b n' b' x x' y y' Hb Hb' (fun _ => eq_refl) S E E').
  - exact (pool_batch (CMaxPool pad cs ch) _ pad cs ch n b n' b' x x' y y' Hb Hb' (fun _ => eq_refl) S E E').
  - cbn [core_call] in E, E'. apply some_inj in E. apply some_inj in E'. subst. exact S.
Qed.

(** ** layers and networks of layers *)
Lemma ask_all_batch tab n b n' b' : forall ids xs xs' ys ys', (forall id, In id ids -> shared_quant (tab id)) -> Forall2 (same_sample n b n' b') xs xs' ->
  eval tab (ask_all ids xs) = Some ys -> eval tab (ask_all ids xs') = Some ys' -> Forall2 (same_sample n b n' b') ys ys'.
Proof.
  induction ids as [|id ids IH]; intros xs xs' ys ys' Q S E E'; destruct S as [|x x' xs xs' Sx S]; cbn [ask_all eval] in E, E'; try discriminate; [apply some_inj in E; apply some_inj in E'; subst; constructor|].
  rewrite !eval_then in E, E'. unfold ask in E, E'. cbn [eval] in E, E'. destruct (quant_call (tab id) x) as [y|] eqn:Y; [|discriminate]. destruct (quant_call (tab id) x') as [y'|] eqn:Y'; [|discriminate]. cbn [bind] in E, E'. rewrite !eval_then in E, E'.
  destruct (eval tab (ask_all ids xs)) as [zs|] eqn:Z; [|discriminate]. destruct (eval tab (ask_all ids xs')) as [zs'|] eqn:Z'; [|discriminate]. cbn [bind eval] in E, E'. apply some_inj in E. apply some_inj in E'. subst.
  constructor; [exact (quant_batch _ _ _ _ _ _ _ _ _ (Q id (or_introl eq_refl)) Sx Y Y')|]. exact (IH xs xs' zs zs' (fun i Hi => Q i (or_intror Hi)) S Z Z').
Qed.
Lemma ask_iq_batch tab iq n b n' b' x x' y y' : shared_iq tab iq -> same_samples n b n' b' x x' -> eval tab (ask_iq iq x) = Some y -> eval tab (ask_iq iq x') = Some y' -> same_samples n b n' b' y y'.
Proof.
  intros Q S E E'. destruct iq as [|id|ids]; cbn [ask_iq shared_iq] in *; destruct x as [x|xs], x' as [x'|xs']; cbn [same_samples] in S; try contradiction; try discriminate E; try (cbn [eval] in E, E'; apply some_inj in E; apply some_inj in E'; subst; exact S).
  - rewrite !eval_then in E, E'. unfold ask in E, E'. cbn [eval] in E, E'. destruct (quant_call (tab id) x) as [z|] eqn:Y; [|discriminate]. destruct (quant_call (tab id) x') as [z'|] eqn:Y'; [|discriminate]. cbn [bind eval] in E, E'. apply some_inj in E. apply some_inj in E'. subst.
    exact (quant_batch _ _ _ _ _ _ _ _ _ Q S Y Y').
  - rewrite !eval_then in E, E'. destruct (eval tab (ask_all ids xs)) as [zs|] eqn:Z; [|discriminate]. destruct (eval tab (ask_all ids xs')) as [zs'|] eqn:Z'; [|discriminate]. cbn [bind eval] in E, E'. apply some_inj in E. apply some_inj in E'. subst.
    exact (ask_all_batch tab n b n' b' ids xs xs' zs zs' Q S Z Z').
Qed.
Lemma layer_batch tab iq ws t a oq n b n' b' x : (b < n)%nat -> (b' < n')%nat -> on_numbers (act_fn a) -> sample_layer tab iq ws t oq -> samplewise tab n b n' b' (layer_prog (mk_clayer iq ws (net_op t a) oq)) x.
Proof.
  intros Hb Hb' A (Qi & Qo & P) x' y y' S E E'. unfold layer_prog in E, E'. cbn [y_iq y_ws y_op y_oq] in E, E'. rewrite !eval_then in E, E'.
  destruct (eval tab (ask_iq iq x)) as [u|] eqn:U; [|discriminate]. destruct (eval tab (ask_iq iq x')) as [u'|] eqn:U'; [|discriminate]. pose proof (ask_iq_batch _ _ _ _ _ _ _ _ _ _ Qi S U U') as Su. cbn [bind] in E, E'. rewrite !eval_then in E, E'.
  destruct (eval tab (ask_ws ws)) as [qs|] eqn:W; [|discriminate]. cbn [bind] in E, E'. rewrite !eval_then, !eval_lift in E, E'. unfold net_op in E, E'. destruct (core_of t qs) as [c|] eqn:C; [|discriminate]. cbn [bind] in E, E'.
  destruct (core_call c u) as [z|] eqn:Z; [|discriminate]. destruct (core_call c u') as [z'|] eqn:Z'; [|discriminate]. cbn [bind] in E, E'. pose proof (ss_tmap _ _ _ _ _ _ _ A (core_batch c n b n' b' u u' z z' Hb Hb' (P qs c eq_refl C) Su Z Z')) as Sz.
  rewrite eval_ask_opt in E, E'. destruct oq as [id|]; [exact (quant_batch _ _ _ _ _ _ _ _ _ (Qo id eq_refl) Sz E E')|]. apply some_inj in E. apply some_inj in E'. subst. exact Sz.
Qed.
Lemma value_batch (R : tensor Q -> tensor Q -> Prop) env env' i x : Forall2 R env env' -> value env i = Some x -> exists x', value env' i = Some x' /\ R x x'.
Proof.
  unfold value. intros F. revert i. induction F as [|u u' us us' H F IH]; intros [|i] E; cbn [nth_error] in *; try discriminate; [apply some_inj in E; subst; eauto|exact (IH i E)].
Qed.
Lemma values_batch (R : tensor Q -> tensor Q -> Prop) env env' is xs : Forall2 R env env' -> opt_all (map (value env) is) = Some xs -> exists xs', opt_all (map (value env') is) = Some xs' /\ Forall2 R xs xs'.
Proof.
  intros F. revert xs. induction is as [|i is IH]; intros xs E; cbn [map opt_all] in *; [apply some_inj in E; subst; exists []; split; [reflexivity|constructor]|].
  destruct (value env i) as [x|] eqn:V; [|discriminate]. cbn [bind] in E. destruct (opt_all (map (value env) is)) as [r|]; [|discriminate]. cbn [bind] in E. apply some_inj in E. subst xs.
  destruct (value_batch R env env' i x F V) as (x' & -> & Rx). destruct (IH r eq_refl) as (r' & -> & Rr). cbn [bind]. eexists. split; [reflexivity|constructor; assumption].
Qed.
Lemma args_batch n b n' b' env env' a x : Forall2 (same_sample n b n' b') env env' -> args_of env a = Some x -> exists x', args_of env' a = Some x' /\ same_samples n b n' b' x x'.
Proof.
  intros F E. destruct a as [i|is]; cbn [args_of] in *.
  - destruct (value env i) as [u|] eqn:V; [|discriminate]. cbn [bind] in E. apply some_inj in E. subst x. destruct (value_batch _ _ _ _ _ F V) as (u' & -> & Ru). cbn [bind]. eexists. split; [reflexivity|exact Ru].
  - destruct (opt_all (map (value env) is)) as [u|] eqn:V; [|discriminate]. cbn [bind] in E. apply some_inj in E. subst x. destruct (values_batch _ _ _ _ _ F V) as (u' & -> & Ru). cbn [bind]. eexists. split; [reflexivity|exact Ru].
Qed.
Lemma net_batch tab n b n' b' net : forall env env' st st' fin fin' vs vs', sametab (n_tab st) tab -> sametab (n_tab st') tab -> Forall2 (same_sample n b n' b') env env' ->
  prun_nodes Infer net st env = Some (fin, vs) -> prun_nodes Infer net st' env' = Some (fin', vs') ->
  (forall nd x, In nd net -> args_of vs (pn_args nd) = Some x -> samplewise tab n b n' b' (pn_call nd) x) -> Forall2 (same_sample n b n' b') vs vs'.
Proof.
  induction net as [|nd net IH]; intros env env' st st' fin fin' vs vs' T T' F H H' W; cbn [prun_nodes] in H, H'; [injection H as _ <-; injection H' as _ <-; exact F|].
  destruct (args_of env (pn_args nd)) as [x|] eqn:Ea; [|discriminate]. destruct (args_batch _ _ _ _ _ _ _ _ F Ea) as (x' & Ea' & Sx). rewrite Ea' in H'. cbn [bind] in H, H'.
  pose proof (exec_infer tab (pn_call nd x) st T) as X. destruct (eval tab (pn_call nd x)) as [y|] eqn:Ev; [|rewrite X in H; discriminate]. destruct X as (st1 & E1 & T1). rewrite E1 in H. cbn [bind] in H.
  pose proof (exec_infer tab (pn_call nd x') st' T') as X'. destruct (eval tab (pn_call nd x')) as [y'|] eqn:Ev'; [|rewrite X' in H'; discriminate]. destruct X' as (st1' & E1' & T1'). rewrite E1' in H'. cbn [bind] in H'.
  apply (IH (env ++ [y]) (env' ++ [y']) st1 st1' fin fin' vs vs' T1 T1'); [|exact H|exact H'|intros m z Hm; apply W; right; exact Hm]. apply Forall2_app; [exact F|]. constructor; [|constructor].
  apply (W nd x (or_introl eq_refl)) with (x' := x'); [|exact Sx|exact Ev|exact Ev']. destruct (prun_app _ _ _ _ _ _ H) as (ex & ->). rewrite <- app_assoc. exact (proj1 (args_app _ _ _ _ Ea)).
Qed.
