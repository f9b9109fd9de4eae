(** Lemmas for C65: programs. *)
From Verif Require Import Num M_Fixed L_Fixed M_State S_State L_State M_Wrapper M_Mapper S_Mapper L_Mapper M_Contr M_Ebops L_Ebops M_Pow2 M_Patch L_Patch M_Ops L_Ops M_Mirror L_Mirror M_Trace L_Trace M_Net L_Net M_Causal L_Causal M_Calib S_Ops S_Calib L_Calib M_Prog S_Prog.

(** a quantizer's answer has the shape of the question *)
Lemma base_shape c t k i f x y : base_tcall c t k i f x = Some y -> shape y = shape x.
Proof. unfold base_tcall. destruct (broadcast_to k _); cbn [bind]; [|discriminate]. destruct (broadcast_to i _); cbn [bind]; [|discriminate]. destruct (broadcast_to f _); cbn [bind]; [|discriminate]. intros H. apply some_inj in H. subst y. reflexivity. Qed.
Lemma posted_shape q y : shape (posted q y) = shape y.
Proof. unfold posted. cbv zeta. destruct (w_affine (q_w q)) as [[a b]|]; destruct (w_scaler (q_w q)); reflexivity. Qed.
Lemma trace_shape st id x st' y : call_q Trace st id x = Some (st', y) -> shape y = shape x.
Proof.
  unfold call_q. rewrite step_trace. set (q := n_tab st id). unfold inner_call. intros H. rewrite <- (scaled_shape q x). destruct (q_s q) as [s|s].
  - destruct (kif_tcall (q_c q) (q_hom q) Trace s (scaled q x)) as [[s1 o]|] eqn:E; [|discriminate]. cbn [bind] in H. injection H as <- <-. rewrite posted_shape. unfold kif_tcall in E. cbv zeta in E.
    destruct (_ && _); [|destruct (base_tcall _ _ _ _ _ _) as [z|] eqn:B; [|discriminate]; cbn [bind] in E; injection E as <- <-; exact (base_shape _ _ _ _ _ _ _ B)].
    destruct (broadcast_to _ _); cbn [bind] in E; [|discriminate]. destruct (x_to_bw_absmax _ _); cbn [bind] in E; [|discriminate]. injection E as <- <-. reflexivity.
  - destruct (kbi_tcall (q_c q) (q_hom q) Trace s (scaled q x)) as [[s1 o]|] eqn:E; [|discriminate]. cbn [bind] in H. injection H as <- <-. rewrite posted_shape. unfold kbi_tcall in E. cbv zeta in E.
    destruct (_ && _); [|destruct (base_tcall _ _ _ _ _ _) as [z|] eqn:B; [|discriminate]; cbn [bind] in E; injection E as <- <-; exact (base_shape _ _ _ _ _ _ _ B)].
    destruct (x_to_bw_absmax _ _); cbn [bind] in E; [|discriminate]. destruct (broadcast_to _ _); cbn [bind] in E; [|discriminate]. injection E as <- <-. reflexivity.
Qed.
Section Replay.
  Context (tab : nat -> quant).
  Lemma prog_replay {A} (R : A -> A -> Prop) (p : prog A) : forall st st' a, exec Trace p st = Some (st', a) ->
    exists ev, explains st st' ev /\ (Forall (replays tab) ev -> forall it p', same_prog R p p' -> sametab (n_tab it) tab ->
      exists it' a', exec Infer p' it = Some (it', a') /\ ends tab ev it it' /\ R a a').
  Proof.
    induction p as [a0| |id x k IH]; intros st st' a H; cbn [exec] in H.
    - injection H as <- <-. exists []. split; [apply explains_refl|]. intros _ it p' S T. inversion S; subst. exists it, a'. split; [reflexivity|]. split; [exact (ends_refl _ _ T)|assumption].
    - discriminate.
    - destruct (call_q Trace st id x) as [[st1 y]|] eqn:E; [|discriminate]. cbn [bind] in H. destruct (IH y _ _ _ H) as (ev & Ex & P). exists ([mk_event id x y] ++ ev).
      split; [exact (explains_trans _ _ _ _ _ (call_q_explains _ _ _ _ _ E) Ex)|]. intros G it p' S T. apply Forall_app in G as (G1 & G2). inversion G1; subst. inversion S as [| |? ? x' ? k' Sx Sk]; subst.
      destruct (infer_call_q tab it id x x' y T Sx) as (it1 & y' & E1 & T1 & S1); [assumption|]. destruct (P G2 it1 (k' y') (Sk _ _ S1 (trace_shape _ _ _ _ _ E)) (proj1 T1)) as (it2 & a' & E2 & T2 & S2).
      exists it2, a'. cbn [exec]. rewrite E1. cbn [bind]. split; [exact E2|]. split; [exact (ends_trans _ _ _ _ _ _ T1 T2)|exact S2].
  Qed.
  Lemma pnodes_replay net : Forall (fun n => values_only (pn_call n)) net -> forall env st st' vs, prun_nodes Trace net st env = Some (st', vs) ->
    exists ev, explains st st' ev /\ (Forall (replays tab) ev -> forall it env', sametab (n_tab it) tab -> Forall2 same_tensor env env' ->
      exists it' vs', prun_nodes Infer net it env' = Some (it', vs') /\ ends tab ev it it' /\ Forall2 same_tensor vs vs').
  Proof.
    induction 1 as [|n net V Vs IH]; intros env st st' vs H; cbn [prun_nodes] in H.
    - injection H as <- <-. exists []. split; [apply explains_refl|]. intros _ it env' T F. exists it, env'. split; [reflexivity|]. split; [exact (ends_refl _ _ T)|assumption].
    - destruct (args_of env (pn_args n)) as [x|] eqn:Ea; [|discriminate]. cbn [bind] in H. destruct (exec Trace (pn_call n x) st) as [[st1 y]|] eqn:El; [|discriminate]. cbn [bind] in H.
      destruct (prog_replay same_tensor _ _ _ _ El) as (ev1 & X1 & P1). destruct (IH _ _ _ _ H) as (ev2 & X2 & P2). exists (ev1 ++ ev2). split; [exact (explains_trans _ _ _ _ _ X1 X2)|].
      intros G it env' T F. apply Forall_app in G as (G1 & G2). destruct (args_same _ _ _ _ F Ea) as (x' & Ea' & Sx). destruct (P1 G1 it (pn_call n x') (V _ _ Sx) T) as (it1 & y' & El' & T1 & Sy).
      destruct (P2 G2 it1 (env' ++ [y']) (proj1 T1)) as (it2 & vs' & En & T2 & Sv); [apply Forall2_app; [exact F|constructor; [exact Sy|constructor]]|].
      exists it2, vs'. cbn [prun_nodes]. rewrite Ea'. cbn [bind]. rewrite El'. cbn [bind]. split; [exact En|]. split; [exact (ends_trans _ _ _ _ _ _ T1 T2)|assumption].
  Qed.
  Lemma pbatches_replay net : Forall (fun n => values_only (pn_call n)) net -> forall bs st st' rec, ptrace_batches net st bs = Some (st', rec) ->
    exists ev, explains st st' ev /\ (Forall (replays tab) ev -> Forall2 (fun b vs => exists evb, incl evb ev /\ forall it b', sametab (n_tab it) tab -> Forall2 same_tensor b b' ->
      exists it' vs', pforward Infer net it b' = Some (it', vs') /\ ends tab evb it it' /\ Forall2 same_tensor vs vs') bs rec).
  Proof.
    intros V. induction bs as [|b bs IH]; intros st st' rec H; cbn [ptrace_batches] in H.
    - injection H as <- <-. exists []. split; [apply explains_refl|]. intros _. constructor.
    - destruct (pforward Trace net st b) as [[st1 vs]|] eqn:E; [|discriminate]. cbn [bind] in H. destruct (ptrace_batches net st1 bs) as [[st2 rest]|] eqn:R; [|discriminate]. cbn [bind] in H. injection H as <- <-.
      destruct (pnodes_replay net V _ _ _ _ E) as (ev1 & X1 & P1). destruct (IH _ _ _ R) as (ev2 & X2 & P2). exists (ev1 ++ ev2). split; [exact (explains_trans _ _ _ _ _ X1 X2)|].
      intros G. apply Forall_app in G as (G1 & G2). constructor.
      + exists ev1. split; [apply incl_appl, incl_refl|exact (P1 G1)].
      + eapply Forall2_impl'; [|exact (P2 G2)]. cbn beta. intros b0 vs0 (evb & I & X). exists evb. split; [apply incl_appr, I|exact X].
  Qed.
End Replay.

Lemma pcalibrated net reset tab bs st rec : Forall (fun n => values_only (pn_call n)) net -> ptrace_minmax net reset tab bs = Some (st, rec) ->
  (forall id, calibratable (tab id) (inputs_of id (n_log st))) ->
  Forall2 (fun b vs => exists evb, incl evb (n_log st) /\ forall log b', Forall2 same_tensor b b' -> exists st' vs', pforward Infer net (mk_nstate (n_tab st) log) b' = Some (st', vs') /\
    ends (n_tab st) evb (mk_nstate (n_tab st) log) st' /\ Forall2 same_tensor vs vs') bs rec.
Proof.
  intros V H C. unfold ptrace_minmax in H. destruct (pbatches_replay (n_tab st) net V _ _ _ _ H) as (ev & (Lg & Ex) & P). cbn [n_log app] in Lg. subst ev.
  assert (G : Forall (replays (n_tab st)) (n_log st)).
  { apply good_events. intros id. apply (run_good reset (tab id)); [apply C|]. specialize (Ex id). cbn [n_tab] in Ex. destruct reset; exact Ex. }
  eapply Forall2_impl'; [|exact (P G)]. cbn beta. intros b vs (evb & I & X). exists evb. split; [exact I|]. intros log b' S.
  destruct (X (mk_nstate (n_tab st) log) b') as (it & vs' & A & B & D); [intros i; reflexivity|exact S|]. exists it, vs'. split; [exact A|]. split; [exact B|exact D].
Qed.
Lemma pnetwork_calibrated net reset tab bs st rec : Forall (fun n => values_only (pn_call n)) net -> ptrace_minmax net reset tab bs = Some (st, rec) ->
  (forall id, calibratable (tab id) (inputs_of id (n_log st))) ->
  Forall2 (fun b vs => exists st' vs', pforward Infer net (mk_nstate (n_tab st) []) b = Some (st', vs') /\ (forall id, n_tab st' id = n_tab st id) /\ Forall2 same_tensor vs vs') bs rec.
Proof.
  intros V H C. eapply Forall2_impl'; [|exact (pcalibrated _ _ _ _ _ _ V H C)]. cbn beta. intros b vs (evb & _ & X). destruct (X [] b (Forall2_diag _ _ st_refl)) as (st' & vs' & A & (B & _) & D).
  exists st', vs'. split; [exact A|]. split; [exact B|exact D].
Qed.
Lemma pno_overflow net reset tab bs st rec : Forall (fun n => values_only (pn_call n)) net -> ptrace_minmax net reset tab bs = Some (st, rec) ->
  (forall id, calibratable (tab id) (inputs_of id (n_log st))) ->
  forall b st' vs, In b bs -> pforward Infer net (mk_nstate (n_tab st) []) b = Some (st', vs) ->
  forall e s, In e (n_log st') -> kif_wrap (tab (e_q e)) s -> only_rounded (tab (e_q e)) s (e_in e) (e_out e).
Proof.
  intros V H C b st' vs Hb Hf e s He K. pose proof (pcalibrated _ _ _ _ _ _ V H C) as F.
  assert (X : exists evb, incl evb (n_log st) /\ forall log b', Forall2 same_tensor b b' -> exists st' vs', pforward Infer net (mk_nstate (n_tab st) log) b' = Some (st', vs') /\ ends (n_tab st) evb (mk_nstate (n_tab st) log) st').
  { clear -F Hb. induction F as [|b0 v0 bs rec X F IH]; [destruct Hb|]. destruct Hb as [->|Hb]; [|exact (IH Hb)]. destruct X as (evb & I & X). exists evb. split; [exact I|]. intros log b' S. destruct (X log b' S) as (st' & vs' & A & B & _). exists st', vs'. auto. }
  destruct X as (evb & I & X). destruct (X [] b (Forall2_diag _ _ st_refl)) as (st1 & vs1 & E1 & (_ & ev' & Lg & Fe)). rewrite Hf in E1. injection E1 as <- <-. cbn [n_log app] in Lg. rewrite Lg in He.
  assert (Y : exists e0, In e0 evb /\ same_event e0 e).
  { clear -Fe He. induction Fe as [|a a' l l' S F IH]; [destruct He|]. destruct He as [->|He]; [exists a; split; [left; reflexivity|exact S]|]. destruct (IH He) as (e0 & A & B). exists e0. split; [right; exact A|exact B]. }
  destruct Y as (e0 & He0 & (Eq & Sin & Sout)). rewrite Eq in *. apply (rounded_same _ _ (e_in e0) _ (e_out e0)); [exact Sin|exact Sout|].
  unfold ptrace_minmax in H. destruct (pbatches_replay (n_tab st) net V _ _ _ _ H) as (ev & (Lg' & Ex) & _). cbn [n_log app] in Lg'. subst ev.
  apply (events_rel (e_q e0) _ (n_log st)); [|exact (I e0 He0)|reflexivity]. apply (run_rounds reset (tab (e_q e0)) s _ (n_tab st (e_q e0))); [exact K|]. specialize (Ex (e_q e0)). cbn [n_tab] in Ex. destruct reset; exact Ex.
Qed.

(** *** the layers of M_Calib as programs *)
Lemma exec_then {A B} m (p : prog A) (f : A -> prog B) : forall st, exec m (then_ p f) st = do (st1, a) <- exec m p st; exec m (f a) st1.
Proof. induction p as [a| |id x k IH]; intros st; cbn [then_ exec]; [reflexivity|reflexivity|]. destruct (call_q m st id x) as [[st1 y]|]; cbn [bind]; [apply IH|reflexivity]. Qed.
Lemma exec_ask m id x st : exec m (ask id x) st = call_q m st id x.
Proof. unfold ask. cbn [exec]. destruct (call_q m st id x) as [[st1 y]|]; reflexivity. Qed.
Lemma exec_lift {A} m (o : option A) st : exec m (lift o) st = do a <- o; Some (st, a).
Proof. destruct o; reflexivity. Qed.
Lemma exec_all m ids : forall xs st, exec m (ask_all ids xs) st = call_qs m st ids xs.
Proof.
  induction ids as [|id ids IH]; intros [|x xs] st; try reflexivity. cbn [ask_all call_qs]. rewrite exec_then, exec_ask. destruct (call_q m st id x) as [[st1 y]|]; [|reflexivity]. cbn [bind]. rewrite exec_then, IH.
  destruct (call_qs m st1 ids xs) as [[st2 ys]|]; reflexivity.
Qed.
Lemma exec_iq m iq x st : exec m (ask_iq iq x) st = call_iq m st iq x.
Proof.
  destruct iq as [|id|ids], x as [x|xs]; try reflexivity. cbn [ask_iq call_iq]. rewrite exec_then, exec_all. destruct (call_qs m st ids xs) as [[st1 y]|]; reflexivity.
Qed.
Lemma exec_ws m ws : forall st, exec m (ask_ws ws) st = call_ws m st ws.
Proof.
  induction ws as [|[[id|] w] ws IH]; intros st; [reflexivity| |]; cbn [ask_ws ask_opt call_ws].
  - rewrite exec_then, exec_ask. destruct (call_q m st id w) as [[st1 y]|]; [|reflexivity]. cbn [bind]. rewrite exec_then, IH. destruct (call_ws m st1 ws) as [[st2 ys]|]; reflexivity.
  - cbn [then_]. rewrite exec_then, IH. destruct (call_ws m st ws) as [[st2 ys]|]; reflexivity.
Qed.
Lemma exec_layer m l x st : exec m (layer_prog l x) st = layer_call m l st x.
Proof.
  unfold layer_prog, layer_call. rewrite exec_then, exec_iq. destruct (call_iq m st (y_iq l) x) as [[st1 x']|]; [|reflexivity]. cbn [bind]. rewrite exec_then, exec_ws. destruct (call_ws m st1 (y_ws l)) as [[st2 ws]|]; [|reflexivity]. cbn [bind].
  rewrite exec_then, exec_lift. destruct (y_op l ws x') as [y|]; [|reflexivity]. cbn [bind]. destruct (y_oq l) as [id|]; cbn [ask_opt]; [apply exec_ask|reflexivity].
Qed.

(** *** programs that depend on values only *)
Lemma sp_then {A B} (R : A -> A -> Prop) (S : B -> B -> Prop) p p' f f' : same_prog R p p' -> (forall a a', R a a' -> same_prog S (f a) (f' a')) -> same_prog S (then_ p f) (then_ p' f').
Proof. intros H F. induction H as [a a' Ra|q|id x x' k k' Sx Sk IH]; cbn [then_]; [exact (F _ _ Ra)|constructor|]. constructor; [exact Sx|]. intros y y' Sy Sh. exact (IH y y' Sy Sh). Qed.
(** equal values, of the shape of [x] *)
Definition like (x y y' : tensor Q) : Prop := same_tensor y y' /\ shape y = shape x.
Lemma sp_ask id x x' : same_tensor x x' -> same_prog (like x) (ask id x) (ask id x').
Proof. intros S. constructor; [exact S|]. intros y y' Sy Sh. constructor. split; assumption. Qed.
Lemma sp_ask_opt id x x' : same_tensor x x' -> same_prog (like x) (ask_opt id x) (ask_opt id x').
Proof. intros S. destruct id as [id|]; cbn [ask_opt]; [exact (sp_ask id x x' S)|constructor; split; [exact S|reflexivity]]. Qed.
Lemma sp_weaken {A} (R R' : A -> A -> Prop) p p' : (forall a a', R a a' -> R' a a') -> same_prog R p p' -> same_prog R' p p'.
Proof. intros H. induction 1; constructor; auto. Qed.
Lemma sp_last id x x' : same_tensor x x' -> same_prog same_tensor (ask_opt id x) (ask_opt id x').
Proof. intros S. apply (sp_weaken (like x)); [intros a a' (H & _); exact H|exact (sp_ask_opt id x x' S)]. Qed.
Lemma sp_lift {A} (R : A -> A -> Prop) o o' : (forall a, o = Some a -> exists a', o' = Some a' /\ R a a') -> same_prog R (lift o) (lift o').
Proof. intros H. destruct o as [a|]; cbn [lift]; [|constructor]. destruct (H a eq_refl) as (a' & -> & Ra). constructor. exact Ra. Qed.
Lemma sp_all ids : forall xs xs', Forall2 same_tensor xs xs' -> same_prog (Forall2 same_tensor) (ask_all ids xs) (ask_all ids xs').
Proof.
  induction ids as [|id ids IH]; intros xs xs' F; destruct F as [|x x' xs xs' S F]; cbn [ask_all]; [apply same_ret; constructor|apply same_raise|apply same_raise|]. apply (sp_then (like x)); [apply sp_ask, S|].
  intros y y' (Sy & _). apply (sp_then (Forall2 same_tensor)); [exact (IH _ _ F)|]. intros ys ys' Fy. constructor. constructor; assumption.
Qed.
Lemma sp_iq iq x x' : same_inputs x x' -> same_prog same_inputs (ask_iq iq x) (ask_iq iq x').
Proof.
  intros S. destruct iq as [|id|ids], x as [x|xs], x' as [x'|xs']; cbn [same_inputs] in S; try contradiction; cbn [ask_iq]; try apply same_raise; try (apply same_ret; exact S).
  - apply (sp_then (like x)); [apply sp_ask, S|]. intros y y' (Sy & _). apply same_ret. exact Sy.
  - apply (sp_then (Forall2 same_tensor)); [exact (sp_all ids _ _ S)|]. intros ys ys' F. constructor. exact F.
Qed.
Lemma sp_ws ws : same_prog (Forall2 same_tensor) (ask_ws ws) (ask_ws ws).
Proof.
  induction ws as [|[id w] ws IH]; cbn [ask_ws]; [constructor; constructor|]. apply (sp_then (like w)); [apply sp_ask_opt, st_refl|]. intros y y' (Sy & _). apply (sp_then (Forall2 same_tensor)); [exact IH|].
  intros ys ys' F. constructor. constructor; assumption.
Qed.
Lemma layer_values_only l : by_value (y_op l) -> values_only (layer_prog l).
Proof.
  intros V x x' S. unfold layer_prog. apply (sp_then same_inputs); [exact (sp_iq _ _ _ S)|]. intros y y' Sy. apply (sp_then (Forall2 same_tensor)); [apply sp_ws|]. intros ws ws' F.
  apply (sp_then same_tensor); [apply sp_lift; intros z Ez; exact (V _ _ _ _ _ F Sy Ez)|]. intros z z' Sz. apply sp_last, Sz.
Qed.
