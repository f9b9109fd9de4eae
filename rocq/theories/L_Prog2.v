(** Lemmas for C65: the layers depend on values only. *)
From Coq Require Import String.
From Verif Require Import Num M_Fixed L_Fixed M_State S_State L_State M_Wrapper M_Mapper S_Mapper L_Mapper M_Contr M_Ebops L_Ebops M_Pow2 M_Patch L_Patch M_Ops L_Ops M_Mirror L_Mirror M_Trace L_Trace M_Table S_Table L_Table M_Softmax M_Attn M_Net S_Net L_Net L_Net2 L_Net3 L_Net4 L_Net5 M_NetX L_NetX3 L_NetX5 M_Causal L_Causal M_Calib S_Ops S_Calib L_Calib L_Calib2 M_Prog S_Prog L_Prog.
Local Open Scope list_scope.

Lemma Qminus_ext a b c d : a == b -> c == d -> a - c == b - d. Proof. intros -> ->. reflexivity. Qed.
Lemma plus_same x x' y y' z : same_tensor x x' -> same_tensor y y' -> np_binary Qplus x y = Some z -> exists z', np_binary Qplus x' y' = Some z' /\ same_tensor z z'.
Proof. exact (binary_same Qplus x y x' y' z Qplus_ext). Qed.
Lemma mult_same x x' y y' z : same_tensor x x' -> same_tensor y y' -> np_binary Qmult x y = Some z -> exists z', np_binary Qmult x' y' = Some z' /\ same_tensor z z'.
Proof. exact (binary_same Qmult x y x' y' z Qmult_ext). Qed.
Lemma minus_same x x' y y' z : same_tensor x x' -> same_tensor y y' -> np_binary Qminus x y = Some z -> exists z', np_binary Qminus x' y' = Some z' /\ same_tensor z z'.
Proof. exact (binary_same Qminus x y x' y' z Qminus_ext). Qed.
Lemma like_same x y y' : like x y y' -> same_tensor y y'.
Proof. intros (H & _). exact H. Qed.
Lemma one_minus_same x x' : same_tensor x x' -> same_tensor (tmap (fun v => 1 - v) x) (tmap (fun v => 1 - v) x').
Proof. intros S. apply st_tmap; [intros a b ->; reflexivity|exact S]. Qed.
Definition osame (o o' : option (tensor Q)) : Prop := match o, o' with Some u, Some v => same_tensor u v | None, None => True | _, _ => False end.

(** *** the time loop *)
Lemma step_same x x' n f t T : same_tensor x x' -> shape x = [n; T; f] -> (t < T)%nat -> same_tensor (step_at x n f t) (step_at x' n f t).
Proof.
  intros (S & A) E Ht. split; [reflexivity|]. cbn [step_at shape at_]. intros i Vi. inversion Vi as [|b ? i1 ? Hb V1]; subst. inversion V1 as [|j ? i2 ? Hj V2]; subst. inversion V2; subst. apply A. rewrite E. repeat constructor; assumption.
Qed.
Lemma steps_same x x' n f T : same_tensor x x' -> shape x = [n; T; f] -> Forall2 same_tensor (map (step_at x n f) (seq 0 T)) (map (step_at x' n f) (seq 0 T)).
Proof.
  intros S E. assert (G : forall l, (forall t, In t l -> (t < T)%nat) -> Forall2 same_tensor (map (step_at x n f) l) (map (step_at x' n f) l)).
  { induction l as [|t l IH]; intros H; cbn [map]; constructor; [exact (step_same _ _ _ _ _ _ S E (H t (or_introl eq_refl)))|]. apply IH. intros u Hu. apply H. right. exact Hu. }
  apply G. intros t Ht. apply in_seq in Ht. lia.
Qed.
Lemma Forall2_rev' {A} (R : A -> A -> Prop) l l' : Forall2 R l l' -> Forall2 R (rev l) (rev l').
Proof. induction 1; cbn [rev]; [constructor|]. apply Forall2_app; [assumption|]. constructor; [assumption|constructor]. Qed.
Lemma loop_same (R : tensor Q -> tensor Q -> Prop) (Rs : tensor Q -> tensor Q -> Prop) step step' : (forall x x' s s', same_tensor x x' -> Rs s s' -> same_prog (fun r r' => R (fst r) (fst r') /\ Rs (snd r) (snd r')) (step x s) (step' x' s')) ->
  forall xs xs', Forall2 same_tensor xs xs' -> forall s s', Rs s s' -> same_prog (Forall2 R) (time_loop step xs s) (time_loop step' xs' s').
Proof.
  intros H xs xs' F. induction F as [|x x' xs xs' Sx F IH]; intros s s' Ss; cbn [time_loop]; [constructor; constructor|].
  apply (sp_then (fun r r' => R (fst r) (fst r') /\ Rs (snd r) (snd r'))); [exact (H _ _ _ _ Sx Ss)|]. intros r r' (R1 & R2). apply (sp_then (Forall2 R)); [exact (IH _ _ R2)|]. intros ys ys' Fy. constructor. constructor; assumption.
Qed.
Lemma Forall2_nth_same ys ys' : Forall2 same_tensor ys ys' -> forall t, (t < List.length ys)%nat -> same_tensor (nth t ys (zeros [])) (nth t ys' (zeros [])).
Proof. induction 1 as [|y y' ys ys' S F IH]; intros t Ht; cbn [List.length] in Ht; [lia|]. destruct t as [|t]; cbn [nth]; [exact S|apply IH; lia]. Qed.
Lemma Forall2_nth_error ys ys' y t : Forall2 same_tensor ys ys' -> nth_error ys t = Some y -> exists y', nth_error ys' t = Some y' /\ same_tensor y y'.
Proof. intros F. revert t. induction F as [|a a' l l' S F IH]; intros [|t] H; cbn [nth_error] in *; try discriminate; [apply some_inj in H; subst a; exists a'; split; [reflexivity|exact S]|apply IH, H]. Qed.
Lemma stack_same n u ys ys' z : Forall2 same_tensor ys ys' -> stack_steps n u ys = Some z -> exists z', stack_steps n u ys' = Some z' /\ same_tensor z z'.
Proof.
  intros F. unfold stack_steps. assert (E : forallb (fun y => nat_list_eqb (shape y) [n; u]) ys' = forallb (fun y => nat_list_eqb (shape y) [n; u]) ys).
  { induction F as [|y y' ys ys' (S & _) F IH]; cbn [forallb]; [reflexivity|]. rewrite S, IH. reflexivity. }
  rewrite E. destruct (forallb _ ys) eqn:V; [|discriminate]. intros H. apply some_inj in H. subst z. eexists. split; [reflexivity|].
  split; [cbn [shape]; rewrite (Forall2_len _ _ _ F); reflexivity|]. cbn [shape at_]. intros i Vi. inversion Vi as [|b ? i1 ? Hb V1]; subst. inversion V1 as [|t ? i2 ? Ht V2]; subst. inversion V2 as [|j ? i3 ? Hj V3]; subst. inversion V3; subst.
  destruct (Forall2_nth_same _ _ F t Ht) as (_ & A). apply A. rewrite forallb_forall in V. specialize (V (nth t ys (zeros [])) (nth_In _ _ Ht)). apply nat_list_eqb_eq in V. rewrite V. repeat constructor; assumption.
Qed.
Definition rpair (r r' : tensor Q * tensor Q) : Prop := same_tensor (fst r) (fst r') /\ same_tensor (snd r) (snd r').
Lemma rnn_values_only u backwards sequences step step' : (forall x x' s s', same_tensor x x' -> same_tensor s s' -> same_prog rpair (step x s) (step' x' s')) ->
  forall x x', same_inputs x x' -> same_prog same_tensor (rnn_prog u backwards sequences step x) (rnn_prog u backwards sequences step' x').
Proof.
  intros H x x' S. destruct x as [x|xs], x' as [x'|xs']; cbn [same_inputs] in S; try contradiction; cbn [rnn_prog]; [|constructor]. pose proof S as (E & _). rewrite <- E.
  destruct (shape x) as [|n [|T [|f [|? ?]]]] eqn:Ex; try constructor. cbv zeta. apply (sp_then (Forall2 same_tensor)).
  - apply (loop_same same_tensor same_tensor step step' H); [|apply st_refl]. pose proof (steps_same x x' n f T S Ex) as F. destruct backwards; [apply Forall2_rev', F|exact F].
  - intros ys ys' F. apply sp_lift. intros y Ey. destruct (stack_steps n u ys) as [z|] eqn:Ez; [|discriminate]. cbn [bind] in Ey. destruct (stack_same _ _ _ _ _ F Ez) as (z' & -> & Sz). cbn [bind].
    destruct sequences; [apply some_inj in Ey; subst z; exists z'; split; [reflexivity|exact Sz]|]. rewrite <- (Forall2_len _ _ _ F). exact (Forall2_nth_error _ _ _ _ F Ey).
Qed.

(** *** QSimpleRNN *)
Lemma srnn_step_same l k k' rk rk' b b' x x' s s' : on_numbers (sr_act l) -> same_tensor k k' -> same_tensor rk rk' -> osame b b' -> same_tensor x x' -> same_tensor s s' ->
  same_prog rpair (srnn_step l k rk b x s) (srnn_step l k' rk' b' x' s').
Proof.
  intros Ha Sk Srk Sb Sx Ss. unfold srnn_step. eapply sp_then; [apply sp_ask_opt, Ss|]. intros qs qs' (Sq & _). eapply sp_then; [apply sp_ask, Sx|]. intros qx qx' (Sqx & _).
  apply (sp_then same_tensor).
  - apply sp_lift. intros o H. destruct (keras_matmul qx k) as [h|] eqn:E1; [|discriminate]. cbn [bind] in H. destruct (add_bias h b) as [h2|] eqn:E2; [|discriminate]. cbn [bind] in H. destruct (keras_matmul qs rk) as [r|] eqn:E3; [|discriminate]. cbn [bind] in H.
    destruct (matmul_same _ _ _ _ _ Sqx Sk E1) as (h' & -> & S1). cbn [bind]. destruct (bias_same _ _ _ _ _ S1 Sb E2) as (h2' & -> & S2). cbn [bind]. destruct (matmul_same _ _ _ _ _ Sq Srk E3) as (r' & -> & S3). cbn [bind]. exact (plus_same _ _ _ _ _ S2 S3 H).
  - intros o o' So. eapply sp_then; [apply sp_ask, So|]. intros y y' (Sy & _). apply same_ret. split; apply st_tmap; assumption.
Qed.
Lemma bias_prog b : same_prog osame (match b with Some (id, b) => run y <- ask id b; Ret (Some y) | None => Ret None end) (match b with Some (id, b) => run y <- ask id b; Ret (Some y) | None => Ret None end).
Proof. destruct b as [[id b]|]; [|apply same_ret; exact I]. eapply sp_then; [apply sp_ask, st_refl|]. intros y y' (Sy & _). apply same_ret. exact Sy. Qed.
Lemma srnn_values_only l : on_numbers (sr_act l) -> values_only (srnn_prog l).
Proof.
  intros Ha x x' S. unfold srnn_prog. eapply sp_then; [apply sp_ask, st_refl|]. intros k k' (Sk & _). eapply sp_then; [apply sp_ask, st_refl|]. intros rk rk' (Srk & _). eapply sp_then; [apply bias_prog|]. intros b b' Sb.
  apply rnn_values_only; [|exact S]. intros y y' s s' Sy Ss. apply srnn_step_same; assumption.
Qed.

(** *** QGRU *)
Lemma cols_same from len x x' y : same_tensor x x' -> cols from len x = Some y -> exists y', cols from len x' = Some y' /\ same_tensor y y'.
Proof.
  intros (S & A). unfold cols. rewrite <- S. destruct (shape x) as [|n [|c [|? ?]]] eqn:E; try discriminate. destruct (Nat.leb_spec (from + len) c) as [L|]; [|discriminate]. intros H. apply some_inj in H. subst y. eexists. split; [reflexivity|].
  split; [reflexivity|]. cbn [shape at_]. intros i Vi. inversion Vi as [|b ? i1 ? Hb V1]; subst. inversion V1 as [|j ? i2 ? Hj V2]; subst. inversion V2; subst. apply A. repeat constructor; lia.
Qed.
Lemma biases_same l b b' p : osame b b' -> gru_biases l b = Some p -> exists p', gru_biases l b' = Some p' /\ osame (fst p) (fst p') /\ osame (snd p) (snd p').
Proof.
  intros S H. destruct b as [b|], b' as [b'|]; cbn [osame] in S; try contradiction; cbn [gru_biases] in *; [|apply some_inj in H; subst p; eexists; split; [reflexivity|split; exact I]].
  destruct (sg_reset_after l); [|apply some_inj in H; subst p; eexists; split; [reflexivity|split; [exact S|exact I]]]. pose proof S as (E & A). rewrite <- E. destruct (shape b) as [|[|[|[|?]]] [|c [|? ?]]] eqn:Eb; try discriminate.
  apply some_inj in H. subst p. eexists. split; [reflexivity|]. cbn [fst snd osame]. split; (split; [reflexivity|]); cbn [shape at_]; intros i Vi; apply A; constructor; try lia; exact Vi.
Qed.
Lemma sgru_step_same l k k' rk rk' b b' x x' s s' : on_numbers (sg_act l) -> on_numbers (sg_ract l) -> same_tensor k k' -> same_tensor rk rk' -> osame b b' -> same_tensor x x' -> same_tensor s s' ->
  same_prog rpair (sgru_step l k rk b x s) (sgru_step l k' rk' b' x' s').
Proof.
  intros Ha Hr Sk Srk Sb Sx Ss. unfold sgru_step. cbv zeta. eapply sp_then; [apply sp_ask, Ss|]. intros qh qh' (Sh & _). eapply sp_then; [apply sp_ask_opt, Sx|]. intros qx qx' (Sqx & _).
  apply (sp_then (fun p p' => same_tensor (fst (fst p)) (fst (fst p')) /\ same_tensor (snd (fst p)) (snd (fst p')) /\ same_tensor (snd p) (snd p'))).
  - apply sp_lift. intros p H. destruct (gru_biases l b) as [[ib rb]|] eqn:E0; [|discriminate]. cbn [bind] in H. destruct (biases_same _ _ _ _ Sb E0) as ([ib' rb'] & -> & Si & Sr). cbn [fst snd bind] in *.
    destruct (keras_matmul qx k) as [m|] eqn:E1; [|discriminate]. cbn [bind] in H. destruct (matmul_same _ _ _ _ _ Sqx Sk E1) as (m' & -> & S1). cbn [bind].
    destruct (add_bias m ib) as [xm|] eqn:E2; [|discriminate]. cbn [bind] in H. destruct (bias_same _ _ _ _ _ S1 Si E2) as (xm' & -> & S2). cbn [bind].
    assert (In : forall inner, (if sg_reset_after l then do r <- keras_matmul qh rk; add_bias r rb else do rk2 <- cols 0 (2 * sg_units l) rk; keras_matmul qh rk2) = Some inner ->
      exists inner', (if sg_reset_after l then do r <- keras_matmul qh' rk'; add_bias r rb' else do rk2 <- cols 0 (2 * sg_units l) rk'; keras_matmul qh' rk2) = Some inner' /\ same_tensor inner inner').
    { intros inner G. destruct (sg_reset_after l).
      - destruct (keras_matmul qh rk) as [r|] eqn:G1; [|discriminate]. cbn [bind] in G. destruct (matmul_same _ _ _ _ _ Sh Srk G1) as (r' & -> & T1). cbn [bind]. exact (bias_same _ _ _ _ _ T1 Sr G).
      - destruct (cols 0 _ rk) as [c|] eqn:G1; [|discriminate]. cbn [bind] in G. destruct (cols_same _ _ _ _ _ Srk G1) as (c' & -> & T1). cbn [bind]. exact (matmul_same _ _ _ _ _ Sh T1 G). }
    destruct (if sg_reset_after l then _ else _) as [inner|] eqn:E3; [|discriminate]. destruct (In inner eq_refl) as (inner' & -> & S3). clear In. cbn [bind] in *.
    destruct (cols 0 _ xm) as [a|] eqn:E4; [|discriminate]. destruct (cols_same _ _ _ _ _ S2 E4) as (a' & -> & S4). cbn [bind] in *. destruct (cols 0 _ inner) as [c|] eqn:E5; [|discriminate]. destruct (cols_same _ _ _ _ _ S3 E5) as (c' & -> & S5). cbn [bind] in *.
    destruct (np_binary Qplus a c) as [z|] eqn:E6; [|discriminate]. destruct (plus_same _ _ _ _ _ S4 S5 E6) as (z' & -> & S6). cbn [bind] in *. apply some_inj in H. subst p. eexists. split; [reflexivity|]. cbn [fst snd].
    split; [exact S2|]. split; [exact S3|]. apply st_tmap; assumption.
  - intros [[xm inner] z] [[xm' inner'] z'] (S1 & S2 & S3). cbn [fst snd] in *. eapply sp_then; [apply sp_ask, S3|]. intros q q' (Sq & _).
    apply (sp_then (fun p p' => same_tensor (fst p) (fst p') /\ same_tensor (snd p) (snd p'))).
    { apply sp_lift. intros p H. destruct (cols 0 _ q) as [a|] eqn:E4; [|discriminate]. destruct (cols_same _ _ _ _ _ Sq E4) as (a' & -> & S4). cbn [bind] in *. destruct (cols (sg_units l) _ q) as [c|] eqn:E5; [|discriminate]. destruct (cols_same _ _ _ _ _ Sq E5) as (c' & -> & S5). cbn [bind] in *.
      apply some_inj in H. subst p. eexists. split; [reflexivity|]. split; assumption. }
    intros [zg r] [zg' r'] (Sz & Sr). cbn [fst snd] in *. apply (sp_then same_tensor).
    { destruct (sg_reset_after l).
      - apply (sp_then same_tensor); [apply sp_lift; intros a Ea; exact (cols_same _ _ _ _ _ S2 Ea)|]. intros a a' Sa. eapply sp_then; [apply sp_ask, Sa|]. intros c c' (Sc & _). apply sp_lift. intros d Ed. exact (mult_same _ _ _ _ _ Sr Sc Ed).
      - apply (sp_then same_tensor); [apply sp_lift; intros a Ea; exact (mult_same _ _ _ _ _ Sr Sh Ea)|]. intros a a' Sa. eapply sp_then; [apply sp_ask, Sa|]. intros c c' (Sc & _). apply sp_lift. intros d Ed.
        destruct (cols _ _ rk) as [e|] eqn:E5; [|discriminate]. destruct (cols_same _ _ _ _ _ Srk E5) as (e' & -> & S5). cbn [bind] in *. exact (matmul_same _ _ _ _ _ Sc S5 Ed). }
    intros rh rh' Srh. apply (sp_then same_tensor).
    { apply sp_lift. intros h H. destruct (cols _ _ xm) as [a|] eqn:E4; [|discriminate]. destruct (cols_same _ _ _ _ _ S1 E4) as (a' & -> & S4). cbn [bind] in *. destruct (np_binary Qplus a rh) as [t|] eqn:E6; [|discriminate]. destruct (plus_same _ _ _ _ _ S4 Srh E6) as (t' & -> & S6). cbn [bind] in *.
      apply some_inj in H. subst h. eexists. split; [reflexivity|]. apply st_tmap; assumption. }
    intros h h' Sh2. eapply sp_then; [apply sp_ask, Sh2|]. intros hh hh' (Shh & _). apply (sp_then same_tensor).
    { apply sp_lift. intros y H. destruct (np_binary Qmult zg qh) as [a|] eqn:E1; [|discriminate]. destruct (mult_same _ _ _ _ _ Sz Sh E1) as (a' & -> & T1). cbn [bind] in *.
      destruct (np_binary Qmult _ hh) as [c|] eqn:E2; [|discriminate]. destruct (mult_same _ _ _ _ _ (one_minus_same _ _ Sz) Shh E2) as (c' & -> & T2). cbn [bind] in *. exact (plus_same _ _ _ _ _ T1 T2 H). }
    intros y y' Sy. apply same_ret. split; exact Sy.
Qed.
Lemma sgru_values_only l : on_numbers (sg_act l) -> on_numbers (sg_ract l) -> values_only (sgru_prog l).
Proof.
  intros Ha Hr x x' S. unfold sgru_prog. eapply sp_then; [apply sp_ask, st_refl|]. intros k k' (Sk & _). eapply sp_then; [apply sp_ask, st_refl|]. intros rk rk' (Srk & _). eapply sp_then; [apply bias_prog|]. intros b b' Sb.
  apply rnn_values_only; [|exact S]. intros y y' s s' Sy Ss. apply sgru_step_same; assumption.
Qed.

(** *** spiking layers *)
Lemma argmax_row_lt f u : (0 < u)%nat -> (argmax_row f u < u)%nat.
Proof. induction u as [|u IH]; intros H; [lia|]. cbn [argmax_row]. destruct u as [|u]; [lia|]. cbv zeta. destruct (qlt_b _ _); [lia|]. assert (argmax_row f (S u) < S u)%nat by (apply IH; lia). lia. Qed.
Lemma qlt_b_iff x y : qlt_b x y = true <-> x < y.
Proof. unfold qlt_b. rewrite Bool.negb_true_iff. split; intros H; [apply Qnot_le_lt; intros L; apply Qle_bool_iff in L; congruence|]. destruct (Qle_bool y x) eqn:E; [apply Qle_bool_iff in E; lra|reflexivity]. Qed.
Lemma qlt_b_comp a b c d : a == c -> b == d -> qlt_b a b = qlt_b c d.
Proof. intros E F. apply Bool.eq_true_iff_eq. rewrite !qlt_b_iff, E, F. reflexivity. Qed.
Lemma argmax_row_same f g u : (forall j, (j < u)%nat -> f j == g j) -> argmax_row f u = argmax_row g u.
Proof.
  induction u as [|u IH]; intros H; [reflexivity|]. cbn [argmax_row]. destruct u as [|u]; [reflexivity|]. cbv zeta. rewrite IH by (intros j Hj; apply H; lia).
  rewrite (qlt_b_comp (f (argmax_row g (S u))) (f (S u)) (g (argmax_row g (S u))) (g (S u))); [reflexivity| |]; apply H; [|lia]. assert (argmax_row g (S u) < S u)%nat by (apply argmax_row_lt; lia). lia.
Qed.
Lemma inhibit_same u s s' p p' z : same_tensor s s' -> same_tensor p p' -> inhibit u s p = Some z -> exists z', inhibit u s' p' = Some z' /\ same_tensor z z'.
Proof.
  intros (Ss & As) (Sp & Ap). unfold inhibit. rewrite <- Ss, <- Sp. destruct (shape s) as [|n [|c [|? ?]]] eqn:Es; try discriminate. destruct (_ && _)%bool eqn:E; [|discriminate]. apply andb_prop in E as (E1 & E2). apply Nat.eqb_eq in E1. apply nat_list_eqb_eq in E2. subst c.
  intros H. apply some_inj in H. subst z. eexists. split; [reflexivity|]. split; [reflexivity|]. cbn [shape at_]. intros i Vi. pose proof Vi as Vi0. inversion Vi as [|b ? i1 ? Hb V1]; subst. inversion V1 as [|j ? i2 ? Hj V2]; subst. inversion V2; subst.
  rewrite (argmax_row_same (fun j => at_ s [b; j]) (fun j => at_ s' [b; j]) u); [rewrite (Ap [b; j]) by (rewrite E2; exact Vi0); reflexivity|]. intros j' Hj'. apply As. repeat constructor; assumption.
Qed.
Lemma ssnn_step_same l x x' s s' : on_numbers (sn_spike l) -> same_tensor x x' -> same_tensor s s' -> same_prog rpair (ssnn_step l x s) (ssnn_step l x' s').
Proof.
  intros Hs Sx Ss. unfold ssnn_step. apply (sp_then same_tensor).
  { destruct (sn_beta l) as [[id b]|]; [|apply same_ret; exact Ss]. eapply sp_then; [apply sp_ask, st_refl|]. intros q q' (Sq & _). apply sp_lift. intros m Em. exact (mult_same _ _ _ _ _ Sq Ss Em). }
  intros m m' Sm. eapply sp_then; [apply sp_ask_opt, Sx|]. intros qx qx' (Sqx & _). apply (sp_then same_tensor); [apply sp_lift; intros z Ez; exact (plus_same _ _ _ _ _ Sm Sqx Ez)|]. intros mem mem' Sme.
  apply (sp_then same_tensor); [apply sp_lift; intros z Ez; exact (minus_same _ _ _ _ _ Sme (st_refl _) Ez)|]. intros sc sc' Ssc.
  apply (sp_then same_tensor).
  { apply sp_lift. cbv zeta. pose proof (st_tmap _ _ _ Hs Ssc) as Sp. destruct (sn_inhibition l); [intros z Ez; exact (inhibit_same _ _ _ _ _ _ Ssc Sp Ez)|]. intros z Ez. apply some_inj in Ez. subst z. eexists. split; [reflexivity|exact Sp]. }
  intros spk spk' Sp. eapply sp_then; [apply sp_ask, st_refl|]. intros f f' (Sf & _). apply (sp_then same_tensor); [apply sp_lift; intros z Ez; exact (mult_same _ _ _ _ _ Sp Sf Ez)|]. intros o o' So.
  eapply sp_then; [apply sp_ask_opt, So|]. intros y y' (Sy & _). apply (sp_then same_tensor).
  { apply sp_lift. intros z Ez. destruct (sn_reset l).
    - destruct (np_binary Qmult spk (sn_threshold l)) as [d|] eqn:E; [|discriminate]. destruct (mult_same _ _ _ _ _ Sp (st_refl _) E) as (d' & -> & Sd). cbn [bind] in *. exact (minus_same _ _ _ _ _ Sme Sd Ez).
    - exact (mult_same _ _ _ _ _ Sme (one_minus_same _ _ Sp) Ez).
    - apply some_inj in Ez. subst z. exists mem'. split; [reflexivity|exact Sme]. }
  intros r r' Sr. eapply sp_then; [apply sp_ask_opt, Sr|]. intros t t' (St & _). apply same_ret. split; assumption.
Qed.
Lemma ssnn_values_only l : on_numbers (sn_spike l) -> values_only (ssnn_prog l).
Proof. intros H x x' S. apply rnn_values_only; [|exact S]. intros y y' s s' Sy Ss. apply ssnn_step_same; assumption. Qed.

(** *** softmax *)
Lemma ssoft_core_same l x x' : on_numbers (so_exp l) -> on_numbers (so_inv l) -> same_tensor x x' -> same_prog same_tensor (ssoft_core l x) (ssoft_core l x').
Proof.
  intros He Hi Sx. unfold ssoft_core. eapply sp_then; [apply sp_ask_opt, Sx|]. intros a a' (Sa & _). apply (sp_then same_tensor).
  { apply sp_lift. intros z Ez. destruct (so_stable l); [|apply some_inj in Ez; subst z; exists a'; split; [reflexivity|exact Sa]].
    assert (M : forall y, match so_mask l with Some m => do u <- np_binary Qmult m a; np_binary Qminus u (tmap (fun v => (1 - v) * 1000000000) m) | None => Some a end = Some y ->
      exists y', match so_mask l with Some m => do u <- np_binary Qmult m a'; np_binary Qminus u (tmap (fun v => (1 - v) * 1000000000) m) | None => Some a' end = Some y' /\ same_tensor y y').
    { intros y Ey. destruct (so_mask l) as [m|]; [|apply some_inj in Ey; subst y; exists a'; split; [reflexivity|exact Sa]]. destruct (np_binary Qmult m a) as [u|] eqn:E; [|discriminate]. destruct (mult_same _ _ _ _ _ (st_refl _) Sa E) as (u' & -> & Su). cbn [bind] in *.
      exact (minus_same _ _ _ _ _ Su (st_refl _) Ey). }
    destruct (match so_mask l with Some m => _ | None => Some a end) as [y|] eqn:Ey; [|discriminate]. destruct (M y eq_refl) as (y' & -> & Sy). cbn [bind] in *.
    exact (minus_same _ _ _ _ _ (reduce_same qmax_of (so_axes l) true _ _ qmax_Forall2 Sy) Sy Ez). }
  intros y y' Sy. eapply sp_then; [apply sp_ask_opt, Sy|]. intros q q' (Sq & _). eapply sp_then; [apply sp_ask, (st_tmap _ _ _ He Sq)|]. intros e e' (Se & _). apply (sp_then same_tensor).
  { apply sp_lift. intros z Ez. destruct (so_mask l) as [m|]; [exact (mult_same _ _ _ _ _ (st_refl _) Se Ez)|]. apply some_inj in Ez. subst z. exists e'. split; [reflexivity|exact Se]. }
  intros f f' Sf. eapply sp_then; [apply sp_ask, (reduce_same qsum (so_axes l) true _ _ qsum_Forall2 Sf)|]. intros s s' (Ss & _). eapply sp_then; [apply sp_ask, (st_tmap _ _ _ Hi Ss)|]. intros d d' (Sd & _).
  apply (sp_then same_tensor); [apply sp_lift; intros z Ez; exact (mult_same _ _ _ _ _ Sf Sd Ez)|]. intros z z' Sz. apply sp_last, Sz.
Qed.
Lemma ssoft_values_only l : on_numbers (so_exp l) -> on_numbers (so_inv l) -> values_only (ssoft_prog l).
Proof. intros He Hi x x' S. destruct x as [x|], x' as [x'|]; cbn [same_inputs] in S; try contradiction; cbn [ssoft_prog]; [|constructor]. apply ssoft_core_same; assumption. Qed.

(** *** attention *)
Lemma smha_values_only l : by_value (y_op (sm_query l)) -> by_value (y_op (sm_key l)) -> by_value (y_op (sm_value l)) -> by_value (y_op (sm_out l)) ->
  on_numbers (so_exp (sm_soft l)) -> on_numbers (so_inv (sm_soft l)) -> values_only (smha_prog l).
Proof.
  intros Vq Vk Vv Vo He Hi x x' S. unfold smha_prog. apply (sp_then (fun p p' => same_tensor (fst (fst p)) (fst (fst p')) /\ same_tensor (snd (fst p)) (snd (fst p')) /\ same_tensor (snd p) (snd p'))).
  { apply sp_lift. intros p H. destruct x as [x|xs], x' as [x'|xs']; cbn [same_inputs] in S; try contradiction; [apply some_inj in H; subst p; eexists; split; [reflexivity|]; cbn [fst snd]; split; [exact S|split; exact S]|].
    destruct S as [|q q' xs xs' S1 F]; [discriminate|]. destruct F as [|v v' xs xs' S2 F]; [discriminate|]. destruct F as [|k k' xs xs' S3 F]; [apply some_inj in H; subst p; eexists; split; [reflexivity|]; cbn [fst snd]; split; [exact S1|split; exact S2]|].
    destruct F; [|discriminate]. apply some_inj in H. subst p. eexists. split; [reflexivity|]. cbn [fst snd]. split; [exact S1|split; [exact S2|exact S3]]. }
  intros [[q v] k] [[q' v'] k'] (Sq & Sv & Sk). cbn [fst snd] in *. apply (sp_then same_tensor); [exact (layer_values_only _ Vq (One q) (One q') Sq)|]. intros pq pq' Spq.
  apply (sp_then same_tensor); [exact (layer_values_only _ Vk (One k) (One k') Sk)|]. intros pk pk' Spk. apply (sp_then same_tensor); [exact (layer_values_only _ Vv (One v) (One v') Sv)|]. intros pv pv' Spv.
  destruct (sm_dot l) as [[li lk] lo], (sm_combine l) as [[ci ck] co]. apply (sp_then same_tensor).
  { apply sp_lift. intros z Ez. refine (einsum_same _ _ _ _ _ _ _ _ Spk _ Ez). apply st_tmap; [intros a b ->; reflexivity|exact Spq]. }
  intros s s' Ss. apply (sp_then same_tensor); [apply ssoft_core_same; assumption|]. intros t t' St. apply (sp_then same_tensor); [apply sp_lift; intros z Ez; exact (einsum_same _ _ _ _ _ _ _ _ St Spv Ez)|]. intros a a' Sa.
  apply (sp_then same_tensor); [exact (layer_values_only _ Vo (One a) (One a') Sa)|]. intros y y' Sy. apply sp_last, Sy.
Qed.

(** *** tables *)
Lemma patches_same p x x' y : match p with None => True | Some (_, cs, ch) => (0 < ch)%nat end -> same_tensor x x' -> keras_patches p x = Some y -> exists y', keras_patches p x' = Some y' /\ same_tensor y y'.
Proof.
  intros P (S & A). destruct p as [[[pad cs] ch]|]; cbn [keras_patches]; [|intros H; apply some_inj in H; subst y; exists x'; split; [reflexivity|split; assumption]]. rewrite <- S. destruct (shape x) as [|n s] eqn:Ex; [discriminate|].
  destruct (nat_list_eqb s (map c_in cs ++ [ch])) eqn:E; [|discriminate]. intros H. apply some_inj in H. subst y. eexists. split; [reflexivity|]. split; [reflexivity|]. cbn [shape at_]. intros i Vi. inversion Vi as [|b ? i' ? Hb Vi']; subst. cbn [hd tl].
  unfold extract. destruct (c_positions pad cs (removelast i') _) as [q|] eqn:Q; [|reflexivity]. apply A. constructor; [exact Hb|]. apply nat_list_eqb_eq in E. subst s. apply unflat_valid. apply flat_lt. apply valid_snoc; [exact (c_positions_valid _ _ _ _ _ Q)|].
  apply Nat.mod_upper_bound. lia.
Qed.
Lemma spread_same m x x' : same_tensor x x' -> same_tensor (spread m x) (spread m x').
Proof. intros (S & A). split; [cbn [spread shape]; rewrite S; reflexivity|]. cbn [spread shape at_]. intros i Vi. apply valid_snoc_inv in Vi as (V & _). apply A, V. Qed.
Definition acts_ok (l : stable) : Prop := on_numbers (sl_act l) /\ (forall e, In e (sl_net l) -> on_numbers (e_act e)) /\ match sl_patch l with None => True | Some (_, cs, ch) => (0 < ch)%nat end.
Lemma table_tensor_same (l : stable) x x' : (forall e, In e (sl_net l) -> on_numbers (e_act e)) -> same_tensor x x' ->
  same_tensor (mk_tensor (shape x) (fun i => match sl_bn l with Some bn => bn_apply bn (last i 0%nat) (subnet (sl_net l) (last (removelast i) 0%nat * sl_out l + last i 0%nat) (at_ x i)) * sl_isqrt l | None => subnet (sl_net l) (last (removelast i) 0%nat * sl_out l + last i 0%nat) (at_ x i) end))
              (mk_tensor (shape x') (fun i => match sl_bn l with Some bn => bn_apply bn (last i 0%nat) (subnet (sl_net l) (last (removelast i) 0%nat * sl_out l + last i 0%nat) (at_ x' i)) * sl_isqrt l | None => subnet (sl_net l) (last (removelast i) 0%nat * sl_out l + last i 0%nat) (at_ x' i) end)).
Proof.
  intros T (S & A). split; [exact S|]. cbn [shape at_]. intros i Vi. assert (E : subnet (sl_net l) (last (removelast i) 0%nat * sl_out l + last i 0%nat) (at_ x i) == subnet (sl_net l) (last (removelast i) 0%nat * sl_out l + last i 0%nat) (at_ x' i)).
  { apply (subnet_proper (fun f => f)); [|apply A, Vi]. intros e He a b Eab. apply (T e He), Eab. }
  destruct (sl_bn l); [|exact E]. unfold bn_apply. rewrite E. reflexivity.
Qed.
Lemma sum_inputs_same n m x x' lead : same_tensor x x' -> shape x = lead ++ [n; m] -> same_tensor (sum_inputs n m x) (sum_inputs n m x').
Proof.
  intros (S & A) E. split; [cbn [sum_inputs shape]; rewrite S; reflexivity|]. cbn [sum_inputs shape at_]. rewrite E. replace (removelast (removelast (lead ++ [n; m]))) with lead.
  2: { change (lead ++ [n; m]) with (lead ++ [n] ++ [m]). rewrite app_assoc, removelast_last, removelast_last. reflexivity. }
  intros i Vi. apply valid_snoc_inv in Vi as (V1 & V2). apply qsum_ext. intros j Hj. apply in_seq in Hj. apply A. rewrite E. apply Forall2_app; [exact V1|]. repeat constructor; lia.
Qed.
Lemma stable_values_only l : acts_ok l -> values_only (stable_prog l).
Proof.
  intros (Ha & Hn & Hp) x x' S. destruct x as [x|], x' as [x'|]; cbn [same_inputs] in S; try contradiction; cbn [stable_prog]; [|constructor]. apply (sp_then (fun y y' => same_tensor y y' /\ exists lead, shape y = lead ++ [sl_in l; sl_out l])).
  { apply sp_lift. intros z Ez. destruct (keras_patches (sl_patch l) x) as [p|] eqn:E; [|discriminate]. destruct (patches_same _ _ _ _ Hp S E) as (p' & -> & Sp). cbn [bind] in *. pose proof Sp as (Es & _). rewrite <- Es.
    destruct (shape p) as [|d s] eqn:Ed; [discriminate|]. cbn [nat_list_eqb negb andb] in *.
    destruct (Nat.eqb_spec (last (d :: s) 0%nat) (sl_in l)) as [El|]; [|discriminate]. apply some_inj in Ez. subst z. eexists. split; [reflexivity|]. split; [apply spread_same, Sp|]. cbn [spread shape]. rewrite Ed.
    exists (removelast (d :: s)). rewrite <- El. rewrite (last_split (d :: s)) at 1 by discriminate. rewrite <- app_assoc. reflexivity. }
  intros y y' (Sy & lead & El). eapply sp_then; [apply sp_ask_opt, Sy|]. intros q q' (Sq & Eq). eapply sp_then; [apply sp_ask, (table_tensor_same l q q' Hn Sq)|]. intros r r' (Sr & Er). apply sp_last. apply st_tmap; [exact Ha|].
  apply (sum_inputs_same _ _ _ _ lead Sr). rewrite Er. cbn [shape]. rewrite Eq. exact El.
Qed.
