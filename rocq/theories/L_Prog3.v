(** Lemmas for C65: inference of the recurrent and spiking programs, row by row. *)
From Coq Require Import String.
From Verif Require Import Num M_Fixed L_Fixed M_State S_State L_State M_Wrapper M_Mapper S_Mapper L_Mapper M_Contr M_Ebops L_Ebops M_Pow2 M_Patch L_Patch M_Ops L_Ops M_Mirror L_Mirror M_Trace L_Trace M_Table S_Table L_Table M_Softmax M_Net S_Net L_Net L_Net2 L_Net3 M_NetX M_Causal L_Causal M_Calib S_Ops S_Calib L_Calib L_Calib2 L_Calib3 M_Prog M_Rnn S_Rnn L_Rnn S_Prog L_Prog L_Prog2.
Local Open Scope list_scope.

(** *** evaluation with fixed quantizers *)
Lemma exec_infer {A} tab (p : prog A) : forall st, sametab (n_tab st) tab ->
  match eval tab p with Some a => exists st', exec Infer p st = Some (st', a) /\ sametab (n_tab st') tab | None => exec Infer p st = None end.
Proof.
  induction p as [a| |id x k IH]; intros st T; cbn [eval exec]; [exists st; split; [reflexivity|exact T]|reflexivity|]. pose proof (infer_q tab st id x T) as H. destruct (quant_call (tab id) x) as [y|]; cbn [bind]; [|rewrite H; reflexivity].
  destruct H as (st1 & -> & T1). cbn [bind]. apply IH, T1.
Qed.
Lemma eval_then {A B} tab (p : prog A) (f : A -> prog B) : eval tab (then_ p f) = do a <- eval tab p; eval tab (f a).
Proof. induction p as [a| |id x k IH]; cbn [then_ eval bind]; [reflexivity|reflexivity|]. destruct (quant_call (tab id) x) as [y|]; cbn [bind]; [apply IH|reflexivity]. Qed.
Lemma eval_ask tab id x : eval tab (ask id x) = quant_call (tab id) x.
Proof. cbn [ask eval]. destruct (quant_call _ x); reflexivity. Qed.
Lemma eval_ask_opt tab id x : eval tab (ask_opt id x) = match id with Some i => quant_call (tab i) x | None => Some x end.
Proof. destruct id; cbn [ask_opt]; [apply eval_ask|reflexivity]. Qed.
Lemma eval_lift {A} tab (o : option A) : eval tab (lift o) = o.
Proof. destruct o; reflexivity. Qed.
Lemma eval_bias tab (b : option (nat * tensor Q)) : eval tab (match b with Some (id, b) => run y <- ask id b; Ret (Some y) | None => Ret None end) =
  match b with Some (id, b) => do y <- quant_call (tab id) b; Some (Some y) | None => Some None end.
Proof. destruct b as [[id b]|]; [|reflexivity]. rewrite eval_then, eval_ask. destruct (quant_call (tab id) b); reflexivity. Qed.
Lemma quant_shape q x y : quant_call q x = Some y -> shape y = shape x.
Proof.
  unfold quant_call, quantizer_infer. intros H. destruct (match q_s q with inl s => _ | inr s => _ end _) as [o|] eqn:E; [|discriminate]. cbn [bind] in H. apply some_inj in H. subst y.
  assert (Eo : shape o = shape x).
  { assert (Es : shape (match w_scaler (q_w q) with Some s => tmap (fun x => x / s) x | None => x end) = shape x) by (destruct (w_scaler (q_w q)); reflexivity). rewrite <- Es.
    revert E. generalize (match w_scaler (q_w q) with Some s => tmap (fun x => x / s) x | None => x end). clear. intros z E. destruct (q_s q) as [s|s]; cbn [kif_infer kbi_infer] in E.
    - unfold kif_infer in E. destruct (kif_tcall (q_c q) (q_hom q) Infer s z) as [[s' o']|] eqn:K; [|discriminate]. cbn [bind] in E. apply some_inj in E. subst o'. unfold kif_tcall in K. cbv zeta in K. cbn [is_train] in K.
      destruct (is_wrap (c_om (q_c q)) && c_trainable (q_c q)).
      + destruct (broadcast_to (tmap round_even (t_f s)) (shape z)) as [f|] eqn:B; [|discriminate]. cbn [bind] in K. destruct (c_weight (q_c q)); [injection K as <- <-; reflexivity|].
        destruct (base_tcall _ _ _ _ _ z) as [y|] eqn:Y; [|discriminate]. injection K as <- <-. exact (base_shape _ _ _ _ _ _ _ Y).
      + destruct (base_tcall _ _ _ _ _ z) as [y|] eqn:Y; [|discriminate]. injection K as <- <-. exact (base_shape _ _ _ _ _ _ _ Y).
    - unfold kbi_infer in E. destruct (kbi_tcall (q_c q) (q_hom q) Infer s z) as [[s' o']|] eqn:K; [|discriminate]. cbn [bind] in E. apply some_inj in E. subst o'. unfold kbi_tcall in K. cbv zeta in K. cbn [is_train] in K.
      destruct (is_wrap (c_om (q_c q)) && c_trainable (q_c q)).
      + destruct (broadcast_to _ (shape z)) as [f|] eqn:B; [|discriminate]. cbn [bind] in K. destruct (_ && _)%bool; [injection K as <- <-; reflexivity|].
        destruct (base_tcall _ _ _ _ _ z) as [y|] eqn:Y; [|discriminate]. injection K as <- <-. exact (base_shape _ _ _ _ _ _ _ Y).
      + destruct (base_tcall _ _ _ _ _ z) as [y|] eqn:Y; [|discriminate]. injection K as <- <-. exact (base_shape _ _ _ _ _ _ _ Y). }
  destruct (w_affine (q_w q)) as [[a c]|], (w_scaler (q_w q)); exact Eo.
Qed.

(** *** one row of a batch of vectors *)
Section Row.
  Context (tab : nat -> quant) (B b : nat) (Hb : (b < B)%nat).
  Definition onrow (n : nat) (x : tensor Q) (v : nat -> Q) : Prop := shape x = [B; n] /\ same_vec n (row b x) v.
  Lemma bi (d i n : nat) : (i < n)%nat -> d = n -> (if (d =? 1)%nat then 0%nat else i) = i.
  Proof. intros H ->. destruct (Nat.eqb_spec n 1); lia. Qed.
  Lemma bcast_row {A} (w : tensor A) n : shape w = [1; n]%nat -> exists w', broadcast_to w [B; n] = Some w' /\ forall j, (j < n)%nat -> at_ w' [b; j] = at_ w [0; j]%nat.
  Proof.
    intros E. unfold broadcast_to. rewrite E. cbn [bcast_ok]. rewrite (Nat.eqb_refl n), Bool.orb_true_r. cbn [Nat.eqb orb andb]. eexists. split; [reflexivity|]. cbn [at_]. intros j Hj. cbn [bcast_index Nat.eqb].
    rewrite (bi n j n Hj eq_refl). reflexivity.
  Qed.
  Lemma base_row c k i f x v n y : shape k = [1; n]%nat -> shape i = [1; n]%nat -> shape f = [1; n]%nat -> onrow n x v -> base_tcall c false k i f x = Some y ->
    onrow n y (fun j => base_call (c_rm c) (c_om c) false (at_ k [0; j]%nat) (at_ i [0; j]%nat) (at_ f [0; j]%nat) (v j)).
  Proof.
    intros Ek Ei Ef (Ex & Vx). unfold base_tcall. rewrite Ex. destruct (bcast_row k n Ek) as (k' & -> & Ak). destruct (bcast_row i n Ei) as (i' & -> & Ai). destruct (bcast_row f n Ef) as (f' & -> & Af). cbn [bind].
    intros H. apply some_inj in H. subst y. split; [reflexivity|]. intros j Hj. unfold row. cbn [at_]. rewrite (Ak j Hj), (Ai j Hj), (Af j Hj). apply base_call_Proper. apply Vx, Hj.
  Qed.
  Lemma on_q n q x v y : row_quant n q -> onrow n x v -> quant_call q x = Some y -> onrow n y (layer_q (vq_of q) v).
  Proof.
    intros (Ns & Nw & R) O. unfold quant_call, quantizer_infer. rewrite Ns. cbv zeta. intros H. destruct (match q_s q with inl s => _ | inr s => _ end x) as [o|] eqn:E; [|discriminate]. cbn [bind] in H. apply some_inj in H. subst y.
    assert (G : onrow n o (fun j => base_call (q_rm (vq_of q)) (q_om (vq_of q)) false (q_k (vq_of q) j) (q_i (vq_of q) j) (q_f (vq_of q) j) (v j))).
    { unfold vq_of. destruct (q_s q) as [s|s].
      - destruct R as (R1 & R2 & R3). unfold kif_infer in E. destruct (kif_tcall (q_c q) (q_hom q) Infer s x) as [[s' o']|] eqn:K; [|discriminate]. cbn [bind] in E. apply some_inj in E. subst o'.
        assert (Y : base_tcall (q_c q) false (t_k s) (tmap round_even (t_i s)) (tmap round_even (t_f s)) x = Some o).
        { unfold kif_tcall in K. cbv zeta in K. cbn [is_train] in K. rewrite Nw in K. destruct (is_wrap (c_om (q_c q)) && c_trainable (q_c q)); [destruct (broadcast_to _ (shape x)); [cbn [bind] in K|discriminate]|]; (destruct (base_tcall _ _ _ _ _ x) as [y|]; [|discriminate]); injection K as <- <-; reflexivity. }
        exact (base_row _ _ _ _ _ _ n _ R1 (R2 : shape (tmap round_even (t_i s)) = _) (R3 : shape (tmap round_even (t_f s)) = _) O Y).
      - destruct R as (R1 & R2 & R3). unfold kbi_infer in E. destruct (kbi_tcall (q_c q) (q_hom q) Infer s x) as [[s' o']|] eqn:K; [|discriminate]. cbn [bind] in E. apply some_inj in E. subst o'.
        assert (Y : base_tcall (q_c q) false (u_k s) (tmap round_even (u_i s)) (tmap2 Z.sub (tmap round_even (u_b s)) (tmap round_even (u_i s))) x = Some o).
        { unfold kbi_tcall in K. cbv zeta in K. cbn [is_train] in K. rewrite Nw in K. cbn [andb] in K. destruct (is_wrap (c_om (q_c q)) && c_trainable (q_c q)); [destruct (broadcast_to _ (shape x)); [cbn [bind] in K|discriminate]|]; (destruct (base_tcall _ _ _ _ _ x) as [y|]; [|discriminate]); injection K as <- <-; reflexivity. }
        exact (base_row _ _ _ _ _ _ n _ R1 (R3 : shape (tmap round_even (u_i s)) = _) (R2 : shape (tmap2 Z.sub (tmap round_even (u_b s)) (tmap round_even (u_i s))) = _) O Y). }
    assert (Ea : q_aff (vq_of q) = w_affine (q_w q)) by (unfold vq_of; destruct (q_s q); reflexivity).
    destruct G as (Es & G). unfold layer_q. rewrite Ea. destruct (w_affine (q_w q)) as [[a c]|]; cbn [affine_of]; (split; [exact Es|]); intros j Hj; [|apply G, Hj]. unfold row. cbn [tmap at_]. specialize (G j Hj). unfold row in G. rewrite G. reflexivity.
  Qed.
  Lemma on_oq n id x v y : row_quants n tab id -> onrow n x v -> eval tab (ask_opt id x) = Some y -> onrow n y (opt_q layer_q (option_map (fun i => vq_of (tab i)) id) v).
  Proof. intros R O. rewrite eval_ask_opt. destruct id as [i|]; cbn [option_map opt_q]; [apply on_q; [apply R; reflexivity|exact O]|]. intros H. apply some_inj in H. subst y. exact O. Qed.
  Lemma on_act n f x v : on_numbers f -> onrow n x v -> onrow n (tmap f x) (fun j => f (v j)).
  Proof. intros Hf (E & V). split; [exact E|]. intros j Hj. unfold row. cbn [tmap at_]. apply Hf. apply V, Hj. Qed.
  Lemma on_matmul f u x v k y : shape k = [f; u] -> onrow f x v -> keras_matmul x k = Some y -> onrow u y (vecmat f v (mat_of k)).
  Proof.
    intros Ek (Ex & V). unfold keras_matmul. rewrite Ek, Ex. cbn [nat_list_eqb negb last andb removelast app]. destruct (f =? f)%nat; [|discriminate]. intros H. apply some_inj in H. subst y. split; [reflexivity|].
    intros j Hj. unfold row. cbn [at_]. unfold matmul, vecmat, mat_of. cbn [removelast last app]. assert (G : forall l, (forall i, In i l -> (i < f)%nat) -> csum 0 Qplus (map (fun i => at_ x [b; i] * at_ k [i; j]) l) == qsum (map (fun i => v i * at_ k [i; j]) l)).
    { induction l as [|i l IH]; intros H; cbn [map]; [reflexivity|]. change (csum 0 Qplus (?a :: ?r)) with (a + csum 0 Qplus r). change (qsum (?a :: ?r)) with (a + qsum r). rewrite IH by (intros i' Hi'; apply H; right; exact Hi').
      specialize (V i (H i (or_introl eq_refl))). unfold row in V. rewrite V. reflexivity. }
    apply G. intros i Hi. apply in_seq in Hi. lia.
  Qed.
  Lemma jd d : join_dim d d = Some d.
  Proof. unfold join_dim. destruct (Nat.eqb_spec d 1) as [->|]; [reflexivity|]. rewrite Nat.eqb_refl, Bool.orb_true_r. reflexivity. Qed.
  Lemma on_binary (f : Q -> Q -> Q) n x y u v z : (forall a b c d, a == b -> c == d -> f a c == f b d) -> onrow n x u -> onrow n y v -> np_binary f x y = Some z -> onrow n z (fun j => f (u j) (v j)).
  Proof.
    intros Hf (Ex & U) (Ey & V). unfold np_binary. rewrite Ex, Ey. cbn [List.length Nat.max]. unfold lpad. cbn [List.length Nat.sub repeat app join_shape]. rewrite !jd. cbn [bind]. intros H. apply some_inj in H. subst z. split; [reflexivity|].
    intros j Hj. unfold row. cbn [at_]. unfold bcast_at, lpad. rewrite Ex, Ey. cbn [List.length Nat.sub repeat app skipn bcast_index]. rewrite (bi B b B Hb eq_refl), (bi n j n Hj eq_refl). apply Hf; [apply U, Hj|apply V, Hj].
  Qed.
  Definition onvec (n : nat) (x : tensor Q) (v : nat -> Q) : Prop := shape x = [n] /\ forall j, (j < n)%nat -> at_ x [j] == v j.
  Lemma on_binary_r (f : Q -> Q -> Q) n x y u v z : (forall a b c d, a == b -> c == d -> f a c == f b d) -> onrow n x u -> onvec n y v -> np_binary f x y = Some z -> onrow n z (fun j => f (u j) (v j)).
  Proof.
    intros Hf (Ex & U) (Ey & V). unfold np_binary. rewrite Ex, Ey. cbn [List.length Nat.max]. unfold lpad. cbn [List.length Nat.sub repeat app join_shape]. rewrite jd. intros H.
    destruct (join_dim B 1) as [B'|] eqn:EB; [|discriminate]. assert (B' = B) by (unfold join_dim in EB; destruct (Nat.eqb_spec B 1) as [->|]; [injection EB as <-; reflexivity|cbn [Nat.eqb orb] in EB; injection EB as <-; reflexivity]). subst B'.
    cbn [bind] in H. apply some_inj in H. subst z. split; [reflexivity|].
    intros j Hj. unfold row. cbn [at_]. unfold bcast_at, lpad. rewrite Ex, Ey. cbn [List.length Nat.sub repeat app skipn bcast_index]. rewrite (bi B b B Hb eq_refl), (bi n j n Hj eq_refl). apply Hf; [apply U, Hj|apply V, Hj].
  Qed.
  Lemma on_binary_l (f : Q -> Q -> Q) n x y u v z : (forall a b c d, a == b -> c == d -> f a c == f b d) -> onvec n x u -> onrow n y v -> np_binary f x y = Some z -> onrow n z (fun j => f (u j) (v j)).
  Proof.
    intros Hf (Ex & U) (Ey & V). unfold np_binary. rewrite Ex, Ey. cbn [List.length Nat.max]. unfold lpad. cbn [List.length Nat.sub repeat app join_shape]. rewrite jd. cbn [join_dim Nat.eqb bind]. unfold join_dim. cbn [Nat.eqb bind]. intros H. apply some_inj in H. subst z. split; [reflexivity|].
    intros j Hj. unfold row. cbn [at_]. unfold bcast_at, lpad. rewrite Ex, Ey. cbn [List.length Nat.sub repeat app skipn bcast_index]. rewrite (bi B b B Hb eq_refl), (bi n j n Hj eq_refl). apply Hf; [apply U, Hj|apply V, Hj].
  Qed.
  Lemma on_bias n x v bias z : onrow n x v -> (forall t, bias = Some t -> shape t = [n]) -> add_bias x bias = Some z -> onrow n z (match option_map vec_of bias with Some w => fun j => v j + w j | None => v end).
  Proof.
    intros O S. destruct bias as [t|]; cbn [add_bias option_map]; [|intros H; apply some_inj in H; subst z; exact O]. apply (on_binary_r Qplus n x t v (vec_of t) z Qplus_ext O). split; [apply S; reflexivity|]. intros j _. reflexivity.
  Qed.
  Lemma on_cols from len c x v y : onrow c x v -> cols from len x = Some y -> onrow len y (fun j => v (from + j)%nat).
  Proof.
    intros (E & V). unfold cols. rewrite E. destruct (Nat.leb_spec (from + len) c) as [L|]; [|discriminate]. intros H. apply some_inj in H. subst y. split; [reflexivity|]. intros j Hj. unfold row. cbn [at_]. apply V. lia.
  Qed.
  Lemma on_zeros n : onrow n (zeros [B; n]) (fun _ => 0).
  Proof. split; [reflexivity|]. intros j _. reflexivity. Qed.
  Lemma on_ext n x v w : onrow n x v -> same_vec n v w -> onrow n x w.
  Proof. intros (E & V) W. split; [exact E|]. intros j Hj. rewrite (V j Hj). apply W, Hj. Qed.

  (** the time loop *)
  Lemma loop_rows f u (step : tensor Q -> tensor Q -> prog (tensor Q * tensor Q)) (cell : (nat -> Q) -> (nat -> Q) -> (nat -> Q) * (nat -> Q)) :
    (forall x v s w r, onrow f x v -> onrow u s w -> eval tab (step x s) = Some r -> onrow u (fst r) (fst (cell v w)) /\ onrow u (snd r) (snd (cell v w))) ->
    forall xs vs, Forall2 (onrow f) xs vs -> forall s w ys, onrow u s w -> eval tab (time_loop step xs s) = Some ys -> Forall2 (onrow u) ys (fst (scan cell vs w)).
  Proof.
    intros Hs xs vs F. induction F as [|x v xs vs O F IH]; intros s w ys Os E; cbn [time_loop] in E; [apply some_inj in E; subst ys; constructor|].
    rewrite eval_then in E. destruct (eval tab (step x s)) as [r|] eqn:Er; [|discriminate]. cbn [bind] in E. rewrite eval_then in E. destruct (eval tab (time_loop step xs (snd r))) as [zs|] eqn:Ez; [|discriminate]. cbn [bind eval] in E. apply some_inj in E. subst ys.
    destruct (Hs _ _ _ _ _ O Os Er) as (O1 & O2). cbn [scan]. specialize (IH _ _ _ O2 Ez). destruct (cell v w) as [y1 s1]. cbn [fst snd] in *. destruct (scan cell vs s1) as [ys' s2]. cbn [fst] in *. constructor; assumption.
  Qed.
  Lemma steps_rows x T f : shape x = [B; T; f] -> Forall2 (onrow f) (map (step_at x B f) (seq 0 T)) (rows b x).
  Proof.
    intros E. unfold rows. rewrite E. cbn [nth]. generalize (seq 0 T). induction l as [|t l IH]; cbn [map]; constructor; [|exact IH]. split; [reflexivity|]. intros j _. reflexivity.
  Qed.
  Lemma Forall2_rev2 {A C} (R : A -> C -> Prop) l l' : Forall2 R l l' -> Forall2 R (rev l) (rev l').
  Proof. induction 1; cbn [rev]; [constructor|]. apply Forall2_app; [assumption|]. constructor; [assumption|constructor]. Qed.
  Lemma Forall2_last {A C} (R : A -> C -> Prop) l l' d : Forall2 R l l' -> forall a, nth_error l (List.length l - 1) = Some a -> l' <> [] /\ R a (last l' d).
  Proof.
    induction 1 as [|x y l l' H F IH]; intros a Ha; [discriminate|]. split; [discriminate|]. destruct F as [|x2 y2 l l' H2 F]; [cbn in Ha; injection Ha as <-; exact H|].
    change (last (y :: y2 :: l') d) with (last (y2 :: l') d). apply IH. cbn [List.length Nat.sub] in Ha |- *. rewrite Nat.sub_0_r in *. exact Ha.
  Qed.
  Lemma stack_rows u ys outs z : Forall2 (onrow u) ys outs -> stack_steps B u ys = Some z -> same_seq u outs (rows b z).
  Proof.
    intros F. unfold stack_steps. destruct (forallb _ ys); [|discriminate]. intros H. apply some_inj in H. subst z. unfold rows, same_seq. cbn [shape nth at_].
    assert (G : forall k l l', Forall2 (onrow u) l l' -> (forall t, (t < List.length l)%nat -> nth (k + t) ys (zeros []) = nth t l (zeros [])) -> Forall2 (same_vec u) l' (map (fun t j => at_ (nth t ys (zeros [])) [b; j]) (seq k (List.length l)))).
    { intros k l l' G. revert k. induction G as [|y o l l' Ho G IH]; intros k Hn; cbn [List.length seq map]; constructor.
      - pose proof (Hn 0%nat ltac:(cbn [List.length]; lia)) as E. rewrite Nat.add_0_r in E. cbn [nth] in E. rewrite E. destruct Ho as (_ & Ho). intros j Hj. symmetry. apply Ho, Hj.
      - apply IH. intros t Ht. specialize (Hn (S t) ltac:(cbn [List.length]; lia)). rewrite Nat.add_succ_r in Hn. cbn [nth] in Hn. exact Hn. }
    apply (G 0%nat ys outs F). intros t _. reflexivity.
  Qed.
  Lemma rnn_rows f u backwards sequences (step : tensor Q -> tensor Q -> prog (tensor Q * tensor Q)) (cell : (nat -> Q) -> (nat -> Q) -> (nat -> Q) * (nat -> Q)) T x y :
    (forall x v s w r, onrow f x v -> onrow u s w -> eval tab (step x s) = Some r -> onrow u (fst r) (fst (cell v w)) /\ onrow u (snd r) (snd (cell v w))) ->
    shape x = [B; T; f] -> eval tab (rnn_prog u backwards sequences step (One x)) = Some y -> returned sequences u b (fst (keras_rnn cell backwards (rows b x) (fun _ => 0))) y.
  Proof.
    intros Hs E. cbn [rnn_prog]. rewrite E. cbv zeta. rewrite eval_then. destruct (eval tab (time_loop _ _ _)) as [ys|] eqn:El; [|discriminate]. cbn [bind]. rewrite eval_lift. intros H.
    assert (F : Forall2 (onrow u) ys (fst (keras_rnn cell backwards (rows b x) (fun _ => 0)))).
    { unfold keras_rnn. refine (loop_rows f u step cell Hs _ _ _ _ _ _ (on_zeros u) El). pose proof (steps_rows x T f E) as S. destruct backwards; [apply Forall2_rev2, S|exact S]. }
    destruct (stack_steps B u ys) as [z|] eqn:Ez; [|discriminate]. cbn [bind] in H. unfold returned. destruct sequences; [apply some_inj in H; subst y; exact (stack_rows _ _ _ _ F Ez)|].
    destruct (Forall2_last _ _ _ (fun _ => 0) F y H) as (N & _ & O). split; [exact N|]. intros j Hj. symmetry. apply O, Hj.
  Qed.

  (** *** QSimpleRNN *)
  Lemma srnn_step_row l f c k rk bias x v s w r : on_numbers (sr_act l) -> rnn_built tab l f -> shape k = [f; sr_units l] -> shape rk = [sr_units l; sr_units l] -> (forall t, bias = Some t -> shape t = [sr_units l]) ->
    c = mk_rnn (sr_units l) f (vq_of (tab (sr_iq l))) (option_map (fun i => vq_of (tab i)) (sr_sq l)) (vq_of (tab (sr_paq l))) (mat_of k) (mat_of rk) (option_map vec_of bias) (sr_act l) ->
    onrow f x v -> onrow (sr_units l) s w -> eval tab (srnn_step l k rk bias x s) = Some r -> onrow (sr_units l) (fst r) (fst (rnn_call c v w)) /\ onrow (sr_units l) (snd r) (snd (rnn_call c v w)).
  Proof.
    intros Ha (R1 & R2 & R3 & _) Ek Erk Eb -> Ox Os. unfold srnn_step. rewrite eval_then. destruct (eval tab (ask_opt (sr_sq l) s)) as [qs|] eqn:E1; [|discriminate]. cbn [bind]. rewrite eval_then, eval_ask.
    destruct (quant_call (tab (sr_iq l)) x) as [qx|] eqn:E2; [|discriminate]. cbn [bind]. rewrite eval_then, eval_lift. pose proof (on_oq _ _ _ _ _ R2 Os E1) as O1. pose proof (on_q _ _ _ _ _ R1 Ox E2) as O2.
    destruct (keras_matmul qx k) as [h|] eqn:E3; [|discriminate]. cbn [bind]. pose proof (on_matmul _ _ _ _ _ _ Ek O2 E3) as O3. destruct (add_bias h bias) as [h2|] eqn:E4; [|discriminate]. cbn [bind]. pose proof (on_bias _ _ _ _ _ O3 Eb E4) as O4.
    destruct (keras_matmul qs rk) as [h3|] eqn:E5; [|discriminate]. cbn [bind]. pose proof (on_matmul _ _ _ _ _ _ Erk O1 E5) as O5. destruct (np_binary Qplus h2 h3) as [o|] eqn:E6; [|discriminate]. cbn [bind]. pose proof (on_binary _ _ _ _ _ _ _ Qplus_ext O4 O5 E6) as O6.
    rewrite eval_then, eval_ask. destruct (quant_call (tab (sr_paq l)) o) as [p|] eqn:E7; [|discriminate]. cbn [bind eval]. cbv zeta. intros H. apply some_inj in H. subst r. pose proof (on_act _ _ _ _ Ha (on_q _ _ _ _ _ R3 O6 E7)) as O7. cbn [fst snd].
    assert (G : onrow (sr_units l) (tmap (sr_act l) p) (fst (rnn_call (mk_rnn (sr_units l) f (vq_of (tab (sr_iq l))) (option_map (fun i => vq_of (tab i)) (sr_sq l)) (vq_of (tab (sr_paq l))) (mat_of k) (mat_of rk) (option_map vec_of bias) (sr_act l)) v w))) by exact O7.
    split; exact G.
  Qed.
  Lemma srnn_row l f T x y : on_numbers (sr_act l) -> rnn_built tab l f -> shape x = [B; T; f] -> eval tab (srnn_prog l (One x)) = Some y ->
    exists c, rnn_of tab l f = Some c /\ returned (sr_sequences l) (sr_units l) b (fst (keras_rnn (rnn_call c) (sr_backwards l) (rows b x) (fun _ => 0))) y.
  Proof.
    intros Ha R Ex. unfold srnn_prog. rewrite eval_then, eval_ask. destruct (quant_call (tab (fst (sr_kernel l))) _) as [k|] eqn:E1; [|discriminate]. cbn [bind]. rewrite eval_then, eval_ask. destruct (quant_call (tab (fst (sr_rkernel l))) _) as [rk|] eqn:E2; [|discriminate]. cbn [bind].
    rewrite eval_then, eval_bias. pose proof R as (_ & _ & _ & K1 & K2 & K3). pose proof (quant_shape _ _ _ E1) as S1. pose proof (quant_shape _ _ _ E2) as S2. rewrite K1 in S1. rewrite K2 in S2. unfold rnn_of. rewrite E1, E2. cbn [bind].
    destruct (sr_bias l) as [[id bs]|] eqn:E3.
    - destruct (quant_call (tab id) bs) as [t|] eqn:E4; [|discriminate]. cbn [bind]. intros H. eexists. split; [reflexivity|]. refine (rnn_rows _ _ _ _ _ _ _ _ _ _ Ex H). intros x0 v s w r Ox Os Er.
      apply (srnn_step_row l f _ k rk (Some t) x0 v s w r Ha R S1 S2); [|reflexivity|exact Ox|exact Os|exact Er]. intros t' [= <-]. rewrite (quant_shape _ _ _ E4). exact (K3 _ _ eq_refl).
    - cbn [bind]. intros H. eexists. split; [reflexivity|]. refine (rnn_rows _ _ _ _ _ _ _ _ _ _ Ex H). intros x0 v s w r Ox Os Er.
      apply (srnn_step_row l f _ k rk None x0 v s w r Ha R S1 S2); [|reflexivity|exact Ox|exact Os|exact Er]. intros t' [=].
  Qed.
End Row.
