(** Lemmas for C69: the layers without quantizers are those of Keras. *)
From Coq Require Import String.
From Verif Require Import Num M_Fixed L_Fixed M_State S_State L_State M_Wrapper M_Mapper S_Mapper L_Mapper M_Contr M_Ebops L_Ebops M_Pow2 M_Patch L_Patch M_Ops L_Ops M_Mirror L_Mirror M_Trace L_Trace M_Table S_Table L_Table M_Softmax M_Net S_Net L_Net L_Net2 L_Net3 M_NetX M_Causal L_Causal M_Calib S_Ops S_Calib L_Calib L_Calib2 L_Calib3 M_Prog M_Rnn S_Rnn L_Rnn S_Prog L_Prog L_Prog2 L_Prog3 L_Prog4 S_Cost S_Limit S_Plain.
Local Open Scope list_scope.

Lemma plain_then {A B} (p : prog A) (f : A -> prog B) : plain (then_ p f) = do a <- plain p; plain (f a).
Proof. induction p as [a| |id x k IH]; cbn [then_ plain bind]; [reflexivity|reflexivity|apply IH]. Qed.
Lemma plain_ask id x : plain (ask id x) = Some x. Proof. reflexivity. Qed.
Lemma plain_ask_opt id x : plain (ask_opt id x) = Some x. Proof. destruct id; reflexivity. Qed.
Lemma plain_lift {A} (o : option A) : plain (lift o) = o. Proof. destruct o; reflexivity. Qed.
Lemma plain_bias (b : option (nat * tensor Q)) : plain (match b with Some (id, b) => run y <- ask id b; Ret (Some y) | None => Ret None end) = Some (option_map snd b).
Proof. destruct b as [[id b]|]; reflexivity. Qed.

Section Row.
  Context (B b : nat) (Hb : (b < B)%nat).
  Notation onrow := (onrow B b).
  Lemma plain_loop f u (step : tensor Q -> tensor Q -> prog (tensor Q * tensor Q)) cell :
    (forall x v s w r, onrow f x v -> onrow u s w -> plain (step x s) = Some r -> onrow u (fst r) (cell v w) /\ onrow u (snd r) (cell v w)) ->
    forall xs vs, Forall2 (onrow f) xs vs -> forall s w ys, onrow u s w -> plain (time_loop step xs s) = Some ys -> Forall2 (onrow u) ys (states cell vs w).
  Proof.
    intros Hs xs vs F. induction F as [|x v xs vs O F IH]; intros s w ys Os E; cbn [time_loop] in E; [apply some_inj in E; subst ys; constructor|].
    rewrite plain_then in E. destruct (plain (step x s)) as [r|] eqn:Er; [|discriminate]. cbn [bind] in E. rewrite plain_then in E. destruct (plain (time_loop step xs (snd r))) as [zs|] eqn:Ez; [|discriminate]. cbn [bind plain] in E. apply some_inj in E. subst ys.
    destruct (Hs _ _ _ _ _ O Os Er) as (O1 & O2). cbn [states]. cbv zeta. constructor; [exact O1|exact (IH _ _ _ O2 Ez)].
  Qed.
  Lemma plain_rnn f u backwards sequences (step : tensor Q -> tensor Q -> prog (tensor Q * tensor Q)) cell T x y :
    (forall x v s w r, onrow f x v -> onrow u s w -> plain (step x s) = Some r -> onrow u (fst r) (cell v w) /\ onrow u (snd r) (cell v w)) ->
    shape x = [B; T; f] -> plain (rnn_prog u backwards sequences step (One x)) = Some y -> returned sequences u b (outputs cell backwards (rows b x)) y.
  Proof.
    intros Hs E. cbn [rnn_prog]. rewrite E. cbv zeta. rewrite plain_then. destruct (plain (time_loop _ _ _)) as [ys|] eqn:El; [|discriminate]. cbn [bind]. rewrite plain_lift. intros H.
    assert (F : Forall2 (onrow u) ys (outputs cell backwards (rows b x))).
    { unfold outputs. refine (plain_loop f u step cell Hs _ _ _ _ _ _ (on_zeros B b u) El). pose proof (steps_rows B b x T f E) as S. destruct backwards; [apply Forall2_rev2, S|exact S]. }
    destruct (stack_steps B u ys) as [z|] eqn:Ez; [|discriminate]. cbn [bind] in H. unfold returned. destruct sequences; [apply some_inj in H; subst y; exact (stack_rows B b Hb _ _ _ _ F Ez)|].
    destruct (Forall2_last _ _ _ (fun _ => 0) F y H) as (N & _ & O). split; [exact N|]. intros j Hj. symmetry. apply O, Hj.
  Qed.
  Definition vrow (t : option (tensor Q)) (j : nat) : Q := match t with Some t => at_ t [j] | None => 0 end.
  Lemma on_vrow n x v bias z : onrow n x v -> (forall t, bias = Some t -> shape t = [n]) -> add_bias x bias = Some z -> onrow n z (fun j => v j + vrow bias j).
  Proof. intros O S E. apply (on_ext B b _ _ _ _ (on_bias B b Hb _ _ _ _ _ O S E)). intros j _. destruct bias as [t|]; cbn [option_map vrow vec_of]; [reflexivity|ring]. Qed.
  Lemma srnn_plain l f T x y : on_numbers (sr_act l) -> rnn_shapes l f -> shape x = [B; T; f] -> plain (srnn_prog l (One x)) = Some y ->
    returned (sr_sequences l) (sr_units l) b (outputs (keras_simple (sr_act l) f (sr_units l) (mat_of (snd (sr_kernel l))) (mat_of (snd (sr_rkernel l))) (bias_row (sr_bias l))) (sr_backwards l) (rows b x)) y.
  Proof.
    intros Ha (K1 & K2 & K3) Ex. unfold srnn_prog. rewrite plain_then, plain_ask. cbn [bind]. rewrite plain_then, plain_ask. cbn [bind]. rewrite plain_then, plain_bias. cbn [bind]. intros H. refine (plain_rnn _ _ _ _ _ _ _ _ _ _ Ex H). clear x y T Ex H.
    intros x v s w r Ox Os. unfold srnn_step. rewrite plain_then, plain_ask_opt. cbn [bind]. rewrite plain_then, plain_ask. cbn [bind]. rewrite plain_then, plain_lift.
    destruct (keras_matmul x _) as [h|] eqn:E3; [|discriminate]. cbn [bind]. pose proof (on_matmul B b Hb _ _ _ _ _ _ K1 Ox E3) as O3. destruct (add_bias h _) as [h2|] eqn:E4; [|discriminate]. cbn [bind].
    assert (Sb : forall t, option_map snd (sr_bias l) = Some t -> shape t = [sr_units l]). { intros t. destruct (sr_bias l) as [[id bs]|]; [|discriminate]. intros [= <-]. exact (K3 _ _ eq_refl). }
    pose proof (on_vrow _ _ _ _ _ O3 Sb E4) as O4. destruct (keras_matmul s _) as [h3|] eqn:E5; [|discriminate]. cbn [bind]. pose proof (on_matmul B b Hb _ _ _ _ _ _ K2 Os E5) as O5.
    destruct (np_binary Qplus h2 h3) as [o|] eqn:E6; [|discriminate]. cbn [bind]. pose proof (on_act B b _ _ _ _ Ha (on_binary B b Hb _ _ _ _ _ _ _ Qplus_ext O4 O5 E6)) as O6.
    rewrite plain_then, plain_ask. cbn [bind plain]. cbv zeta. intros H. apply some_inj in H. subst r. cbn [fst snd].
    assert (G : onrow (sr_units l) (tmap (sr_act l) o) (keras_simple (sr_act l) f (sr_units l) (mat_of (snd (sr_kernel l))) (mat_of (snd (sr_rkernel l))) (bias_row (sr_bias l)) v w)).
    { apply (on_ext B b _ _ _ _ O6). intros j _. unfold keras_simple, dot, vecmat, bias_row, vrow. destruct (sr_bias l) as [[id bs]|]; apply Ha; reflexivity. }
    split; exact G.
  Qed.

  Lemma sgru_plain l f T x y : on_numbers (sg_act l) -> on_numbers (sg_ract l) -> gru_shapes l f -> shape x = [B; T; f] -> plain (sgru_prog l (One x)) = Some y ->
    returned (sg_sequences l) (sg_units l) b (outputs (keras_gru (sg_act l) (sg_ract l) (sg_reset_after l) f (sg_units l) (mat_of (snd (sg_kernel l))) (mat_of (snd (sg_rkernel l)))
      (fst (gru_bias_rows l)) (snd (gru_bias_rows l))) (sg_backwards l) (rows b x)) y.
  Proof.
    intros Ha Hr (K1 & K2 & K3) Ex. unfold sgru_prog. rewrite plain_then, plain_ask. cbn [bind]. rewrite plain_then, plain_ask. cbn [bind]. rewrite plain_then, plain_bias. cbn [bind]. intros H. refine (plain_rnn _ _ _ _ _ _ _ _ _ _ Ex H). clear x y T Ex H.
    intros x v s w r Ox Os. set (k := snd (sg_kernel l)) in *. set (rk := snd (sg_rkernel l)) in *. set (n := sg_units l) in *.
    unfold sgru_step. cbv zeta. fold n. rewrite plain_then, plain_ask. cbn [bind]. rewrite plain_then, plain_ask_opt. cbn [bind]. rewrite plain_then, plain_lift.
    assert (Gb : forall ib rb, gru_biases l (option_map snd (sg_bias l)) = Some (ib, rb) -> (forall t, ib = Some t -> shape t = [(3 * n)%nat]) /\ (forall t, rb = Some t -> shape t = [(3 * n)%nat]) /\ (forall j, vrow ib j = fst (gru_bias_rows l) j) /\ (forall j, vrow rb j = snd (gru_bias_rows l) j) /\ (sg_reset_after l = false -> rb = None)).
    { intros ib rb. unfold gru_biases, gru_bias_rows. destruct (sg_bias l) as [[id t]|]; cbn [option_map snd].
      - specialize (K3 _ _ eq_refl). destruct (sg_reset_after l).
        + rewrite K3. intros [= <- <-]. cbn [fst snd]. split; [intros t' [= <-]; reflexivity|]. split; [intros t' [= <-]; reflexivity|]. split; [reflexivity|]. split; [reflexivity|discriminate].
        + intros [= <- <-]. cbn [fst snd]. split; [intros t' [= <-]; exact K3|]. split; [intros t' [=]|]. split; [reflexivity|]. split; [reflexivity|reflexivity].
      - intros [= <- <-]. cbn [fst snd]. split; [intros t' [=]|]. split; [intros t' [=]|]. split; [reflexivity|]. split; [reflexivity|reflexivity]. }
    destruct (gru_biases l _) as [[ib rb]|] eqn:E3; [|discriminate]. destruct (Gb ib rb eq_refl) as (Sib & Srb & Vib & Vrb & Nrb). clear Gb. cbn [bind].
    set (bi := fst (gru_bias_rows l)) in *. set (br := snd (gru_bias_rows l)) in *.
    destruct (keras_matmul x k) as [m|] eqn:E4; [|discriminate]. cbn [bind]. pose proof (on_matmul B b Hb _ _ _ _ _ _ K1 Ox E4) as Om. destruct (add_bias m ib) as [xm|] eqn:E5; [|discriminate]. cbn [bind].
    assert (Oxm : onrow (3 * n) xm (fun j => dot f v (mat_of k) j + bi j)). { apply (on_ext B b _ _ _ _ (on_vrow _ _ _ _ _ Om Sib E5)). intros j _. rewrite Vib. reflexivity. }
    set (c := if sg_reset_after l then (3 * n)%nat else (2 * n)%nat).
    assert (Oi : forall inner, (if sg_reset_after l then do r <- keras_matmul s rk; add_bias r rb else do rk2 <- cols 0 (2 * n) rk; keras_matmul s rk2) = Some inner -> onrow c inner (fun j => dot n w (mat_of rk) j + br j)).
    { intros inner. unfold c. destruct (sg_reset_after l) eqn:Er.
      - intros H. destruct (keras_matmul s rk) as [t|] eqn:E6; [|discriminate]. cbn [bind] in H. apply (on_ext B b _ _ _ _ (on_vrow _ _ _ _ _ (on_matmul B b Hb _ _ _ _ _ _ K2 Os E6) Srb H)). intros j _. rewrite Vrb. reflexivity.
      - intros H. destruct (cols 0 _ rk) as [rk2|] eqn:E6; [|discriminate]. cbn [bind] in H. apply (on_ext B b _ _ _ _ (on_cols_matmul B b Hb _ _ _ _ _ _ _ _ _ K2 E6 Os H)). intros j _. rewrite <- Vrb, (Nrb eq_refl). cbn [vrow Nat.add]. unfold dot, vecmat. ring. }
    destruct (if sg_reset_after l then do r <- keras_matmul s rk; add_bias r rb else do rk2 <- cols 0 (2 * n) rk; keras_matmul s rk2) as [inner|] eqn:E6; [|discriminate]. specialize (Oi inner eq_refl). cbn [bind]. clear E6.
    destruct (cols 0 _ xm) as [xzr|] eqn:E7; [|discriminate]. cbn [bind]. pose proof (on_cols B b Hb _ _ _ _ _ _ Oxm E7) as Oxzr. destruct (cols 0 _ inner) as [rzr|] eqn:E8; [|discriminate]. cbn [bind]. pose proof (on_cols B b Hb _ _ _ _ _ _ Oi E8) as Orzr.
    destruct (np_binary Qplus xzr rzr) as [t|] eqn:E9; [|discriminate]. cbn [bind]. pose proof (on_act B b _ _ _ _ Hr (on_binary B b Hb _ _ _ _ _ _ _ Qplus_ext Oxzr Orzr E9)) as Ot.
    rewrite plain_then, plain_ask. cbn [bind]. rewrite plain_then, plain_lift. destruct (cols 0 n (tmap _ t)) as [z|] eqn:E11; [|discriminate]. cbn [bind]. destruct (cols n n (tmap _ t)) as [rr|] eqn:E12; [|discriminate]. cbn [bind].
    pose proof (on_cols B b Hb _ _ _ _ _ _ Ot E11) as Oz. pose proof (on_cols B b Hb _ _ _ _ _ _ Ot E12) as Or. cbn [Nat.add] in Oz, Or. clear Oxzr Orzr Ot E7 E8 E9 E11 E12.
    rewrite plain_then. destruct (plain (if sg_reset_after l then _ else _)) as [rh|] eqn:E13; [|discriminate]. cbn [bind]. rewrite plain_then, plain_lift.
    destruct (cols (2 * n) n xm) as [xh|] eqn:E14; [|discriminate]. cbn [bind]. pose proof (on_cols B b Hb _ _ _ _ _ _ Oxm E14) as Oxh.
    destruct (np_binary Qplus xh rh) as [sm|] eqn:E15; [|discriminate]. cbn [bind]. rewrite plain_then, plain_ask. cbn [bind].
    rewrite plain_then, plain_lift. destruct (np_binary Qmult z s) as [a1|] eqn:E17; [|discriminate]. cbn [bind]. destruct (np_binary Qmult _ (tmap _ sm)) as [a2|] eqn:E18; [|discriminate]. cbn [bind].
    destruct (np_binary Qplus a1 a2) as [y|] eqn:E19; [|discriminate]. cbn [bind plain]. intros H. apply some_inj in H. subst r. cbn [fst snd].
    assert (One_minus : on_numbers (fun v => 1 - v)) by (intros p q ->; reflexivity).
    assert (G : onrow n y (keras_gru (sg_act l) (sg_ract l) (sg_reset_after l) f n (mat_of k) (mat_of rk) bi br v w)).
    { unfold c in *. unfold keras_gru. cbv zeta. destruct (sg_reset_after l).
      - rewrite plain_then, plain_lift in E13. destruct (cols (2 * n) _ inner) as [i|] eqn:F1; [|discriminate]. cbn [bind] in E13. rewrite plain_then, plain_ask in E13. cbn [bind] in E13. rewrite plain_lift in E13.
        pose proof (on_binary B b Hb _ _ _ _ _ _ _ Qmult_ext Or (on_cols B b Hb _ _ _ _ _ _ Oi F1) E13) as Orh.
        pose proof (on_act B b _ _ _ _ Ha (on_binary B b Hb _ _ _ _ _ _ _ Qplus_ext Oxh Orh E15)) as Ohh.
        exact (on_binary B b Hb _ _ _ _ _ _ _ Qplus_ext (on_binary B b Hb _ _ _ _ _ _ _ Qmult_ext Oz Os E17) (on_binary B b Hb _ _ _ _ _ _ _ Qmult_ext (on_act B b _ _ _ _ One_minus Oz) Ohh E18) E19).
      - rewrite plain_then, plain_lift in E13. destruct (np_binary Qmult rr s) as [i|] eqn:F1; [|discriminate]. cbn [bind] in E13. rewrite plain_then, plain_ask in E13. cbn [bind] in E13. rewrite plain_lift in E13.
        destruct (cols (2 * n) _ rk) as [rk3|] eqn:F3; [|discriminate]. cbn [bind] in E13.
        pose proof (on_cols_matmul B b Hb _ _ _ _ _ _ _ _ _ K2 F3 (on_binary B b Hb _ _ _ _ _ _ _ Qmult_ext Or Os F1) E13) as Orh.
        pose proof (on_act B b _ _ _ _ Ha (on_binary B b Hb _ _ _ _ _ _ _ Qplus_ext Oxh Orh E15)) as Ohh.
        exact (on_binary B b Hb _ _ _ _ _ _ _ Qplus_ext (on_binary B b Hb _ _ _ _ _ _ _ Qmult_ext Oz Os E17) (on_binary B b Hb _ _ _ _ _ _ _ Qmult_ext (on_act B b _ _ _ _ One_minus Oz) Ohh E18) E19). }
    split; exact G.
  Qed.

  (** *** dense layers and softmax on batches of vectors *)
  Lemma dense_plain iq kq w bias a oq f u x y : on_numbers (act_fn a) -> shape x = [B; f] -> shape w = [f; u] -> (forall id t, bias = Some (id, t) -> shape t = [u]) ->
    plain (layer_prog (layer_of iq kq w bias TDense a oq) (One x)) = Some y -> shape y = [B; u] /\ forall j, (j < u)%nat -> at_ y [b; j] == act_fn a (dot f (row b x) (mat_of w) j + bias_row bias j).
  Proof.
    intros Ha Ex Ew Eb H. unfold layer_prog, layer_of in H. cbn [y_iq y_ws y_op y_oq ask_iq] in H. rewrite plain_then, plain_then, plain_ask in H. cbn [bind plain] in H. rewrite plain_then in H.
    assert (Ws : plain (ask_ws ((Some kq, w) :: bias_weight bias)) = Some (w :: match bias with Some (_, t) => [t] | None => [] end)) by (destruct bias as [[id t]|]; reflexivity).
    rewrite Ws in H. cbn [bind] in H. rewrite plain_then, plain_lift in H. destruct (net_op TDense a _ (One x)) as [z|] eqn:En; [|discriminate]. cbn [bind] in H. rewrite plain_ask_opt in H. apply some_inj in H. subst z.
    assert (E : exists h, (do m <- keras_matmul x w; add_bias m (option_map snd bias)) = Some h /\ y = tmap (act_fn a) h).
    { unfold net_op in En. destruct bias as [[id t]|]; cbn [core_of bind core_call option_map snd] in En |- *; (destruct (do m <- keras_matmul x w; add_bias m _) as [h|]; [|discriminate]); cbn [bind] in En; apply some_inj in En; exists h; split; try reflexivity; symmetry; exact En. }
    destruct E as (h & Eh & ->). destruct (keras_matmul x w) as [m|] eqn:Em; [|discriminate]. cbn [bind] in Eh.
    assert (Ox : onrow f x (row b x)) by (split; [exact Ex|intros j _; reflexivity]). pose proof (on_matmul B b Hb _ _ _ _ _ _ Ew Ox Em) as Om.
    assert (Sb : forall t, option_map snd bias = Some t -> shape t = [u]). { intros t. destruct bias as [[id t']|]; [|discriminate]. intros [= <-]. exact (Eb _ _ eq_refl). }
    pose proof (on_act B b _ _ _ _ Ha (on_vrow _ _ _ _ _ Om Sb Eh)) as (Ey & Oy). split; [exact Ey|]. intros j Hj. specialize (Oy j Hj). unfold row in Oy at 1. rewrite Oy. apply Ha. unfold dot, vecmat, bias_row, vrow. destruct bias as [[id t]|]; reflexivity.
  Qed.
  Lemma row_collect n x : shape x = [B; n] -> collect [1%nat] x [b; 0]%nat = map (row b x) (seq 0 n).
  Proof.
    intros E. unfold collect. rewrite E. cbn [indices]. assert (I1 : flat_map (fun i => map (cons i) [[]]) (seq 0 n) = map (fun j => [j]) (seq 0 n)) by (induction (seq 0 n) as [|j l IH]; [reflexivity|cbn [flat_map map app] in *; rewrite IH; reflexivity]). rewrite I1.
    assert (K : forall l, NoDup l -> In b l -> filter (fun idx => index_eqb (keep [1%nat] idx) [b; 0]%nat) (flat_map (fun i => map (cons i) (map (fun j => [j]) (seq 0 n))) l) = map (fun j => [b; j]) (seq 0 n)).
    { assert (F : forall i, filter (fun idx => index_eqb (keep [1%nat] idx) [b; 0]%nat) (map (cons i) (map (fun j => [j]) (seq 0 n))) = if (i =? b)%nat then map (fun j => [b; j]) (seq 0 n) else []).
      { intros i. rewrite map_map. generalize (seq 0 n). induction l as [|j l IH]; cbn [map filter]; [destruct (i =? b)%nat; reflexivity|]. change (keep [1%nat] [i; j]) with [i; 0]%nat. unfold index_eqb at 1.
        rewrite IH. destruct (list_eq_dec Nat.eq_dec [i; 0]%nat [b; 0]%nat) as [X|X]; destruct (Nat.eqb_spec i b) as [Y|Y]; [rewrite Y; reflexivity|exfalso; apply Y; injection X as X; exact X|exfalso; apply X; rewrite Y; reflexivity|reflexivity]. }
      assert (N : forall l, ~ In b l -> filter (fun idx => index_eqb (keep [1%nat] idx) [b; 0]%nat) (flat_map (fun i => map (cons i) (map (fun j => [j]) (seq 0 n))) l) = []).
      { induction l as [|i l IH]; intros H; cbn [flat_map]; [reflexivity|]. rewrite filter_app, F, IH by (intros X; apply H; right; exact X). destruct (Nat.eqb_spec i b) as [->|]; [exfalso; apply H; left; reflexivity|reflexivity]. }
      induction l as [|i l IH]; intros D H; [destruct H|]. inversion D as [|? ? D1 D2]; subst. cbn [flat_map]. rewrite filter_app, F. destruct (Nat.eqb_spec i b) as [->|Hn]; [rewrite (N l D1), app_nil_r; reflexivity|].
      destruct H as [H|H]; [contradiction|]. cbn [app]. exact (IH D2 H). }
    rewrite K; [|apply seq_NoDup|apply in_seq; lia]. rewrite map_map. reflexivity.
  Qed.
  Lemma on_reduce f n x : shape x = [B; n] -> onrow 1 (np_reduce f [1%nat] true x) (fun _ => f (map (row b x) (seq 0 n))).
  Proof. intros E. unfold np_reduce. split; [cbn [reduce_keep shape]; rewrite E; reflexivity|]. intros j Hj. assert (j = 0%nat) by lia. subst j. unfold row at 1. cbn [reduce_keep at_]. rewrite (row_collect n x E). reflexivity. Qed.
  Lemma on_binary_1 (f : Q -> Q -> Q) n x y u v z : (forall a b c d, a == b -> c == d -> f a c == f b d) -> onrow 1 x u -> onrow n y v -> np_binary f x y = Some z -> onrow n z (fun j => f (u 0%nat) (v j)).
  Proof.
    intros Hf (Ex & U) (Ey & V). unfold np_binary. rewrite Ex, Ey. cbn [List.length Nat.max]. unfold lpad. cbn [List.length Nat.sub repeat app join_shape]. rewrite jd. cbn [bind]. change (join_dim 1 n) with (Some n). cbn [bind]. intros H. apply some_inj in H. subst z. split; [reflexivity|].
    intros j Hj. unfold row. cbn [at_]. unfold bcast_at, lpad. rewrite Ex, Ey. cbn [List.length Nat.sub repeat app skipn bcast_index Nat.eqb]. rewrite (bi B b Hb B b B Hb eq_refl), (bi B b Hb n j n Hj eq_refl). apply Hf; [apply (U 0%nat); lia|apply V, Hj].
  Qed.
  Lemma on_binary_2 (f : Q -> Q -> Q) n x y u v z : (forall a b c d, a == b -> c == d -> f a c == f b d) -> onrow n x u -> onrow 1 y v -> np_binary f x y = Some z -> onrow n z (fun j => f (u j) (v 0%nat)).
  Proof.
    intros Hf (Ex & U) (Ey & V). unfold np_binary. rewrite Ex, Ey. cbn [List.length Nat.max]. unfold lpad. cbn [List.length Nat.sub repeat app join_shape]. rewrite jd. cbn [bind].
    assert (J : join_dim n 1 = Some n) by (unfold join_dim; destruct (Nat.eqb_spec n 1) as [->|]; reflexivity). rewrite J. cbn [bind]. intros H. apply some_inj in H. subst z. split; [reflexivity|].
    intros j Hj. unfold row. cbn [at_]. unfold bcast_at, lpad. rewrite Ex, Ey. cbn [List.length Nat.sub repeat app skipn bcast_index Nat.eqb]. rewrite (bi B b Hb B b B Hb eq_refl), (bi B b Hb n j n Hj eq_refl). apply Hf; [apply U, Hj|apply (V 0%nat); lia].
  Qed.
  Lemma qmax_is l : l <> [] -> In (qmax_of l) l \/ exists v, In v l /\ v == qmax_of l.
  Proof.
    induction l as [|a l IH]; intros H; [contradiction|]. right. destruct l as [|c l]; [exists a; split; [left; reflexivity|reflexivity]|]. assert (M : exists v, In v (c :: l) /\ v == qmax_of (c :: l)) by (destruct (IH ltac:(discriminate)) as [X|X]; [exists (qmax_of (c :: l)); split; [exact X|reflexivity]|exact X]).
    destruct M as (v & Hv & E). change (qmax_of (a :: c :: l)) with (Qmax a (qmax_of (c :: l))). destruct (Q.max_dec a (qmax_of (c :: l))) as [X|X]; [exists a; split; [left; reflexivity|symmetry; exact X]|exists v; split; [right; exact Hv|rewrite X; exact E]].
  Qed.
  Lemma qmax_above l v : In v l -> v <= qmax_of l.
  Proof.
    induction l as [|a l IH]; intros H; [destruct H|]. destruct l as [|c l]; [destruct H as [<-|[]]; apply Qle_refl|]. change (qmax_of (a :: c :: l)) with (Qmax a (qmax_of (c :: l))). destruct H as [<-|H]; [apply Q.le_max_l|]. eapply Qle_trans; [exact (IH H)|apply Q.le_max_r].
  Qed.
  Lemma soft_plain l n x y : on_numbers (so_exp l) -> on_numbers (so_inv l) -> so_axes l = [1%nat] -> so_mask l = None -> shape x = [B; n] -> (0 < n)%nat -> plain (ssoft_prog l (One x)) = Some y ->
    exists g, is_softmax (so_exp l) (so_inv l) n g (row b y) /\ if so_stable l then exists m, greatest n (row b x) m /\ same_vec n g (fun j => m - row b x j) else same_vec n g (row b x).
  Proof.
    intros He Hi Ax Mk Ex Hn. cbn [ssoft_prog]. unfold ssoft_core. rewrite Ax, Mk. rewrite plain_then, plain_ask_opt. cbn [bind]. rewrite plain_then, plain_lift. intros H.
    assert (Ox : onrow n x (row b x)) by (split; [exact Ex|intros j _; reflexivity]).
    destruct (if so_stable l then _ else _) as [d|] eqn:Ed; [|discriminate]. cbn [bind] in H.
    assert (Od : exists g, onrow n d g /\ if so_stable l then exists m, greatest n (row b x) m /\ same_vec n g (fun j => m - row b x j) else same_vec n g (row b x)).
    { destruct (so_stable l); [|apply some_inj in Ed; subst d; exists (row b x); split; [exact Ox|intros j _; reflexivity]]. cbn [bind] in Ed.
      pose proof (on_binary_1 Qminus _ _ _ _ _ _ (fun a b c d E F => Qplus_ext _ _ _ _ E (Qopp_comp _ _ F)) (on_reduce qmax_of n x Ex) Ox Ed) as O. eexists. split; [exact O|]. exists (qmax_of (map (row b x) (seq 0 n))). split; [|intros j _; reflexivity]. split.
      - destruct (qmax_is (map (row b x) (seq 0 n))) as [X|(v & X & E)]; [destruct n; [lia|discriminate]| |]; apply in_map_iff in X as (k & Ek & Hk); apply in_seq in Hk; exists k; (split; [lia|]); rewrite Ek; [reflexivity|exact E].
      - intros k Hk. apply qmax_above, in_map, in_seq. lia. }
    destruct Od as (g & Od & Sg). exists g. split; [|exact Sg]. clear Sg Ed.
    rewrite plain_then, plain_ask_opt in H. cbn [bind] in H. rewrite plain_then, plain_ask in H. cbn [bind] in H. rewrite plain_then, plain_lift in H. cbn [bind] in H. rewrite plain_then, plain_ask in H. cbn [bind] in H. rewrite plain_then, plain_ask in H. cbn [bind] in H. rewrite plain_then, plain_lift in H.
    pose proof (on_act B b _ _ _ _ He Od) as Oe. destruct (np_binary Qmult _ _) as [z|] eqn:Ez; [|discriminate]. cbn [bind] in H. rewrite plain_ask_opt in H. apply some_inj in H. subst z.
    pose proof (on_act B b _ _ _ _ Hi (on_reduce qsum n _ (proj1 Oe))) as Oi. pose proof (on_binary_2 Qmult _ _ _ _ _ _ Qmult_ext Oe Oi Ez) as (_ & O). intros j Hj. rewrite (O j Hj). apply Qmult_ext; [reflexivity|]. apply Hi. apply qsum_ext. intros k Hk. apply (proj2 Oe). apply in_seq in Hk. lia.
  Qed.
End Row.

(** ** limits *)
From Verif Require Import L_Limit L_Limit2 L_Limit3 L_Limit4 L_Limit5.
Local Open Scope list_scope.
Lemma continuous_numbers f : continuous f -> on_numbers f.
Proof.
  intros C p q E. destruct (Qeq_dec (f p) (f q)) as [|N]; [assumption|exfalso]. assert (P : 0 < Qabs (f p - f q)). { destruct (Qlt_le_dec 0 (Qabs (f p - f q))) as [L|L]; [exact L|]. exfalso. apply N. apply Qabs_Qle_condition in L. lra. }
  destruct (C q (Qabs (f p - f q)) P) as (d & Pd & H). assert (L : Qabs (f p - f q) < Qabs (f p - f q)). { apply H. setoid_replace (p - q) with 0 by (rewrite E; ring). exact Pd. } lra.
Qed.
Lemma plain_rnn_shape u backwards step x y B T f : shape x = [B; T; f] -> plain (rnn_prog u backwards true step (One x)) = Some y -> exists T', shape y = [B; T'; u].
Proof.
  intros E. cbn [rnn_prog]. rewrite E. cbv zeta. rewrite plain_then. destruct (plain (time_loop _ _ _)) as [ys|]; [|discriminate]. cbn [bind]. rewrite plain_lift. unfold stack_steps. destruct (forallb _ ys); [|discriminate]. cbn [bind].
  intros H. apply some_inj in H. subst y. exists (List.length ys). reflexivity.
Qed.
Lemma states_length cell xs : forall h, List.length (states cell xs h) = List.length xs.
Proof. induction xs as [|x xs IH]; intros h; cbn [states List.length]; [reflexivity|]. cbv zeta. rewrite IH. reflexivity. Qed.
Lemma returned_nth cell backwards B T f u b x y t j : shape x = [B; T; f] -> (exists T', shape y = [B; T'; u]) -> returned true u b (outputs cell backwards (rows b x)) y -> (b < B)%nat -> (t < T)%nat -> (j < u)%nat ->
  valid_index (shape y) [b; t; j] /\ nth t (outputs cell backwards (rows b x)) (fun _ => 0) j == at_ y [b; t; j].
Proof.
  intros Ex (T' & Ey) R Hb Ht Hj. cbn [returned] in R. unfold same_seq in R. set (outs := outputs cell backwards (rows b x)) in *.
  assert (L : List.length outs = T). { unfold outs, outputs. rewrite states_length. unfold rows. rewrite Ex. cbn [nth]. destruct backwards; rewrite ?rev_length, map_length, seq_length; reflexivity. }
  assert (L' : List.length outs = T'). { rewrite (Forall2_len _ _ _ R). unfold rows. rewrite Ey, map_length, seq_length. reflexivity. }
  split; [rewrite Ey; repeat constructor; lia|]. assert (G : forall us vs, Forall2 (same_vec u) us vs -> forall t, (t < List.length us)%nat -> nth t us (fun _ => 0) j == nth t vs (fun _ => 0) j).
  { induction 1 as [|a c us vs S F IH]; intros w Hw; cbn [List.length] in Hw; [lia|]. destruct w as [|w]; cbn [nth]; [apply S, Hj|apply IH; lia]. }
  rewrite (G _ _ R t ltac:(lia)). unfold rows. rewrite Ey. cbn [nth]. rewrite (nth_indep _ (fun _ => 0) ((fun t j => at_ y [b; t; j]) 0%nat)) by (rewrite map_length, seq_length; lia).
  rewrite (map_nth (fun t j => at_ y [b; t; j])), seq_nth by lia. reflexivity.
Qed.
Lemma srnn_limit tab l f B T x y Y b t j : widening tab -> continuous (sr_act l) -> rnn_shapes l f -> sr_sequences l = true -> shape x = [B; T; f] -> plain (srnn_prog l (One x)) = Some y -> (forall n, eval (tab n) (srnn_prog l (One x)) = Some (Y n)) ->
  (b < B)%nat -> (t < T)%nat -> (j < sr_units l)%nat ->
  tends (fun n => at_ (Y n) [b; t; j]) (nth t (outputs (keras_simple (sr_act l) f (sr_units l) (mat_of (snd (sr_kernel l))) (mat_of (snd (sr_rkernel l))) (bias_row (sr_bias l))) (sr_backwards l) (rows b x)) (fun _ => 0) j).
Proof.
  intros W C R Sq Ex Ey EY Hb Ht Hj. pose proof (layer_limit (srnn_prog l) tab (fun _ => x) x Y y W (smooth_rnn l C) (tends_refl x) Ey EY) as (_ & Tn).
  pose proof (srnn_plain B b Hb l f T x y (continuous_numbers _ C) R Ex Ey) as Rt. rewrite Sq in Rt.
  assert (Sy : exists T', shape y = [B; T'; sr_units l]). { unfold srnn_prog in Ey. rewrite plain_then, plain_ask in Ey. cbn [bind] in Ey. rewrite plain_then, plain_ask in Ey. cbn [bind] in Ey. rewrite plain_then, plain_bias in Ey. cbn [bind] in Ey. rewrite Sq in Ey. exact (plain_rnn_shape _ _ _ _ _ _ _ _ Ex Ey). }
  destruct (returned_nth _ _ _ _ _ _ _ _ _ t j Ex Sy Rt Hb Ht Hj) as (V & E). eapply tends_ext; [| |exact (Tn _ V)]; [intros n; reflexivity|symmetry; exact E].
Qed.
Lemma sgru_limit tab l f B T x y Y b t j : widening tab -> continuous (sg_act l) -> continuous (sg_ract l) -> gru_shapes l f -> sg_sequences l = true -> shape x = [B; T; f] -> plain (sgru_prog l (One x)) = Some y -> (forall n, eval (tab n) (sgru_prog l (One x)) = Some (Y n)) ->
  (b < B)%nat -> (t < T)%nat -> (j < sg_units l)%nat ->
  tends (fun n => at_ (Y n) [b; t; j]) (nth t (outputs (keras_gru (sg_act l) (sg_ract l) (sg_reset_after l) f (sg_units l) (mat_of (snd (sg_kernel l))) (mat_of (snd (sg_rkernel l)))
      (fst (gru_bias_rows l)) (snd (gru_bias_rows l))) (sg_backwards l) (rows b x)) (fun _ => 0) j).
Proof.
  intros W C Cr R Sq Ex Ey EY Hb Ht Hj. pose proof (layer_limit (sgru_prog l) tab (fun _ => x) x Y y W (smooth_gru l C Cr) (tends_refl x) Ey EY) as (_ & Tn).
  pose proof (sgru_plain B b Hb l f T x y (continuous_numbers _ C) (continuous_numbers _ Cr) R Ex Ey) as Rt. rewrite Sq in Rt.
  assert (Sy : exists T', shape y = [B; T'; sg_units l]). { unfold sgru_prog in Ey. rewrite plain_then, plain_ask in Ey. cbn [bind] in Ey. rewrite plain_then, plain_ask in Ey. cbn [bind] in Ey. rewrite plain_then, plain_bias in Ey. cbn [bind] in Ey. rewrite Sq in Ey. exact (plain_rnn_shape _ _ _ _ _ _ _ _ Ex Ey). }
  destruct (returned_nth _ _ _ _ _ _ _ _ _ t j Ex Sy Rt Hb Ht Hj) as (V & E). eapply tends_ext; [| |exact (Tn _ V)]; [intros n; reflexivity|symmetry; exact E].
Qed.
