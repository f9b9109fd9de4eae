(** Lemmas for C59: inference with the calibrated quantizers as a model for the tracer. *)
From Coq Require Import String.
From Verif Require Import Num M_Fixed L_Fixed M_State M_Wrapper M_Mapper S_Mapper L_Mapper M_Contr M_Ebops L_Ebops M_Pow2 M_Patch L_Patch M_Ops L_Ops M_Mirror L_Mirror M_Trace S_Trace L_Trace M_Net S_Net L_Net L_Net3 L_Net5 M_Causal L_Causal M_Calib S_Ops S_Calib L_Calib L_Calib2.
Local Open Scope list_scope.

Section Frozen.
  Context (tab : nat -> quant).
  Lemma infer_q st id x : sametab (n_tab st) tab ->
    match quant_call (tab id) x with Some y => exists st', call_q Infer st id x = Some (st', y) /\ sametab (n_tab st') tab | None => call_q Infer st id x = None end.
  Proof.
    intros T. unfold call_q. rewrite (T id), step_infer. destruct (quant_call (tab id) x) as [y|]; [|reflexivity]. cbn [bind]. eexists. split; [reflexivity|]. intros j. cbn [n_tab].
    destruct (Nat.eqb_spec j id) as [->|]; [reflexivity|apply T].
  Qed.
  Lemma infer_qs ids : forall st xs st' ys, sametab (n_tab st) tab -> call_qs Infer st ids xs = Some (st', ys) -> sametab (n_tab st') tab /\ List.length ids = List.length xs /\ map2o (map tab ids) quant_call xs = Some ys.
  Proof.
    induction ids as [|id ids IH]; intros st xs st' ys T H; destruct xs as [|x xs]; cbn [call_qs] in H; try discriminate.
    - injection H as <- <-. repeat split. exact T.
    - pose proof (infer_q st id x T) as Q. cbn [map map2o]. destruct (quant_call (tab id) x) as [y|]; [|rewrite Q in H; discriminate]. destruct Q as (st1 & E & T1). rewrite E in H. cbn [bind] in H.
      destruct (call_qs Infer st1 ids xs) as [[st2 os]|] eqn:R; [|discriminate]. cbn [bind] in H. injection H as <- <-. destruct (IH _ _ _ _ T1 R) as (T2 & L & M). cbn [bind List.length]. rewrite L, M. repeat split. exact T2.
  Qed.
  Lemma infer_iq iq st x st' y : sametab (n_tab st) tab -> call_iq Infer st iq x = Some (st', y) ->
    sametab (n_tab st') tab /\ match frozen_iq tab iq with Some q => iq_call q x = Some y | None => y = x end.
  Proof.
    intros T H. destruct iq as [|id|ids]; cbn [call_iq frozen_iq] in *.
    - injection H as <- <-. split; [exact T|reflexivity].
    - destruct x as [x|]; [|discriminate]. pose proof (infer_q st id x T) as Q. cbn [iq_call]. destruct (quant_call (tab id) x) as [z|]; [|rewrite Q in H; discriminate]. destruct Q as (st1 & E & T1). rewrite E in H. cbn [bind] in *.
      injection H as <- <-. split; [exact T1|reflexivity].
    - destruct x as [|xs]; [discriminate|]. destruct (call_qs Infer st ids xs) as [[st1 zs]|] eqn:E; [|discriminate]. cbn [bind] in H. injection H as <- <-. destruct (infer_qs _ _ _ _ _ T E) as (T1 & L & M).
      split; [exact T1|]. cbn [iq_call]. rewrite map_length, L, Nat.eqb_refl, M. reflexivity.
  Qed.
  Lemma infer_ws ws : forall st st' ys, sametab (n_tab st) tab -> call_ws Infer st ws = Some (st', ys) -> sametab (n_tab st') tab /\ frozen_ws tab ws = Some ys.
  Proof.
    unfold frozen_ws. induction ws as [|[[id|] w] ws IH]; intros st st' ys T H; cbn [call_ws] in H; cbn [map fst snd opt_all].
    - injection H as <- <-. split; [exact T|reflexivity].
    - pose proof (infer_q st id w T) as Q. destruct (quant_call (tab id) w) as [y|]; [|rewrite Q in H; discriminate]. destruct Q as (st1 & E & T1). rewrite E in H. cbn [bind] in H.
      destruct (call_ws Infer st1 ws) as [[st2 os]|] eqn:R; [|discriminate]. cbn [bind] in H. injection H as <- <-. destruct (IH _ _ _ T1 R) as (T2 & M). rewrite M. split; [exact T2|reflexivity].
    - destruct (call_ws Infer st ws) as [[st2 os]|] eqn:R; [|discriminate]. cbn [bind] in H. injection H as <- <-. destruct (IH _ _ _ T R) as (T2 & M). rewrite M. split; [exact T2|reflexivity].
  Qed.
  Lemma one_arg_of x : one_arg [varg_of x] = Some x.
  Proof.
    destruct x as [v|vs]; [reflexivity|]. cbn [varg_of one_arg]. assert (E : all_arr (map VArr vs) = Some vs) by (induction vs as [|v vs IH]; [reflexivity|]; cbn [map all_arr]; rewrite IH; reflexivity). rewrite E. reflexivity.
  Qed.
  Lemma infer_layer iq ws t a oq st x st' y : sametab (n_tab st) tab -> layer_call Infer (mk_clayer iq ws (net_op t a) oq) st x = Some (st', y) ->
    sametab (n_tab st') tab /\ exists l, frozen_layer tab iq ws t a oq = Some l /\ keras_layer l [varg_of x] [] = Some [("final"%string, [y])].
  Proof.
    intros T H. unfold layer_call in H. cbn [y_iq y_ws y_op y_oq] in H. destruct (call_iq Infer st iq x) as [[st1 x1]|] eqn:E1; [|discriminate]. cbn [bind] in H.
    destruct (call_ws Infer st1 ws) as [[st2 qs]|] eqn:E2; [|discriminate]. cbn [bind] in H. destruct (net_op t a qs x1) as [z|] eqn:E3; [|discriminate]. cbn [bind] in H.
    destruct (infer_iq _ _ _ _ _ T E1) as (T1 & F1). destruct (infer_ws _ _ _ _ T1 E2) as (T2 & F2). unfold net_op in E3. destruct (core_of t qs) as [c|] eqn:Ec; [|discriminate]. cbn [bind] in E3.
    destruct (core_call c x1) as [r|] eqn:Er; [|discriminate]. cbn [bind] in E3. apply some_inj in E3. subst z.
    assert (K : forall w, (match option_map tab oq with Some q => quant_call q (tmap (act_fn a) r) | None => Some (tmap (act_fn a) r) end) = Some w ->
      keras_layer (LQ (frozen_iq tab iq) c a (option_map tab oq)) [varg_of x] [] = Some [("final"%string, [w])]).
    { intros w Hw. unfold keras_layer. rewrite one_arg_of. cbn [bind training_off]. destruct (frozen_iq tab iq) as [q|]; [rewrite F1|subst x1]; cbn [bind]; rewrite Er; cbn [bind]; rewrite Hw; reflexivity. }
    unfold frozen_layer. rewrite F2. cbn [bind]. rewrite Ec. cbn [bind]. destruct oq as [id|]; cbn [option_map] in *.
    - pose proof (infer_q st2 id (tmap (act_fn a) r) T2) as Q. destruct (quant_call (tab id) _) as [w|] eqn:Ew; [|rewrite Q in H; discriminate]. destruct Q as (st3 & E & T3). rewrite E in H. injection H as <- <-.
      split; [exact T3|]. eexists. split; [reflexivity|]. apply K. reflexivity.
    - injection H as <- <-. split; [exact T2|]. eexists. split; [reflexivity|]. apply K. reflexivity.
  Qed.

  (** what a pass computed, node by node *)
  Definition explained (vs : list (tensor Q)) (k : nat) (n : tnode) : Prop :=
    exists x y l, args_of vs (x_args n) = Some x /\ (forall i, In i (indices_in (x_args n)) -> (i < k)%nat) /\ nth_error vs k = Some y /\
      frozen tab n = Some l /\ keras_layer l [varg_of x] [] = Some [("final"%string, [y])].
  Lemma nth_error_lt {A} (l : list A) i x : nth_error l i = Some x -> (i < List.length l)%nat.
  Proof. intros H. apply nth_error_Some. congruence. Qed.
  Lemma value_app env ex i x : value env i = Some x -> value (env ++ ex) i = Some x.
  Proof. unfold value. intros H. rewrite nth_error_app1; [exact H|exact (nth_error_lt _ _ _ H)]. Qed.
  Lemma args_app env ex a x : args_of env a = Some x -> args_of (env ++ ex) a = Some x /\ forall i, In i (indices_in a) -> (i < List.length env)%nat.
  Proof.
    destruct a as [i|is]; cbn [args_of indices_in]; intros H.
    - destruct (value env i) as [v|] eqn:E; [|discriminate]. rewrite (value_app _ ex _ _ E). split; [exact H|]. intros j [<-|[]]. exact (nth_error_lt _ _ _ E).
    - destruct (opt_all (map (value env) is)) as [vs|] eqn:E; [|discriminate]. cbn [bind] in H. assert (G : opt_all (map (value (env ++ ex)) is) = Some vs /\ forall i, In i is -> (i < List.length env)%nat).
      { clear H. revert vs E. induction is as [|i is IH]; intros vs E; cbn [map opt_all] in *; [split; [exact E|intros i []]|].
        destruct (value env i) as [v|] eqn:Ei; [|discriminate]. destruct (opt_all (map (value env) is)) as [vs0|]; [|discriminate]. rewrite (value_app _ ex _ _ Ei). destruct (IH _ eq_refl) as (-> & B). split; [exact E|].
        intros j [<-|Hj]; [exact (nth_error_lt _ _ _ Ei)|exact (B j Hj)]. }
      destruct G as (-> & B). split; [exact H|exact B].
  Qed.
  Lemma pass_explained net : forall st env st' vs, sametab (n_tab st) tab -> run_nodes Infer (map node_of net) st env = Some (st', vs) ->
    exists ex, vs = env ++ ex /\ forall j n, nth_error net j = Some n -> explained vs (List.length env + j) n.
  Proof.
    induction net as [|n net IH]; intros st env st' vs T H; cbn [map run_nodes] in H.
    - injection H as <- <-. exists []. split; [symmetry; apply app_nil_r|]. intros [|j] n H; discriminate.
    - cbn [node_of d_args d_layer] in H. destruct (args_of env (x_args n)) as [x|] eqn:Ea; [|discriminate]. cbn [bind] in H. destruct (layer_call Infer _ st x) as [[st1 y]|] eqn:El; [|discriminate]. cbn [bind] in H.
      destruct (infer_layer _ _ _ _ _ _ _ _ _ T El) as (T1 & l & Fl & Kl). destruct (IH _ _ _ _ T1 H) as (ex & -> & P). exists (y :: ex). split; [rewrite <- app_assoc; reflexivity|].
      intros [|j] n' Hn; cbn [nth_error] in Hn.
      + apply some_inj in Hn. subst n'. rewrite <- app_assoc. destruct (args_app env ([y] ++ ex) _ _ Ea) as (A & B). exists x, y, l. split; [exact A|]. rewrite Nat.add_0_r. split; [exact B|].
        split; [rewrite nth_error_app2, Nat.sub_diag by lia; reflexivity|]. split; assumption.
      + specialize (P j n' Hn). rewrite app_length in P. cbn [List.length] in P. replace (List.length env + S j)%nat with (List.length env + 1 + j)%nat by lia. exact P.
  Qed.
End Frozen.

(** *** the model for the tracer *)
Lemma model_nodes_in ls : forall n d os, In (d, os) (model_nodes n ls) <-> exists j l a, nth_error ls j = Some (l, a) /\ d = (List.length ls - 1 - j)%nat /\
  os = [mk_op (KLayer l) "layer"%string [model_arg a] [] [dec (n + j)] (map dec (indices_in a))].
Proof.
  induction ls as [|[l a] ls IH]; intros n d os; cbn [model_nodes].
  - split; [intros []|]. intros ([|j] & l & a & H & _); discriminate.
  - cbn [In]. rewrite IH. split.
    + intros [E|(j & l' & a' & H & Hd & Ho)].
      * injection E as <- <-. exists 0%nat, l, a. cbn [nth_error List.length]. rewrite Nat.add_0_r. split; [reflexivity|]. split; [lia|reflexivity].
      * exists (S j), l', a'. cbn [nth_error List.length]. split; [exact H|]. split; [subst d; lia|]. rewrite <- Nat.add_succ_comm. exact Ho.
    + intros ([|j] & l' & a' & H & Hd & Ho); cbn [nth_error List.length] in *.
      * injection H as <- <-. left. rewrite Nat.add_0_r in Ho. subst. repeat f_equal; lia.
      * right. exists j, l', a'. split; [exact H|]. split; [subst d; lia|]. rewrite <- Nat.add_succ_comm in Ho. exact Ho.
Qed.
Lemma model_nodes_depths ls : forall n, map fst (model_nodes n ls) = rev (seq 0 (List.length ls)).
Proof. induction ls as [|[l a] ls IH]; intros n; [reflexivity|]. cbn [model_nodes map fst List.length]. rewrite IH, seq_S, rev_app_distr. reflexivity. Qed.

Definition val_of (vs : list (tensor Q)) (t : string) : option (tensor Q) := assoc t (combine (map dec (seq 0 (List.length vs))) vs).
Lemma val_of_dec vs i : val_of vs (dec i) = nth_error vs i.
Proof.
  unfold val_of. assert (G : forall k, assoc (dec (k + i)) (combine (map dec (seq k (List.length vs))) vs) = nth_error vs i).
  { revert i. induction vs as [|v vs IH]; intros i k; [destruct i; reflexivity|]. cbn [List.length seq map combine assoc]. destruct (String.eqb_spec (dec (k + i)) (dec k)) as [E|N].
    - apply dec_inj in E. assert (i = 0%nat) by lia. subst i. reflexivity.
    - destruct i as [|i]; [rewrite Nat.add_0_r in N; congruence|]. cbn [nth_error]. rewrite <- Nat.add_succ_comm. apply IH. }
  exact (G 0%nat).
Qed.
Lemma vals_of vs is xs : opt_all (map (value vs) is) = Some xs -> map (fun i => nth_error vs i) is = map Some xs.
Proof.
  revert xs. induction is as [|i is IH]; intros xs H; cbn [map opt_all] in *; [apply some_inj in H; subst xs; reflexivity|]. unfold value in *. destruct (nth_error vs i) as [v|]; [|discriminate].
  destruct (opt_all (map (fun i0 => nth_error vs i0) is)) as [xs0|] eqn:E; [|discriminate]. apply some_inj in H. subst xs. cbn [map]. f_equal. apply IH. reflexivity.
Qed.
Lemma arg_val vs a x : args_of vs a = Some x -> arg_value (val_of vs) (model_arg a) = Some (varg_of x).
Proof.
  destruct a as [i|is]; cbn [args_of model_arg]; intros H.
  - destruct (value vs i) as [v|] eqn:E; [|discriminate]. cbn [bind] in H. apply some_inj in H. subst x. cbn [arg_value varg_of]. rewrite val_of_dec. unfold value in E. rewrite E. reflexivity.
  - destruct (opt_all (map (value vs) is)) as [xs|] eqn:E; [|discriminate]. cbn [bind] in H. apply some_inj in H. subst x. cbn [arg_value varg_of].
    assert (G : opt_all (map (arg_value (val_of vs)) (map (fun i => ATensor (dec i)) is)) = Some (map VArr xs)).
    { revert xs E. induction is as [|i is IH]; intros xs E; cbn [map opt_all] in *; [apply some_inj in E; subst xs; reflexivity|]. cbn [arg_value]. rewrite val_of_dec. unfold value in E at 1. destruct (nth_error vs i) as [v|]; [|discriminate].
      destruct (opt_all (map (value vs) is)) as [xs0|]; [|discriminate]. apply some_inj in E. subst xs. rewrite (IH _ eq_refl). reflexivity. }
    rewrite G. reflexivity.
Qed.
Lemma opt_all_nth {A B} (f : A -> option B) l r : opt_all (map f l) = Some r -> List.length r = List.length l /\ forall j, match nth_error l j with Some a => exists b, nth_error r j = Some b /\ f a = Some b | None => nth_error r j = None end.
Proof.
  revert r. induction l as [|a l IH]; intros r H; cbn [map opt_all] in H.
  - apply some_inj in H. subst r. split; [reflexivity|]. intros [|j]; reflexivity.
  - destruct (f a) as [b|] eqn:E; [|discriminate]. destruct (opt_all (map f l)) as [r0|]; [|discriminate]. apply some_inj in H. subst r. destruct (IH _ eq_refl) as (L & P). split; [cbn [List.length]; rewrite L; reflexivity|].
    intros [|j]; cbn [nth_error]; [exists b; auto|apply P].
Qed.
(** the layers of the model: frozen at the end of the calibration *)
Lemma frozen_exists tab vs net k : (forall j n, nth_error net j = Some n -> explained tab vs (k + j) n) -> exists ls, frozen_nodes tab net = Some ls.
Proof.
  unfold frozen_nodes. revert k. induction net as [|n net IH]; intros k H; [exists []; reflexivity|]. cbn [map opt_all].
  destruct (H 0%nat n eq_refl) as (x & y & l & _ & _ & _ & -> & _). cbn [bind]. destruct (IH (S k)) as (ls & ->); [|eexists; reflexivity]. intros j n' Hn. rewrite Nat.add_succ_comm. apply H. exact Hn.
Qed.
Lemma frozen_evaluates tab net ins vs ls outs ys : (exists ex, vs = ins ++ ex) -> (forall j n, nth_error net j = Some n -> explained tab vs (List.length ins + j) n) ->
  frozen_nodes tab net = Some ls -> map (value vs) outs = map Some ys -> evaluates keras_layer 1 (model_of (List.length ins) ls outs) ins ys.
Proof.
  intros (ex & Ev) P F O. exists (val_of vs). destruct (opt_all_nth _ _ _ F) as (L & N). split; [|split].
  - cbn [model_of m_inputs]. rewrite map_map. rewrite (map_ext _ (fun i => nth_error vs i) (val_of_dec vs)). subst vs. clear. assert (G : forall pre, map (fun i => nth_error (pre ++ ins ++ ex) i) (seq (List.length pre) (List.length ins)) = map Some ins).
    { induction ins as [|x ins IH]; intros pre; [reflexivity|]. cbn [List.length seq map]. f_equal; [rewrite nth_error_app2, Nat.sub_diag by lia; reflexivity|]. specialize (IH (pre ++ [x])). rewrite app_length in IH. cbn [List.length] in IH. rewrite Nat.add_1_r in IH. rewrite <- app_assoc in IH. exact IH. }
    exact (G []).
  - cbn [model_of m_outputs]. rewrite map_map, <- O. apply map_ext. apply val_of_dec.
  - intros o Ho Ni. unfold all_ops in Ho. cbn [model_of m_nodes_by_depth flat_map snd] in Ho. cbn [app] in Ho. destruct Ho as [<-|Ho]; [discriminate|].
    apply in_flat_map in Ho as ((d & os) & Hin & Ho). cbn [snd] in Ho. apply model_nodes_in in Hin as (j & l & a & Hj & _ & ->). destruct Ho as [<-|[]].
    specialize (N j). destruct (nth_error net j) as [n|] eqn:En; [|rewrite N in Hj; discriminate]. destruct N as ((l' & a') & E1 & E2). rewrite Hj in E1. injection E1 as <- <-.
    destruct (frozen tab n) as [l0|] eqn:Fl; [|discriminate]. cbn [bind] in E2. injection E2 as -> <-.
    destruct (P j n En) as (x & y & l1 & A & _ & Y & Fl' & K). rewrite Fl in Fl'. apply some_inj in Fl'. subst l1.
    exists [varg_of x], [], [y]. cbn [o_args o_kwargs o_produces o_kind]. split; [cbn [map]; rewrite (arg_val _ _ _ A); reflexivity|]. split; [reflexivity|]. split; [cbn [map]; rewrite val_of_dec, Y; reflexivity|].
    eexists. split; [exact K|]. reflexivity.
Qed.
Lemma model_tensors a : incl (tensors_of (model_arg a)) (map dec (indices_in a)).
Proof.
  destruct a as [i|is]; cbn [model_arg tensors_of indices_in map]; [apply incl_refl|]. intros t Ht. apply in_flat_map in Ht as (b & Hb & Ht). apply in_map_iff in Hb as (i & <- & Hi). cbn [tensors_of] in Ht. destruct Ht as [<-|[]]. apply in_map, Hi.
Qed.
Lemma frozen_well_formed n ls outs : (forall j l a, nth_error ls j = Some (l, a) -> forall i, In i (indices_in a) -> (i < n + j)%nat) -> (forall i, In i outs -> (i < n + List.length ls)%nat) ->
  well_formed 1 (model_of n ls outs).
Proof.
  intros A O. assert (D : map fst (m_nodes_by_depth (model_of n ls outs)) = rev (seq 0 (S (List.length ls)))).
  { cbn [model_of m_nodes_by_depth map fst]. rewrite model_nodes_depths, seq_S, rev_app_distr. reflexivity. }
  assert (Src : forall i k, (i < n + k)%nat -> (k <= List.length ls)%nat -> In (dec i) (m_inputs (model_of n ls outs)) \/ exists d' o', (List.length ls - 1 - k < d' \/ k = List.length ls)%nat /\ op_at (model_of n ls outs) d' o' /\ is_input o' = false /\ In (dec i) (o_produces o')).
  { intros i k Hi Hk. destruct (Nat.lt_ge_cases i n) as [Hlt|Hge]; [left; cbn [model_of m_inputs]; apply in_map, in_seq; lia|right].
    destruct (nth_error ls (i - n)) as [[l a]|] eqn:E; [|apply nth_error_None in E; lia]. exists (List.length ls - 1 - (i - n))%nat. eexists. split; [lia|]. split.
    - exists [mk_op (KLayer l) "layer"%string [model_arg a] [] [dec (n + (i - n))] (map dec (indices_in a))]. split; [|left; reflexivity]. cbn [model_of m_nodes_by_depth]. right. apply model_nodes_in. exists (i - n)%nat, l, a. auto.
    - split; [reflexivity|]. cbn [o_produces]. left. f_equal. lia. }
  cbn [well_formed]. rewrite D. split; [apply NoDup_rev, seq_NoDup|]. split.
  { exists (List.length ls). intros d. rewrite <- in_rev, in_seq. lia. }
  split.
  - intros t Ht. cbn [model_of m_outputs] in Ht. apply in_map_iff in Ht as (i & <- & Hi). destruct (Src i (List.length ls) (O i Hi) (Nat.le_refl _)) as [X|(d' & o' & _ & X)]; [left; exact X|right; exists d', o'; exact X].
  - intros d o (os & Hin & Ho). cbn [model_of m_nodes_by_depth] in Hin. destruct Hin as [E|Hin].
    + injection E as <- <-. destruct Ho as [<-|[]]. cbn [o_requires o_args o_kwargs o_kind]. repeat split; try (intros ? []); discriminate.
    + apply model_nodes_in in Hin as (j & l & a & Hj & -> & ->). destruct Ho as [<-|[]]. cbn [o_requires o_args o_kwargs o_kind]. pose proof (nth_error_lt _ _ _ Hj) as Lj. split; [|split; [|split; [intros ? []|intros ? X; discriminate X]]].
      * intros t Ht. apply in_map_iff in Ht as (i & <- & Hi). destruct (Src i j (A j l a Hj i Hi)) as [X|(d' & o' & [X1|X1] & X)]; [lia|left; exact X|right; exists d', o'; split; [exact X1|exact X]|lia].
      * intros b [<-|[]]. apply model_tensors.
Qed.

Lemma map_value_same vs vs' : Forall2 same_tensor vs vs' -> forall outs ys, map (value vs) outs = map Some ys -> exists ys', map (value vs') outs = map Some ys' /\ Forall2 same_tensor ys ys'.
Proof.
  intros F. induction outs as [|i outs IH]; intros ys H; destruct ys as [|y ys]; cbn [map] in H; try discriminate; [exists []; split; [reflexivity|constructor]|].
  injection H as Hi H. destruct (IH _ H) as (ys' & E & S). destruct (value_same _ _ _ _ F Hi) as (y' & Ey & Sy). exists (y' :: ys'). cbn [map]. rewrite Ey, E. split; [reflexivity|constructor; assumption].
Qed.
Lemma In_combine_Forall2 {A B} (P : A -> B -> Prop) l l' : Forall2 P l l' -> forall a b, In (a, b) (combine l l') -> P a b.
Proof. induction 1 as [|x y l l' H F IH]; cbn [combine]; intros a b Hin; [destruct Hin|]. destruct Hin as [E|Hin]; [injection E as <- <-; exact H|exact (IH _ _ Hin)]. Qed.
Lemma calibrated_hardware net reset tab bs st rec : Forall (fun n => forall p q, p == q -> act_fn (x_a n) p == act_fn (x_a n) q) net ->
  trace_minmax (map node_of net) reset tab bs = Some (st, rec) -> (forall id, calibratable (tab id) (inputs_of id (n_log st))) ->
  (forall n l, In n net -> frozen (n_tab st) n = Some l -> traceable_layer l) ->
  forall ins vs outs ys k, In (ins, vs) (combine bs rec) -> (forall x, In x ins -> batch_in k x) -> map (value vs) outs = map Some ys ->
  exists ls, frozen_nodes (n_tab st) net = Some ls /\
    forall b, (b < k)%nat -> exists d zs, trace_net 1 (model_of (List.length ins) ls outs) (map (sample b) ins) = Some d /\ assoc "final"%string d = Some zs /\ Forall2 (fun y z => same_tensor (sample b y) z) ys zs.
Proof.
  intros Ha H C Tr ins vs outs ys k Hin Hk Ho.
  assert (V : Forall (fun n => by_value (y_op (d_layer n))) (map node_of net)).
  { apply Forall_forall. intros c Hc. apply in_map_iff in Hc as (n & <- & Hn). apply net_op_by_value. rewrite Forall_forall in Ha. exact (Ha n Hn). }
  pose proof (In_combine_Forall2 _ _ _ (network_calibrated _ _ _ _ _ _ V H C) _ _ Hin) as (st' & vs' & Ef & _ & Sv).
  destruct (pass_explained (n_tab st) net (mk_nstate (n_tab st) []) ins st' vs') as (ex & Evs & P); [intros i; reflexivity|exact Ef|].
  destruct (frozen_exists _ _ _ _ P) as (ls & Fl). exists ls. split; [exact Fl|]. intros b Hb.
  destruct (map_value_same _ _ Sv _ _ Ho) as (ys' & Ho' & Sy).
  pose proof (frozen_evaluates _ net ins vs' ls outs ys' (ex_intro _ ex Evs) P Fl Ho') as Ev.
  destruct (opt_all_nth _ _ _ Fl) as (L & N).
  assert (Lv : List.length vs' = (List.length ins + List.length net)%nat).
  { clear -Ef. unfold forward in Ef. revert Ef. generalize (mk_nstate (n_tab st) []). revert ins. induction net as [|n net IH]; intros ins it H; cbn [map run_nodes] in H; [injection H as <- <-; cbn [List.length]; lia|].
    destruct (args_of _ _); [|discriminate]. cbn [bind] in H. destruct (layer_call _ _ _ _) as [[it1 y]|]; [|discriminate]. cbn [bind] in H. rewrite (IH _ _ H), app_length. cbn [List.length]. lia. }
  assert (Wf : well_formed 1 (model_of (List.length ins) ls outs)).
  { apply frozen_well_formed.
    - intros j l a Hj i Hi. specialize (N j). destruct (nth_error net j) as [n|] eqn:En; [|rewrite N in Hj; discriminate]. destruct N as ((l' & a') & E1 & E2). rewrite Hj in E1. injection E1 as <- <-.
      destruct (frozen (n_tab st) n); [|discriminate]. cbn [bind] in E2. injection E2 as -> <-. destruct (P j n En) as (x & y & l1 & _ & B & _). exact (B i Hi).
    - intros i Hi. rewrite L. rewrite <- Lv. clear -Ho' Hi. revert ys' Ho'. induction outs as [|o outs IH]; intros ys' H; [destruct Hi|]. destruct ys' as [|y ys']; cbn [map] in H; [discriminate|]. injection H as H1 H2.
      destruct Hi as [->|Hi]; [exact (nth_error_lt _ _ _ H1)|exact (IH Hi _ H2)]. }
  assert (Al : all_layers traceable_layer 1 (model_of (List.length ins) ls outs)).
  { cbn [all_layers]. intros o Hin'. unfold all_ops in Hin'. cbn [model_of m_nodes_by_depth flat_map snd] in Hin'. cbn [app] in Hin'. destruct Hin' as [<-|Ho1]; [exact I|].
    apply in_flat_map in Ho1 as ((d & os) & Hin1 & Ho1). cbn [snd] in Ho1. apply model_nodes_in in Hin1 as (j & l & a & Hj & _ & ->). destruct Ho1 as [<-|[]]. cbn [o_kind].
    specialize (N j). destruct (nth_error net j) as [n|] eqn:En; [|rewrite N in Hj; discriminate]. destruct N as ((l' & a') & E1 & E2). rewrite Hj in E1. injection E1 as <- <-.
    destruct (frozen (n_tab st) n) as [l0|] eqn:Fl0; [|discriminate]. cbn [bind] in E2. injection E2 as -> <-. exact (Tr n _ (nth_error_In _ _ En) Fl0). }
  destruct (network_traced 1 _ k ins ys' Wf Al Ev Hk b Hb) as (d & zs & T & A & F & Bt). exists d, zs. split; [exact T|]. split; [exact A|].
  clear -Sy F Bt Hb. revert zs F. induction Sy as [|y y' ys ys' S Sy IH]; intros zs F; cbn [map] in F; inversion F as [|? z ? zs' Sz Fz]; subst; constructor.
  - refine (proj2 (holds_left k b y y' z Hb S _)). split; [apply Bt; left; reflexivity|exact Sz].
  - apply IH; [intros u Hu; apply Bt; right; exact Hu|exact Fz].
Qed.

(** ** the inputs of a weight's quantizer *)
Section Weight.
  Context (id : nat) (w0 : tensor Q).
  Let only (st : nstate) : Prop := Forall (fun e => e_q e = id -> e_in e = w0) (n_log st).
  Lemma only_q m st j x st' y : only st -> (j = id -> x = w0) -> call_q m st j x = Some (st', y) -> only st'.
  Proof.
    intros O E H. unfold call_q in H. destruct (quant_step m (n_tab st j) x) as [[q' z]|]; [|discriminate]. cbn [bind] in H. injection H as <- <-. unfold only. cbn [n_log].
    apply Forall_app. split; [exact O|]. constructor; [exact E|constructor].
  Qed.
  Lemma only_qs m ids : forall st xs st' ys, only st -> ~ In id ids -> call_qs m st ids xs = Some (st', ys) -> only st'.
  Proof.
    induction ids as [|j ids IH]; intros st xs st' ys O N H; destruct xs as [|x xs]; cbn [call_qs] in H; try discriminate; [injection H as <- <-; exact O|].
    destruct (call_q m st j x) as [[st1 y]|] eqn:E; [|discriminate]. cbn [bind] in H. destruct (call_qs m st1 ids xs) as [[st2 os]|] eqn:R; [|discriminate]. cbn [bind] in H. injection H as <- <-.
    apply (IH st1 xs st2 os); [|intros I; apply N; right; exact I|exact R]. apply (only_q m st j x st1 y O); [|exact E]. intros ->. destruct N. left. reflexivity.
  Qed.
  Lemma only_ws m ws : forall st st' ys, only st -> (forall w, In (Some id, w) ws -> w = w0) -> call_ws m st ws = Some (st', ys) -> only st'.
  Proof.
    induction ws as [|[[j|] w] ws IH]; intros st st' ys O N H; cbn [call_ws] in H.
    - injection H as <- <-. exact O.
    - destruct (call_q m st j w) as [[st1 y]|] eqn:E; [|discriminate]. cbn [bind] in H. destruct (call_ws m st1 ws) as [[st2 os]|] eqn:R; [|discriminate]. cbn [bind] in H. injection H as <- <-.
      apply (IH st1 st2 os); [|intros w' I; apply N; right; exact I|exact R]. apply (only_q m st j w st1 y O); [|exact E]. intros ->. apply N. left. reflexivity.
    - destruct (call_ws m st ws) as [[st2 os]|] eqn:R; [|discriminate]. cbn [bind] in H. injection H as <- <-. apply (IH st st2 os); [exact O|intros w' I; apply N; right; exact I|exact R].
  Qed.
  Lemma only_layer m l st x st' y : only st -> ~ In id (data_ids l) -> (forall w, In (Some id, w) (y_ws l) -> w = w0) -> layer_call m l st x = Some (st', y) -> only st'.
  Proof.
    intros O N W H. unfold layer_call in H. destruct (call_iq m st (y_iq l) x) as [[st1 x1]|] eqn:E1; [|discriminate]. cbn [bind] in H.
    destruct (call_ws m st1 (y_ws l)) as [[st2 qs]|] eqn:E2; [|discriminate]. cbn [bind] in H. destruct (y_op l qs x1) as [z|]; [|discriminate]. cbn [bind] in H. unfold data_ids in N.
    assert (O1 : only st1).
    { destruct (y_iq l) as [|j|ids]; cbn [call_iq] in E1.
      - injection E1 as <- <-. exact O.
      - destruct x as [x|]; [|discriminate]. destruct (call_q m st j x) as [[s1 y1]|] eqn:E; [|discriminate]. cbn [bind] in E1. injection E1 as <- <-. apply (only_q m st j x s1 y1 O); [|exact E]. intros ->. destruct N. left. reflexivity.
      - destruct x as [|xs]; [discriminate|]. destruct (call_qs m st ids xs) as [[s1 y1]|] eqn:E; [|discriminate]. cbn [bind] in E1. injection E1 as <- <-. apply (only_qs m ids st xs s1 y1 O); [|exact E]. intros I. apply N. apply in_or_app. left. exact I. }
    pose proof (only_ws _ _ _ _ _ O1 W E2) as O2. destruct (y_oq l) as [j|]; [|injection H as <- <-; exact O2]. apply (only_q m st2 j z st' y O2); [|exact H]. intros ->. destruct N. apply in_or_app. right. left. reflexivity.
  Qed.
  Lemma only_run m net : forall st env st' vs, only st -> (forall n, In n net -> ~ In id (data_ids (d_layer n)) /\ forall w, In (Some id, w) (y_ws (d_layer n)) -> w = w0) -> run_nodes m net st env = Some (st', vs) -> only st'.
  Proof.
    induction net as [|n net IH]; intros st env st' vs O N H; cbn [run_nodes] in H; [injection H as <- <-; exact O|].
    destruct (args_of env (d_args n)) as [x|]; [|discriminate]. cbn [bind] in H. destruct (layer_call m (d_layer n) st x) as [[st1 y]|] eqn:E; [|discriminate]. cbn [bind] in H.
    destruct (N n (or_introl eq_refl)) as (A & B). apply (IH st1 (env ++ [y]) st' vs); [exact (only_layer _ _ _ _ _ _ O A B E)|intros n' I; apply N; right; exact I|exact H].
  Qed.
  Lemma weight_inputs net reset tab bs st rec : (forall n, In n net -> ~ In id (data_ids (d_layer n)) /\ forall w, In (Some id, w) (y_ws (d_layer n)) -> w = w0) ->
    trace_minmax net reset tab bs = Some (st, rec) -> forall x, In x (inputs_of id (n_log st)) -> x = w0.
  Proof.
    intros N H. unfold trace_minmax in H. assert (O : only st).
    { revert H. assert (O0 : only (mk_nstate (if reset then fun i => quant_reset (tab i) else tab) [])) by constructor. revert O0. generalize (mk_nstate (if reset then fun i => quant_reset (tab i) else tab) []). revert st rec.
      induction bs as [|b bs IH]; intros st rec st0 O H; cbn [trace_batches] in H; [injection H as <- <-; exact O|]. destruct (forward Trace net st0 b) as [[st1 vs]|] eqn:E; [|discriminate]. cbn [bind] in H.
      destruct (trace_batches net st1 bs) as [[st2 rest]|] eqn:R; [|discriminate]. cbn [bind] in H. injection H as <- <-. apply (IH st2 rest st1); [|exact R]. exact (only_run _ _ _ _ _ _ O N E). }
    intros x Hx. unfold inputs_of in Hx. apply in_map_iff in Hx as (e & <- & He). apply filter_In in He as (He & Eq). apply Nat.eqb_eq in Eq. unfold only in O. rewrite Forall_forall in O. exact (O e He Eq).
  Qed.
End Weight.
