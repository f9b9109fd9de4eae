(** Layers of all kinds, and whole models, traced. *)
From Coq Require Import String.
From Verif Require Import Num M_Fixed L_Fixed M_State M_Wrapper M_Mapper S_Mapper L_Mapper M_Contr M_Ebops L_Ebops M_Pow2 M_Patch S_Patch L_Patch M_Ops M_Mirror S_Mirror L_Mirror M_Trace S_Trace L_Trace L_Lift L_LiftX M_Table S_Table M_Rnn M_Softmax M_Attn S_Attn L_Attn M_Net S_Net M_NetX S_NetX L_Ops L_Net L_Net2 L_Net3 L_Net4 L_Net5 L_NetX1 L_NetX2 L_NetX3 L_NetX4 L_NetX5 L_NetX6 L_NetX7 S_Ops.
Local Open Scope list_scope.

Lemma var_lo v N x : var_ok v N -> var_value v N x -> v_l v <= x.
Proof.
  intros (Hs & _) (u & Hu & E). rewrite E.
  assert (0 <= inject_Z (Z.of_nat u) * v_s v) by (apply Qmult_le_0_compat; [change 0 with (inject_Z 0); rewrite <- Zle_Qle; lia|apply Qlt_le_weak; exact Hs]). lra.
Qed.
Lemma ranges_lo d i : in_ranges d -> valid_index (shape (da_val d)) i -> v_l (ob_lhs (da_obj d) i) <= at_ (da_val d) i.
Proof. intros H V. destruct (H i V) as (N & K1 & K2). exact (var_lo _ _ _ K1 K2). Qed.

Section X.
  Context (n b : nat).
  Notation R := (holds n b). Notation RX := (holds_x n b).
  Fixpoint rel_erase a a' (H : rel_varg RX a a') {struct H} : rel_varg R a (vmap da_val a').
  Proof.
    destruct H as [x v Hx|l l' F|k]; cbn [vmap]; [constructor; apply Hx| |constructor].
    constructor. revert l l' F. fix IH 3. intros l l' [|a a' l0 l0' Ha F]; cbn [map]; constructor; [apply rel_erase, Ha|apply IH, F].
  Qed.
  Lemma rels_erase args args' : Forall2 (rel_varg RX) args args' -> Forall2 (rel_varg R) args (map (vmap da_val) args').
  Proof. induction 1 as [|a a' args args' Ha F IH]; cbn [map]; constructor; [apply rel_erase, Ha|exact IH]. Qed.
  Lemma kws_erase kw kw' : Forall2 (rel_kw RX) kw kw' -> Forall2 (rel_kw R) kw (erase_kw kw').
  Proof. unfold erase_kw. induction 1 as [|a a' args args' Ha F IH]; cbn [map]; constructor; [|exact IH]. destruct Ha as (E & Ha). split; [exact E|apply rel_erase, Ha]. Qed.
  Lemma all_arr_rel' args args' l : Forall2 (rel_varg R) args args' -> all_arr args = Some l -> exists l', all_arr args' = Some l' /\ Forall2 R l l'.
  Proof.
    intros F. revert l. induction F as [|a a' args args' Ha F IH]; intros l E; [cbn in *; injection E as <-; exists []; split; [reflexivity|constructor]|].
    destruct Ha as [x0 v0 R0| |]; cbn [all_arr] in *; try discriminate. destruct (all_arr args) as [vs'|]; [|discriminate]. injection E as <-.
    destruct (IH vs' eq_refl) as (ws & -> & Hws). exists (v0 :: ws). split; [reflexivity|constructor; assumption].
  Qed.
  Lemma all_arr_relX args args' l : Forall2 (rel_varg RX) args args' -> all_arr args = Some l -> exists l', all_arr args' = Some l' /\ args' = map VArr l' /\ Forall2 RX l l'.
  Proof.
    intros F. revert l. induction F as [|a a' args args' Ha F IH]; intros l E; [cbn in *; injection E as <-; exists []; repeat split; constructor|].
    destruct Ha as [x0 v0 R0| |]; cbn [all_arr] in *; try discriminate. destruct (all_arr args) as [vs'|]; [|discriminate]. injection E as <-.
    destruct (IH vs' eq_refl) as (ws & -> & -> & Hws). exists (v0 :: ws). split; [reflexivity|]. split; [reflexivity|constructor; assumption].
  Qed.
  Lemma op_args_rel args args' l : Forall2 (rel_varg R) args args' -> op_args args = Some l -> exists l', op_args args' = Some l' /\ Forall2 (rel_inp R) l l'.
  Proof.
    intros F. revert l. induction F as [|a a' args args' Ha F IH]; intros l E; [cbn in *; injection E as <-; exists []; split; [reflexivity|constructor]|].
    destruct Ha as [x0 v0 R0|l0 l0' F0|k]; cbn [op_args] in *.
    - destruct (op_args args) as [r|]; [|discriminate]. cbn [bind] in E. injection E as <-. destruct (IH r eq_refl) as (r' & -> & Hr). cbn [bind]. eexists. split; [reflexivity|constructor; [constructor; exact R0|exact Hr]].
    - destruct (all_arr l0) as [vs|] eqn:Ev; [|discriminate]. cbn [bind] in E. destruct (op_args args) as [r|]; [|discriminate]. cbn [bind] in E. injection E as <-.
      destruct (all_arr_rel' _ _ _ F0 Ev) as (vs' & -> & Hvs). destruct (IH r eq_refl) as (r' & -> & Hr). cbn [bind]. eexists. split; [reflexivity|constructor; [constructor; exact Hvs|exact Hr]].
    - apply IH, E.
  Qed.
  Lemma first_low_ok args args' l v : Forall2 (rel_varg RX) args args' -> op_args (map (vmap da_val) args') = Some l -> l = [One v] -> forall i, valid_index (shape v) i -> first_low args' i <= at_ v i.
  Proof.
    intros F. revert l. induction F as [|a a' args args' Ha F IH]; intros l E El; [cbn in E; injection E as <-; discriminate|].
    destruct Ha as [x0 v0 R0|l0 l0' F0|k]; cbn [map vmap op_args first_low] in *.
    - destruct (op_args (map (vmap da_val) args')) as [r|]; [|discriminate]. cbn [bind] in E. apply some_inj in E. subst l. injection El as E1 E2. subst v. intros i Hi. apply ranges_lo; [apply R0|exact Hi].
    - destruct (all_arr _); [|discriminate]. cbn [bind] in E. destruct (op_args _); [|discriminate]. cbn [bind] in E. apply some_inj in E. subst l. discriminate.
    - apply (IH l E El).
  Qed.

  Context (env : xlayer -> list (varg da) -> string -> nat -> tensor Q -> obj) (HE : sound env).
  Lemma number_rel x args name l l' k : Forall2 R l l' -> Forall2 RX l (number env x args name k l').
  Proof. intros F. revert k. induction F as [|y z l l' Hy F IH]; intros k; cbn [number]; constructor; [split; [exact Hy|apply HE]|apply IH]. Qed.
  Lemma new_final x args d fin fin' : assoc "final"%string d = Some fin' -> Forall2 R fin fin' -> exists z, assoc "final"%string (new_arrays env x args d) = Some z /\ Forall2 RX fin z.
  Proof.
    intros A F. exists (number env x args "final" 0 fin'). split; [|apply number_rel, F]. clear F. unfold new_arrays. induction d as [|[k v] d IH]; [discriminate|]. cbn [map fst snd assoc] in *.
    destruct (String.eqb "final" k) eqn:E; [|exact (IH A)]. apply String.eqb_eq in E. subst k. injection A as <-. reflexivity.
  Qed.
  Lemma new_final1 x args d y z' : assoc "final"%string d = Some [z'] -> R y z' -> exists d' fin', Some (new_arrays env x args d) = Some d' /\ assoc "final"%string d' = Some fin' /\ Forall2 RX [y] fin'.
  Proof. intros A H. destruct (new_final x args d [y] [z'] A) as (z & E & F); [constructor; [exact H|constructor]|]. exists (new_arrays env x args d), z. auto. Qed.
  Lemma no_arrays_training kw kw' : Forall2 (rel_kw RX) kw kw' -> training_off kw = true -> no_array_kwargs kw' = true /\ training_off (erase_kw kw') = true.
  Proof.
    intros F H. destruct F as [|[k a] [k' a'] kw kw' (Ek & Ra) F]; [split; reflexivity|]. cbn [fst snd] in *. subst k'. destruct Ra as [x0 v0 R0|l l' Rl|c]; cbn [training_off] in H; try discriminate.
    destruct c as [|c]; try discriminate. destruct F; [|discriminate]. split; [reflexivity|exact H].
  Qed.
  Lemma no_arrays_none kw kw' : Forall2 (rel_kw RX) kw kw' -> no_kwargs kw = true -> kw' = [].
  Proof. intros F H. destruct F; [reflexivity|discriminate]. Qed.
  Lemma attn_kwargs_rel kw kw' p : Forall2 (rel_kw RX) kw kw' -> attn_kwargs kw = Some p -> attn_kwargs kw' = Some p /\ no_array_kwargs kw' = true.
  Proof.
    intros F. revert p. induction F as [|[k a] [k' a'] kw kw' (Ek & Ra) F IH]; intros p H; [split; [exact H|reflexivity]|]. cbn [fst snd] in *. subst k'.
    destruct Ra as [x0 v0 R0|l l' Rl|c]; cbn [attn_kwargs] in H; try discriminate. destruct (attn_kwargs kw) as [p0|]; [|discriminate]. destruct (IH p0 eq_refl) as (E1 & E2). cbn [attn_kwargs no_array_kwargs forallb snd]. rewrite E1. split; [exact H|exact E2].
  Qed.
  Lemma finish_traced tr y1 z a oq y : (b < n)%nat -> R y1 z -> match a with ALinear | ARelu => True | AFn _ => False end -> (forall q, oq = Some q -> traceable_quant q) ->
    match oq with Some q => quant_call q (tmap (act_fn a) y1) | None => Some (tmap (act_fn a) y1) end = Some y -> assoc "final"%string tr = None ->
    exists d z', finish tr z a oq = Some d /\ assoc "final"%string d = Some [z'] /\ R y z'.
  Proof.
    intros Hb Hz Ta Tq Ey Htr. unfold finish. cbv zeta. rewrite (normalize_holds _ _ _ _ Hz).
    assert (G2 : exists w, match a with ALinear => Some z | ARelu => Some (tmap relu z) | AFn _ => None end = Some w /\ holds n b (tmap (act_fn a) y1) w).
    { destruct a as [| |f]; [| |contradiction].
      - exists z. split; [reflexivity|]. apply (holds_left n b _ y1); [exact Hb| |exact Hz]. split; [reflexivity|]. intros i _. reflexivity.
      - eexists. split; [reflexivity|]. exact (holds_tmap n b relu y1 z relu_ext Hz). }
    destruct G2 as (w & -> & Hw). cbn [bind].
    assert (A : forall (r : tensor Q) (l : tensor Q -> dump_t), (forall v, assoc "final"%string (l v) = Some [v]) -> assoc "final"%string (tr ++ l r) = Some [r]).
    { intros r l Hl. clear - Htr Hl. induction tr as [|[k v] tr IH]; [apply Hl|]. cbn [app assoc] in *. destruct (String.eqb "final" k); [discriminate|apply IH, Htr]. }
    destruct oq as [q|].
    - destruct (quant_traced n b q _ y w Hb (Tq q eq_refl) Hw Ey) as (r & -> & Hr). cbn [bind]. eexists. exists r. split; [reflexivity|]. split; [|exact Hr].
      rewrite <- app_assoc. exact (A r (fun r => [("post_call"%string, [z]); ("post_oq"%string, [r]); ("final"%string, [r])]) (fun _ => eq_refl)).
    - apply some_inj in Ey. subst y. eexists. exists w. split; [reflexivity|]. split; [|exact Hw]. rewrite <- app_assoc. exact (A w (fun r => [("post_call"%string, [z]); ("final"%string, [r])]) (fun _ => eq_refl)).
  Qed.
  Lemma base_arrays kw' l args0 d : replay_layer l args0 (erase_kw kw') = Some d -> no_array_kwargs kw' = true.
  Proof.
    unfold replay_layer, no_array_kwargs, erase_kw. intros H. destruct (forallb (fun kv : string * varg (tensor Q) => match snd kv with VArr _ => false | _ => true end) (map _ kw')) eqn:E; [|discriminate]. clear H. revert E.
    induction kw' as [|[k a] kw' IH]; [reflexivity|]. cbn [map forallb snd fst]. rewrite !andb_true_iff. intros (E1 & E2). split; [destruct a; cbn [vmap] in *; congruence|exact (IH E2)].
  Qed.
  Lemma attn_layer_traced a lhs_of fresh oargs tm args kw args' kw' ys : (b < n)%nat -> traceable_attn a -> fused_call a oargs -> sound_lhs lhs_of ->
    opt_all (map (replace_tensors tm) oargs) = Some args' -> Forall2 (rel_varg RX) args args' -> Forall2 (rel_kw RX) kw kw' -> keras_attn a args kw = Some ys ->
    no_array_kwargs kw' = true /\ exists zs, replay_attn_layer a lhs_of fresh args' kw' = Some zs /\ Forall2 R ys zs.
  Proof.
    intros Hb T Fc Snd EO FA FK H. unfold keras_attn in H. destruct (all_arr args) as [l|] eqn:El; [|discriminate]. cbn [bind] in H.
    destruct (all_arr_relX _ _ _ FA El) as (l' & El' & Ea' & FL).
    destruct (attn_args l) as [[[q v] k]|] eqn:Eargs; [|discriminate]. cbn [bind] in H. destruct (attn_kwargs kw) as [[causal ret]|] eqn:Ekw; [|discriminate]. cbn [bind] in H.
    destruct (attn_kwargs_rel _ _ _ FK Ekw) as (Ekw' & Na). split; [exact Na|].
    assert (G : exists q' v' k', attn_args l' = Some (q', v', k') /\ R q (da_val q') /\ orel (fun x d => R x (da_val d)) v v' /\ orel (fun x d => R x (da_val d)) k k' /\
      (let V := or_else v' q' in let K := or_else k' V in match a_fuse (attn_mha (xa_kind a)) with FNone => True | FKv => K = V | FQkv => q' = K /\ K = V end)).
    { apply opt_all_some in EO. rewrite Ea' in EO. unfold fused_call in Fc. unfold attn_args in Eargs. 
      destruct FL as [|x1 d1 l l' H1 FL]; [discriminate|]. destruct FL as [|x2 d2 l l' H2 FL].
      { injection Eargs as -> <- <-. exists d1, None, None. cbn [attn_args orel or_else]. split; [reflexivity|]. split; [apply H1|]. split; [exact I|]. split; [exact I|]. cbv zeta. destruct (a_fuse _); auto. }
      destruct oargs as [|o1 [|o2 oargs]]; try discriminate. cbn [map] in EO. injection EO as O1 O2 O3.
      destruct FL as [|x3 d3 l l' H3 FL].
      { injection Eargs as -> <- <-. exists d1, (Some d2), None. cbn [attn_args orel or_else]. split; [reflexivity|]. split; [apply H1|]. split; [apply H2|]. split; [exact I|]. cbv zeta. destruct (a_fuse _); auto.
        rewrite (Fc o1 o2 (or_introl eq_refl) (or_intror (or_introl eq_refl))) in O1. rewrite O1 in O2. injection O2 as ->. auto. }
      destruct FL as [|x4 d4 l l' H4 FL]; [|discriminate]. destruct oargs as [|o3 [|o4 oargs]]; try discriminate. cbn [map] in O3. injection O3 as O3.
      injection Eargs as -> <- <-. exists d1, (Some d2), (Some d3). cbn [attn_args orel or_else]. split; [reflexivity|]. split; [apply H1|]. split; [apply H2|]. split; [apply H3|]. cbv zeta. destruct (a_fuse _); auto.
      - pose proof (Fc o1 o3 (or_introl eq_refl) (or_intror (or_intror (or_introl eq_refl)))) as X. subst o3. pose proof (Fc o1 o2 (or_introl eq_refl) (or_intror (or_introl eq_refl))) as X. subst o2.
        rewrite O1 in O2, O3. injection O2 as ->. injection O3 as ->. auto.
      - pose proof (Fc o1 o2 o3 eq_refl) as X. subst o3. rewrite O2 in O3. injection O3 as ->. reflexivity. }
    destruct G as (q' & v' & k' & Eargs' & Hq & Hv & Hk & SA).
    pose proof (proj1 Hq) as (d0 & s0 & Esh). rewrite Esh in H.
    match type of H with (if ?c then _ else _) = _ => destruct c eqn:Ec; [|discriminate] end. apply andb_true_iff in Ec. destruct Ec as (Ec1 & Ec2). rewrite <- Esh in Ec2. cbv zeta in H.
    match type of H with (do _ <- ?e; _) = _ => destruct e as [r0|] eqn:Er0; [|discriminate] end. cbn [bind] in H.
    destruct (attn_call_traced n b a lhs_of fresh causal q v k q' v' k' Hb T Snd Hq Hv Hk SA Ec2) as (Es & sc & r & Esc & Er & Ho & Hs); [cbv zeta; rewrite Er0; discriminate|].
    unfold replay_attn_layer. rewrite El'. cbn [bind]. rewrite Eargs'. cbn [bind]. rewrite Ekw'. cbn [bind]. rewrite Ec1, Es. cbn [andb]. cbv zeta. cbv zeta in Esc, Er. rewrite Esc. cbn [bind]. rewrite Er. cbn [bind].
    apply some_inj in H. subst ys. eexists. split; [reflexivity|]. constructor; [exact Ho|]. destruct ret; constructor; [exact Hs|constructor].
  Qed.
  Lemma layer_x_traced o x tm args kw d fin args' kw' : (b < n)%nat -> traceable_x o x -> keras_x x args kw = Some d -> assoc "final"%string d = Some fin ->
    opt_all (map (replace_tensors tm) (o_args o)) = Some args' -> Forall2 (rel_varg RX) args args' -> Forall2 (rel_kw RX) kw kw' ->
    exists d' fin', replay_x env x args' kw' = Some d' /\ assoc "final"%string d' = Some fin' /\ Forall2 RX fin fin'.
  Proof.
    intros Hb T K A EO FA FK. pose proof (rels_erase _ _ FA) as FA'. pose proof (kws_erase _ _ FK) as FK'. unfold replay_x. destruct x as [l| |p|iq p oq|t|a]; cbn [keras_x traceable_x] in *.
    - destruct (layer_traced n b l args kw d fin _ _ Hb T K A FA' FK') as (d' & fin' & E & Ef & F). rewrite (base_arrays _ _ _ _ E). cbv zeta. rewrite E. cbn [bind].
      destruct (new_final (XBase l) args' d' fin fin' Ef F) as (z & Ez & Hz). eexists. exists z. split; [reflexivity|]. split; assumption.
    - destruct FA as [|a a' args args' Ha FA]; [discriminate|]. destruct FA; [|destruct a; discriminate]. destruct Ha as [x0 v0 R0| |]; try discriminate. destruct (training_off kw) eqn:To; [|discriminate].
      destruct (no_arrays_training _ _ FK To) as (-> & ->). apply some_inj in K. subst d. cbn in A. injection A as <-. eexists. eexists. split; [reflexivity|]. split; [reflexivity|]. constructor; [exact R0|constructor].
    - destruct (no_kwargs kw) eqn:Nk; [|discriminate]. rewrite (no_arrays_none _ _ FK Nk). cbn [no_array_kwargs forallb erase_kw map no_kwargs]. cbv zeta.
      destruct (op_args args) as [l|] eqn:El; [|discriminate]. cbn [bind] in K. destruct (op_args_rel _ _ _ FA' El) as (l' & El' & Fl). rewrite El'. cbn [bind].
      destruct (keras_op p l) as [y|] eqn:Ey; [|discriminate]. cbn [bind] in K. apply some_inj in K. subst d. cbn in A. injection A as <-. destruct T as (Tp & Nl).
      destruct (op_traced n b p false (first_low args') l l' y Hb Tp (fun H => match Nl H with end) Fl (fun v Ev => first_low_ok _ _ _ v FA El' Ev) Ey) as (z & -> & Hz). cbn [bind].
      rewrite (normalize_holds _ _ _ _ Hz). apply (new_final1 (XOp p) args' [("final"%string, [z])] y z eq_refl Hz).
    - destruct (training_off kw) eqn:To; [|discriminate]. destruct (no_arrays_training _ _ FK To) as (-> & ->). cbv zeta. destruct T as (Tiq & Tp & Tl & Toq).
      destruct (one_arg args) as [i|] eqn:Ei; [|discriminate]. cbn [bind] in K. destruct (one_arg_rel n b _ _ _ FA' Ei) as (w & Ew & Rw). rewrite Ew. cbn [bind].
      assert (G1 : exists x1 v1, match iq with Some q => iq_call q i | None => Some i end = Some x1 /\ match iq with Some q => iq_replay q w | None => Some w end = Some v1 /\ rel_inp R x1 v1).
      { destruct iq as [q|]; [|exists i, w; auto]. destruct (iq_call q i) as [x1|] eqn:Eq; [|discriminate].
        destruct (iq_traced n b q i x1 w Hb (Tiq q eq_refl) Rw Eq) as (w' & Ew' & Rw'). exists x1, w'. auto. }
      destruct G1 as (x1 & v1 & E1 & E1' & R1). rewrite E1 in K. rewrite E1'. cbn [bind] in *. destruct (keras_op p [x1]) as [y1|] eqn:Ey1; [|discriminate]. cbn [bind] in K.
      match type of K with (do y <- ?e; _) = _ => destruct e as [y|] eqn:Ey; [|discriminate] end. cbn [bind] in K. apply some_inj in K. subst d. cbn in A. injection A as <-.
      match goal with |- context [replay_op p ?tup ?low [v1]] => destruct (op_traced n b p tup low [x1] [v1] y1 Hb Tp) with (4 := Ey1) as (z & -> & Hz) end.
      { intros Ht. specialize (Tl Ht). destruct iq; [reflexivity|congruence]. }
      { constructor; [exact R1|constructor]. }
      { intros v Ev. injection Ev as ->. destruct iq as [q|].
        - intros j Hj. exact (ranges_lo _ j (HE (XQOp (Some q) p oq) args' "post_iq"%string 0%nat v) Hj).
        - intros j Hj. apply (first_low_ok args args' [One v] v FA); [|reflexivity|exact Hj]. apply some_inj in E1'. subst w. revert Ew. clear. intros Ew. unfold one_arg in Ew. destruct (map (vmap da_val) args') as [|[u|u|u] [|]]; try discriminate; [injection Ew as ->; reflexivity|destruct (all_arr u); discriminate]. }
      cbn [bind]. destruct (finish_traced (match iq with Some _ => [("post_iq"%string, arrays v1)] | None => [] end) y1 z ALinear oq y Hb Hz I Toq) as (d & z' & -> & Ed & Hz').
      { rewrite <- Ey. destruct oq as [q|]; [|f_equal]. 2: destruct y1; reflexivity. destruct y1; reflexivity. }
      { destruct iq; reflexivity. }
      cbn [bind]. apply (new_final1 (XQOp iq p oq) args' d y z' Ed Hz').
    - destruct (training_off kw) eqn:To; [|discriminate]. destruct (no_arrays_training _ _ FK To) as (-> & ->). cbv zeta.
      destruct (one_arg args) as [i|] eqn:Ei; [|discriminate]. cbn [bind] in K. destruct (one_arg_rel n b _ _ _ FA' Ei) as (w & Ew & Rw). rewrite Ew. cbn [bind].
      destruct Rw as [x v Hx|]; [|discriminate]. destruct (keras_table t x) as [y1|] eqn:Ey1; [|discriminate]. cbn [bind] in K. cbv zeta in K.
      match type of K with (do y <- ?e; _) = _ => destruct e as [y|] eqn:Ey; [|discriminate] end. cbn [bind] in K. apply some_inj in K. subst d. cbn in A. injection A as <-.
      destruct (table_traced n b t (fun xq => ob_lhs (env (XTable t) args' "table_in" 0 xq)) x v y1 Hb T) with (3 := Ey1) as (z & -> & Hz); [|exact Hx|].
      { intros t0 i Hi. exact (HE (XTable t) args' "table_in"%string 0%nat t0 i Hi). }
      cbn [bind]. destruct T as (_ & _ & _ & Toq & _ & _ & Ta & _).
      destruct (finish_traced [] y1 z (xt_act t) (xt_oq t) y Hb Hz Ta Toq Ey eq_refl) as (d & z' & -> & Ed & Hz'). cbn [bind]. apply (new_final1 (XTable t) args' d y z' Ed Hz').
    - destruct (keras_attn a args kw) as [ys|] eqn:Ey; [|discriminate]. cbn [bind] in K. apply some_inj in K. subst d. cbn in A. injection A as <-. destruct T as (Ta & Fc).
      destruct (attn_layer_traced a (fun st => ob_lhs (env (XAttn a) args' "scores" 0 st)) (ob_id (env (XAttn a) args' "projected" 0 (mk_tensor [] (fun _ => 0)))) (o_args o) tm args kw args' kw' ys Hb Ta Fc) with (2 := EO) (3 := FA) (4 := FK) (5 := Ey) as (-> & zs & -> & Hzs).
      { intros t0 i Hi. exact (HE (XAttn a) args' "scores"%string 0%nat t0 i Hi). }
      cbn [bind]. cbv zeta. destruct (new_final (XAttn a) args' [("post_call"%string, zs); ("final"%string, zs)] ys zs eq_refl Hzs) as (z & Ez & Hz). eexists. exists z. split; [reflexivity|]. split; assumption.
  Qed.
End X.

Lemma every_ops_ok fuel : forall m, every_op traceable_x fuel m -> ops_ok traceable_x fuel m.
Proof. induction fuel as [|fuel IH]; intros m H; [exact I|]. cbn [every_op ops_ok] in *. intros o Ho. specialize (H o Ho). destruct (o_kind o); [exact I|exact H|apply IH, H]. Qed.
Lemma network_x_traced env fuel m n b xs ds ys : sound env -> well_formed fuel m -> every_op traceable_x fuel m -> evaluates keras_x fuel m xs ys -> (b < n)%nat -> Forall2 (holds_x n b) xs ds ->
  exists d zs, trace_x env fuel m ds = Some d /\ assoc "final"%string d = Some zs /\ Forall2 (holds_x n b) ys zs.
Proof.
  intros HE W L E Hb F. unfold trace_x.
  apply (trace_lift (holds_x n b) keras_x (replay_x env) traceable_x) with (ins := xs); [|exact W|apply every_ops_ok, L|exact E|exact F].
  intros o l tm args kw d fin args' kw' T K A EO FA FK. exact (layer_x_traced n b env HE o l tm args kw d fin args' kw' Hb T K A EO FA FK).
Qed.
