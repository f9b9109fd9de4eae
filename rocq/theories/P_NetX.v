(** C63: a traced model with any of the layers the tracer handles computes, for each sample, exactly what the model computes on the batch. *)
From Coq Require Import String.
From Verif Require Import Num M_Fixed L_Fixed M_State M_Wrapper M_Mapper S_Mapper M_Contr M_Ebops M_Pow2 M_Patch S_Patch M_Ops M_Mirror S_Mirror M_Trace S_Trace M_Table S_Table M_Softmax M_Attn S_Attn M_Net S_Net M_NetX S_NetX L_Lift L_NetX8 L_NetX9 S_Ops.
From Verif Require P_Attn P_Table P_Fixed.
Local Open Scope string_scope. Local Open Scope list_scope.

(** any functional model of these layers, with branches, shared layers and nested models, on any batch, whatever identities the traced arrays get and
    whatever ranges, if these contain the values: tracing sample [b] succeeds and gives exactly entry [b] of each of the model's outputs *)
Theorem C63_network :
  forall env fuel m n b xs ds ys, sound env -> well_formed fuel m -> every_op traceable_x fuel m -> evaluates keras_x fuel m xs ys -> (b < n)%nat ->
    Forall2 (holds_x n b) xs ds ->
    exists d zs, trace_x env fuel m ds = Some d /\ assoc "final" d = Some zs /\ Forall2 (holds_x n b) ys zs.
Proof. exact network_x_traced. Qed.
Print Assumptions C63_network.
(** hence the result does not depend on identities and ranges *)
Theorem C63_ranges_irrelevant :
  forall env env' fuel m n b xs ds ds' ys, sound env -> sound env' -> well_formed fuel m -> every_op traceable_x fuel m -> evaluates keras_x fuel m xs ys -> (b < n)%nat ->
    Forall2 (holds_x n b) xs ds -> Forall2 (holds_x n b) xs ds' ->
    exists d d' zs zs', trace_x env fuel m ds = Some d /\ trace_x env' fuel m ds' = Some d' /\ assoc "final" d = Some zs /\ assoc "final" d' = Some zs' /\
      Forall2 (fun z z' => same_tensor (da_val z) (da_val z')) zs zs'.
Proof. exact network_x_irrelevant. Qed.
Print Assumptions C63_ranges_irrelevant.
(** one layer with one argument *)
Theorem C63_layer :
  forall env n b o x v d w y, sound env -> (b < n)%nat -> traceable_x (mk_op (KLayer x) o [ATensor "x"] [] ["y"] ["x"]) x -> holds_x n b v w ->
    keras_x x [VArr v] [] = Some d -> assoc "final" d = Some [y] ->
    exists d' z, replay_x env x [VArr w] [] = Some d' /\ assoc "final" d' = Some [z] /\ holds_x n b y z.
Proof. exact one_layer_traced. Qed.
Print Assumptions C63_layer.
(** an einsum of a list of two arrays that no input quantizer turns into a tuple (QEinsum and QDot with enable_iq=False, keras.layers.Dot) cannot be traced *)
Theorem C63_list_einsum_refuted :
  forall env li lk lo oq l kw, replay_x env (XOp (OQEinsum li lk lo)) [VList l] kw = None /\ replay_x env (XQOp None (OQEinsum li lk lo) oq) [VList l] kw = None.
Proof. exact list_einsum_fails. Qed.
Print Assumptions C63_list_einsum_refuted.
(** nor can keras.ops.sum and max: the axes are looked for in the arguments of the call, and keras does not put them there *)
Theorem C63_reduction_refuted :
  forall env mx axes keepdims args kw, replay_x env (XOp (OReduce mx axes keepdims)) args kw = None.
Proof. exact reduction_fails. Qed.
Print Assumptions C63_reduction_refuted.
(** nor can a lookup-table layer without input quantizer *)
Theorem C63_table_without_iq_refuted :
  forall env t args kw, xt_iq t = None -> replay_x env (XTable t) args kw = None.
Proof. exact table_no_iq_fails. Qed.
Print Assumptions C63_table_without_iq_refuted.
(** a lookup-table layer whose activation is neither linear nor relu cannot either *)
Theorem C63_table_activation_refuted :
  forall env t f args kw, xt_act t = AFn f -> replay_x env (XTable t) args kw = None.
Proof. exact table_activation_fails. Qed.
Print Assumptions C63_table_activation_refuted.
(** attention with fused projections of two different arrays cannot, although the layer computes and the arrays may hold the same values *)
Theorem C63_fused_attention_refuted :
  forall env a q v k kw, a_fuse (attn_mha (xa_kind a)) <> FNone -> (exists c, xa_kind a = AMha c) -> ob_id (da_obj v) <> ob_id (da_obj k) -> replay_x env (XAttn a) [VArr q; VArr v; VArr k] kw = None.
Proof. exact fused_fails. Qed.
Print Assumptions C63_fused_attention_refuted.
(** masks given as keyword arguments: no layer with an array among its keyword arguments can be traced *)
Theorem C63_array_keyword_refuted :
  forall env x args k d kw, replay_x env x args ((k, VArr d) :: kw) = None.
Proof. exact array_keyword_fails. Qed.
Print Assumptions C63_array_keyword_refuted.
(** RandomCrop and other layers left out of the trace: the result is the very same array *)
Theorem C63_noop :
  forall env d, replay_x env XNoOp [VArr d] [] = Some [("final", [d])].
Proof. reflexivity. Qed.
Print Assumptions C63_noop.

(** ** a concrete model *)
(** ranges of one value *)
Definition ex_env (x : xlayer) (args : list (varg da)) (name : string) (k : nat) (t : tensor Q) : obj := mk_obj k (fun i => mk_lhs (at_ t i) (at_ t i) 1).
Example C63_sound : sound ex_env.
Proof. intros x args name k t i _. exists 0%nat. split; [split; [reflexivity|cbn; ring]|]. exists 0%nat. split; [lia|]. cbn. ring. Qed.
(** one format for all elements of arrays of a given rank *)
Definition ex_sh (r : nat) : list nat := repeat 1%nat r.
Definition ex_q (r : nat) (i f : Q) : quant := mk_quant (mk_wrapper None None None) (mk_qconf RND SAT true false None None) (seq 0 r)
  (inl (mk_kift (mk_tensor (ex_sh r) (fun _ => true)) (mk_tensor (ex_sh r) (fun _ => i)) (mk_tensor (ex_sh r) (fun _ => f)))).
Definition ex_smax : smax := mk_smax [1%nat] true (Some (ex_q 2 4 2)) P_Attn.ex_e (ex_q 2 1 3) (ex_q 2 3 2) P_Attn.ex_i (ex_q 2 1 3).
Definition ex_table : xtable := mk_xtable None 2 2 P_Table.ex_net (Some P_Table.ex_bn) (1#2) (Some (ex_q 4 2 1)) (ex_q 4 3 1) ARelu P_Table.ex_act' None.
Definition ex_att : xattn := mk_xattn (AMha (P_Attn.ex_attn FQkv true 1)) [3%nat] [3%nat] [3%nat] [3%nat].
Definition ex_x : tensor Q := mk_tensor [2;3;2]%nat (fun g => match g with [a; b; c] => inject_Z (Z.of_nat a) - inject_Z (Z.of_nat b) * (1 # 2) + inject_Z (Z.of_nat (a * c)) * (3 # 4) | _ => 0 end).
(** keras.ops.absolute, maximum, indexing, attention with causal mask, a lookup-table layer, QEinsum of two arrays, pooling, LeakyReLU, softmax *)
Definition L_abs := XOp OAbs. Definition L_max := XOp (OArith RMax 3 3).
Definition L_rev := XOp (OGetItem [IEll; ISlice None None (Some (-1)%Z); full_slice] 3).
Definition L_att := XAttn ex_att. Definition L_tab := XTable ex_table.
Definition L_ein := XQOp (Some (QMulti [ex_q 3 3 1; ex_q 3 2 2])) (OQEinsum [0;1;2] [0;3;2] [0;1;3])%nat (Some (ex_q 3 5 1)).
Definition L_pool := XQOp (Some (QSingle (ex_q 3 4 1))) (OGlobalPool false 1 false) None.
Definition L_leaky := XOp (OLeaky (mk_tensor [] (fun _ => 1 # 4))). Definition L_soft := XQOp None (OSoftmax ex_smax) None. Definition L_drop := XNoOp.
Definition ex_net : @model xlayer := mk_model ["x"]
  [(8%nat, [mk_op KInput "inp" [] [] ["x"] []]);
   (7%nat, [mk_op (KLayer L_abs) "abs" [ATensor "x"] [] ["a"] ["x"]]);
   (6%nat, [mk_op (KLayer L_max) "max" [ATensor "x"; ATensor "a"] [] ["m"] ["x"; "a"]]);
   (5%nat, [mk_op (KLayer L_rev) "rev" [ATensor "m"; AConst 7%nat] [] ["r"] ["m"]]);
   (4%nat, [mk_op (KLayer L_drop) "drop" [ATensor "r"] [("training", AConst 0%nat)] ["g"] ["r"]]);
   (3%nat, [mk_op (KLayer L_att) "att" [ATensor "g"; ATensor "g"] [("use_causal_mask", AConst 1%nat); ("return_attention_scores", AConst 1%nat)] ["h"; "w"] ["g"]]);
   (2%nat, [mk_op (KLayer L_tab) "tab" [ATensor "h"] [] ["t"] ["h"]]);
   (1%nat, [mk_op (KLayer L_pool) "pool" [ATensor "t"] [] ["p"] ["t"]]);
   (0%nat, [mk_op (KLayer L_ein) "ein" [AList [ATensor "h"; ATensor "x"]] [] ["e"] ["h"; "x"]; mk_op (KLayer L_leaky) "leaky" [ATensor "p"] [] ["l"] ["p"]; mk_op (KLayer L_soft) "soft" [ATensor "p"] [] ["s"] ["p"]])]
  ["e"; "l"; "s"; "w"].
Lemma ex_quant r i f : In r [2; 3; 4]%nat -> In i [1; 2; 3; 4; 5] -> In f [1; 2; 3] -> traceable_quant (ex_q r i f).
Proof.
  intros Hr Hi Hf. split; [reflexivity|]. split; [reflexivity|].
  exists None, (Some (map Z.of_nat (seq 0 r))), (repeat (Some 2%nat) (r - 1)), [], (ex_sh r). split.
  - repeat (destruct Hr as [<-|Hr]; [split; reflexivity|]). destruct Hr.
  - cbn [ex_q q_s]. split; [repeat split|].
    split; intros g _; cbn [tmap at_ M_Mapper.t_i M_Mapper.t_f]; [clear Hf; repeat (destruct Hi as [<-|Hi]; [vm_compute; split; discriminate|]); destruct Hi|clear Hi; repeat (destruct Hf as [<-|Hf]; [vm_compute; split; discriminate|]); destruct Hf].
Qed.
Lemma ex_scores q k v n t s : -(100) <= layer_scores (P_Attn.ex_attn FQkv true 1) id_ten q k v n t s.
Proof.
  assert (B : forall x, -(8) <= base_call RND SAT false true 3 1 x <= 15 # 2).
  { intros x. destruct (proj1 (P_Fixed.C01_output_representable RND SAT true 3 1 x) eq_refl) as (_ & H). exact H. }
  unfold layer_scores, id_ten, dot_product, qsumn. cbn [P_Attn.ex_attn a_dk seq map qsum]. unfold dense_call, lq. cbn [P_Attn.ex_p a_k a_q p_oq P_Attn.ex_q M_Attn.t_rm M_Attn.t_om M_Attn.t_k M_Attn.t_i M_Attn.t_f M_Attn.t_aff M_Rnn.affine_of].
  match goal with |- _ <= qsum [M_Rnn.affine_of _ (base_call _ _ _ _ _ _ ?u) * (M_Rnn.affine_of _ (base_call _ _ _ _ _ _ ?w) * 1)] =>
    change (-(100) <= base_call RND SAT false true 3 1 u * (base_call RND SAT false true 3 1 w * 1) + 0); pose proof (B u) as U; pose proof (B w) as W;
    generalize dependent (base_call RND SAT false true 3 1 u); generalize dependent (base_call RND SAT false true 3 1 w) end.
  intros y (Y1 & Y2) x (X1 & X2). setoid_replace (x * (y * 1) + 0) with (x * y) by ring.
  nra.
Qed.
Lemma ex_attention : traceable_attn ex_att.
Proof.
  unfold traceable_attn. cbn [ex_att xa_kind xa_pos xa_spos xa_vpos xa_kpos attn_mha]. split; [reflexivity|]. split; [reflexivity|]. split; [cbn; auto|]. split; [apply P_Attn.ex_fits|]. split; [apply P_Attn.ex_functions|].
  split; [reflexivity|]. split; [|split; reflexivity]. intros _ q k v n t s _ _ _. cbn [attn_pre]. apply (Qle_trans _ (-(100))); [discriminate|apply ex_scores].
Qed.
Example C63_traceable : every_op traceable_x 1 ex_net.
Proof.
  assert (Q : forall r i f, In r [2; 3; 4]%nat -> In i [1; 2; 3; 4; 5] -> In f [1; 2; 3] -> traceable_quant (ex_q r i f)) by exact ex_quant.
  intros o Ho. cbn in Ho. repeat (destruct Ho as [<-|Ho]; [cbn [o_kind L_abs L_max L_rev L_att L_tab L_ein L_pool L_leaky L_soft L_drop traceable_x]|]); [| | | | | | | | | | |destruct Ho].
  - exact I.
  - split; [exact I|intros []].
  - split; [reflexivity|intros []].
  - split; [|intros []]. exists [ISlice None None (Some (-1)%Z); full_slice]. split; [reflexivity|]. right. cbn. lia.
  - exact I.
  - split; [exact ex_attention|]. intros x y [<-|[<-|[]]] [<-|[<-|[]]]; reflexivity.
  - split; [eexists; split; [reflexivity|apply Q; cbn; tauto]|]. split; [apply Q; cbn; tauto|]. split; [reflexivity|]. split; [discriminate|]. split; [intros bn E; injection E as <-; discriminate|].
    split; [|split; exact I]. intros l [<-|[<-|[]]] x y E; cbn; [unfold np_relu; rewrite E; reflexivity|exact E].
  - split; [intros q [= <-]; apply Q; cbn; tauto|]. split; [exact I|]. split; [intros []|discriminate].
  - split; [intros q [= <-]; constructor; [apply Q; cbn; tauto|constructor; [apply Q; cbn; tauto|constructor]]|]. split; [|split; [discriminate|intros q [= <-]; apply Q; cbn; tauto]].
    exists 0%nat, [1;2]%nat, [3;2]%nat, [1;3]%nat. split; [reflexivity|]. split; [reflexivity|]. split; [reflexivity|]. split; [cbn; lia|discriminate].
  - split; [exact I|intros []].
  - split; [discriminate|]. split; [|split; [intros []|discriminate]]. cbn [traceable_op ex_smax sx_axes sx_exp_iq sx_exp_oq sx_inv_iq sx_inv_oq sx_exp sx_inv].
    split; [intros [X|[]]; discriminate|]. split; [intros q [= <-]; apply Q; cbn; tauto|]. split; [apply Q; cbn; tauto|]. split; [apply Q; cbn; tauto|]. split; [apply Q; cbn; tauto|].
    split; intros x y E; [unfold P_Attn.ex_e|unfold P_Attn.ex_i]; rewrite !(P_Attn.ex_qle _ _ _ E); reflexivity.
Qed.
Definition fin (o : option dump_t) : list (tensor Q) := match o with Some [(_, l)] => l | _ => [] end.
Lemma keras_form x args kw d : keras_x x args kw = Some d -> exists l, d = [("final", l)].
Proof.
  destruct x as [l| |p|iq p oq|t|a]; cbn [keras_x]; intros H.
  - unfold keras_layer in H. destruct (one_arg args); [|discriminate]. cbn [bind] in H. destruct (match l with LPlain _ _ => _ | LQ _ _ _ _ => _ end); [|discriminate]. injection H as <-. eauto.
  - destruct args as [|[v| |] [|]]; try discriminate. destruct (training_off kw); [|discriminate]. injection H as <-. eauto.
  - destruct (no_kwargs kw); [|discriminate]. destruct (op_args args); [|discriminate]. cbn [bind] in H. destruct (keras_op p _); [|discriminate]. injection H as <-. eauto.
  - destruct (training_off kw); [|discriminate]. destruct (one_arg args); [|discriminate]. cbn [bind] in H. destruct (match iq with Some _ => _ | None => _ end); [|discriminate]. cbn [bind] in H. destruct (keras_op p _); [|discriminate]. cbn [bind] in H.
    destruct (match oq with Some _ => _ | None => _ end); [|discriminate]. injection H as <-. eauto.
  - destruct (training_off kw); [|discriminate]. destruct (one_arg args) as [[v|]|]; try discriminate. cbn [bind] in H. destruct (keras_table t v); [|discriminate]. cbn [bind] in H.
    destruct (match xt_oq t with Some _ => _ | None => _ end); [|discriminate]. injection H as <-. eauto.
  - destruct (keras_attn a args kw); [|discriminate]. injection H as <-. eauto.
Qed.
Definition out k x args kw := nth k (fin (keras_x x args kw)) ex_x.
Lemma runs1 x args kw : (List.length (fin (keras_x x args kw)) =? 1)%nat = true -> keras_x x args kw = Some [("final", [out 0 x args kw])].
Proof.
  unfold out. destruct (keras_x x args kw) as [d|] eqn:E; [|discriminate]. destruct (keras_form _ _ _ _ E) as (l & ->). cbn [fin]. destruct l as [|y [|]]; try discriminate. reflexivity.
Qed.
Lemma runs2 x args kw : (List.length (fin (keras_x x args kw)) =? 2)%nat = true -> keras_x x args kw = Some [("final", [out 0 x args kw; out 1 x args kw])].
Proof.
  unfold out. destruct (keras_x x args kw) as [d|] eqn:E; [|discriminate]. destruct (keras_form _ _ _ _ E) as (l & ->). cbn [fin]. destruct l as [|y [|z [|]]]; try discriminate. reflexivity.
Qed.
Definition ex_a := out 0 L_abs [VArr ex_x] []. Definition ex_m := out 0 L_max [VArr ex_x; VArr ex_a] []. Definition ex_r := out 0 L_rev [VArr ex_m; VConst 7] [].
Definition ex_kw : kwargs_t := [("use_causal_mask", VConst 1%nat); ("return_attention_scores", VConst 1%nat)].
Definition ex_g := out 0 L_drop [VArr ex_r] [("training", VConst 0%nat)].
Definition ex_h := out 0 L_att [VArr ex_g; VArr ex_g] ex_kw. Definition ex_w := out 1 L_att [VArr ex_g; VArr ex_g] ex_kw. Definition ex_t := out 0 L_tab [VArr ex_h] [].
Definition ex_p := out 0 L_pool [VArr ex_t] []. Definition ex_e := out 0 L_ein [VList [VArr ex_h; VArr ex_x]] []. Definition ex_l := out 0 L_leaky [VArr ex_p] []. Definition ex_s := out 0 L_soft [VArr ex_p] [].
Example C63_evaluates : evaluates keras_x 1 ex_net [ex_x] [ex_e; ex_l; ex_s; ex_w].
Proof.
  exists (fun t => assoc t [("x", ex_x); ("a", ex_a); ("m", ex_m); ("r", ex_r); ("g", ex_g); ("h", ex_h); ("w", ex_w); ("t", ex_t); ("p", ex_p); ("e", ex_e); ("l", ex_l); ("s", ex_s)]). split; [reflexivity|]. split; [reflexivity|]. intros o Ho Hi. cbn in Ho.
  repeat (destruct Ho as [<-|Ho]; [try discriminate Hi; clear Hi|]); [| | | | | | | | | |destruct Ho].
  - exists [VArr ex_x], [], [ex_a]. repeat (split; [reflexivity|]). eexists. split; [apply runs1; vm_compute; reflexivity|reflexivity].
  - exists [VArr ex_x; VArr ex_a], [], [ex_m]. repeat (split; [reflexivity|]). eexists. split; [apply runs1; vm_compute; reflexivity|reflexivity].
  - exists [VArr ex_m; VConst 7], [], [ex_r]. repeat (split; [reflexivity|]). eexists. split; [apply runs1; vm_compute; reflexivity|reflexivity].
  - exists [VArr ex_r], [("training", VConst 0%nat)], [ex_g]. repeat (split; [reflexivity|]). eexists. split; [apply runs1; vm_compute; reflexivity|reflexivity].
  - exists [VArr ex_g; VArr ex_g], ex_kw, [ex_h; ex_w]. repeat (split; [reflexivity|]). eexists. split; [apply runs2; vm_compute; reflexivity|reflexivity].
  - exists [VArr ex_h], [], [ex_t]. repeat (split; [reflexivity|]). eexists. split; [apply runs1; vm_compute; reflexivity|reflexivity].
  - exists [VArr ex_t], [], [ex_p]. repeat (split; [reflexivity|]). eexists. split; [apply runs1; vm_compute; reflexivity|reflexivity].
  - exists [VList [VArr ex_h; VArr ex_x]], [], [ex_e]. repeat (split; [reflexivity|]). eexists. split; [apply runs1; vm_compute; reflexivity|reflexivity].
  - exists [VArr ex_p], [], [ex_l]. repeat (split; [reflexivity|]). eexists. split; [apply runs1; vm_compute; reflexivity|reflexivity].
  - exists [VArr ex_p], [], [ex_s]. repeat (split; [reflexivity|]). eexists. split; [apply runs1; vm_compute; reflexivity|reflexivity].
Qed.
Ltac arg_incl := intros a Ha; cbn in Ha; repeat (destruct Ha as [<-|Ha]; [cbn; intros u Hu; cbn in Hu; cbn; tauto|]); destruct Ha.
Ltac kw_incl := intros ka Ha; cbn in Ha; repeat (destruct Ha as [<-|Ha]; [intros u []|]); destruct Ha.
Example C63_well_formed : well_formed 1 ex_net.
Proof.
  split; [|split; [|split]].
  - cbn. repeat constructor; cbn; intuition discriminate.
  - exists 8%nat. intros d. cbn. lia.
  - assert (G : forall t o d os, In (d, os) (m_nodes_by_depth ex_net) -> In o os -> is_input o = false -> In t (o_produces o) -> In t (m_inputs ex_net) \/ exists d o, op_at ex_net d o /\ is_input o = false /\ In t (o_produces o)).
    { intros t o d os H1 H2 H3 H4. right. exists d, o. split; [exists os; split; assumption|]. split; assumption. }
    intros t [<-|[<-|[<-|[<-|[]]]]].
    + eapply (G "e" _ 0%nat); [do 8 right; left; reflexivity|left; reflexivity|reflexivity|left; reflexivity].
    + eapply (G "l" _ 0%nat); [do 8 right; left; reflexivity|right; left; reflexivity|reflexivity|left; reflexivity].
    + eapply (G "s" _ 0%nat); [do 8 right; left; reflexivity|right; right; left; reflexivity|reflexivity|left; reflexivity].
    + eapply (G "w" _ 3%nat); [do 5 right; left; reflexivity|left; reflexivity|reflexivity|right; left; reflexivity].
  - assert (G : forall d t o d' os, (d < d')%nat -> In (d', os) (m_nodes_by_depth ex_net) -> In o os -> is_input o = false -> In t (o_produces o) -> In t (m_inputs ex_net) \/ exists d' o', (d < d')%nat /\ op_at ex_net d' o' /\ is_input o' = false /\ In t (o_produces o')).
    { intros d t o d' os Hd H1 H2 H3 H4. right. exists d', o. split; [exact Hd|]. split; [exists os; split; assumption|]. split; assumption. }
    assert (GX : forall d, In "x" (m_inputs ex_net) \/ exists d' o', (d < d')%nat /\ op_at ex_net d' o' /\ is_input o' = false /\ In "x" (o_produces o')) by (intros d; left; left; reflexivity).
    intros d o (os & H1 & H2). cbn in H1. repeat (destruct H1 as [H1|H1]; [injection H1 as <- <-; cbn in H2; repeat (destruct H2 as [<-|H2]; [cbn [o_requires o_args o_kwargs o_kind]; split; [|split; [arg_incl|split; [kw_incl|discriminate]]]|]); try destruct H2|]); try destruct H1.
    + intros t [].
    + intros t [<-|[]]. apply GX.
    + intros t [<-|[<-|[]]]; [apply GX|]. eapply (G _ "a" _ 7%nat); [lia|do 1 right; left; reflexivity|left; reflexivity|reflexivity|left; reflexivity].
    + intros t [<-|[]]. eapply (G _ "m" _ 6%nat); [lia|do 2 right; left; reflexivity|left; reflexivity|reflexivity|left; reflexivity].
    + intros t [<-|[]]. eapply (G _ "r" _ 5%nat); [lia|do 3 right; left; reflexivity|left; reflexivity|reflexivity|left; reflexivity].
    + intros t [<-|[]]. eapply (G _ "g" _ 4%nat); [lia|do 4 right; left; reflexivity|left; reflexivity|reflexivity|left; reflexivity].
    + intros t [<-|[]]. eapply (G _ "h" _ 3%nat); [lia|do 5 right; left; reflexivity|left; reflexivity|reflexivity|left; reflexivity].
    + intros t [<-|[]]. eapply (G _ "t" _ 2%nat); [lia|do 6 right; left; reflexivity|left; reflexivity|reflexivity|left; reflexivity].
    + intros t [<-|[<-|[]]]; [|apply GX]. eapply (G _ "h" _ 3%nat); [lia|do 5 right; left; reflexivity|left; reflexivity|reflexivity|left; reflexivity].
    + intros t [<-|[]]. eapply (G _ "p" _ 1%nat); [lia|do 7 right; left; reflexivity|left; reflexivity|reflexivity|left; reflexivity].
    + intros t [<-|[]]. eapply (G _ "p" _ 1%nat); [lia|do 7 right; left; reflexivity|left; reflexivity|reflexivity|left; reflexivity].
Qed.
Definition ex_da (b : nat) : da := mk_da (sample b ex_x) (mk_obj 5 (fun i => mk_lhs (at_ ex_x (b :: i)) (at_ ex_x (b :: i)) 1)).
Example C63_inputs : Forall2 (holds_x 2 1) [ex_x] [ex_da 1].
Proof.
  constructor; [|constructor]. split; [split; [exists 3%nat, [2%nat]; reflexivity|split; [reflexivity|intros i _; reflexivity]]|]. intros i _. exists 0%nat. split; [split; [reflexivity|cbn; ring]|]. exists 0%nat. split; [lia|]. cbn. ring.
Qed.
(** the outputs of the model on sample 1, and the trace of that sample *)
Example C63_values : map (fun t => Qred (at_ (fst t) (snd t))) [(ex_e, [1;0;1]); (ex_e, [1;2;0]); (ex_l, [1;0]); (ex_l, [1;1]); (ex_s, [1;0]); (ex_s, [1;1]); (ex_w, [1;1;1;0]); (ex_w, [1;1;2;1])]%nat = [13 # 2; 35 # 2; 7 # 2; 6; 3 # 16; 3 # 4; 3 # 16; 3 # 16].
Proof. vm_compute. reflexivity. Qed.
Example C63_traced :
  match trace_x ex_env 1 ex_net [ex_da 1] with
  | Some d => (List.length d, match assoc "final" d with Some [e; l; s; w] => map (fun t => Qred (at_ (da_val (fst t)) (snd t))) [(e, [0;1]); (e, [2;0]); (l, [0]); (l, [1]); (s, [0]); (s, [1]); (w, [1;1;0]); (w, [1;2;1])]%nat | _ => [] end)
  | None => (0%nat, [])
  end = (19%nat, [13 # 2; 35 # 2; 7 # 2; 6; 3 # 16; 3 # 4; 3 # 16; 3 # 16]).
Proof. vm_compute. reflexivity. Qed.
(** other traceable layers: a convolutional lookup table, softmax over two axes, Concatenate, matmul, PReLU, GlobalMaxPooling *)
Example C63_more_traceable :
  traceable_table (mk_xtable (Some (SAME, [mk_cdim 4 2 1 1], 1%nat)) 2 2 P_Table.ex_net None (1#2) (Some (ex_q 4 2 1)) (ex_q 4 3 1) ALinear P_Table.ex_act' (Some (ex_q 3 4 1))) /\
  traceable_op (OConcatLayer (-1) [[3; 2]; [3; 2]]%nat) /\ traceable_op (OMatmul 3) /\ traceable_op (OLeaky (mk_tensor [2%nat] (fun i => inject_Z (Z.of_nat (hd 0%nat i))))) /\
  traceable_op (OGlobalPool true 2 true) /\ traceable_op (OReLU (1 # 8) (Some 6)) /\ traceable_op (OMoveaxis 1 (-1) 3).
Proof.
  split.
  { split; [eexists; split; [reflexivity|apply ex_quant; cbn; tauto]|]. split; [apply ex_quant; cbn; tauto|]. split; [reflexivity|]. split; [intros q [= <-]; apply ex_quant; cbn; tauto|]. split; [discriminate|].
    split; [|split; [exact I|split; [cbn; lia|cbn; lia]]]. intros l [<-|[<-|[]]] x y E; cbn; [unfold np_relu; rewrite E; reflexivity|exact E]. }
  split; [split; [lia|]; exists [3;2]%nat, 1%nat; split; [intros s [<-|[<-|[]]]; reflexivity|reflexivity]|]. split; [cbn; lia|]. split; [exact I|]. split; [exact I|]. split; [intros m [= <-]; discriminate|].
  exists 0%nat, 1%nat. split; reflexivity.
Qed.
(** the layers that cannot be traced do compute *)
Example C63_refuted_layers_compute :
  keras_x (XOp (OQEinsum [0;1;2] [0;3;2] [0;1;3])%nat) [VList [VArr ex_x; VArr ex_x]] [] <> None /\
  keras_x (XQOp None (OQEinsum [0;1;2] [0;3;2] [0;1;3])%nat None) [VList [VArr ex_x; VArr ex_x]] [] <> None /\
  keras_x (XTable (mk_xtable None 2 2 P_Table.ex_net None (1#2) None (ex_q 4 3 1) ALinear P_Table.ex_act' None)) [VArr ex_x] [] <> None /\
  keras_x (XTable (mk_xtable None 2 2 P_Table.ex_net None (1#2) (Some (ex_q 4 2 1)) (ex_q 4 3 1) (AFn (fun v => v * v)) P_Table.ex_act' None)) [VArr ex_x] [] <> None /\
  keras_x L_att [VArr ex_x; VArr ex_a; VArr ex_m] [] <> None /\ keras_x (XOp (OReduce false [1%nat] false)) [VArr ex_x] [] <> None.
Proof.
  assert (G : forall x args kw, (List.length (fin (keras_x x args kw)) =? 1)%nat = true -> keras_x x args kw <> None) by (intros x args kw H; rewrite (runs1 x args kw H); discriminate).
  repeat split; apply G; vm_compute; reflexivity.
Qed.
