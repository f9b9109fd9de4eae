From Coq Require Import String.
From Verif Require Import Num M_Fixed L_Fixed M_State M_Wrapper M_Mapper S_Mapper L_Mapper M_Contr M_Ebops L_Ebops M_Pow2 M_Patch S_Patch L_Patch M_Ops S_Ops L_Ops M_Mirror S_Mirror L_Mirror M_Trace S_Trace L_Trace M_Net S_Net L_Lift L_Net L_Net2 L_Net3 L_Net4 S_Ops.
Local Open Scope list_scope.

Inductive rel_inp (R : tensor Q -> tensor Q -> Prop) : tin -> tin -> Prop :=
  | ROne x v : R x v -> rel_inp R (One x) (One v)
  | RMany xs vs : Forall2 R xs vs -> rel_inp R (Many xs) (Many vs).
Lemma right_then (rep : tensor Q -> option (tensor Q)) n b x v y : (b < n)%nat -> traced_right n y (fun b => rep (sample b x)) ->
  (forall v v' z, same_tensor v v' -> rep v = Some z -> exists z', rep v' = Some z' /\ same_tensor z z') -> same_tensor (sample b x) v -> exists z, rep v = Some z /\ same_tensor (sample b y) z.
Proof. intros Hb (_ & T) C S. destruct (T b Hb) as (z & Ez & Sz). destruct (C _ _ _ S Ez) as (z' & Ez' & Sz'). exists z'. split; [exact Ez'|exact (st_trans _ _ _ Sz Sz')]. Qed.
Lemma batch_in_of n x : batch_in n x -> batch_of n x.
Proof. intros (d & s & E). exists (d :: s). exact E. Qed.
Lemma drop_axes_nonempty axes : forall sh a c, (a <= c < a + length sh)%nat -> ~ In c axes -> exists d s, drop_axes a axes sh = d :: s.
Proof.
  induction sh as [|d sh IH]; intros a c Hc Nc; [cbn [length] in Hc; lia|]. cbn [drop_axes]. destruct (memb a axes) eqn:E; [|eauto].
  apply (IH (S a) c); [|exact Nc]. cbn [length] in Hc. assert (c <> a) by (intros ->; apply Nc, memb_In, E). lia.
Qed.
Lemma flatten_same v v' z : same_tensor v v' -> replay_flatten v = Some z -> exists z', replay_flatten v' = Some z' /\ same_tensor z z'.
Proof. intros S. unfold replay_flatten. rewrite <- (proj1 S). apply reshape_same, S. Qed.
Lemma Forall2_holds n b xs vs : Forall2 (holds n b) xs vs -> sames (map (sample b) xs) vs /\ forall x, In x xs -> batch_in n x.
Proof.
  induction 1 as [|x v xs vs (B & S) _ (IH1 & IH2)]; [split; [constructor|intros x []]|]. split; [constructor; assumption|]. intros y [<-|Hy]; [exact B|apply IH2, Hy].
Qed.
Lemma merge_rank op vs z : replay_merge op vs = Some z -> length (shape z) = max_ndim vs.
Proof.
  unfold replay_merge. destruct (merge_arity op (length vs)); [|discriminate]. unfold broadcast_arrays. destruct (join_shapes (max_ndim vs) (map shape vs)) as [sh|] eqn:J; [|discriminate]. cbn [bind].
  destruct vs as [|v vs]; [discriminate|]. cbn [map]. intros H. apply some_inj in H. subst z. cbn [shape]. rewrite join_shapes_foldj in J.
  assert (G : forall ss acc r, foldj (Some acc) ss = Some r -> length r = length acc).
  { induction ss as [|s ss IH]; intros acc r E; [cbn in E; congruence|]. unfold foldj in E. cbn [fold_left bind] in E. destruct (join_shape acc s) as [t|] eqn:Jt.
    - rewrite (IH t r E). destruct (join_shape_leq _ _ _ Jt) as (A & _). symmetry. apply leq_length, A.
    - change (foldj None ss = Some r) in E. rewrite foldj_None in E. discriminate. }
  rewrite (G _ _ _ J). apply repeat_length.
Qed.
Lemma merge_core n b op xs vs y : (b < n)%nat -> Forall2 (holds n b) xs vs -> keras_merge op xs = Some y -> exists z, replay_merge op vs = Some z /\ holds n b y z.
Proof.
  intros Hb F H. destruct (Forall2_holds _ _ _ _ F) as (S & B). pose proof (merge_traced op n xs y (fun x Hx => batch_in_of _ _ (B x Hx)) H) as ((sh & Ey) & T).
  destruct (T b Hb) as (z & Ez & Sz). destruct (merge_same _ _ _ _ S Ez) as (z' & Ez' & Sz'). exists z'. split; [exact Ez'|]. split; [|exact (st_trans _ _ _ Sz Sz')].
  pose proof (merge_rank _ _ _ Ez) as R. destruct Sz as (Sz & _). cbn [sample shape] in Sz. rewrite Ey in Sz. cbn [tl] in Sz. rewrite <- Sz in R.
  destruct sh as [|d s]; [|exists d, s; exact Ey]. cbn [length] in R.
  destruct xs as [|x xs]; [unfold replay_merge in Ez; destruct op; discriminate|]. pose proof (max_ndim_ge (map (sample b) (x :: xs)) (sample b x) (or_introl eq_refl)) as G.
  destruct (B x (or_introl eq_refl)) as (d & s & Ex). cbn [sample shape] in G. rewrite Ex in G. cbn [tl length] in G. lia.
Qed.
Lemma relu_ext a b : a == b -> relu a == relu b. Proof. intros E. rewrite E. reflexivity. Qed.
Lemma holds_tmap n b f x v : (forall a b, a == b -> f a == f b) -> holds n b x v -> holds n b (tmap f x) (tmap f v).
Proof. intros P ((d & s & E) & S). split; [exists d, s; exact E|]. apply (st_tmap f (sample b x) v P S). Qed.

Lemma core_traced n b c a x v y : (b < n)%nat -> traceable_core c -> (c = CLut -> forall p q, p == q -> act_fn a p == act_fn a q) -> rel_inp (holds n b) x v -> core_call c x = Some y ->
  exists z, core_replay c a v = Some z /\ holds n b (if activation_handled c then tmap (act_fn a) y else y) z.
Proof.
  intros Hb T L RX H. destruct RX as [x v Hx|xs vs Hx]; destruct c; try discriminate; cbn [core_call core_replay activation_handled traceable_core] in *.
  - exact (quant_traced n b q x y v Hb T Hx H).
  - destruct (keras_matmul x kernel) as [y1|] eqn:E; [|discriminate]. cbn [bind] in H. exact (dense_traced n b x v kernel bias y1 y Hb T Hx E H).
  - destruct T as (a0 & li' & lo' & -> & -> & Na & Nl & Bi). destruct (np_einsum (a0 :: li') lk (a0 :: lo') x kernel) as [y1|] eqn:E; [|discriminate]. cbn [bind] in H.
    exact (einsum_bias_traced n b a0 li' lk lo' x v kernel bias y1 y Hb Na Nl Bi Hx E H).
  - destruct T as (Hg & Hi & Ho & Hs & Hz & (w & -> & Lw)). destruct (keras_conv pad cs groups cin_g cout_g kernel x) as [y1|] eqn:E; [|discriminate]. cbn [bind add_bias] in H.
    destruct (conv_traced n b pad cs groups cin_g cout_g kernel x v y1 Hb Hx Hg Hi Ho Hs Hz E) as (z1 & -> & H1). cbn [bind replay_add_bias].
    apply (const_traced Qplus n b y1 z1 w y Qplus_ext Hb H1); [|exact H]. destruct H1 as ((d & s & ->) & _). cbn [length]. lia.
  - destruct T as (d & sh' & ->). destruct (Nat.eqb_spec (length (shape x)) (length (1%nat :: d :: sh'))) as [Lr|]; [|discriminate].
    exact (bn_traced n b d sh' scale offset x v y Hb Hx Lr H).
  - destruct T as (N0 & Hn & HK). destruct (Nat.eqb_spec (length (shape x)) ndim) as [Lr|]; [|discriminate]. apply some_inj in H. subst y. destruct Hx as ((d & s & Ex) & Sx).
    assert (M0 : memb 0 axes = false) by (apply memb_false, N0).
    destruct (right_then (replay_qsum axes keepdims scale) n b x v _ Hb (qsum_traced axes keepdims scale n x (ex_intro _ _ Ex) M0) (qsum_layer_same axes keepdims scale) Sx) as (z & Ez & Sz).
    exists z. split; [exact Ez|]. split; [|exact Sz]. unfold batch_in, layer_qsum, np_reduce. destruct keepdims; cbn [tmap shape reduce_keep]; rewrite Ex.
    + cbn [keep_shape_from]. rewrite M0. eauto.
    + cbn [drop_axes]. rewrite M0. destruct HK as [K|(c & Hc & Nc)]; [discriminate|]. rewrite Ex in Lr. cbn [length] in Lr.
      destruct (drop_axes_nonempty axes (d :: s) 1 c) as (d' & s' & E); [cbn [length]; lia|exact Nc|]. cbn [drop_axes] in E. rewrite E. eauto.
  - destruct T as (Hp & Hs). apply (pool_traced n b (avg_pool pad cs) (replay_avg_pool pad cs ch) pad cs ch x v y Hb Hx); [| |exact H].
    + intros f g o c _ Hc E. exact (avg_pool_same pad cs ch f g o c Hc E).
    + intros f o c Vo Hc. exact (proj1 (avg_pool_exact pad cs ch f Hp Hs o c Hc Vo)).
  - destruct T as (-> & Hp & Hs). apply (pool_traced n b (max_pool VALID cs) (replay_max_pool VALID cs ch) VALID cs ch x v y Hb Hx); [| |exact H].
    + intros f g o c _ Hc E. exact (max_pool_same VALID cs ch f g o c Hc E).
    + intros f o c Vo Hc. exact (max_pool_valid cs ch f o c Hp Hs Hc Vo).
  - destruct (Nat.eqb_spec (nprod sh) (nprod (tl (shape x)))) as [P|]; [|discriminate]. destruct Hx as ((d & s & Ex) & Sx).
    pose proof (reshape_traced n sh x y (ex_intro _ _ Ex) H P) as R.
    destruct (right_then (replay_reshape sh) n b x v y Hb R (fun v v' z => reshape_same sh v v' z) Sx) as (z & Ez & Sz). exists z. split; [exact Ez|]. split; [|exact Sz].
    unfold keras_reshape in H. rewrite Ex in H. unfold np_reshape in H. destruct (_ =? _)%nat; [|discriminate]. apply some_inj in H. subst y. destruct sh as [|d' s']; [congruence|]. exists d', s'. reflexivity.
  - destruct Hx as ((d & s & Ex) & Sx). pose proof (flatten_traced n x y (ex_intro _ _ Ex) H) as R.
    destruct (right_then replay_flatten n b x v y Hb R flatten_same Sx) as (z & Ez & Sz). exists z. split; [exact Ez|]. split; [|exact Sz].
    unfold keras_flatten in H. rewrite Ex in H. unfold np_reshape in H. destruct (_ =? _)%nat; [|discriminate]. apply some_inj in H. subst y. eexists. eexists. reflexivity.
  - apply some_inj in H. subst y. eexists. split; [reflexivity|]. exact (holds_tmap n b relu x v relu_ext Hx).
  - apply some_inj in H. subst y. eexists. split; [reflexivity|]. exact (holds_tmap n b (act_fn a) x v (L eq_refl) Hx).
  - exact (merge_core n b op xs vs y Hb Hx H).
Qed.

(** ** layers *)
Lemma iq_traced n b q x y v : (b < n)%nat -> traceable_quants q -> rel_inp (holds n b) x v -> iq_call q x = Some y -> exists w, iq_replay q v = Some w /\ rel_inp (holds n b) y w.
Proof.
  intros Hb T RX H. destruct RX as [x v Hx|xs vs Hx]; destruct q as [q|qs]; try discriminate; cbn [iq_call iq_replay traceable_quants] in *.
  - destruct (quant_call q x) as [y1|] eqn:E; [|discriminate]. cbn [bind] in H. apply some_inj in H. subst y. destruct (quant_traced n b q x y1 v Hb T Hx E) as (z & -> & Hz). cbn [bind].
    eexists. split; [reflexivity|constructor; exact Hz].
  - destruct (length qs =? length xs)%nat; [|discriminate]. destruct (map2o qs quant_call xs) as [ys|] eqn:E; [|discriminate]. cbn [bind] in H. apply some_inj in H. subst y.
    assert (G : exists ws, map2o qs quant_mirror vs = Some ws /\ Forall2 (holds n b) ys ws).
    { revert xs vs Hx ys E. induction T as [|q qs Tq Tqs IH]; intros xs vs Hx ys E.
      - cbn [map2o] in *. apply some_inj in E. subst ys. exists []. split; [reflexivity|constructor].
      - destruct Hx as [|x v xs vs Hxv Hx]; cbn [map2o] in *; [apply some_inj in E; subst ys; exists []; split; [reflexivity|constructor]|].
        destruct (quant_call q x) as [y|] eqn:Ey; [|discriminate]. cbn [bind] in E. destruct (map2o qs quant_call xs) as [ys'|] eqn:Eys; [|discriminate]. cbn [bind] in E. apply some_inj in E. subst ys.
        destruct (quant_traced n b q x y v Hb Tq Hxv Ey) as (z & -> & Hz). destruct (IH xs vs Hx ys' Eys) as (ws & -> & Hws). cbn [bind]. eexists. split; [reflexivity|constructor; assumption]. }
    destruct G as (ws & -> & Hws). cbn [bind]. eexists. split; [reflexivity|constructor; exact Hws].
Qed.
Lemma normalize_holds n b x z : holds n b x z -> normalize z = z.
Proof. intros H. pose proof H as ((d & s & E) & _). unfold normalize. rewrite (holds_shape _ _ _ _ _ _ H E). reflexivity. Qed.
Section Rel.
  Context (n b : nat).
  Notation R := (holds n b).
  Lemma one_arg_rel args args' x : Forall2 (rel_varg R) args args' -> one_arg args = Some x -> exists v, one_arg args' = Some v /\ rel_inp R x v.
  Proof.
    intros F H. destruct F as [|a a' args args' Ra F]; [discriminate|]. destruct F as [|a2 a2' args args' Ra2 F]; [|destruct a; discriminate].
    destruct Ra as [x0 v0 R0|l l' Rl|k]; cbn [one_arg] in *; [apply some_inj in H; subst x; eexists; split; [reflexivity|constructor; exact R0]| |discriminate].
    destruct (all_arr l) as [vs|] eqn:E; [|discriminate]. cbn [bind] in H. apply some_inj in H. subst x.
    assert (G : exists ws, all_arr l' = Some ws /\ Forall2 R vs ws).
    { revert vs E. induction Rl as [|a a' l l' Ra Rl IH]; intros vs E; [cbn in *; injection E as <-; exists []; split; [reflexivity|constructor]|].
      destruct Ra as [x0 v0 R0| |]; cbn [all_arr] in *; try discriminate. destruct (all_arr l) as [vs'|] eqn:E'; [|discriminate]. injection E as <-.
      destruct (IH vs' eq_refl) as (ws & -> & Hws). exists (v0 :: ws). split; [reflexivity|constructor; assumption]. }
    destruct G as (ws & -> & Hws). cbn [bind]. eexists. split; [reflexivity|constructor; exact Hws].
  Qed.
  Lemma no_kwargs_rel kw kw' : Forall2 (rel_kw R) kw kw' -> no_kwargs kw = true -> kw' = [].
  Proof. intros F H. destruct F; [reflexivity|discriminate]. Qed.
  Lemma training_off_rel kw kw' : Forall2 (rel_kw R) kw kw' -> training_off kw = true -> training_off kw' = true /\ forallb (fun kv : string * varg (tensor Q) => match snd kv with VArr _ => false | _ => true end) kw' = true.
  Proof.
    intros F H. destruct F as [|[k a] [k' a'] kw kw' (Ek & Ra) F]; [split; reflexivity|]. cbn [fst snd] in *. subst k'. destruct Ra as [x0 v0 R0|l l' Rl|c]; cbn [training_off] in H; try discriminate.
    destruct c as [|c]; try discriminate. destruct F; [|discriminate]. split; [exact H|reflexivity].
  Qed.
  Lemma layer_traced l args kw d fin args' kw' : (b < n)%nat -> traceable_layer l -> keras_layer l args kw = Some d -> assoc "final"%string d = Some fin ->
    Forall2 (rel_varg R) args args' -> Forall2 (rel_kw R) kw kw' ->
    exists d' fin', replay_layer l args' kw' = Some d' /\ assoc "final"%string d' = Some fin' /\ Forall2 R fin fin'.
  Proof.
    intros Hb T K A FA FK. unfold keras_layer in K. destruct (one_arg args) as [x|] eqn:Ex; [|discriminate]. cbn [bind] in K. destruct (one_arg_rel _ _ _ FA Ex) as (v & Ev & Rx).
    match type of K with (do y <- ?e; _) = _ => destruct e as [y|] eqn:Ey; [|discriminate] end. cbn [bind] in K. apply some_inj in K. subst d. cbn in A. injection A as <-.
    unfold replay_layer. destruct l as [c a|iq c a oq].
    - destruct T as (Tc & ->). destruct (no_kwargs kw) eqn:Nk; [|discriminate]. rewrite (no_kwargs_rel _ _ FK Nk). cbn [forallb no_kwargs]. rewrite Ev. cbn [bind].
      destruct (core_call c x) as [y1|] eqn:E1; [|discriminate]. cbn [bind] in Ey. apply some_inj in Ey. subst y.
      destruct (core_traced n b c ALinear x v y1 Hb Tc (fun _ p q E => E) Rx E1) as (z & -> & Hz). cbn [bind]. eexists. eexists. split; [reflexivity|]. split; [reflexivity|].
      assert (Hz' : holds n b (tmap (act_fn ALinear) y1) z).
      { destruct (activation_handled c); [exact Hz|]. apply (holds_left n b _ y1); [exact Hb| |exact Hz]. split; [reflexivity|]. intros i _. reflexivity. }
      rewrite (normalize_holds _ _ _ _ Hz'). constructor; [exact Hz'|constructor].
    - destruct T as (Tiq & Tc & Toq & Ta). destruct (training_off kw) eqn:To; [|discriminate]. destruct (training_off_rel _ _ FK To) as (-> & ->). rewrite Ev. cbn [bind].
      assert (G1 : exists x1 v1, match iq with Some q => iq_call q x | None => Some x end = Some x1 /\ match iq with Some q => iq_replay q v | None => Some v end = Some v1 /\ rel_inp R x1 v1).
      { destruct iq as [q|]; [|exists x, v; auto]. destruct (iq_call q x) as [x1|] eqn:Eq; [|discriminate].
        destruct (iq_traced n b q x x1 v Hb (Tiq q eq_refl) Rx Eq) as (w & Ew & Rw). exists x1, w. auto. }
      destruct G1 as (x1 & v1 & E1 & E1' & R1). rewrite E1 in Ey. rewrite E1'. cbn [bind] in *. destruct (core_call c x1) as [y1|] eqn:E2; [|discriminate]. cbn [bind] in Ey. cbv zeta in Ey.
      destruct (core_traced n b c a x1 v1 y1 Hb Tc) with (2 := R1) (3 := E2) as (z & -> & Hz).
      { intros ->. destruct a as [| |f]; cbn [act_fn]; [auto|exact relu_ext|]. apply (proj2 Ta). }
      cbn [bind]. cbv zeta. rewrite (normalize_holds _ _ _ _ Hz).
      assert (G2 : exists w, (if activation_handled c then Some z else match a with ALinear => Some z | ARelu => Some (tmap relu z) | AFn _ => None end) = Some w /\ holds n b (tmap (act_fn a) y1) w).
      { destruct (activation_handled c) eqn:Eh; [exists z; split; [reflexivity|exact Hz]|]. destruct a as [| |f].
        - exists z. split; [reflexivity|]. apply (holds_left n b _ y1); [exact Hb| |exact Hz]. split; [reflexivity|]. intros i _. reflexivity.
        - eexists. split; [reflexivity|]. exact (holds_tmap n b relu y1 z relu_ext Hz).
        - destruct Ta as (-> & _). discriminate. }
      destruct G2 as (w & -> & Hw). cbn [bind].
      destruct oq as [q|].
      + destruct (quant_traced n b q _ y w Hb (Toq q eq_refl) Hw Ey) as (r & -> & Hr). cbn [bind]. eexists. exists [r]. split; [reflexivity|]. split; [destruct iq; reflexivity|constructor; [exact Hr|constructor]].
      + apply some_inj in Ey. subst y. eexists. exists [w]. split; [reflexivity|]. split; [destruct iq; reflexivity|constructor; [exact Hw|constructor]].
  Qed.
End Rel.

Lemma all_layers_ok fuel : forall (m : model layer), all_layers traceable_layer fuel m -> layers_ok traceable_layer fuel m.
Proof.
  induction fuel as [|fuel IH]; intros m H; [exact I|]. cbn [all_layers layers_ok] in *. intros o Ho. specialize (H o Ho). destruct (o_kind o); [exact I|exact H|apply IH, H].
Qed.
Lemma network_traced fuel m n xs ys : well_formed fuel m -> all_layers traceable_layer fuel m -> evaluates keras_layer fuel m xs ys -> (forall x, In x xs -> batch_in n x) ->
  forall b, (b < n)%nat -> exists d zs, trace_net fuel m (map (sample b) xs) = Some d /\ assoc "final"%string d = Some zs /\ Forall2 same_tensor (map (sample b) ys) zs /\ forall y, In y ys -> batch_in n y.
Proof.
  intros W L E B b Hb. assert (F : Forall2 (holds n b) xs (map (sample b) xs)).
  { clear E. induction xs as [|x xs IH]; [constructor|]. cbn [map]. constructor; [split; [apply B; left; reflexivity|apply st_refl]|apply IH; intros y Hy; apply B; right; exact Hy]. }
  destruct (trace_lift (holds n b) keras_layer replay_layer traceable_layer (fun l args kw d fin args' kw' => layer_traced n b l args kw d fin args' kw' Hb) fuel 0 m xs ys _ W (all_layers_ok fuel m L) E F) as (d & zs & Ed & Ef & FR).
  exists d, zs. split; [exact Ed|]. split; [exact Ef|]. destruct (Forall2_holds _ _ _ _ FR) as (A & C). split; [exact A|exact C].
Qed.

(** ** what cannot be traced *)
Lemma no_bias_core c a v : match c with CDense _ None | CEinsum _ _ _ _ None | CConv _ _ _ _ _ _ None => True | _ => False end -> core_replay c a v = None.
Proof.
  destruct c as [| ? [|] | ? ? ? ? [|] | ? ? ? ? ? ? [|] | | | | | | | | |]; intros H; try contradiction; destruct v; try reflexivity; cbn [core_replay].
  - unfold replay_dense. destruct (dense_labels _) as [[? ?] ?]. destruct (np_einsum _ _ _ _ _); reflexivity.
  - unfold replay_einsum_dense. destruct (np_einsum _ _ _ _ _); reflexivity.
  - destruct (replay_conv_layer _ _ _ _ _ _ _); reflexivity.
Qed.
Lemma no_bias_fails c iq a oq args kw : match c with CDense _ None | CEinsum _ _ _ _ None | CConv _ _ _ _ _ _ None => True | _ => False end ->
  replay_layer (LQ iq c a oq) args kw = None /\ replay_layer (LPlain c a) args kw = None.
Proof.
  intros H. unfold replay_layer. destruct (forallb _ kw); [|split; reflexivity]. destruct (one_arg args) as [v|]; [|split; [destruct (training_off kw)|destruct (no_kwargs kw)]; reflexivity]. cbn [bind]. split.
  - destruct (training_off kw); [|reflexivity]. destruct (match iq with Some q => iq_replay q v | None => Some v end); [|reflexivity]. cbn [bind]. cbv zeta. rewrite (no_bias_core _ _ _ H). reflexivity.
  - destruct (no_kwargs kw); [|reflexivity]. rewrite (no_bias_core _ _ _ H). reflexivity.
Qed.
Lemma activation_fails c iq f oq args kw : c <> CLut -> replay_layer (LQ iq c (AFn f) oq) args kw = None.
Proof.
  intros H. unfold replay_layer. destruct (forallb _ kw); [|reflexivity]. destruct (training_off kw); [|reflexivity]. destruct (one_arg args) as [v|]; [|reflexivity]. cbn [bind].
  destruct (match iq with Some q => iq_replay q v | None => Some v end); [|reflexivity]. cbn [bind]. cbv zeta. destruct (core_replay c (AFn f) _); [|reflexivity]. cbn [bind].
  destruct c; try reflexivity. congruence.
Qed.
Lemma plain_activation c a args kw : c <> CLut -> replay_layer (LPlain c a) args kw = replay_layer (LPlain c ALinear) args kw.
Proof.
  intros H. unfold replay_layer. destruct (forallb _ kw); [|reflexivity]. destruct (no_kwargs kw); [|reflexivity]. destruct (one_arg args) as [v|]; [|reflexivity]. cbn [bind].
  replace (core_replay c a v) with (core_replay c ALinear v); [reflexivity|]. destruct c; try reflexivity. congruence.
Qed.
Lemma drop_axes_all axes : forall sh a, (forall c, (a <= c < a + length sh)%nat -> In c axes) -> drop_axes a axes sh = [].
Proof.
  induction sh as [|d sh IH]; intros a H; [reflexivity|]. cbn [drop_axes]. replace (memb a axes) with true by (symmetry; apply memb_In, H; cbn [length]; lia). apply IH. intros c Hc. apply H. cbn [length]. lia.
Qed.
Lemma scalar_result n b ndim axes scale oq x v d y d' z : (b < n)%nat -> holds n b x v -> (forall a, (0 < a < ndim)%nat -> In a axes) -> ~ In 0%nat axes -> oq = None ->
    keras_layer (LQ None (CSum ndim axes false scale) ALinear oq) [VArr x] [] = Some d -> assoc "final"%string d = Some [y] ->
    replay_layer (LQ None (CSum ndim axes false scale) ALinear oq) [VArr v] [] = Some d' -> assoc "final"%string d' = Some [z] ->
    shape (sample b y) = [] /\ shape z = [1%nat].
Proof.
  intros Hb Hx Ha H0 -> K A K' A'. pose proof Hx as ((e & s & Ex) & _). pose proof (holds_shape _ _ _ _ _ _ Hx Ex) as Ev.
  assert (M0 : memb 0 axes = false) by (apply memb_false, H0).
  assert (L : length (shape x) = ndim /\ y = tmap (fun q => q) (layer_qsum axes false scale x)).
  { unfold keras_layer in K. cbn [one_arg bind training_off core_call] in K. destruct (Nat.eqb_spec (length (shape x)) ndim) as [E|]; [|discriminate]. cbn [bind] in K. apply some_inj in K. subst d.
    cbn in A. split; [exact E|]. injection A as <-. reflexivity. }
  destruct L as (L & ->). assert (D : drop_axes 1 axes (e :: s) = []) by (apply drop_axes_all; intros c Hc; apply Ha; rewrite <- L, Ex; cbn [length] in *; lia).
  split; [unfold layer_qsum, np_reduce; cbn [sample tmap shape]; rewrite Ex; cbn [drop_axes]; cbn [drop_axes] in D; rewrite M0; cbn [tl]; exact D|].
  unfold replay_layer in K'. cbn [forallb training_off one_arg bind core_replay activation_handled] in K'. cbv zeta in K'. unfold replay_qsum, replay_reduction, np_reduce, first in K'.
  cbn [newaxis shape] in K'. rewrite Ev in K'. change (drop_axes 0 axes (1%nat :: e :: s)) with (if memb 0 axes then drop_axes 1 axes (e :: s) else 1%nat :: drop_axes 1 axes (e :: s)) in K'.
  rewrite M0, D in K'. cbn [bind] in K'. apply some_inj in K'. subst d'. cbn in A'. injection A' as <-. reflexivity.
Qed.
