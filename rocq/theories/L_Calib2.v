(** Lemmas for C59: the operations of M_Net depend on the values of their arguments only. *)
From Verif Require Import Num M_Fixed L_Fixed M_State M_Wrapper M_Mapper S_Mapper L_Mapper M_Contr M_Ebops L_Ebops M_Pow2 M_Patch L_Patch M_Ops L_Ops M_Mirror L_Mirror M_Trace L_Trace M_Net S_Net L_Net L_Net2 L_Net3 L_Net4 L_Net5 M_Causal L_Causal M_Calib S_Ops S_Calib L_Calib.
Local Open Scope list_scope.

Lemma sum_over_bound dims F F' : forall ls e, (forall e', (forall m, ~ In m ls -> e' m = e m) -> (forall m, In m ls -> (e' m < dims m)%nat) -> F e' == F' e') ->
  sum_over 0 Qplus dims ls F e == sum_over 0 Qplus dims ls F' e.
Proof.
  induction ls as [|l ls IH]; intros e H; cbn [sum_over].
  - apply H; [reflexivity|intros m []].
  - unfold csum. change (fold_right Qplus 0) with qsum. apply qsum_ext. intros v Hv. apply in_seq in Hv. apply IH. intros e' H1 H2. apply H.
    + intros m Hm. rewrite H1; [|intros X; apply Hm; right; exact X]. unfold upd. destruct (Nat.eqb_spec m l) as [->|]; [exfalso; apply Hm; left; reflexivity|reflexivity].
    + intros m [<-|Hm]; [|exact (H2 m Hm)]. destruct (in_dec Nat.eq_dec l ls) as [I|N]; [exact (H2 l I)|]. rewrite (H1 l N). unfold upd. rewrite Nat.eqb_refl. lia.
Qed.
Lemma einsum_same li lk lo x x' k k' y : same_tensor x x' -> same_tensor k k' -> np_einsum li lk lo x k = Some y -> exists y', np_einsum li lk lo x' k' = Some y' /\ same_tensor y y'.
Proof.
  intros (Sx & Ax) (Sk & Ak). unfold np_einsum. cbv zeta. rewrite <- Sx, <- Sk. set (dims := label_dims li (shape x) lk (shape k)).
  destruct ((length li =? length (shape x))%nat && (length lk =? length (shape k))%nat && _) eqn:E; [|discriminate]. intros H. apply some_inj in H. subst y. eexists. split; [reflexivity|].
  apply andb_true_iff in E as (E & E3). apply andb_true_iff in E as (E1 & E2). apply Nat.eqb_eq in E1, E2. rewrite forallb_app in E3. apply andb_true_iff in E3 as (E3 & E4).
  apply forallb_dims in E3; [|exact E1]. apply forallb_dims in E4; [|exact E2]. split; [reflexivity|]. cbn [shape at_]. intros i Vi. unfold einsum. apply sum_over_bound. intros e H1 H2.
  assert (B : forall l, In l (li ++ lk) -> (e l < dims l)%nat).
  { intros l Hl. destruct (in_dec Nat.eq_dec l (contracted li lk lo)) as [I|N]; [exact (H2 l I)|]. rewrite (H1 l N). apply bind_lt; [exact Vi|].
    destruct (memb l lo) eqn:M; [apply memb_In, M|]. exfalso. apply N. unfold contracted. apply filter_In. rewrite M. split; [|reflexivity]. unfold all_labels. apply nodup_In, Hl. }
  apply Qmult_comp; [apply Ax|apply Ak]; [rewrite <- E3|rewrite <- E4]; apply valid_map; intros l Hl; apply B, in_or_app; [left|right]; exact Hl.
Qed.
Lemma matmul_same x x' k k' y : same_tensor x x' -> same_tensor k k' -> keras_matmul x k = Some y -> exists y', keras_matmul x' k' = Some y' /\ same_tensor y y'.
Proof.
  intros (Sx & Ax) (Sk & Ak). unfold keras_matmul. rewrite <- Sx, <- Sk. destruct (shape k) as [|c [|u [|? ?]]] eqn:Ek; try discriminate.
  destruct (negb (nat_list_eqb (shape x) []) && _) eqn:E; [|discriminate]. intros H. apply some_inj in H. subst y. eexists. split; [reflexivity|]. split; [reflexivity|]. cbn [shape at_]. intros i Vi.
  apply andb_true_iff in E as (E1 & E2). apply Nat.eqb_eq in E2. assert (N : shape x <> []) by (intros X; rewrite X in E1; discriminate). apply valid_snoc_inv in Vi as (V1 & V2).
  unfold matmul, csum. change (fold_right Qplus 0) with qsum. apply qsum_ext. intros j Hj. apply in_seq in Hj. apply Qmult_comp.
  - apply Ax. rewrite (last_split _ N), E2. apply valid_snoc; [exact V1|lia].
  - apply Ak. repeat constructor; lia.
Qed.
Lemma bias_same y y' b b' z : same_tensor y y' -> match b, b' with Some u, Some v => same_tensor u v | None, None => True | _, _ => False end ->
  add_bias y b = Some z -> exists z', add_bias y' b' = Some z' /\ same_tensor z z'.
Proof.
  intros S B H. destruct b as [u|], b' as [v|]; try contradiction; cbn [add_bias] in *.
  - exact (binary_same Qplus _ _ _ _ _ Qplus_ext S B H).
  - apply some_inj in H. subst z. exists y'. auto.
Qed.
Lemma conv_layer_same pad cs g ci co x x' k k' y : same_tensor x x' -> same_tensor k k' -> keras_conv pad cs g ci co k x = Some y -> exists y', keras_conv pad cs g ci co k' x' = Some y' /\ same_tensor y y'.
Proof.
  intros (Sx & Ax) (Sk & Ak). unfold keras_conv. rewrite <- Sx. destruct (shape x) as [|n s] eqn:Ex; [discriminate|]. unfold conv_fits. rewrite <- Sk.
  destruct (nat_list_eqb s _ && nat_list_eqb (shape k) _) eqn:F; [|discriminate]. apply andb_true_iff in F as (F1 & F2). apply nat_list_eqb_eq in F1, F2.
  intros H. apply some_inj in H. subst y. eexists. split; [reflexivity|]. split; [reflexivity|]. cbn [shape at_]. intros i Vi. inversion Vi as [|b ? i' ? Hb Vi']; subst. cbn [hd tl].
  apply valid_snoc_inv in Vi' as (Vo & Vc). unfold conv, csum. change (fold_right Qplus 0) with qsum.
  assert (G : forall t, In t (indices (map c_k cs)) -> forall c, (c < ci)%nat -> forall p, c_positions pad cs (removelast i') t = Some p ->
    at_ x (b :: tl (0%nat :: p ++ [(last i' 0%nat / co * ci + c)%nat])) == at_ x' (b :: tl (0%nat :: p ++ [(last i' 0%nat / co * ci + c)%nat])) /\ at_ k (t ++ [c; last i' 0%nat]) == at_ k' (t ++ [c; last i' 0%nat])).
  { intros t Ht c Hc p Hp. assert (Hco : (0 < co)%nat) by (destruct co; lia). split.
    - apply Ax. cbn [tl]. constructor; [exact Hb|]. apply valid_snoc; [exact (c_positions_valid _ _ _ _ _ Hp)|].
      assert (last i' 0 / co < g)%nat by (apply Nat.div_lt_upper_bound; lia). nia.
    - apply Ak. rewrite F2. apply Forall2_app; [apply in_indices, Ht|]. repeat constructor; assumption. }
  revert G. induction (indices (map c_k cs)) as [|t ts IH]; intros G; [reflexivity|]. cbn [flat_map]. rewrite !qsum_app, IH by (intros t' Ht'; apply G; right; exact Ht').
  apply Qplus_comp; [|reflexivity]. apply qsum_ext. intros c Hc. apply in_seq in Hc. destruct (c_positions pad cs (removelast i') t) as [p|] eqn:E; [|reflexivity].
  destruct (G t (or_introl eq_refl) c) with (p := p) as (G1 & G2); [lia|exact E|]. apply Qmult_comp; assumption.
Qed.
Lemma pool_same kpool pad cs ch x x' y :
  (forall f g o c, (c < ch)%nat -> (forall p c, valid_index (map c_in cs) p -> (c < ch)%nat -> f (0%nat :: p ++ [c]) == g (0%nat :: p ++ [c])) -> kpool f o c == kpool g o c) ->
  same_tensor x x' -> keras_pool kpool pad cs ch x = Some y -> exists y', keras_pool kpool pad cs ch x' = Some y' /\ same_tensor y y'.
Proof.
  intros P (Sx & Ax). unfold keras_pool. rewrite <- Sx. destruct (shape x) as [|n s] eqn:Ex; [discriminate|]. destruct (nat_list_eqb s _) eqn:F; [|discriminate]. apply nat_list_eqb_eq in F.
  intros H. apply some_inj in H. subst y. eexists. split; [reflexivity|]. split; [reflexivity|]. cbn [shape at_]. intros i Vi. inversion Vi as [|b ? i' ? Hb Vi']; subst. cbn [hd tl].
  apply valid_snoc_inv in Vi' as (Vo & Vc). apply P; [exact Vc|]. intros p c Vp Hc. apply Ax. cbn [tl]. constructor; [exact Hb|]. apply valid_snoc; assumption.
Qed.
Lemma expand_same n x x' : same_tensor x x' -> same_tensor (expand_to n x) (expand_to n x').
Proof.
  intros H. unfold expand_to. pose proof H as (S & _). rewrite <- S. induction (n - length (shape x))%nat as [|m IH]; [exact H|]. cbn [Nat.iter nat_rect].
  change (same_tensor (expand1 (Nat.iter m expand1 x)) (expand1 (Nat.iter m expand1 x'))). revert IH. generalize (Nat.iter m expand1 x) (Nat.iter m expand1 x'). intros u v IH.
  unfold expand1. destruct IH as (E & A). rewrite <- E. destruct (shape u) as [|b s] eqn:Eu.
  - split; [congruence|]. rewrite Eu. exact A.
  - split; [reflexivity|]. cbn [shape at_]. intros i Vi. inversion Vi as [|a ? i' ? Ha Vi']; subst. inversion Vi' as [|c ? i'' ? Hc Vi'']; subst. apply A. constructor; assumption.
Qed.
Lemma fold_same f : (forall a b c d, a == b -> c == d -> f a c == f b d) -> forall xs xs' acc acc' y, Forall2 same_tensor xs xs' -> same_tensor acc acc' -> fold_binary f acc xs = Some y ->
  exists y', fold_binary f acc' xs' = Some y' /\ same_tensor y y'.
Proof.
  intros P xs xs' acc acc' y F. revert acc acc' y. induction F as [|x x' xs xs' S F IH]; intros acc acc' y Sa H; cbn [fold_binary] in *.
  - apply some_inj in H. subst y. exists acc'. auto.
  - destruct (np_binary f acc x) as [r|] eqn:E; [|discriminate]. cbn [bind] in H. destruct (binary_same f _ _ _ _ _ P Sa S E) as (r' & -> & Sr). cbn [bind]. exact (IH _ _ _ Sr H).
Qed.
Lemma bin_ext op a b c d : a == b -> c == d -> bin_op op a c == bin_op op b d.
Proof. intros E F. destruct op; cbn [bin_op]; rewrite ?E, ?F; reflexivity. Qed.
Lemma keras_merge_same op xs xs' y : Forall2 same_tensor xs xs' -> keras_merge op xs = Some y -> exists y', keras_merge op xs' = Some y' /\ same_tensor y y'.
Proof.
  intros S. unfold keras_merge. rewrite <- (Forall2_len _ _ _ S). destruct (merge_arity op (length xs)); [|discriminate]. rewrite (max_ndim_shapes _ _ (sames_shapes _ _ S)).
  assert (F : Forall2 same_tensor (map (expand_to (max_ndim xs')) xs) (map (expand_to (max_ndim xs')) xs')).
  { generalize (max_ndim xs'). intros n. induction S; cbn [map]; constructor; [apply expand_same|]; assumption. }
  destruct F as [|u v us vs Su Sus]; [discriminate|]. destruct (fold_binary (bin_op op) u us) as [r|] eqn:E; [|discriminate]. cbn [bind]. intros H. apply some_inj in H. subst y.
  destruct (fold_same _ (bin_ext op) _ _ _ _ _ Sus Su E) as (r' & -> & Sr). cbn [bind]. eexists. split; [reflexivity|]. destruct op; try exact Sr. apply st_tmap; [intros a b ->; reflexivity|exact Sr].
Qed.
(** cores whose weights have equal values *)
Definition core_sim (c c' : core) : Prop :=
  match c, c' with
  | CDense k b, CDense k' b' => same_tensor k k' /\ match b, b' with Some u, Some v => same_tensor u v | None, None => True | _, _ => False end
  | CEinsum li lk lo k b, CEinsum li' lk' lo' k' b' => li' = li /\ lk' = lk /\ lo' = lo /\ same_tensor k k' /\ match b, b' with Some u, Some v => same_tensor u v | None, None => True | _, _ => False end
  | CConv p cs g ci co k b, CConv p' cs' g' ci' co' k' b' => p' = p /\ cs' = cs /\ g' = g /\ ci' = ci /\ co' = co /\ same_tensor k k' /\ match b, b' with Some u, Some v => same_tensor u v | None, None => True | _, _ => False end
  | CBatchNorm sh s o, CBatchNorm sh' s' o' => sh' = sh /\ same_tensor s s' /\ same_tensor o o'
  | c, c' => c' = c
  end.
Lemma core_same c c' x x' y : core_sim c c' -> same_inputs x x' -> core_call c x = Some y -> exists y', core_call c' x' = Some y' /\ same_tensor y y'.
Proof.
  intros C S H. assert (Sh : forall a b, same_tensor a b -> shape b = shape a) by (intros a b (E & _); congruence).
  destruct c as [q|k b|li lk lo k b|pad cs g ci co k b|sh sc off|ndim axes kd scale|pad cs ch|pad cs ch|op|sh| | |];
  destruct c' as [q'|k' b'|li' lk' lo' k' b'|pad' cs' g' ci' co' k' b'|sh' sc' off'|ndim' axes' kd' scale'|pad' cs' ch'|pad' cs' ch'|op'|sh'| | |];
  cbn [core_sim] in C; try discriminate C; try contradiction C; destruct x as [x|xs], x' as [x'|xs']; cbn [core_call same_inputs] in *; try discriminate; try contradiction.
  - injection C as ->. exact (quant_call_same q x x' y S H).
  - destruct C as (Ck & Cb). destruct (keras_matmul x k) as [r|] eqn:E; [|discriminate]. cbn [bind] in H. destruct (matmul_same _ _ _ _ _ S Ck E) as (r' & -> & Sr). cbn [bind]. exact (bias_same _ _ _ _ _ Sr Cb H).
  - destruct C as (-> & -> & -> & Ck & Cb). destruct (np_einsum li lk lo x k) as [r|] eqn:E; [|discriminate]. cbn [bind] in H. destruct (einsum_same _ _ _ _ _ _ _ _ S Ck E) as (r' & -> & Sr). cbn [bind]. exact (bias_same _ _ _ _ _ Sr Cb H).
  - destruct C as (-> & -> & -> & -> & -> & Ck & Cb). destruct (keras_conv pad cs g ci co k x) as [r|] eqn:E; [|discriminate]. cbn [bind] in H. destruct (conv_layer_same _ _ _ _ _ _ _ _ _ _ S Ck E) as (r' & -> & Sr). cbn [bind]. exact (bias_same _ _ _ _ _ Sr Cb H).
  - destruct C as (-> & Cs & Co). rewrite (Sh _ _ S). destruct (length (shape x) =? length sh)%nat; [|discriminate]. unfold keras_batchnorm in *.
    destruct (np_reshape sh sc) as [s1|] eqn:E1; [|discriminate]. cbn [bind] in H. destruct (np_reshape sh off) as [o1|] eqn:E2; [|discriminate]. cbn [bind] in H. destruct (np_binary Qmult x s1) as [r|] eqn:E3; [|discriminate]. cbn [bind] in H.
    destruct (reshape_same _ _ _ _ Cs E1) as (s1' & -> & S1). destruct (reshape_same _ _ _ _ Co E2) as (o1' & -> & S2). cbn [bind]. destruct (binary_same Qmult _ _ _ _ _ Qmult_ext S S1 E3) as (r' & -> & S3). cbn [bind].
    exact (binary_same Qplus _ _ _ _ _ Qplus_ext S3 S2 H).
  - injection C as -> -> -> ->. rewrite (Sh _ _ S). destruct (length (shape x) =? ndim)%nat; [|discriminate]. apply some_inj in H. subst y. eexists. split; [reflexivity|]. unfold layer_qsum.
    apply st_tmap; [intros a b ->; reflexivity|]. exact (reduce_same qsum axes kd _ _ qsum_Forall2 S).
  - injection C as -> -> ->. refine (pool_same (avg_pool pad cs) pad cs ch x x' y _ S H). intros f g o c. apply avg_pool_same.
  - injection C as -> -> ->. refine (pool_same (max_pool pad cs) pad cs ch x x' y _ S H). intros f g o c. apply max_pool_same.
  - injection C as ->. exact (keras_merge_same _ _ _ _ S H).
  - injection C as ->. rewrite (Sh _ _ S). destruct (nprod sh =? _)%nat; [|discriminate]. unfold keras_reshape in *. rewrite (Sh _ _ S). destruct (shape x); [discriminate|]. exact (reshape_same _ _ _ _ S H).
  - unfold keras_flatten in *. rewrite (Sh _ _ S). destruct (shape x); [discriminate|]. exact (reshape_same _ _ _ _ S H).
  - apply some_inj in H. subst y. eexists. split; [reflexivity|]. apply st_tmap; [exact relu_ext|exact S].
  - apply some_inj in H. subst y. exists x'. auto.
Qed.
Lemma core_sim_refl c : core_sim c c.
Proof. destruct c as [q|k [b|]|li lk lo k [b|]|pad cs g ci co k [b|]|sh s o|ndim axes kd scale|pad cs ch|pad cs ch|op|sh| | |]; cbn [core_sim]; try reflexivity; repeat split; apply st_refl || (intros; reflexivity). Qed.
Lemma core_of_same t ws ws' c : Forall2 same_tensor ws ws' -> core_of t ws = Some c -> exists c', core_of t ws' = Some c' /\ core_sim c c'.
Proof.
  intros F H. destruct F as [|u u' us us' S1 F]; [|destruct F as [|v v' vs vs' S2 F]; [|destruct F]]; destruct t; cbn [core_of] in *; try discriminate; apply some_inj in H; subst c; eexists; (split; [reflexivity|]);
  try apply core_sim_refl; cbn [core_sim]; repeat (split; try reflexivity); try exact (proj1 S1); try exact (proj2 S1); try exact (proj1 S2); try exact (proj2 S2).
Qed.
Lemma net_op_by_value t a : (forall p q, p == q -> act_fn a p == act_fn a q) -> by_value (net_op t a).
Proof.
  intros Ha ws ws' x x' y F S H. unfold net_op in *. destruct (core_of t ws) as [c|] eqn:E; [|discriminate]. cbn [bind] in H. destruct (core_call c x) as [z|] eqn:Ez; [|discriminate]. cbn [bind] in H. apply some_inj in H. subst y.
  destruct (core_of_same _ _ _ _ F E) as (c' & -> & C). cbn [bind]. destruct (core_same _ _ _ _ _ C S Ez) as (z' & -> & Sz). cbn [bind]. eexists. split; [reflexivity|]. apply st_tmap; assumption.
Qed.
