From Verif Require Import Num M_Fixed S_Fixed L_Fixed M_State M_Mapper S_Mapper L_Mapper M_Contr M_Wrapper M_Mirror L_Mirror M_Ebops L_Ebops M_Rnn S_Rnn L_Rnn M_Softmax S_Softmax L_Softmax M_Patch L_Patch M_Attn S_Attn.

(** ** sums and quantizers *)
Lemma qsumn_ext n f g : (forall j, (j < n)%nat -> f j == g j) -> qsumn n f == qsumn n g.
Proof. intros H. unfold qsumn. apply qsum_ext. intros j Hj. apply in_seq in Hj. apply H. lia. Qed.
Lemma mq_at q x y a b c : (-128 <= t_i q a b c <= 127)%Z -> (-128 <= t_f q a b c <= 127)%Z -> x a b c == y a b c -> mq q x a b c == lq q y a b c.
Proof. intros Wi Wf E. unfold mq, lq. apply affine_comp. rewrite (to_int8_id _ Wi), (to_int8_id _ Wf), hw_quantize_eq. apply base_call_Proper, E. Qed.
Lemma mq_proper q x y a b c : x a b c == y a b c -> mq q x a b c == mq q y a b c.
Proof. intros E. unfold mq. apply affine_comp. rewrite !hw_quantize_eq. apply base_call_Proper, E. Qed.
Lemma mq_lq A B C q x y : fits A B C q -> same3 A B C x y -> same3 A B C (mq q x) (lq q y).
Proof. intros W E a b c Ha Hb Hc. destruct (W a b c Ha Hb Hc). apply mq_at; auto. Qed.
Lemma omq_lq A B C q x y : ofits A B C q -> same3 A B C x y -> same3 A B C (oapp mq q x) (oapp lq q y).
Proof. intros W E. destruct q as [q|]; cbn [oapp]; [apply mq_lq; [apply W; reflexivity|exact E]|exact E]. Qed.
Lemma omq_proper q x y a b c : x a b c == y a b c -> oapp mq q x a b c == oapp mq q y a b c.
Proof. intros E. destruct q; cbn [oapp]; [apply mq_proper, E|exact E]. Qed.
Lemma lift_same A B x y : same2 A B x y -> same3 A B 1 (lift x) (lift y).
Proof. intros E a b c Ha Hb _. apply E; assumption. Qed.

(** ** projections *)
Lemma project_same P cin N D k k' b b' x y : same3 P cin 1 x y -> (forall j n d, (d < D)%nat -> k j n d == k' j n d) -> (forall n d, (d < D)%nat -> b n d == b' n d) ->
  same3 P N D (project cin k b x) (project cin k' b' y).
Proof.
  intros E Ek Eb p n d Hp Hn Hd. unfold project. rewrite (Eb n d Hd). apply Qplus_comp; [|reflexivity].
  apply qsumn_ext. intros j Hj. rewrite (E p j 0%nat Hp Hj ltac:(lia)), (Ek j n d Hd). reflexivity.
Qed.
Lemma dense_same P cin N D iq p x y : ofits P cin 1 iq -> fits P N D (p_oq p) -> same2 P cin x y ->
  same3 P N D (dense_call mq iq cin p x) (dense_call lq iq cin p y).
Proof.
  intros Wi Wo E. unfold dense_call. apply mq_lq; [exact Wo|]. apply project_same; [|reflexivity|reflexivity].
  apply omq_lq; [exact Wi|]. apply lift_same, E.
Qed.
Lemma concat3 dk dv a b e j :
  ((j < dk)%nat -> concat_kernel [dk; dk; dv] [a; b; e] j = a j) /\ ((j < dk)%nat -> concat_kernel [dk; dk; dv] [a; b; e] (dk + j)%nat = b j) /\
  ((j < dv)%nat -> concat_kernel [dk; dk; dv] [a; b; e] (2 * dk + j)%nat = e j).
Proof.
  unfold concat_kernel. split; [|split]; intros H.
  - destruct (Nat.ltb_spec j dk); [reflexivity|lia].
  - destruct (Nat.ltb_spec (dk + j) dk); [lia|]. replace (dk + j - dk)%nat with j by lia. destruct (Nat.ltb_spec j dk); [reflexivity|lia].
  - destruct (Nat.ltb_spec (2 * dk + j) dk); [lia|]. destruct (Nat.ltb_spec (2 * dk + j - dk) dk); [lia|].
    replace (2 * dk + j - dk - dk)%nat with j by lia. destruct (Nat.ltb_spec j dv); [reflexivity|lia].
Qed.
Lemma concat2 dk dv a b j :
  ((j < dk)%nat -> concat_kernel [dk; dv] [a; b] j = a j) /\ ((j < dv)%nat -> concat_kernel [dk; dv] [a; b] (dk + j)%nat = b j).
Proof.
  unfold concat_kernel. split; intros H.
  - destruct (Nat.ltb_spec j dk); [reflexivity|lia].
  - destruct (Nat.ltb_spec (dk + j) dk); [lia|]. replace (dk + j - dk)%nat with j by lia. destruct (Nat.ltb_spec j dv); [reflexivity|lia].
Qed.
Lemma split3 d : np_split 3 (d + d + d) = Some d.
Proof. unfold np_split. replace (d + d + d)%nat with (d * 3)%nat by lia. rewrite Nat.mod_mul by lia. cbn [Nat.eqb]. rewrite Nat.div_mul by lia. reflexivity. Qed.
Lemma split2 d : np_split 2 (d + d) = Some d.
Proof. unfold np_split. replace (d + d)%nat with (d * 2)%nat by lia. rewrite Nat.mod_mul by lia. cbn [Nat.eqb]. rewrite Nat.div_mul by lia. reflexivity. Qed.
Lemma split3_none d e : d <> e -> match np_split 3 (d + d + e) with Some w => ((w =? d) && (w =? e))%nat = false | None => True end.
Proof. intros N. destruct (np_split 3 (d + d + e)) as [w|]; [|exact I]. destruct (Nat.eqb_spec w d), (Nat.eqb_spec w e); try reflexivity. exfalso. apply N. congruence. Qed.
Lemma split2_none d e : d <> e -> match np_split 2 (d + e) with Some w => ((w =? d) && (w =? e))%nat = false | None => True end.
Proof. intros N. destruct (np_split 2 (d + e)) as [w|]; [|exact I]. destruct (Nat.eqb_spec w d), (Nat.eqb_spec w e); try reflexivity. exfalso. apply N. congruence. Qed.

Definition vals_same (A B : nat) (r : arr) (x : mat) : Prop := same2 A B (r_val r) x.
Lemma qkv_same c q k v xq xk xv : build_ok c -> attn_fits c -> fuse_supported c -> call_supported c q k v -> (a_fuse c <> FNone -> same_object_same_values q k v) ->
  vals_same (a_T c) (a_cq c) q xq -> vals_same (a_S c) (a_ck c) k xk -> vals_same (a_S c) (a_cv c) v xv ->
  exists q' k' v', replay_qkv c q k v = Some (q', k', v') /\
    same3 (a_T c) (a_heads c) (a_dk c) q' (dense_call lq (query_iq c) (a_cq c) (a_q c) xq) /\
    same3 (a_S c) (a_heads c) (a_dk c) k' (dense_call lq (key_iq c) (a_ck c) (a_k c) xk) /\
    same3 (a_S c) (a_heads c) (a_dv c) v' (dense_call lq (value_iq c) (a_cv c) (a_v c) xv).
Proof.
  intros HB ((Fq & Fk & Fv) & (Oq & Ok & Ov) & _) HF HC HS0 Eq Ek Ev. unfold vals_same in *. unfold replay_qkv.
  unfold build_ok, fuse_supported, call_supported in *. unfold query_iq, key_iq, value_iq in *. destruct (a_fuse c).
  - rewrite HF in *. do 3 eexists. split; [reflexivity|].
    split; [|split]; (apply (dense_same _ _ _ _ (Some _)); assumption).
  - destruct HS0 as [HS1 HS2]; [discriminate|]. destruct HB as (BT & Bq & Bk). destruct HC as [I1 I2]. rewrite I1, I2, !Nat.eqb_refl. cbn [andb]. rewrite <- HF, split3, !Nat.eqb_refl. cbn [andb].
    do 3 eexists. split; [reflexivity|]. rewrite <- HF in Ov.
    assert (Vq : forall p j, r_val q p j == r_val v p j) by (apply HS1; congruence). assert (Vk : forall p j, r_val k p j == r_val v p j) by (apply HS2, I2).
    unfold dense_call. split; [|split]; (apply mq_lq; [assumption|]).
    + apply project_same; [apply omq_lq; [exact Fq|apply lift_same; exact Eq]| |]; intros; rewrite (proj1 (concat3 _ _ _ _ _ _)) by assumption; reflexivity.
    + intros p n d Hp Hn Hd.
      assert (G : same3 (a_S c) (a_cq c) 1 (oapp mq (if a_enable_iq c then Some (a_iq_v c) else None) (lift (r_val q))) (oapp lq (if a_enable_iq c then Some (a_iq_v c) else None) (lift xk))).
      { rewrite Bq, <- Bk. apply omq_lq; [rewrite Bk; exact Fv|]. apply lift_same. intros a b Ha Hb. rewrite (Vq a b), <- (Vk a b). apply Ek; assumption. }
      unfold project. cbv beta. rewrite (proj1 (proj2 (concat3 _ _ _ _ _ _))) by assumption. apply Qplus_comp; [|reflexivity].
      replace (a_ck c) with (a_cq c) by congruence. apply qsumn_ext. intros j Hj.
      rewrite (G p j 0%nat Hp Hj ltac:(lia)), (proj1 (proj2 (concat3 _ _ _ _ _ _))) by assumption. reflexivity.
    + intros p n d Hp Hn Hd.
      assert (G : same3 (a_S c) (a_cq c) 1 (oapp mq (if a_enable_iq c then Some (a_iq_v c) else None) (lift (r_val q))) (oapp lq (if a_enable_iq c then Some (a_iq_v c) else None) (lift xv))).
      { rewrite Bq. apply omq_lq; [exact Fv|]. apply lift_same. intros a b Ha Hb. rewrite (Vq a b). apply Ev; assumption. }
      unfold project. cbv beta. rewrite (proj2 (proj2 (concat3 _ _ _ _ _ _))) by lia. apply Qplus_comp; [|reflexivity].
      replace (a_cv c) with (a_cq c) by congruence. apply qsumn_ext. intros j Hj.
      rewrite (G p j 0%nat Hp Hj ltac:(lia)), (proj2 (proj2 (concat3 _ _ _ _ _ _))) by lia. reflexivity.
  - destruct HS0 as [HS1 HS2]; [discriminate|]. destruct HF as [HI HF]. rewrite HI in *. rewrite HC, Nat.eqb_refl, <- HF, split2, !Nat.eqb_refl. cbn [andb].
    do 3 eexists. split; [reflexivity|]. rewrite <- HF in Ov. assert (Vk : forall p j, r_val k p j == r_val v p j) by (apply HS2, HC).
    split; [apply (dense_same _ _ _ _ (Some _)); assumption|].
    unfold dense_call. split; (apply mq_lq; [assumption|]).
    + apply project_same; [apply omq_lq; [exact Fk|apply lift_same; exact Ek]| |]; intros; rewrite (proj1 (concat2 _ _ _ _ _)) by assumption; reflexivity.
    + intros p n d Hp Hn Hd.
      assert (G : same3 (a_S c) (a_ck c) 1 (oapp mq (Some (a_iq_v c)) (lift (r_val k))) (oapp lq (Some (a_iq_v c)) (lift xv))).
      { rewrite HB. apply omq_lq; [exact Fv|]. apply lift_same. intros a b Ha Hb. rewrite (Vk a b). apply Ev; assumption. }
      unfold project. cbv beta. rewrite (proj2 (concat2 _ _ _ _ _)) by lia. apply Qplus_comp; [|reflexivity]. rewrite <- HB.
      apply qsumn_ext. intros j Hj. rewrite (G p j 0%nat Hp Hj ltac:(lia)), (proj2 (concat2 _ _ _ _ _)) by lia. reflexivity.
Qed.

(** ** masks *)
Lemma mask_attend m msk t s : layer_mask m = Some msk -> (msk t s = true <-> may_attend m t s).
Proof.
  unfold layer_mask, may_attend, mask_list. destruct m as [mq mv mk mc ma]. cbn [m_query m_value m_key m_causal m_attn].
  destruct mq as [mq|], mv as [mv|], mk as [mk|], mc, ma as [ma|]; cbn [app]; intros E; try discriminate E; apply (f_equal (fun o => match o with Some f => f t s | None => true end)) in E;
    cbn [forallb snd] in E; rewrite <- E; repeat rewrite Bool.andb_true_iff; rewrite ?Nat.leb_le; split.
  all: try (intros H; repeat match type of H with _ /\ _ => destruct H as [? H] end;
      split; [|split; [|split; [|split]]]; intros; try discriminate;
      repeat match goal with X : Some _ = Some _ |- _ => injection X as X; subst end; assumption).
  all: intros (H1 & H2 & H3 & H4 & H5);
      repeat match goal with |- _ /\ _ => split end; try reflexivity; first [apply H1; reflexivity|apply H2; reflexivity|apply H3; reflexivity|apply H4; reflexivity|apply H5; reflexivity].
Qed.
Lemma no_mask_attend m t s : layer_mask m = None -> may_attend m t s.
Proof.
  unfold layer_mask, may_attend, mask_list. destruct m as [mq mv mk mc ma]. cbn [m_query m_value m_key m_causal m_attn].
  destruct mq, mv, mk, mc, ma; cbn [app]; intros E; try discriminate E. split; [|split; [|split; [|split]]]; intros; discriminate.
Qed.
Lemma shape_eqb_iff c a b : shape_eqb (mask_shape c a) (mask_shape c b) = true <-> (fst a = fst b \/ a_T c = 1%nat) /\ (snd a = snd b \/ a_S c = 1%nat).
Proof.
  unfold shape_eqb, mask_shape. destruct a as [[] []], b as [[] []]; cbn [fst snd]; rewrite Bool.andb_true_iff, !Nat.eqb_eq; intuition (congruence || discriminate).
Qed.
Lemma replay_mask_iff c m : (masks_alike c m -> replay_mask c m = Some (layer_mask m)) /\ (~ masks_alike c m -> replay_mask c m = None).
Proof.
  assert (G : match mask_list m with [] => masks_alike c m | sm :: l => (masks_alike c m <-> forallb (fun sm' => shape_eqb (mask_shape c (fst sm')) (mask_shape c (fst sm))) l = true) end).
  { assert (HT : a_T c = 1%nat \/ (a_T c <> 1 /\ (a_T c =? 1) = false /\ (1 =? a_T c) = false)%nat) by (destruct (Nat.eqb_spec (a_T c) 1), (Nat.eqb_spec 1 (a_T c)); auto; congruence).
    assert (HS : a_S c = 1%nat \/ (a_S c <> 1 /\ (a_S c =? 1) = false /\ (1 =? a_S c) = false)%nat) by (destruct (Nat.eqb_spec (a_S c) 1), (Nat.eqb_spec 1 (a_S c)); auto; congruence).
    unfold mask_list, masks_alike, shape_eqb, mask_shape. destruct m as [mq mv mk mc ma]. cbn [m_query m_value m_key m_causal m_attn]. cbv zeta.
    destruct HT as [HT|(HT & T1 & T2)], HS as [HS|(HS & S1 & S2)]; rewrite ?HT, ?HS;
    destruct mq as [mq|], mv as [mv|], mk as [mk|], mc, ma as [ma|]; cbn [app forallb fst snd]; rewrite ?T1, ?T2, ?S1, ?S2, ?Nat.eqb_refl; cbn [andb];
    try match goal with |- _ <-> _ => split end.
    all: first [intros _; reflexivity | discriminate
      | (try intros _); split; [|split]; intros; first [split; reflexivity|reflexivity|exfalso; repeat match goal with X : _ \/ _ |- _ => destruct X end; congruence]
      | intros (H1 & H2 & H3); exfalso;
        first [apply HT; apply H1; [discriminate|first [left; discriminate|right; discriminate]]
              |apply HS; apply H1; [discriminate|first [left; discriminate|right; discriminate]]
              |apply HS; apply H2; [discriminate|first [left; reflexivity|right; discriminate]]
              |apply HT; apply H3; [first [left; discriminate|right; discriminate]|first [left; reflexivity|right; discriminate]]]]. }
  unfold replay_mask, layer_mask. destruct (mask_list m) as [|sm l]; [split; [reflexivity|intros N; contradiction]|].
  destruct (forallb _ l); split; intros H; try reflexivity; [exfalso; apply H, G; reflexivity|exfalso; apply G in H; discriminate].
Qed.

(** ** softmax *)
Definition sm_agree (s1 s2 : softmax) (ps : list nat) : Prop :=
  sm_stable s1 = sm_stable s2 /\ (forall q v w, v == w -> sm_iq s1 q v == sm_iq s2 q w) /\
  (forall q v w, In q ps -> v == w -> sm_exp s1 q v == sm_exp s2 q w) /\ (forall v w, v == w -> sm_inv s1 v == sm_inv s2 w).
Lemma sm_call_agree s1 s2 mask x y ps p : sm_agree s1 s2 ps -> (forall q, In q ps -> x q == y q) -> In p ps -> sm_call s1 mask x ps p == sm_call s2 mask y ps p.
Proof.
  intros (A0 & A1 & A2 & A3) E Hp.
  assert (HE : forall q, In q ps -> sm_exps s1 mask x ps q == sm_exps s2 mask y ps q).
  { intros q Hq. unfold sm_exps. assert (EI : sm_exp_input s1 mask x ps q == sm_exp_input s2 mask y ps q).
    { unfold sm_exp_input. rewrite A0. destruct (sm_stable s2); [|apply A1, E, Hq].
      assert (Hm : forall r, In r ps -> mask_input mask (fun q0 => sm_iq s1 q0 (x q0)) r == mask_input mask (fun q0 => sm_iq s2 q0 (y q0)) r).
      { intros r Hr. unfold mask_input. destruct mask; [|apply A1, E, Hr]. rewrite (A1 r _ _ (E r Hr)). reflexivity. }
      rewrite (qmax_ext _ _ ps Hm), (Hm q Hq). reflexivity. }
    destruct mask as [m|]; [|apply A2; assumption]. rewrite (A2 q _ _ Hq EI). reflexivity. }
  unfold sm_call. apply Qmult_comp; [apply HE, Hp|]. apply A3, qsum_ext, HE.
Qed.
Lemma table_proper iq act oq a b c v w : (forall x y, x == y -> act x == act y) -> v == w -> table mq iq act oq a b c v == table mq iq act oq a b c w.
Proof. intros F E. unfold table. apply mq_proper. apply F. apply omq_proper. exact E. Qed.
Lemma table_same A B C iq act oq a b c v w : (forall x y, x == y -> act x == act y) -> ofits A B C iq -> fits A B C oq ->
  (a < A)%nat -> (b < B)%nat -> (c < C)%nat -> v == w -> table mq iq act oq a b c v == table lq iq act oq a b c w.
Proof.
  intros F Wi Wo Ha Hb Hc E. unfold table. destruct (Wo a b c Ha Hb Hc). apply mq_at; [assumption|assumption|]. apply F.
  apply (omq_lq A B C iq (fun _ _ _ => v) (fun _ _ _ => w) Wi); [intros ? ? ? _ _ _; exact E|assumption..].
Qed.
Lemma group_functions c n t : attn_functions c -> sm_functions (group_softmax mq c n t).
Proof.
  intros [F1 F2]. unfold sm_functions, group_softmax. cbn [sm_iq sm_exp sm_inv]. split; [intros; assumption|]. split; intros; apply table_proper; auto.
Qed.
Lemma group_agree c n t : attn_functions c -> attn_fits c -> (n < a_heads c)%nat -> (t < a_T c)%nat ->
  sm_agree (group_softmax mq c n t) (group_softmax lq c n t) (seq 0 (a_S c)).
Proof.
  intros [F1 F2] (_ & _ & (W1 & W2) & (W3 & W4) & _) Hn Ht. unfold sm_agree, group_softmax. cbn [sm_stable sm_iq sm_exp sm_inv].
  split; [reflexivity|]. split; [intros; assumption|]. split.
  - intros q v w Hq E. apply in_seq in Hq. apply (table_same (a_heads c) (a_T c) (a_S c)); try assumption; try lia; [apply F1|].
    intros q' Eq. destruct (a_stable c); [injection Eq as <-; exact W1|discriminate].
  - intros v w E. apply (table_same (a_heads c) (a_T c) 1); try assumption; try lia. intros q' Eq. injection Eq as <-. exact W3.
Qed.
Lemma in_lows c lo n t s : (n < a_heads c)%nat -> (t < a_T c)%nat -> (s < a_S c)%nat -> In (lo n t s) (all_lows c lo).
Proof.
  intros Hn Ht Hs. unfold all_lows. apply in_flat_map. exists n. split; [apply in_seq; lia|]. apply in_flat_map. exists t. split; [apply in_seq; lia|].
  apply in_map_iff. exists s. split; [reflexivity|apply in_seq; lia].
Qed.
Lemma weights_same c lo m x y : attn_functions c -> attn_fits c -> same3 (a_heads c) (a_T c) (a_S c) x y -> lower_bounds c lo y ->
  (a_stable c = true -> above_1e9 c m y) ->
  same3 (a_heads c) (a_T c) (a_S c) (replay_weights c lo (layer_mask m) x) (layer_weights c (layer_mask m) y).
Proof.
  intros F W E HL HA. unfold replay_weights, layer_weights. assert (W5 : fits (a_heads c) (a_T c) (a_S c) (a_sm_oq c)) by (destruct W as (_ & _ & _ & _ & W5 & _); exact W5).
  apply mq_lq; [exact W5|]. intros n t s Hn Ht Hs. assert (Hin : In s (seq 0 (a_S c))) by (apply in_seq; lia).
  rewrite replay_equal; [|apply group_functions, F|exact Hin| |].
  - apply sm_call_agree; [apply group_agree; assumption| |exact Hin]. intros q Hq. apply in_seq in Hq. apply E; [assumption|assumption|lia].
  - intros q Hq. apply in_seq in Hq. exists (lo n t q). split; [apply in_lows; [assumption|assumption|lia]|]. cbn [group_softmax sm_iq].
    rewrite (E n t q Hn Ht ltac:(lia)). apply HL; [assumption|assumption|lia].
  - intros mk Em Hst q Hq Hmq. apply in_seq in Hq. cbn [group_softmax sm_iq sm_stable] in *. rewrite (E n t q Hn Ht ltac:(lia)).
    apply (HA Hst); [assumption|assumption|lia|]. unfold at_query in Em. destruct (layer_mask m) as [msk|] eqn:EL; [|discriminate Em].
    injection Em as <-. apply (mask_attend m msk t q EL). exact Hmq.
Qed.

(** ** the whole attention *)
Lemma dot_same N T S dk k k' q q' : same3 S N dk k k' -> same3 T N dk q q' -> same3 N T S (dot_product dk k q) (dot_product dk k' (fun t n d => q' t n d * 1)).
Proof. intros Ek Eq n t s Hn Ht Hs. unfold dot_product. apply qsumn_ext. intros d Hd. rewrite (Ek s n d Hs Hn Hd), (Eq t n d Ht Hn Hd). ring. Qed.
Lemma combine_same N T S dv w w' v v' : same3 N T S w w' -> same3 S N dv v v' -> same3 T N dv (combine S w v) (combine S w' v').
Proof. intros Ew Ev t n d Ht Hn Hd. unfold combine. apply qsumn_ext. intros s Hs. rewrite (Ew n t s Hn Ht Hs), (Ev s n d Hs Hn Hd). reflexivity. Qed.
Lemma out_same c x y : attn_fits c -> same3 (a_T c) (a_heads c) (a_dv c) x y -> same2 (a_T c) (a_out c) (out_dense mq c x) (out_dense lq c y).
Proof.
  intros (_ & _ & _ & _ & _ & W) E t e Ht _. unfold out_dense. cbv zeta. apply Qplus_comp; [|reflexivity]. apply qsumn_ext. intros n Hn. apply qsumn_ext. intros d Hd.
  rewrite (mq_lq _ _ _ _ _ _ W E t n d Ht Hn Hd). reflexivity.
Qed.
Definition pre_same (c : mha) (pre' pre : ten -> ten) : Prop :=
  forall x y, same3 (a_heads c) (a_T c) (a_S c) x y -> same3 (a_heads c) (a_T c) (a_S c) (pre' x) (pre y).
Lemma core_same c pre' pre lo m q k v xq xk xv : build_ok c -> attn_fits c -> attn_functions c -> fuse_supported c -> call_supported c q k v ->
  (a_fuse c <> FNone -> same_object_same_values q k v) -> masks_alike c m -> pre_same c pre' pre ->
  vals_same (a_T c) (a_cq c) q xq -> vals_same (a_S c) (a_ck c) k xk -> vals_same (a_S c) (a_cv c) v xv ->
  lower_bounds c lo (layer_scores c pre xq xk xv) -> (a_stable c = true -> above_1e9 c m (layer_scores c pre xq xk xv)) ->
  exists r, replay_core c pre' lo m q k v = Some r /\ same_result c r (layer_core c pre m xq xk xv).
Proof.
  intros HB W F HF HC HS HM HP Eq Ek Ev HL HA. unfold replay_core. rewrite (proj1 (replay_mask_iff c m) HM).
  destruct (qkv_same c q k v xq xk xv HB W HF HC HS Eq Ek Ev) as (q' & k' & v' & -> & Sq & Sk & Sv).
  eexists. split; [reflexivity|]. unfold layer_core, layer_attend, same_result. cbv zeta. cbn [fst snd]. fold (layer_scores c pre xq xk xv).
  assert (Ss : same3 (a_heads c) (a_T c) (a_S c) (pre' (dot_product (a_dk c) k' q')) (layer_scores c pre xq xk xv)) by (apply HP, dot_same; assumption).
  assert (Sw := weights_same c lo m _ _ F W Ss HL HA). split; [|exact Sw]. apply out_same; [exact W|]. apply (combine_same (a_heads c)); assumption.
Qed.
Lemma id_same c : pre_same c id_ten id_ten.
Proof. intros x y E. exact E. Qed.

Lemma mha_same c lo m query value key : build_ok c -> attn_fits c -> attn_functions c -> fuse_supported c -> masks_alike c m ->
  let v := or_else value query in let k := or_else key v in
  call_supported c query k v -> same_object_same_values query k v ->
  let scores := layer_scores c id_ten (r_val query) (r_val k) (r_val v) in
  lower_bounds c lo scores -> (a_stable c = true -> above_1e9 c m scores) ->
  exists r, replay_mha c lo m query value key = Some r /\ same_result c r (layer_mha c m (r_val query) (given value) (given key)).
Proof.
  intros HB W F HF HM v k HC HS scores HL HA. unfold replay_mha, layer_mha. fold v. fold k.
  replace (or_else (given value) (r_val query)) with (r_val v) by (unfold v; destruct value; reflexivity).
  replace (or_else (given key) (r_val v)) with (r_val k) by (unfold k; destruct key; reflexivity).
  apply core_same; try assumption; try (intros a b _ _; reflexivity); [intros _; exact HS|]. apply id_same.
Qed.

(** ** what is refused *)
Lemma fused_sizes_refused c lo m q k v pre : a_fuse c <> FNone -> a_dk c <> a_dv c -> replay_core c pre lo m q k v = None.
Proof.
  intros HF N. unfold replay_core. destruct (replay_mask c m); [|reflexivity]. unfold replay_qkv. destruct (a_fuse c); [congruence| |].
  - pose proof (split3_none (a_dk c) (a_dv c) N) as G. destruct (_ && _); [|reflexivity]. destruct (np_split 3 _) as [w|]; [rewrite G|]; reflexivity.
  - pose proof (split2_none (a_dk c) (a_dv c) N) as G. destruct (_ =? _)%nat; [|reflexivity]. destruct (np_split 2 _) as [w|]; [|reflexivity].
    destruct (query_iq c); [rewrite G|]; reflexivity.
Qed.
Lemma call_refused c lo m q k v pre : ~ call_supported c q k v -> replay_core c pre lo m q k v = None.
Proof.
  intros N. unfold replay_core. destruct (replay_mask c m); [|reflexivity]. unfold replay_qkv, call_supported in *. destruct (a_fuse c); [exfalso; apply N; exact I| |].
  - destruct (Nat.eqb_spec (r_id q) (r_id k)); [|reflexivity]. destruct (Nat.eqb_spec (r_id k) (r_id v)); [exfalso; apply N; auto|reflexivity].
  - destruct (Nat.eqb_spec (r_id k) (r_id v)); [exfalso; apply N; assumption|reflexivity].
Qed.
Lemma no_iq_refused c lo m q k v pre : a_fuse c <> FQkv -> a_enable_iq c = false -> replay_core c pre lo m q k v = None.
Proof.
  intros HF HI. unfold replay_core. destruct (replay_mask c m); [|reflexivity]. unfold replay_qkv, query_iq, key_iq, value_iq. rewrite HI. destruct (a_fuse c); [reflexivity|congruence|].
  destruct (_ =? _)%nat; [|reflexivity]. destruct (np_split 2 _); reflexivity.
Qed.
Lemma masks_refused c lo m q k v pre : ~ masks_alike c m -> replay_core c pre lo m q k v = None.
Proof. intros N. unfold replay_core. rewrite (proj2 (replay_mask_iff c m) N). reflexivity. Qed.

(** ** Linformer *)
Lemma lin_same l len M D x y : lin_fits len M D l -> same2 len D x y -> same2 M D (lin_call mq l len x) (lin_call lq l len y).
Proof.
  intros [Wi Wo] E m d Hm Hd. unfold lin_call. apply (omq_lq M D 1 (l_oq l)); [exact Wo| |assumption|assumption|lia].
  intros m' d' c _ Hd' _. apply qsumn_ext. intros p Hp. rewrite (omq_lq len D 1 (l_iq l) (lift x) (lift y) Wi (lift_same _ _ _ _ E) p d' 0%nat Hp Hd' ltac:(lia)). reflexivity.
Qed.
Lemma linformer_same c lk lv len fresh lo m query value key : a_fuse c = FNone -> a_enable_iq c = true -> attn_fits c -> attn_functions c -> masks_alike c m -> m_causal m = false ->
  lin_fits len (a_S c) (a_ck c) lk -> lin_fits len (a_S c) (a_cv c) lv ->
  let v := or_else value query in let k := or_else key v in
  let scores := layer_scores c id_ten (r_val query) (lin_call lq lk len (r_val k)) (lin_call lq lv len (r_val v)) in
  lower_bounds c lo scores -> (a_stable c = true -> above_1e9 c m scores) ->
  exists r r', replay_linformer c lk lv len fresh lo m query value key = Some r /\ layer_linformer c lk lv len m (r_val query) (given value) (given key) = Some r' /\ same_result c r r'.
Proof.
  intros HN HI W F HM HCa Wk Wv v k scores HL HA. unfold replay_linformer, layer_linformer. rewrite HCa. fold v. fold k.
  replace (or_else (given value) (r_val query)) with (r_val v) by (unfold v; destruct value; reflexivity).
  replace (or_else (given key) (r_val v)) with (r_val k) by (unfold k; destruct key; reflexivity).
  destruct (core_same c id_ten id_ten lo m query (mk_arr fresh (lin_call mq lk len (r_val k))) (mk_arr (S fresh) (lin_call mq lv len (r_val v)))
    (r_val query) (lin_call lq lk len (r_val k)) (lin_call lq lv len (r_val v))) as (r & E & H); try assumption.
  - unfold build_ok. rewrite HN. exact I.
  - unfold fuse_supported. rewrite HN. exact HI.
  - unfold call_supported. rewrite HN. exact I.
  - intros N. contradiction.
  - apply id_same.
  - intros a b _ _. reflexivity.
  - cbn [vals_same r_val]. apply lin_same; [exact Wk|intros a b _ _; reflexivity].
  - apply lin_same; [exact Wv|intros a b _ _; reflexivity].
  - exists r. eexists. split; [exact E|]. split; [reflexivity|exact H].
Qed.

(** ** SALT *)
Lemma clusters_same len M D x y : (0 < M)%nat -> same2 len D x y -> same3 M (cluster_length len M) D (clusters len M x) (clusters len M y).
Proof. intros HM E a b d Ha Hb Hd. unfold clusters, pad_rows. destruct (Nat.ltb_spec (a * cluster_length len M + b) len); [apply E; assumption|reflexivity]. Qed.
Lemma cluster_same l M n D x y : cluster_fits M n D l -> same3 M n D x y -> same2 M D (cluster_call mq l n x) (cluster_call lq l n y).
Proof.
  intros [Wi Wo] E m d Hm Hd. unfold cluster_call. apply (omq_lq M D 1 (l_oq l)); [exact Wo| |assumption|assumption|lia].
  intros m' d' c Hm' Hd' _. apply qsumn_ext. intros b Hb. rewrite (omq_lq M n D (l_iq l) x y Wi E m' b d' Hm' Hb Hd'). reflexivity.
Qed.
Lemma salt_key_same z x y : (0 < a_S (z_attn z))%nat -> salt_fits z -> same2 (z_len_k z) (a_ck (z_attn z)) x y -> same2 (a_S (z_attn z)) (a_ck (z_attn z)) (salt_key mq z x) (salt_key lq z y).
Proof.
  intros HP (Wk & _ & _) E. unfold salt_key. destruct (z_cluster_k z).
  - apply cluster_same; [exact Wk|]. apply clusters_same; assumption.
  - apply lin_same; assumption.
Qed.
Lemma salt_value_same z x y : (0 < a_S (z_attn z))%nat -> salt_fits z -> same2 (z_len_v z) (a_cv (z_attn z)) x y ->
  match salt_value mq z x, salt_value lq z y with
  | Some v, Some v' => same2 (a_S (z_attn z)) (a_cv (z_attn z)) v v'
  | None, None => True
  | _, _ => False
  end.
Proof.
  intros HP (_ & Wv & _) E. unfold salt_value, n_v_pad. destruct (z_cluster_v z).
  - destruct (0 <? _)%nat; [|exact I]. apply cluster_same; [exact Wv|]. apply clusters_same; assumption.
  - cbn [Nat.ltb Nat.leb]. apply lin_same; assumption.
Qed.
(** the padding is zero exactly when the length is a multiple *)
Lemma n_pad_zero len M : (0 < M)%nat -> (n_pad len M = 0 <-> len mod M = 0)%nat.
Proof.
  intros HM. unfold n_pad. pose proof (Nat.div_mod len M ltac:(lia)) as E. pose proof (Nat.mod_upper_bound len M ltac:(lia)) as U.
  set (a := (len / M)%nat) in *. set (b := (len mod M)%nat) in *.
  destruct (Nat.eq_dec b 0) as [Z|Z].
  - rewrite Z in *. assert (G : ((len + M - 1) / M = a)%nat) by (symmetry; apply (Nat.div_unique _ M a (M - 1)); lia). rewrite G. lia.
  - assert (G : ((len + M - 1) / M = a + 1)%nat) by (symmetry; apply (Nat.div_unique _ M (a + 1) (b - 1)); lia). rewrite G. lia.
Qed.
(** the clusters cover the padded sequence: M clusters of the cluster length hold every row once *)
Lemma cluster_length_spec len M : (0 < M)%nat -> (M * cluster_length len M = len + n_pad len M)%nat /\ (n_pad len M < M)%nat.
Proof.
  intros HM. unfold cluster_length, n_pad. pose proof (Nat.div_mod len M ltac:(lia)) as E. pose proof (Nat.mod_upper_bound len M ltac:(lia)) as U.
  set (a := (len / M)%nat) in *. set (b := (len mod M)%nat) in *.
  destruct (Nat.eq_dec b 0) as [Z|Z].
  - rewrite Z in *. assert (G : ((len + M - 1) / M = a)%nat) by (symmetry; apply (Nat.div_unique _ M a (M - 1)); lia). rewrite G.
    replace (len + (a * M - len))%nat with (a * M)%nat by lia. rewrite Nat.div_mul by lia. lia.
  - assert (G : ((len + M - 1) / M = a + 1)%nat) by (symmetry; apply (Nat.div_unique _ M (a + 1) (b - 1)); lia). rewrite G.
    replace (len + ((a + 1) * M - len))%nat with ((a + 1) * M)%nat by lia. rewrite Nat.div_mul by lia. lia.
Qed.
Lemma conv_ext pad cs cin_g cout_g x y k o co : 
  (forall p ci, valid_index (map c_in cs) p -> (ci < cin_g)%nat -> x (0%nat :: p ++ [co / cout_g * cin_g + ci]%nat) == y (0%nat :: p ++ [co / cout_g * cin_g + ci]%nat)) ->
  conv 0 Qplus Qmult pad cs cin_g cout_g x k o co == conv 0 Qplus Qmult pad cs cin_g cout_g y k o co.
Proof.
  intros E. unfold conv. cq. rewrite !qsum_flat_map. apply qsum_ext. intros t _. apply qsum_ext. intros ci Hci. apply in_seq in Hci.
  destruct (c_positions pad cs o t) as [p|] eqn:Ep; [|reflexivity]. rewrite (E p ci (c_positions_valid _ _ _ _ _ Ep) ltac:(lia)). reflexivity.
Qed.
Lemma conv_channel c v n ci : (n < a_heads c)%nat -> (ci < conv_per_group c v)%nat -> (n / conv_per_group c v * conv_per_group c v + ci < a_heads c)%nat.
Proof.
  unfold conv_per_group. destruct (v_separate v); intros Hn Hc; [rewrite Nat.div_1_r; lia|]. rewrite (Nat.div_small n) by lia. lia.
Qed.
Lemma as_image_same c x y k : same3 (a_heads c) (a_T c) (a_S c) x y -> forall p n, valid_index (map c_in (conv_dims c k)) p -> (n < a_heads c)%nat ->
  as_image x (0%nat :: p ++ [n]) == as_image y (0%nat :: p ++ [n]).
Proof.
  intros E p n V Hn. unfold conv_dims in V. cbn [map c_in] in V. unfold valid_index in V.
  inversion V as [|t0 t sh p' Ht V1]; subst. inversion V1 as [|s0 s sh' p'' Hs V2]; subst. inversion V2; subst. cbn [app as_image]. apply E; assumption.
Qed.
Lemma sconv_same c v : small_image c -> (0 < a_heads c)%nat -> conv_fits c v -> pre_same c (replay_sconv c v) (layer_conv c v).
Proof.
  intros Hs HN [Wi Wo] x y E. unfold replay_sconv, layer_conv. apply omq_lq; [exact Wo|]. intros n t s Hn Ht Hs'.
  assert (EG : a_heads c = (conv_groups c v * conv_per_group c v)%nat) by (unfold conv_groups, conv_per_group; destruct (v_separate v); lia).
  assert (P1 : (0 < conv_groups c v)%nat) by (unfold conv_groups; destruct (v_separate v); lia).
  assert (P2 : (0 < conv_per_group c v)%nat) by (unfold conv_per_group; destruct (v_separate v); lia).
  pose proof (replay_conv_exact SAME (conv_dims c (v_size v)) (conv_groups c v) (conv_per_group c v) (conv_per_group c v) (as_image (oapp mq (v_iq v) x)) (v_kernel v) (bias1 (v_bias v)) P1 P2 P2) as G.
  rewrite <- EG in G. rewrite G.
  - apply Qplus_comp; [|reflexivity]. apply conv_ext. intros p ci V Hci.
    apply (as_image_same c _ _ (v_size v)); [|exact V|apply conv_channel; assumption]. apply omq_lq; assumption.
  - unfold img_size, conv_dims. cbn [map c_in app nprod fold_right]. unfold small_image in Hs. unfold nprod. cbn [fold_right]. replace (a_T c * (a_S c * (a_heads c * 1)))%nat with (a_heads c * (a_T c * a_S c))%nat by lia. exact Hs.
  - exact Hn.
  - unfold conv_groups, conv_per_group. destruct (v_separate v); auto.
Qed.
Lemma pre_salt_same z : (forall v, z_conv z = Some v -> small_image (z_attn z)) -> (0 < a_heads (z_attn z))%nat -> salt_fits z -> pre_same (z_attn z) (replay_pre z) (layer_pre z).
Proof.
  intros Hs HN (_ & _ & Wc). unfold replay_pre, layer_pre. intros x y E. destruct (z_conv z) as [v|]; [|exact E].
  apply sconv_same; [apply (Hs v); reflexivity|exact HN|apply Wc; reflexivity|exact E].
Qed.
Lemma salt_same z fresh lo m query value key : let c := z_attn z in
  a_fuse c = FNone -> a_enable_iq c = true -> attn_fits c -> attn_functions c -> masks_alike c m -> m_causal m = false ->
  (0 < a_heads c)%nat -> (0 < a_S c)%nat -> salt_fits z -> (forall v, z_conv z = Some v -> small_image c) ->
  let v := or_else value query in let k := or_else key v in
  (z_cluster_v z = true -> (z_len_v z mod a_S c <> 0)%nat) ->
  (forall pv, salt_value lq z (r_val v) = Some pv ->
     let scores := layer_scores c (layer_pre z) (r_val query) (salt_key lq z (r_val k)) pv in
     lower_bounds c lo scores /\ (a_stable c = true -> above_1e9 c m scores)) ->
  exists r r', replay_salt z fresh lo m query value key = Some r /\ layer_salt z m (r_val query) (given value) (given key) = Some r' /\ same_result c r r'.
Proof.
  intros c HN HI W F HM HCa P1 P2 WS Hsm v k HV HL. unfold replay_salt, layer_salt. rewrite HCa. fold v. fold k.
  replace (or_else (given value) (r_val query)) with (r_val v) by (unfold v; destruct value; reflexivity).
  replace (or_else (given key) (r_val v)) with (r_val k) by (unfold k; destruct key; reflexivity).
  pose proof (salt_value_same z (r_val v) (r_val v) P2 WS (fun a b _ _ => Qeq_refl _)) as SV.
  assert (D : salt_value lq z (r_val v) <> None).
  { unfold salt_value, n_v_pad. destruct (z_cluster_v z) eqn:Ec; [|cbn [Nat.ltb Nat.leb]; discriminate].
    assert (N : n_pad (z_len_v z) (a_S (z_attn z)) <> 0%nat) by (rewrite n_pad_zero by exact P2; apply HV; reflexivity).
    destruct (Nat.ltb_spec 0 (n_pad (z_len_v z) (a_S (z_attn z)))); [discriminate|lia]. }
  destruct (salt_value mq z (r_val v)) as [pv'|], (salt_value lq z (r_val v)) as [pv|] eqn:Epv; try contradiction.
  specialize (HL pv eq_refl). cbv zeta in HL. destruct HL as [HL HA].
  destruct (core_same c (replay_pre z) (layer_pre z) lo m query (mk_arr fresh (salt_key mq z (r_val k))) (mk_arr (S fresh) pv')
    (r_val query) (salt_key lq z (r_val k)) pv) as (r & E & H); try assumption.
  - unfold build_ok. rewrite HN. exact I.
  - unfold fuse_supported. rewrite HN. exact HI.
  - unfold call_supported. rewrite HN. exact I.
  - intros N. contradiction.
  - apply pre_salt_same; assumption.
  - intros a b _ _. reflexivity.
  - apply salt_key_same; [assumption|assumption|intros a b _ _; reflexivity].
  - exists r. eexists. split; [exact E|]. split; [reflexivity|exact H].
Qed.
(** cluster_v_proj with a length that needs no padding: the layer itself raises *)
Lemma salt_value_refused z m query value key : (0 < a_S (z_attn z))%nat -> z_cluster_v z = true -> (z_len_v z mod a_S (z_attn z) = 0)%nat -> layer_salt z m query value key = None.
Proof.
  intros HP HV HD. unfold layer_salt. destruct (m_causal m); [reflexivity|]. cbv zeta. unfold salt_value, n_v_pad. rewrite HV.
  rewrite (proj2 (n_pad_zero _ _ HP) HD). reflexivity.
Qed.

(** ** masked positions do not matter *)
Lemma base_call_0 rm om k i f x : x == 0 -> base_call rm om false k i f x == 0.
Proof.
  intros E. rewrite (base_call_Proper rm om _ k i f _ _ E). destruct (Z.ltb_spec 0 (kz k + i + f)) as [H|H]; [|rewrite base_call_npos by lia; reflexivity].
  apply inference_fixes_representable; [lia|]. exists 0%Z. split; [unfold has_code; cbn; ring|].
  pose proof (pow2z_pos (i + f) (width_cases _ _ _ H)). unfold code_lo, code_hi. destruct k; [destruct om|]; lia.
Qed.
Lemma lq_ext q x y a b c : x a b c == y a b c -> lq q x a b c == lq q y a b c.
Proof. intros E. unfold lq. apply affine_comp, base_call_Proper, E. Qed.
Lemma olq_ext q x y a b c : x a b c == y a b c -> oapp lq q x a b c == oapp lq q y a b c.
Proof. intros E. destruct q; cbn [oapp]; [apply lq_ext, E|exact E]. Qed.
Lemma dense_row iq cin p x y s n d : (forall j, (j < cin)%nat -> x s j == y s j) -> dense_call lq iq cin p x s n d == dense_call lq iq cin p y s n d.
Proof.
  intros E. unfold dense_call. apply lq_ext. unfold project. apply Qplus_comp; [|reflexivity]. apply qsumn_ext. intros j Hj.
  rewrite (olq_ext iq (lift x) (lift y) s j 0%nat (E j Hj)). reflexivity.
Qed.
Lemma table_lq_proper iq act oq a b c v w : (forall x y, x == y -> act x == act y) -> v == w -> table lq iq act oq a b c v == table lq iq act oq a b c w.
Proof. intros F E. unfold table. apply lq_ext. apply F. apply olq_ext. exact E. Qed.
Lemma group_functions_lq c n t : attn_functions c -> sm_functions (group_softmax lq c n t).
Proof. intros [F1 F2]. unfold sm_functions, group_softmax. cbn [sm_iq sm_exp sm_inv]. split; [intros; assumption|]. split; intros; apply table_lq_proper; auto. Qed.
Lemma masked_ignored c m xq xk xv xk' xv' : attn_functions c -> t_aff (a_sm_oq c) = None ->
  (forall t s, (t < a_T c)%nat -> (s < a_S c)%nat -> may_attend m t s -> (forall j, xk s j == xk' s j) /\ (forall j, xv s j == xv' s j)) ->
  same_result c (layer_core c id_ten m xq xk xv) (layer_core c id_ten m xq xk' xv').
Proof.
  intros F HA E. unfold layer_core, layer_attend, id_ten. cbv zeta. set (q := dense_call lq (query_iq c) (a_cq c) (a_q c) xq).
  set (k := dense_call lq (key_iq c) (a_ck c) (a_k c) xk). set (k' := dense_call lq (key_iq c) (a_ck c) (a_k c) xk').
  set (v := dense_call lq (value_iq c) (a_cv c) (a_v c) xv). set (v' := dense_call lq (value_iq c) (a_cv c) (a_v c) xv').
  set (sc := dot_product (a_dk c) k (fun t n d => q t n d * 1)). set (sc' := dot_product (a_dk c) k' (fun t n d => q t n d * 1)).
  assert (Es : forall n t s, (t < a_T c)%nat -> (s < a_S c)%nat -> may_attend m t s -> sc n t s == sc' n t s).
  { intros n t s Ht Hs M. unfold sc, sc', dot_product. apply qsumn_ext. intros d _. destruct (E t s Ht Hs M) as [Ek _].
    assert (G : k s n d == k' s n d) by (apply dense_row; intros; apply Ek). rewrite G. reflexivity. }
  assert (Ew : same3 (a_heads c) (a_T c) (a_S c) (layer_weights c (layer_mask m) sc) (layer_weights c (layer_mask m) sc')).
  { intros n t s Hn Ht Hs. unfold layer_weights. apply lq_ext. assert (Hin : In s (seq 0 (a_S c))) by (apply in_seq; lia).
    destruct (layer_mask m) as [msk|] eqn:EL; cbn [at_query].
    - apply independent; [apply group_functions_lq, F| |exact Hin]. intros r Hr Hm. apply in_seq in Hr. apply Es; [assumption|lia|]. apply (mask_attend m msk t r EL), Hm.
    - assert (HA' : sm_agree (group_softmax lq c n t) (group_softmax lq c n t) (seq 0 (a_S c))).
      { destruct (group_functions_lq c n t F) as (G1 & G2 & G3). split; [reflexivity|]. split; [intros; apply G1; assumption|]. split; [intros; apply G2; assumption|exact G3]. }
      apply sm_call_agree; [exact HA'| |exact Hin]. intros r Hr. apply in_seq in Hr. apply Es; [assumption|lia|]. apply no_mask_attend, EL. }
  split; [|exact Ew]. cbn [fst]. intros t e Ht He. unfold out_dense. cbv zeta. apply Qplus_comp; [|reflexivity]. apply qsumn_ext. intros n Hn. apply qsumn_ext. intros d Hd.
  apply Qmult_comp; [|reflexivity]. apply lq_ext. unfold combine. apply qsumn_ext. intros s Hs.
  assert (D : may_attend m t s \/ (exists msk, layer_mask m = Some msk /\ msk t s = false)).
  { destruct (layer_mask m) as [msk|] eqn:EL; [|left; apply no_mask_attend, EL]. destruct (msk t s) eqn:Em; [left; apply (mask_attend m msk t s EL), Em|right; eauto]. }
  destruct D as [M|(msk & EL & Em)].
  - destruct (E t s Ht Hs M) as [_ Ev]. assert (G : v s n d == v' s n d) by (apply dense_row; intros; apply Ev). rewrite G, (Ew n t s Hn Ht Hs). reflexivity.
  - assert (Z : layer_weights c (layer_mask m) sc n t s == 0).
    { unfold layer_weights, lq. rewrite HA. cbn [affine_of]. apply base_call_0. rewrite EL. cbn [at_query]. apply masked_zero, Em. }
    rewrite <- (Ew n t s Hn Ht Hs), Z. ring.
Qed.

(** ** selections *)
Lemma qsumn_select n f j : (j < n)%nat -> (forall i, (i < n)%nat -> i <> j -> f i == 0) -> qsumn n f == f j.
Proof.
  intros Hj H. unfold qsumn.
  assert (G : forall l, NoDup l -> In j l -> (forall i, In i l -> i <> j -> f i == 0) -> qsum (map f l) == f j).
  { induction l as [|a l IH]; intros N I0 Z; [destruct I0|].
    cbn [map]. rewrite qsum_cons. inversion N as [|? ? Na Nl]; subst.
    destruct (Nat.eq_dec a j) as [->|D].
    - assert (E : qsum (map f l) == 0).
      { clear IH I0 N Nl. revert Z. induction l as [|b l IH]; intros Z; [reflexivity|].
        cbn [map]. rewrite qsum_cons, (Z b); [|cbn; auto|intros ->; apply Na; left; reflexivity].
        rewrite IH; [ring|intros I; apply Na; right; exact I|intros i [->|I] D; apply Z; cbn; auto]. }
      rewrite E. ring.
    - rewrite (Z a); [|cbn; auto|exact D]. rewrite IH; [ring|exact Nl|destruct I0; [congruence|assumption]|intros i I; apply Z; right; exact I]. }
  apply G; [apply seq_NoDup|apply in_seq; lia|intros i I; apply in_seq in I; apply H; lia].
Qed.
Lemma lin_selects l len sel x m d : l_iq l = None -> l_oq l = None ->
  (forall p m', l_w l p m' == if (p =? sel m')%nat then 1 else 0) -> (sel m < len)%nat ->
  lin_call lq l len x m d == x (sel m) d.
Proof.
  intros Hi Ho Hw Hs. unfold lin_call. rewrite Ho, Hi. cbn [oapp]. unfold lift.
  rewrite (qsumn_select len _ (sel m) Hs).
  - rewrite Hw, Nat.eqb_refl. ring.
  - intros i _ D. rewrite Hw. destruct (Nat.eqb_spec i (sel m)); [congruence|ring].
Qed.
Lemma cluster_selects l len M sel x m d : l_iq l = None -> l_oq l = None ->
  (forall m' b, l_w l m' b == if (b =? sel m')%nat then 1 else 0) -> (sel m < cluster_length len M)%nat ->
  (m * cluster_length len M + sel m < len)%nat ->
  cluster_call lq l (cluster_length len M) (clusters len M x) m d == x (m * cluster_length len M + sel m)%nat d.
Proof.
  intros Hi Ho Hw Hs Hl. unfold cluster_call. rewrite Ho, Hi. cbn [oapp].
  rewrite (qsumn_select _ _ (sel m) Hs).
  - rewrite Hw, Nat.eqb_refl. unfold clusters, pad_rows. destruct (Nat.ltb_spec (m * cluster_length len M + sel m) len); [ring|lia].
  - intros i _ D. rewrite Hw. destruct (Nat.eqb_spec i (sel m)); [congruence|ring].
Qed.
Lemma linformer_selects c lk lv len sel m query value key : attn_functions c -> t_aff (a_sm_oq c) = None -> m_causal m = false ->
  (forall l, l = lk \/ l = lv -> l_iq l = None /\ l_oq l = None /\ forall p m', l_w l p m' == if (p =? sel m')%nat then 1 else 0) ->
  (forall s, (s < a_S c)%nat -> (sel s < len)%nat) ->
  exists r, layer_linformer c lk lv len m query (Some value) (Some key) = Some r /\
            same_result c r (layer_core c id_ten m query (fun s => key (sel s)) (fun s => value (sel s))).
Proof.
  intros Hf Ha Hc Hl Hs. unfold layer_linformer. rewrite Hc. cbn [or_else]. eexists. split; [reflexivity|].
  apply masked_ignored; [exact Hf|exact Ha|]. intros t s _ Ss _.
  destruct (Hl lk (or_introl eq_refl)) as (A & B & C). destruct (Hl lv (or_intror eq_refl)) as (A' & B' & C').
  split; intros j; [exact (lin_selects lk len sel key s j A B C (Hs s Ss))|exact (lin_selects lv len sel value s j A' B' C' (Hs s Ss))].
Qed.
