(** More about EBOPs: reuse in einsum layers, exact figures of the element-wise layers. *)
From Coq Require Import Permutation.
From Verif Require Import Num M_Fixed M_State M_Mapper L_Mapper S_Mapper M_Contr M_Ebops S_Ebops L_Ebops.

Section Free.
  Context (free : nat -> bool) (dims : nat -> nat) (F : (nat -> nat) -> Q).
  Definition agree_off (e e' : nat -> nat) : Prop := forall l, free l = false -> e l = e' l.
  Hypothesis HF : forall e e', agree_off e e' -> F e == F e'.
  Let dims1 l := if free l then 1%nat else dims l.
  Lemma agree_upd e e' l v : agree_off e e' -> agree_off (upd e l v) (upd e' l v).
  Proof. intros H m Hm. unfold upd. destruct (m =? l)%nat; auto. Qed.
  Lemma agree_upd_free e l v w : free l = true -> agree_off (upd e l v) (upd e l w).
  Proof. intros H m Hm. unfold upd. destruct (m =? l)%nat eqn:E; [apply Nat.eqb_eq in E; congruence|reflexivity]. Qed.
  Lemma sum_over_agree d ls : forall e e', agree_off e e' -> sum_over 0 Qplus d ls F e == sum_over 0 Qplus d ls F e'.
  Proof.
    induction ls as [|l ls IH]; intros e e' H; cbn [sum_over]; [apply HF, H|]. cq. apply qsum_ext. intros v _. apply IH, agree_upd, H.
  Qed.
  Lemma sum_over_free ls : forall e,
    sum_over 0 Qplus dims ls F e == nQ (nprod (map dims (filter free ls))) * sum_over 0 Qplus dims1 ls F e.
  Proof.
    induction ls as [|l ls IH]; intros e.
    - cbn [sum_over filter map]. change (nprod []) with 1%nat. change (nQ 1) with 1. lra.
    - cbn [sum_over filter]. cq. destruct (free l) eqn:El; [assert (Hd : dims1 l = 1%nat) by (unfold dims1; rewrite El; reflexivity)|assert (Hd : dims1 l = dims l) by (unfold dims1; rewrite El; reflexivity)]; rewrite Hd.
      + rewrite (qsum_ext _ (fun _ => sum_over 0 Qplus dims ls F (upd e l 0%nat))).
        2:{ intros v _. apply sum_over_agree, agree_upd_free, El. }
        rewrite qsum_const, seq_length.
        match goal with |- _ == _ * ?s => assert (Hs : s == sum_over 0 Qplus dims1 ls F (upd e l 0%nat)) end.
        { cbn [seq map]. unfold qsum. cbn [fold_right]. apply Qplus_0_r. }
        rewrite Hs, IH. cbn [map].
        change (nprod (dims l :: map dims (filter free ls))) with (dims l * nprod (map dims (filter free ls)))%nat.
        rewrite nQ_mul. ring.
      + rewrite (qsum_ext _ (fun v => nQ (nprod (map dims (filter free ls))) * sum_over 0 Qplus dims1 ls F (upd e l v))) by (intros v _; apply IH).
        rewrite qsum_scale. reflexivity.
  Qed.
End Free.

Lemma nprod_perm a b : Permutation a b -> nprod a = nprod b.
Proof. induction 1 as [|x a b H IH|x y a|a b c H1 IH1 H2 IH2]; cbn [nprod fold_right]; fold nprod; [reflexivity|unfold nprod in *; cbn [fold_right]; lia|unfold nprod; cbn [fold_right]; rewrite !Nat.mul_assoc, (Nat.mul_comm y x); reflexivity|congruence]. Qed.

Lemma combine_dims (f : nat -> bool) ls : forall sh, NoDup ls -> length ls = length sh ->
  map snd (filter (fun p => f (fst p)) (combine ls sh)) = map (fun l => match label_dim ls sh l with Some d => d | None => 0%nat end) (filter f ls).
Proof.
  induction ls as [|a ls IH]; intros [|d sh] ND HL; try discriminate; [reflexivity|].
  inversion ND as [|? ? Hn ND']; subst. cbn [combine filter fst].
  assert (Hrest : map (fun l => match label_dim (a :: ls) (d :: sh) l with Some x => x | None => 0%nat end) (filter f ls)
                  = map (fun l => match label_dim ls sh l with Some x => x | None => 0%nat end) (filter f ls)).
  { apply map_ext_in. intros l Hl. apply filter_In in Hl. destruct Hl as [Hl _]. cbn [label_dim].
    destruct (a =? l)%nat eqn:E; [apply Nat.eqb_eq in E; subst; contradiction|reflexivity]. }
  cbn [length] in HL.
  destruct (f a); cbn [map snd]; rewrite Hrest; [|apply IH; [exact ND'|lia]].
  cbn [label_dim]. rewrite Nat.eqb_refl. f_equal. apply IH; [exact ND'|lia].
Qed.

Lemma label_dim_tl a ls d sh l : l <> a -> label_dim (a :: ls) (d :: sh) l = label_dim ls sh l.
Proof. intros H. cbn [label_dim]. destruct (a =? l)%nat eqn:E; [apply Nat.eqb_eq in E; congruence|reflexivity]. Qed.
Lemma label_dim_in ls : forall sh l, In l ls -> length ls = length sh -> exists d, label_dim ls sh l = Some d.
Proof.
  induction ls as [|a ls IH]; intros [|d sh] l H HL; try discriminate; [destruct H|]. cbn [label_dim].
  destruct (a =? l)%nat eqn:E; [eauto|]. destruct H as [->|H]; [rewrite Nat.eqb_refl in E; discriminate|]. apply IH; cbn in HL; [exact H|lia].
Qed.

(** the code's n_parallel is the product of the sizes of the free axes *)
Lemma n_parallel_free li lk lo sh ksh : NoDup li -> length li = length sh ->
  einsum_n_parallel li lk lo sh = nprod (map (einsum_dims li sh lk ksh) (filter (free_label li lk lo) (all_labels li lk))).
Proof.
  intros ND HL. unfold einsum_n_parallel. destruct li as [|a ls], sh as [|d sh]; try discriminate.
  - cbn [tl combine filter map]. replace (filter (free_label [] lk lo) (all_labels [] lk)) with (@nil nat); [reflexivity|].
    symmetry. generalize (all_labels [] lk). intros l. induction l as [|x l IH]; [reflexivity|]. cbn [filter]. unfold free_label at 1. cbn. exact IH.
  - cbn [tl]. inversion ND as [|? ? Hn ND']; subst. cbn [length] in HL.
    rewrite (combine_dims (fun l => negb (memb l lk) && memb l lo) ls sh ND') by lia.
    transitivity (nprod (map (einsum_dims (a :: ls) (d :: sh) lk ksh) (filter (fun l => negb (memb l lk) && memb l lo) ls))).
    + f_equal. apply map_ext_in. intros l Hl. apply filter_In in Hl. destruct Hl as [Hl _]. unfold einsum_dims.
      rewrite label_dim_tl by (intros ->; contradiction). destruct (label_dim_in ls sh l Hl) as [x Ex]; [lia|]. rewrite Ex. reflexivity.
    + apply nprod_perm, Permutation_map, NoDup_Permutation; [apply NoDup_filter, ND'|apply NoDup_filter, NoDup_nodup|].
      intros l. rewrite !filter_In. unfold all_labels, free_label. rewrite nodup_In, in_app_iff. cbn [tl].
      rewrite !andb_true_iff, (memb_In l ls). cbn [In]. tauto.
Qed.

Lemma free_not_kernel li lk lo l : free_label li lk lo l = true -> ~ In l lk.
Proof. unfold free_label. rewrite !andb_true_iff, negb_true_iff, memb_false. tauto. Qed.

Lemma einsum_reuse li lk lo sh ksh osh p iq kq e bi bk :
  NoDup li -> length li = length sh -> (0 < einsum_n_parallel li lk lo sh)%nat -> (0 <= p)%Z ->
  bits_ iq sh = Some bi -> bits_ kq ksh = Some bk ->
  (forall i i', length i = length li -> length i' = length li ->
     (forall d l, nth_error li d = Some l -> free_label li lk lo l = false -> nth d i 0%nat = nth d i' 0%nat) -> at_ bi i == at_ bi i') ->
  einsum_dense_ebops li lk lo sh ksh osh p iq kq None = Some e ->
  e == inject_Z p * cost (at_ bi) (at_ bk) (one_application li lk lo (einsum_dims li sh lk ksh)).
Proof.
  intros ND HL Hn Hp Ei Ek Hu. unfold einsum_dense_ebops. rewrite Ei, Ek. cbn [bind]. intros E.
  match type of E with Some ?x = _ => assert (E' : e = x) by congruence end. rewrite E'. clear E E'.
  unfold one_application, einsum_mults. rewrite cost_sum_over. unfold einsum.
  set (F := fun e0 : nat -> nat => at_ bi (map e0 li) * at_ bk (map e0 lk)).
  assert (Hc : contracted li lk [] = all_labels li lk).
  { unfold contracted. generalize (all_labels li lk). intros l. induction l as [|x l IH]; [reflexivity|]. cbn [filter]. cbn [memb existsb negb]. f_equal. exact IH. }
  rewrite Hc. cbn [bind_idx].
  rewrite (sum_over_free (free_label li lk lo) (einsum_dims li sh lk ksh) F).
  2:{ intros e1 e2 H. unfold F. assert (Hk : map e1 lk = map e2 lk).
      { apply map_ext_in. intros l Hl. apply H. destruct (free_label li lk lo l) eqn:Ef; [|reflexivity]. exfalso. apply (free_not_kernel _ _ _ _ Ef Hl). }
      rewrite Hk. rewrite (Hu (map e1 li) (map e2 li)); [reflexivity|apply map_length|apply map_length|].
      intros d l Hd Hf. rewrite (nth_indep (map e1 li) 0%nat (e1 0%nat)), (nth_indep (map e2 li) 0%nat (e2 0%nat)).
      2,3: rewrite map_length; apply nth_error_Some; congruence.
      rewrite !map_nth. apply nth_error_nth with (d := 0%nat) in Hd. rewrite Hd. apply H, Hf. }
  rewrite <- (n_parallel_free li lk lo sh ksh ND HL). rewrite factor_eq. unfold factor_of.
  assert (Hp' : (p <? 0)%Z = false) by (apply Z.ltb_ge; lia). rewrite Hp'. pose proof (nQ_pos _ Hn). field. lra.
Qed.

(** ** Exact figures of the element-wise layers *)
Lemma is_min_unique m m' l : is_min m l -> is_min m' l -> m == m'.
Proof. intros [(x & Hx & Ex) H1] [(y & Hy & Ey) H2]. specialize (H1 y Hy). specialize (H2 x Hx). lra. Qed.
Lemma qmin_is_min a l : is_min (qmin_list a l) (a :: l).
Proof.
  split.
  - destruct (qmin_list_in a l) as [H|(x & Hx & H)]; [exists a; split; [left; reflexivity|lra]|exists x; split; [right; exact Hx|lra]].
  - destruct (qmin_list_le a l) as [H1 H2]. intros x [<-|Hx]; [exact H1|apply H2, Hx].
Qed.
Lemma excl_max_figure sh iqs e (m : index -> Q) : excl_max_ebops sh iqs = Some e ->
  exists bs, all_bits iqs sh = Some bs /\
  ((forall i, In i (indices sh) -> is_min (m i) (map (fun b => at_ b i) bs)) ->
   e == qsum (map (fun i => qsum (map (fun b => at_ b i) bs) - m i) (indices sh))).
Proof.
  intros E. destruct (excl_max_form _ _ _ E) as (b0 & rest & Eb & He). exists (b0 :: rest). split; [exact Eb|]. intros Hm. rewrite He.
  apply qsum_ext. intros i Hi. cbn [map]. rewrite (is_min_unique _ _ _ (qmin_is_min (at_ b0 i) (map (fun b => at_ b i) rest)) (Hm i Hi)). reflexivity.
Qed.
Lemma add_figure sh iqs e (m : index -> Q) : add_ebops sh iqs = Some e ->
  exists bs, all_bits iqs sh = Some bs /\
  ((forall i, In i (indices sh) -> is_min (m i) (map (fun b => at_ b i) bs)) ->
   e == (65 # 100) * qsum (map (fun i => qsum (map (fun b => at_ b i) bs) - m i) (indices sh))).
Proof.
  unfold add_ebops. destruct (excl_max_ebops sh iqs) as [x|] eqn:Ex; cbn [bind]; [|discriminate]. intros E.
  assert (E' : e = x * (65 # 100)) by congruence. destruct (excl_max_figure _ _ _ m Ex) as (bs & Eb & H). exists bs. split; [exact Eb|].
  intros Hm. rewrite E', (H Hm). ring.
Qed.
Lemma maximum_figure sh iqs e (m : index -> Q) : maximum_ebops sh iqs = Some e ->
  exists bs, all_bits iqs sh = Some bs /\
  ((forall i, In i (indices sh) -> is_min (m i) (map (fun b => at_ b i) bs)) ->
   e == qsum (map (fun i => qsum (map (fun b => at_ b i) bs) - m i) (indices sh))).
Proof.
  unfold maximum_ebops. destruct (excl_max_ebops sh iqs) as [x|] eqn:Ex; cbn [bind]; [|discriminate]. intros E.
  assert (E' : e = 1 * x) by congruence. destruct (excl_max_figure _ _ _ m Ex) as (bs & Eb & H). exists bs. split; [exact Eb|].
  intros Hm. rewrite E', (H Hm). ring.
Qed.
Lemma sum_figure axes sh iq e (m : index -> Q) : sum_ebops axes sh iq = Some e ->
  exists b, bits_ iq sh = Some b /\
  ((forall g, In g (indices (keep_shape_from 0 axes sh)) -> is_min (m g) (map (at_ b) (group_of axes sh g))) ->
   e == (65 # 100) * qsum (map (fun g => qsum (map (at_ b) (group_of axes sh g)) - m g) (indices (keep_shape_from 0 axes sh)))).
Proof.
  intros E. destruct (sum_form _ _ _ _ E) as (b & Eb & He). exists b. split; [exact Eb|]. intros Hm. rewrite He, Qmult_comm.
  apply Qmult_inj_l; [discriminate|]. destruct (bits_at _ _ _ Eb) as [Hs _]. apply qsum_ext. intros g Hg. specialize (Hm g Hg).
  unfold collect. rewrite Hs. fold (group_of axes sh g). destruct (map (at_ b) (group_of axes sh g)) as [|x l] eqn:El.
  - destruct Hm as [(y & [] & _) _].
  - cbn [min_of]. rewrite (is_min_unique _ _ _ (qmin_is_min x l) Hm). reflexivity.
Qed.
Lemma subtract_figure sh q0 q1 e : subtract_ebops sh q0 q1 = Some e ->
  exists b0 b1, bits_ q0 sh = Some b0 /\ bits_ q1 sh = Some b1 /\
  forall m : index -> Q, (forall i, at_ b0 i <= m i /\ at_ b1 i <= m i /\ (m i == at_ b0 i \/ m i == at_ b1 i)) -> e == qsum (map m (indices sh)).
Proof.
  unfold subtract_ebops. destruct (bits_ q0 sh) as [b0|] eqn:E0; cbn [bind]; [|discriminate].
  destruct (bits_ q1 sh) as [b1|] eqn:E1; cbn [bind]; [|discriminate]. intros E. match type of E with Some ?x = _ => assert (E' : e = x) by congruence end.
  exists b0, b1. split; [reflexivity|]. split; [reflexivity|]. intros m Hm. rewrite E'. apply qsum_ext. intros i _. destruct (Hm i) as (H1 & H2 & H3).
  destruct (Q.max_spec (at_ b0 i) (at_ b1 i)) as [[Hl ->]|[Hl ->]]; destruct H3 as [H3|H3]; lra.
Qed.
Lemma multiply_figure sh q0 q1 e : multiply_ebops sh [q0; q1] = Some e ->
  exists b0 b1, bits_ q0 sh = Some b0 /\ bits_ q1 sh = Some b1 /\ e == qsum (map (fun i => at_ b0 i * at_ b1 i) (indices sh)).
Proof.
  unfold multiply_ebops. cbn [all_bits]. destruct (bits_ q0 sh) as [b0|] eqn:E0; cbn [bind]; [|discriminate].
  destruct (bits_ q1 sh) as [b1|] eqn:E1; cbn [bind]; [|discriminate]. intros E. match type of E with Some ?x = _ => assert (E' : e = x) by congruence end.
  exists b0, b1. split; [reflexivity|]. split; [reflexivity|]. rewrite E'. reflexivity.
Qed.
Lemma bn_figure sh axis iq kq bq e : (axis < length sh)%nat -> (0 < nth axis sh 0)%nat -> bn_ebops sh axis iq kq bq = Some e ->
  exists bi bk bb, bits_ iq sh = Some bi /\ bits_ kq [nth axis sh 0%nat] = Some bk /\ bits_ bq [nth axis sh 0%nat] = Some bb /\
  e == qsum (map (fun i => at_ bi i * at_ bk [nth axis i 0%nat] + at_ bb [nth axis i 0%nat]) (indices sh)).
Proof.
  intros Ha Hd. unfold bn_ebops. destruct (bits_ iq sh) as [bi|] eqn:E0; cbn [bind]; [|discriminate].
  destruct (bits_ kq _) as [bk|] eqn:E1; cbn [bind]; [|discriminate]. destruct (bits_ bq _) as [bb|] eqn:E2; cbn [bind]; [|discriminate].
  intros E. match type of E with Some ?x = _ => assert (E' : e = x) by congruence end.
  exists bi, bk, bb. split; [reflexivity|]. split; [reflexivity|]. split; [reflexivity|]. rewrite E', qsum_plus. apply Qplus_inj_l.
  destruct (bits_at _ _ _ E2) as [Hs _]. unfold tmean, tsum. rewrite Hs.
  change (nprod [nth axis sh 0%nat]) with (nth axis sh 0 * 1)%nat. rewrite Nat.mul_1_r, indices_single.
  set (f := fun j => at_ bb [j]). set (d := nth axis sh 0%nat) in *.
  transitivity (nQ (nprod sh) / nQ d * qsum (map f (seq 0 d))).
  { fold f. pose proof (nQ_pos d Hd). field. lra. }
  change (nQ (nprod sh) / nQ d * qsum (map f (seq 0 d)) == qsum (map (fun i : index => f (nth axis i 0%nat)) (indices sh))).
  clearbody f. clear - Ha Hd. unfold d in *. clear d. revert axis Ha Hd. induction sh as [|a sh IH]; intros axis Ha Hd; [cbn in Ha; lia|].
  rewrite tsum_cons. destruct axis as [|axis]; cbn [nth] in *.
  - rewrite (qsum_ext (fun i => qsum (map (fun j => f i) (indices sh))) (fun i => nQ (nprod sh) * f i)).
    2:{ intros i _. rewrite qsum_const, length_indices. reflexivity. }
    rewrite qsum_scale. change (nprod (a :: sh)) with (a * nprod sh)%nat. rewrite nQ_mul. pose proof (nQ_pos a Hd). field. lra.
  - rewrite qsum_const, seq_length. cbn [length] in Ha. rewrite <- IH by (try lia; exact Hd).
    change (nprod (a :: sh)) with (a * nprod sh)%nat. rewrite nQ_mul. pose proof (nQ_pos _ Hd). field. lra.
Qed.

(** ** Convolution geometry *)
Lemma c_out_valid c o : (0 < c_stride c)%nat -> (0 < c_k c)%nat ->
  (o < c_out VALID c <-> o * c_stride c + (c_k c - 1) * c_dil c < c_in c)%nat.
Proof.
  intros Hs Hk. unfold c_out, c_eff. destruct (c_in c <? (c_k c - 1) * c_dil c + 1)%nat eqn:E; [apply Nat.ltb_lt in E; split; [lia|]|apply Nat.ltb_ge in E].
  - intros H. assert (0 <= o * c_stride c)%nat by lia. lia.
  - set (r := (c_in c - ((c_k c - 1) * c_dil c + 1))%nat) in *.
    pose proof (Nat.div_mod r (c_stride c) ltac:(lia)) as Hdm. pose proof (Nat.mod_upper_bound r (c_stride c) ltac:(lia)).
    assert (Hr : (r + (c_k c - 1) * c_dil c + 1 = c_in c)%nat) by (unfold r; lia). clearbody r.
    set (q := (r / c_stride c)%nat) in *. clearbody q.
    assert (Hiff : (o * c_stride c <= r <-> o <= q)%nat).
    { split; intros H1.
      - destruct (Nat.le_gt_cases o q) as [|Hgt]; [assumption|]. assert (S q <= o)%nat by lia.
        assert ((S q) * c_stride c <= o * c_stride c)%nat by (apply Nat.mul_le_mono_r; assumption). lia.
      - assert (o * c_stride c <= q * c_stride c)%nat by (apply Nat.mul_le_mono_r; assumption). lia. }
    lia.
Qed.
Lemma c_out_same c o : (0 < c_stride c)%nat -> (o < c_out SAME c <-> o * c_stride c < c_in c)%nat.
Proof.
  intros Hs. unfold c_out. set (r := (c_in c + c_stride c - 1)%nat).
  pose proof (Nat.div_mod r (c_stride c) ltac:(lia)) as Hdm. pose proof (Nat.mod_upper_bound r (c_stride c) ltac:(lia)).
  assert (Hr : (r + 1 = c_in c + c_stride c)%nat) by (unfold r; lia). clearbody r. set (q := (r / c_stride c)%nat) in *. clearbody q.
  split; intros H1.
  - assert (S o <= q)%nat by lia. assert (S o * c_stride c <= q * c_stride c)%nat by (apply Nat.mul_le_mono_r; assumption). lia.
  - destruct (Nat.le_gt_cases q o) as [Hle|]; [|assumption]. assert (q * c_stride c <= o * c_stride c)%nat by (apply Nat.mul_le_mono_r; assumption). lia.
Qed.
(** SAME: the padding needed for the last window is split evenly, the odd one going to the right *)
Lemma c_left_same c : (0 < c_stride c)%nat -> (0 < c_in c)%nat ->
  let total := ((c_out SAME c - 1) * c_stride c + (c_k c - 1) * c_dil c + 1 - c_in c)%nat in
  (2 * c_left SAME c <= total <= 2 * c_left SAME c + 1)%nat.
Proof.
  intros Hs Hi total. unfold c_left, c_eff.
  replace ((c_out SAME c - 1) * c_stride c + ((c_k c - 1) * c_dil c + 1) - c_in c)%nat with total by (unfold total; lia).
  clearbody total. pose proof (Nat.div_mod total 2 ltac:(lia)). pose proof (Nat.mod_upper_bound total 2 ltac:(lia)). lia.
Qed.
