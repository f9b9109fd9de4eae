From Coq Require Import String.
From Verif Require Import Num M_Fixed L_Fixed M_State M_Wrapper M_Mapper S_Mapper L_Mapper M_Contr M_Ebops L_Ebops M_Pow2 M_Patch S_Patch L_Patch M_Ops S_Ops L_Ops M_Mirror S_Mirror L_Mirror M_Trace S_Trace L_Trace M_Net S_Net L_Lift L_Net L_Net2 S_Ops.
Local Open Scope list_scope.

(** ** dense layers *)
Lemma map_nth_seq (l : list nat) : map (fun k => nth k l 0%nat) (seq 0 (length l)) = l.
Proof. induction l as [|a l IH]; [reflexivity|]. cbn [length seq map nth]. f_equal. rewrite <- seq_shift, map_map. exact IH. Qed.
Lemma nat_list_eqb_eq s t : nat_list_eqb s t = true <-> s = t.
Proof. unfold nat_list_eqb. destruct (list_eq_dec Nat.eq_dec s t); split; congruence. Qed.
Lemma last_split (s : list nat) : s <> [] -> s = removelast s ++ [last s 0%nat].
Proof. apply app_removelast_last. Qed.
Lemma dense_einsum x k y r : length (shape x) = S r -> keras_matmul x k = Some y ->
  exists y', np_einsum (seq 0 (S r)) [r; S r] (seq 0 r ++ [S r]) x k = Some y' /\ same_tensor y y'.
Proof.
  intros L H. unfold keras_matmul in H. destruct (shape k) as [|c [|u [|? ?]]] eqn:Ek; try discriminate.
  destruct (negb (nat_list_eqb (shape x) []) && (last (shape x) 0 =? c)%nat)%bool eqn:E; [|discriminate]. apply some_inj in H. subst y.
  apply andb_true_iff in E as (E1 & E2). apply Nat.eqb_eq in E2. assert (Nx : shape x <> []) by (destruct (shape x); discriminate). pose proof (last_split _ Nx) as Es.
  assert (Lr : length (removelast (shape x)) = r) by (apply (f_equal (@length nat)) in Es; rewrite app_length, L in Es; cbn [length] in Es; lia).
  set (rl := removelast (shape x)) in *. rewrite E2 in Es.
  unfold np_einsum. rewrite Ek. set (dims := label_dims (seq 0 (S r)) (shape x) [r; S r] [c; u]).
  assert (D1 : forall l, (l <= r)%nat -> dims l = nth l (shape x) 0%nat).
  { intros l Hl. unfold dims, label_dims. rewrite memb_seq. replace ((0 <=? l) && (l <? 0 + S r))%nat with true by (symmetry; apply andb_true_iff; split; [apply Nat.leb_le; lia|apply Nat.ltb_lt; lia]).
    rewrite index_of_seq by lia. rewrite Nat.sub_0_r. reflexivity. }
  assert (D2 : dims (S r) = u).
  { unfold dims, label_dims. rewrite memb_seq. replace ((0 <=? S r) && (S r <? 0 + S r))%nat with false by (symmetry; apply andb_false_iff; right; apply Nat.ltb_ge; lia).
    cbn [index_of]. destruct (Nat.eqb_spec (S r) r); [lia|]. rewrite Nat.eqb_refl. reflexivity. }
  assert (Dr : dims r = c) by (rewrite D1 by lia; rewrite Es, app_nth2, Lr, Nat.sub_diag by lia; reflexivity).
  assert (Ms : map dims (seq 0 (S r)) = shape x).
  { rewrite <- (map_nth_seq (shape x)), L. apply map_ext_in. intros l Hl. apply in_seq in Hl. rewrite D1 by lia. reflexivity. }
  assert (Mr : map dims (seq 0 r) = rl).
  { rewrite seq_S, map_app, Es in Ms. apply app_inj_tail in Ms. apply Ms. }
  rewrite forallb_app, (dims_forallb dims (seq 0 (S r))) by exact Ms. rewrite (dims_forallb dims [r; S r]) by (cbn [map]; rewrite Dr, D2; reflexivity).
  rewrite seq_length, L. cbn [length]. rewrite !Nat.eqb_refl. cbn [andb]. eexists. split; [reflexivity|].
  split; [cbn [shape]; rewrite map_app; cbn [map]; rewrite Mr, D2; reflexivity|]. cbn [shape at_]. intros i Hi.
  assert (Ni : i <> []). { intros ->. apply valid_len in Hi. rewrite app_length in Hi. cbn [length] in Hi. lia. }
  pose proof (last_split _ Ni) as Ei. assert (Li : length (removelast i) = r).
  { apply (f_equal (@length nat)) in Ei. rewrite app_length in Ei. cbn [length] in Ei. apply valid_len in Hi. rewrite app_length in Hi. cbn [length] in Hi. lia. }
  set (i0 := removelast i) in *. set (j := last i 0%nat) in *. unfold einsum.
  assert (C : contracted (seq 0 (S r)) [r; S r] (seq 0 r ++ [S r]) = [r]).
  { apply filter_all_single.
    - apply NoDup_filter, NoDup_nodup.
    - apply filter_In. split; [apply nodup_In, in_or_app; right; left; reflexivity|]. apply negb_true_iff, memb_false. rewrite in_app_iff, in_seq. cbn [In]. lia.
    - intros m Hm Dm. apply filter_In in Hm as (Hm & Hn). apply nodup_In, in_app_or in Hm. apply negb_true_iff, memb_false in Hn. apply Hn. rewrite in_app_iff, in_seq. rewrite in_seq in Hm. cbn [In] in *. lia. }
  rewrite C. cbn [sum_over]. rewrite Dr. unfold matmul. unfold csum. change (fold_right Qplus 0) with qsum. apply qsum_ext. intros w Hw.
  assert (B : map (bind_idx (seq 0 r ++ [S r]) i (fun _ => 0%nat)) (seq 0 r ++ [S r]) = i).
  { apply bind_map; [|rewrite Ei, !app_length, seq_length; cbn [length]; lia]. apply NoDup_app_intro; [apply seq_NoDup|repeat constructor; intros []|]. intros m Hm. apply in_seq in Hm. cbn [In]. lia. }
  set (e := bind_idx _ i _) in *. rewrite map_app in B. cbn [map] in B. rewrite Ei in B. apply app_inj_tail in B as (B1 & B2). fold i0 j.
  apply Qmult_comp.
  - rewrite seq_S, map_app. cbn [map Nat.add]. replace (upd e r w r) with w by (unfold upd; rewrite Nat.eqb_refl; reflexivity).
    replace (map (upd e r w) (seq 0 r)) with i0; [reflexivity|]. rewrite <- B1. apply map_ext_in. intros m Hm. apply in_seq in Hm. unfold upd. destruct (Nat.eqb_spec m r); [lia|reflexivity].
  - replace (map (upd e r w) [r; S r]) with [w; j]; [reflexivity|]. cbn [map]. unfold upd. rewrite Nat.eqb_refl. destruct (Nat.eqb_spec (S r) r); [lia|]. rewrite B2. reflexivity.
Qed.
Lemma Qplus_ext a b c d : a == b -> c == d -> a + c == b + d. Proof. intros -> ->. reflexivity. Qed.
Lemma Qmult_ext a b c d : a == b -> c == d -> a * c == b * d. Proof. intros -> ->. reflexivity. Qed.
Lemma holds_left n b x y v : (b < n)%nat -> same_tensor x y -> holds n b y v -> holds n b x v.
Proof.
  intros Hb (E & H) ((d & s & Ey) & S). split; [exists d, s; congruence|]. apply (st_trans _ (sample b y)); [|exact S]. split; [cbn [sample shape]; rewrite E; reflexivity|].
  cbn [sample shape at_]. intros i Hi. apply H. rewrite E in *. rewrite Ey in *. cbn [tl] in Hi. constructor; assumption.
Qed.
Lemma holds_right n b x v w : holds n b x v -> same_tensor v w -> holds n b x w.
Proof. intros (B & S) T. split; [exact B|]. exact (st_trans _ _ _ S T). Qed.
Lemma holds_shape n b x v d s : holds n b x v -> shape x = n :: d :: s -> shape v = d :: s.
Proof. intros (_ & (E & _)) H. cbn [sample shape] in E. rewrite H in E. symmetry. exact E. Qed.
(** einsum, then the bias, then dropping the new axis *)
Lemma einsum_bias_traced n b a li lk lo x v k bias y1 y : (b < n)%nat -> ~ In a (li ++ lk ++ lo) -> lo <> [] -> has_bias bias (length lo) -> holds n b x v ->
  np_einsum (a :: li) lk (a :: lo) x k = Some y1 -> add_bias y1 bias = Some y ->
  exists z, replay_einsum_dense (a :: li) lk (a :: lo) k bias v = Some z /\ holds n b y z.
Proof.
  intros Hb Na Nl (w & -> & Lw) Hx H1 H2. destruct (einsum_traced n b a li lk lo x v k y1 Hb Na Hx H1) as (s & r & Ey & Ls & Er & Sr & S). cbn [add_bias] in H2.
  assert (Hs : exists d s', s = d :: s') by (destruct s as [|d s']; [destruct lo; [congruence|discriminate]|eauto]).
  assert (H1' : holds n b y1 (sample 0 r)) by (split; [destruct Hs as (d & s' & ->); exists d, s'; exact Ey|exact S]).
  destruct (const_traced Qplus n b y1 (sample 0 r) w y Qplus_ext Hb H1') as (z & Ez & Hz); [rewrite Ey; cbn [length]; lia|exact H2|].
  destruct (const_newaxis Qplus (sample 0 r) r w z s Sr (st_refl _) Qplus_ext) as (y' & z' & Ey' & Ez' & S'); [lia|exact Ez|].
  exists z'. unfold replay_einsum_dense. rewrite Er. cbn [bind replay_add_bias]. rewrite Ey'. cbn [bind]. rewrite Ez'. split; [reflexivity|]. exact (holds_right _ _ _ _ _ Hz S').
Qed.
Lemma dense_traced n b x v k bias y1 y : (b < n)%nat -> has_bias bias 1 -> holds n b x v -> keras_matmul x k = Some y1 -> add_bias y1 bias = Some y ->
  exists z, replay_dense k bias v = Some z /\ holds n b y z.
Proof.
  intros Hb Bi Hx H1 H2. pose proof Hx as ((d & s & Ex) & _). pose proof (holds_shape _ _ _ _ _ _ Hx Ex) as Ev.
  destruct (dense_einsum x k y1 (length (shape v))) as (y1' & E1 & S1); [rewrite Ex, Ev; reflexivity|exact H1|].
  assert (A : exists y', add_bias y1' bias = Some y' /\ same_tensor y y').
  { destruct Bi as (w & -> & _). cbn [add_bias] in *. exact (binary_same Qplus _ _ _ _ _ Qplus_ext S1 (st_refl w) H2). }
  destruct A as (y' & E2 & S2). unfold replay_dense, dense_labels. rewrite Ev in *. cbn [length] in *.
  destruct (einsum_bias_traced n b 0 (seq 1 (S (length s))) [S (length s); S (S (length s))] (seq 1 (length s) ++ [S (S (length s))]) x v k bias y1' y') as (z & Ez & Hz).
  - exact Hb.
  - rewrite !in_app_iff, !in_seq. cbn [In]. lia.
  - intros E. apply app_eq_nil in E as (_ & E). discriminate.
  - destruct Bi as (w & -> & Lw). exists w. split; [reflexivity|]. rewrite app_length, seq_length. cbn [length]. lia.
  - exact Hx.
  - exact E1.
  - exact E2.
  - exists z. split; [exact Ez|]. exact (holds_left _ _ _ _ _ Hb S2 Hz).
Qed.

(** ** batch normalization *)
Lemma unit_binary f x w w' t y : (forall a b c d, a == b -> c == d -> f a c == f b d) -> (length t < length (shape x))%nat -> shape w = 1%nat :: t -> shape w' = t -> (forall i, at_ w (0%nat :: i) == at_ w' i) ->
  np_binary f x w = Some y -> exists y', np_binary f x w' = Some y' /\ same_tensor y y'.
Proof.
  intros P L Ew Ew' A. unfold np_binary. rewrite Ew, Ew'. cbn [length]. replace (Nat.max (length (shape x)) (S (length t))) with (length (shape x)) by lia. replace (Nat.max (length (shape x)) (length t)) with (length (shape x)) by lia.
  set (n := length (shape x)) in *. assert (Lp : lpad n (1%nat :: t) = lpad n t).
  { unfold lpad. cbn [length]. replace (n - length t)%nat with ((n - S (length t)) + 1)%nat by lia. rewrite repeat_app, <- app_assoc. reflexivity. }
  rewrite Lp. destruct (join_shape _ _) as [sh|] eqn:J; [|discriminate]. cbn [bind]. intros H. apply some_inj in H. subst y. eexists. split; [reflexivity|]. split; [reflexivity|].
  cbn [shape at_]. intros i Hi. apply P; [reflexivity|]. unfold bcast_at. rewrite Ew, Ew', Lp. cbn [length]. assert (V := proj2 (join_valid _ _ _ _ J Hi)).
  set (j := bcast_index (lpad n t) i) in *. clearbody j. assert (K : skipn (n - S (length t)) j = 0%nat :: skipn (n - length t) j).
  { unfold lpad in V. replace (n - length t)%nat with ((n - S (length t)) + 1)%nat in * by lia. clear Lp. set (k := (n - S (length t))%nat) in *. clearbody k.
    rewrite repeat_app, <- app_assoc in V. apply valid_app_r in V. rewrite repeat_length in V. rewrite <- skipn_skipn_add.
    destruct (skipn k j) as [|a l]; inversion V as [|? ? ? ? Ha]; subst. cbn [skipn]. f_equal. lia. }
  rewrite K. apply A.
Qed.
Lemma reshape_unit t w a : np_reshape (1%nat :: t) w = Some a -> exists a', np_reshape t w = Some a' /\ shape a = 1%nat :: t /\ shape a' = t /\ forall i, at_ a (0%nat :: i) == at_ a' i.
Proof.
  unfold np_reshape. change (nprod (1%nat :: t)) with (1 * nprod t)%nat. rewrite Nat.mul_1_l. destruct (nprod t =? nprod (shape w))%nat; [|discriminate]. intros H. apply some_inj in H. subst a.
  eexists. split; [reflexivity|]. split; [reflexivity|]. split; [reflexivity|]. intros i. reflexivity.
Qed.
Lemma binary_rank f x w y m s : shape x = m :: s -> (length (shape w) <= length s)%nat -> np_binary f x w = Some y -> length (shape y) = length (shape x).
Proof.
  intros Ex L H. rewrite (const_binary f x w m s Ex L) in H. destruct (join_shape s _) as [sh|] eqn:J; [|discriminate]. cbn [bind] in H. apply some_inj in H. subst y.
  destruct (join_shape_leq _ _ _ J) as (A & _). apply leq_length in A. cbn [shape length]. rewrite Ex. cbn [length]. lia.
Qed.
Lemma bn_traced n b d sh sc off x v y : (b < n)%nat -> holds n b x v -> length (shape x) = S (S (length sh)) -> keras_batchnorm (1%nat :: d :: sh) sc off x = Some y ->
  exists z, replay_batchnorm (1%nat :: d :: sh) sc off v = Some z /\ holds n b y z.
Proof.
  intros Hb Hx L H. unfold keras_batchnorm in H. unfold replay_batchnorm. cbn [tl]. set (t := d :: sh) in *.
  destruct (np_reshape (1%nat :: t) sc) as [s|] eqn:Es; [|discriminate]. cbn [bind] in H. destruct (np_reshape (1%nat :: t) off) as [o|] eqn:Eo; [|discriminate]. cbn [bind] in H.
  destruct (np_binary Qmult x s) as [r|] eqn:Er; [|discriminate]. cbn [bind] in H.
  destruct (reshape_unit t sc s Es) as (s' & Es' & Sh1 & Sh1' & A1). destruct (reshape_unit t off o Eo) as (o' & Eo' & Sh2 & Sh2' & A2). rewrite Es', Eo'. cbn [bind].
  assert (Lt : (length t < length (shape x))%nat) by (rewrite L; unfold t; cbn [length]; lia).
  destruct (unit_binary Qmult x s s' t r Qmult_ext Lt Sh1 Sh1' A1 Er) as (r' & Er' & Sr).
  destruct (const_traced Qmult n b x v s' r' Qmult_ext Hb Hx) as (r1 & E1 & H1); [rewrite Sh1'; exact Lt|exact Er'|]. rewrite E1. cbn [bind].
  destruct (binary_same Qplus r o r' o y Qplus_ext Sr (st_refl o) H) as (y' & Ey' & Sy).
  pose proof Hx as ((dx & sx & Ex) & _). assert (Lr : length (shape r') = length (shape x)).
  { apply (binary_rank Qmult x s' r' n (dx :: sx) Ex); [rewrite Sh1'; rewrite Ex in Lt; cbn [length] in Lt |- *; lia|exact Er']. }
  destruct (unit_binary Qplus r' o o' t y' Qplus_ext ltac:(rewrite Lr; exact Lt) Sh2 Sh2' A2 Ey') as (y2 & Ey2 & Sy2).
  destruct (const_traced Qplus n b r' r1 o' y2 Qplus_ext Hb H1) as (z & Ez & Hz); [rewrite Sh2', Lr; exact Lt|exact Ey2|].
  exists z. split; [exact Ez|]. exact (holds_left _ _ _ _ _ Hb (st_trans _ _ _ Sy Sy2) Hz).
Qed.
