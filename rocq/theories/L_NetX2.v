(** Indexing, matmul, einsum of two batches and global pooling of a batch, sample by sample. *)
From Verif Require Import Num M_Fixed M_State M_Wrapper M_Mapper S_Mapper L_Mapper M_Contr M_Ebops L_Ebops M_Pow2 M_Patch S_Patch M_Ops M_Mirror S_Mirror M_Trace M_Net S_Net M_NetX S_NetX L_Ops L_Net L_Net2 L_Net3 L_Net5 L_NetX1 S_Ops.
Local Open Scope list_scope.

(** ** indexing *)
Lemma slice_start_range d a c : (c <> 0)%Z -> if (0 <? c)%Z then (0 <= slice_start d a c)%Z else (slice_start d a c <= Z.of_nat d - 1)%Z.
Proof. intros Hc. unfold slice_start. destruct (0 <? c)%Z; destruct a as [a|]; cbv zeta; [destruct (a <? 0)%Z| |destruct (a <? 0)%Z|]; lia. Qed.
Lemma slice_stop_range d a c : (c <> 0)%Z -> if (0 <? c)%Z then (slice_stop d a c <= Z.of_nat d)%Z else (-1 <= slice_stop d a c)%Z.
Proof. intros Hc. unfold slice_stop. destruct (0 <? c)%Z; destruct a as [a|]; cbv zeta; [destruct (a <? 0)%Z| |destruct (a <? 0)%Z|]; lia. Qed.
Lemma slice_pos d a b c i : (c <> 0)%Z -> (i < slice_len (slice_start d a c) (slice_stop d b c) c)%nat ->
  (Z.to_nat (slice_start d a c + Z.of_nat i * c) < d)%nat.
Proof.
  intros Hc Hi. pose proof (slice_start_range d a c Hc) as A. pose proof (slice_stop_range d b c Hc) as B. unfold slice_len in Hi. destruct (Z.ltb_spec 0 c) as [P|P].
  - set (s := slice_start d a c) in *. set (e := slice_stop d b c) in *. assert (Z.of_nat i < (e - s + c - 1) / c)%Z by lia.
    assert (Z.of_nat i + 1 <= (e - s + c - 1) / c)%Z by lia. pose proof (Z.mul_div_le (e - s + c - 1) c P). assert (s + Z.of_nat i * c < e)%Z by nia. nia.
  - set (s := slice_start d a c) in *. set (e := slice_stop d b c) in *. assert (Z.of_nat i + 1 <= (s - e - c - 1) / (- c))%Z by lia.
    pose proof (Z.mul_div_le (s - e - c - 1) (- c) ltac:(lia)). assert (e < s + Z.of_nat i * c)%Z by nia. nia.
Qed.
Lemma get_index_valid ks : forall sh r i, get_shape ks sh = Some r -> valid_index r i -> valid_index sh (get_index ks sh i).
Proof.
  induction ks as [|k ks IH]; intros sh r i H V; [cbn in *; injection H as <-; exact V|]. destruct k as [z|a b c| |]; cbn [get_shape get_index] in *.
  - destruct sh as [|d sh]; [discriminate|]. destruct (np_axis z d) as [j|] eqn:A; [|discriminate]. cbn [bind] in H. constructor; [exact (np_axis_lt _ _ _ A)|exact (IH _ _ _ H V)].
  - destruct sh as [|d sh]; [discriminate|]. cbv zeta in H. set (st := match c with Some s => s | None => 1%Z end) in *. destruct (Z.eqb_spec st 0) as [|N]; [discriminate|].
    destruct (get_shape ks sh) as [r'|] eqn:E; [|discriminate]. cbn [bind] in H. apply some_inj in H. subst r. inversion V as [|i0 ? i' ? Hi V']; subst. cbn [hd tl]. constructor; [exact (slice_pos _ _ _ _ _ N Hi)|exact (IH _ _ _ E V')].
  - assert (G : exists r', get_shape ks sh = Some r' /\ r = 1%nat :: r').
    { destruct sh; (destruct (get_shape ks _) as [r'|]; [|discriminate]); cbn [bind] in H; exists r'; split; congruence. }
    destruct G as (r' & E & ->). inversion V as [|i0 ? i' ? Hi V']; subst. destruct sh; cbn [tl]; exact (IH _ _ _ E V').
  - destruct sh; discriminate.
Qed.
Definition is_new (k : ikey) : bool := match k with INew => true | _ => false end.
Lemma get_shape_length ks : forall sh r, get_shape ks sh = Some r ->
  (List.length r + List.length (filter is_int ks) = List.length sh + List.length (filter is_new ks) /\ List.length (filter is_int ks) <= List.length sh)%nat.
Proof.
  induction ks as [|k ks IH]; intros sh r H; [cbn in *; injection H as <-; lia|]. destruct k as [z|a b c| |]; cbn [get_shape] in H; cbn [filter is_int is_new List.length].
  - destruct sh as [|d sh]; [discriminate|]. destruct (np_axis z d) as [j|]; [|discriminate]. cbn [bind] in H. specialize (IH _ _ H). cbn [List.length]. lia.
  - destruct sh as [|d sh]; [discriminate|]. cbv zeta in H. destruct (_ =? 0)%Z; [discriminate|]. destruct (get_shape ks sh) as [r'|] eqn:E; [|discriminate]. cbn [bind] in H. apply some_inj in H. subst r. specialize (IH _ _ E). cbn [List.length]. lia.
  - assert (G : exists r', get_shape ks sh = Some r' /\ r = 1%nat :: r').
    { destruct sh; (destruct (get_shape ks _) as [r'|]; [|discriminate]); cbn [bind] in H; exists r'; split; congruence. }
    destruct G as (r' & E & ->). specialize (IH _ _ E). cbn [List.length]. lia.
  - destruct sh; discriminate.
Qed.
Lemma full_slice_len d : slice_len (slice_start d None 1) (slice_stop d None 1) 1 = d.
Proof. unfold slice_len, slice_start, slice_stop. change (0 <? 1)%Z with true. cbv iota zeta. rewrite Z.div_1_r. lia. Qed.
Lemma full_slice_pos d i : Z.to_nat (slice_start d None 1 + Z.of_nat i * 1) = i.
Proof. unfold slice_start. change (0 <? 1)%Z with true. cbv iota zeta. lia. Qed.
Lemma getitem_traced n b key r x v y : (b < n)%nat -> traceable_op (OGetItem key r) -> holds n b x v -> rank_is r x = true -> np_getitem key x = Some y ->
  exists z, (do w <- np_getitem key (newaxis v); first w) = Some z /\ holds n b y z.
Proof.
  intros Hb (ks & Ek & Ha) Hx Hr H. apply Nat.eqb_eq in Hr. pose proof Hx as ((d & s & Ex) & (Es & Sv)). pose proof (holds_shape _ _ _ _ _ _ Hx Ex) as Ev.
  unfold np_getitem in *. cbn [newaxis shape]. rewrite Ev. rewrite Hr in H. replace (List.length (1%nat :: d :: s)) with r by (rewrite <- Hr, Ex; reflexivity). rewrite Ek in *. rewrite Ex in H.
  unfold full_slice in *. cbn [get_shape] in *. cbv zeta in *. change (1 =? 0)%Z with false in *. cbv iota in *. destruct (get_shape ks (d :: s)) as [r'|] eqn:G; [|discriminate]. cbn [bind] in *. apply some_inj in H. subst y.
  rewrite !full_slice_len. unfold first. cbn [shape]. eexists. split; [reflexivity|]. destruct (get_shape_length _ _ _ G) as (L1 & L2).
  assert (N : r' <> []).
  { intros ->. cbn [List.length] in L1. destruct Ha as [Ha|Ha].
    - assert (K : In INew (filter is_new ks)) by (apply filter_In; split; [exact Ha|reflexivity]). cbn [List.length] in L2. destruct (filter is_new ks); [destruct K|cbn [List.length] in L1; lia].
    - rewrite <- Hr, Ex in Ha. cbn [List.length] in *. lia. }
  split; [destruct r' as [|d' s']; [congruence|]; exists d', s'; reflexivity|]. split; [reflexivity|]. cbn [sample shape tl at_]. intros i Hi. cbn [get_index hd tl]. rewrite !full_slice_pos. cbn [newaxis at_ tl].
  cbn [sample shape at_] in Sv. rewrite Ex in Sv. cbn [tl] in Sv. apply Sv. exact (get_index_valid _ _ _ _ G Hi).
Qed.

(** ** matmul *)
Lemma matmul_eq x y lx ly a c c' e : shape x = lx ++ [a; c] -> shape y = ly ++ [c'; e] ->
  np_matmul x y = if ((List.length lx =? List.length ly) && (c =? c'))%nat%bool then
        do ld <- join_shape lx ly;
        Some (mk_tensor (ld ++ [a; e]) (fun idx =>
          let l := firstn (List.length ld) idx in let ij := skipn (List.length ld) idx in
          qsum (map (fun v => at_ x (bcast_index lx l ++ [nth 0 ij 0%nat; v]) * at_ y (bcast_index ly l ++ [v; nth 1 ij 0%nat])) (seq 0 c))))
      else None.
Proof.
  intros Ex Ey. unfold np_matmul. rewrite Ex, Ey, !rev_app_distr. cbn [rev app]. rewrite !rev_involutive, !rev_length. reflexivity.
Qed.
Lemma split_two (s : list nat) : (2 <= List.length s)%nat -> exists l a c, s = l ++ [a; c].
Proof.
  intros H. destruct (exists_last (l := s)) as (l1 & c & ->); [intros ->; cbn in H; lia|]. rewrite app_length in H. cbn [List.length] in H.
  destruct (exists_last (l := l1)) as (l & a & ->); [intros ->; cbn in H; lia|]. exists l, a, c. rewrite <- app_assoc. reflexivity.
Qed.
Lemma valid_app s t i j : valid_index s i -> valid_index t j -> valid_index (s ++ t) (i ++ j).
Proof. apply Forall2_app. Qed.
Lemma valid_split s t i : valid_index (s ++ t) i -> valid_index s (firstn (List.length s) i) /\ valid_index t (skipn (List.length s) i).
Proof. revert i. induction s as [|d s IH]; intros i H; [split; [constructor|exact H]|]. inversion H; subst. cbn [List.length firstn skipn]. destruct (IH _ H4). split; [constructor; assumption|assumption]. Qed.
Lemma join_same_head n lx ly : join_shape (n :: lx) (n :: ly) = do r <- join_shape lx ly; Some (n :: r).
Proof. cbn [join_shape]. replace (join_dim n n) with (Some n) by (unfold join_dim; rewrite Nat.eqb_refl, orb_true_r; destruct (n =? 1)%nat; reflexivity). reflexivity. Qed.
Lemma matmul_traced n b r x v x2 v2 y : (b < n)%nat -> (3 <= r)%nat -> holds n b x v -> holds n b x2 v2 -> rank_is r x = true -> rank_is r x2 = true -> np_matmul x x2 = Some y ->
  exists z, np_matmul v v2 = Some z /\ holds n b y z.
Proof.
  intros Hb Hr Hx Hy R1 R2 H. apply Nat.eqb_eq in R1, R2. pose proof Hx as ((d & s & Ex) & (_ & Sv)). pose proof (holds_shape _ _ _ _ _ _ Hx Ex) as Ev.
  pose proof Hy as ((d2 & s2 & Ex2) & (_ & Sv2)). pose proof (holds_shape _ _ _ _ _ _ Hy Ex2) as Ev2. cbn [sample shape at_] in Sv, Sv2. rewrite Ex in Sv. rewrite Ex2 in Sv2. cbn [tl] in Sv, Sv2.
  rewrite Ex in R1. rewrite Ex2 in R2. cbn [List.length] in R1, R2.
  destruct (split_two (d :: s)) as (lx & a & c & E1); [cbn [List.length]; lia|]. destruct (split_two (d2 :: s2)) as (ly & c' & e & E2); [cbn [List.length]; lia|]. rewrite E1 in *. rewrite E2 in *.
  rewrite (matmul_eq x x2 (n :: lx) (n :: ly) a c c' e Ex Ex2) in H. rewrite (matmul_eq v v2 lx ly a c c' e Ev Ev2). cbn [List.length Nat.eqb] in H. destruct (_ && _)%bool eqn:C; [|discriminate].
  apply andb_true_iff in C as (_ & C). apply Nat.eqb_eq in C. subst c'. rewrite join_same_head in H. destruct (join_shape lx ly) as [ld|] eqn:J; [|discriminate]. cbn [bind] in *. apply some_inj in H. subst y. cbv zeta.
  eexists. split; [reflexivity|]. split; [destruct ld as [|d' ld]; [exists a, [e]|exists d', (ld ++ [a; e])]; reflexivity|]. split; [reflexivity|]. cbn [sample shape tl at_]. intros i Hi. cbn [app List.length firstn skipn].
  change ((fix app (l m : list nat) : list nat := match l with [] => m | a0 :: l1 => a0 :: app l1 m end) ld [a; e]) with (ld ++ [a; e]) in Hi. apply valid_split in Hi as (V1 & V2).
  destruct (join_valid _ _ _ _ J V1) as (Jx & Jy). inversion V2 as [|p ? l2 ? Hp V3 Ep Eq]; subst. inversion V3 as [|q ? l3 ? Hq V4 Ep' Eq']; subst. inversion V4; subst. cbn [nth].
  apply qsum_ext. intros w Hw. apply in_seq in Hw. cbn [bcast_index]. replace (if (n =? 1)%nat then 0%nat else b) with b by (destruct (Nat.eqb_spec n 1); lia). cbn [app].
  apply Qmult_comp.
  - apply Sv. apply valid_app; [exact Jx|]. constructor; [exact Hp|constructor; [lia|constructor]].
  - apply Sv2. apply valid_app; [exact Jy|]. constructor; [lia|constructor; [exact Hq|constructor]].
Qed.

(** ** einsum of two batches *)
Lemma einsum2_traced n b a li lk lo x v x2 v2 y : (b < n)%nat -> ~ In a (li ++ lk ++ lo) -> lo <> [] -> holds n b x v -> holds n b x2 v2 -> np_einsum (a :: li) (a :: lk) (a :: lo) x x2 = Some y ->
  exists z, (do r <- np_einsum (a :: li) (a :: lk) (a :: lo) (newaxis v) (newaxis v2); first r) = Some z /\ holds n b y z.
Proof.
  intros Hb Na Nlo0 Hx Hx2 H. pose proof Hx as ((d0 & s0 & Ex) & S). pose proof Hx2 as ((d2 & s2 & Ex2) & S2). pose proof (holds_shape _ _ _ _ _ _ Hx Ex) as Ev. pose proof (holds_shape _ _ _ _ _ _ Hx2 Ex2) as Ev2.
  set (s1 := d0 :: s0) in *. set (s3 := d2 :: s2) in *.
  unfold np_einsum in *. cbn [newaxis shape] in *. rewrite Ex, Ex2 in H. rewrite Ev, Ev2.
  assert (Nli : ~ In a li) by (intros X; apply Na; apply in_or_app; left; exact X). assert (Nlk : ~ In a lk) by (intros X; apply Na; apply in_or_app; right; apply in_or_app; left; exact X).
  assert (Nlo : ~ In a lo) by (intros X; apply Na; apply in_or_app; right; apply in_or_app; right; exact X).
  set (dims := label_dims (a :: li) (n :: s1) (a :: lk) (n :: s3)) in *. set (dims' := label_dims (a :: li) (1%nat :: s1) (a :: lk) (1%nat :: s3)).
  assert (Dd : forall l, l <> a -> dims l = dims' l).
  { intros l Hl. unfold dims, dims', label_dims. cbn [index_of]. destruct (Nat.eqb_spec l a); [congruence|]. reflexivity. }
  assert (Da : dims a = n /\ dims' a = 1%nat).
  { unfold dims, dims', label_dims. replace (memb a (a :: li)) with true by (symmetry; apply memb_In; left; reflexivity). cbn [index_of]. rewrite Nat.eqb_refl. split; reflexivity. }
  destruct Da as (Da & Da'). destruct ((List.length (a :: li) =? List.length (n :: s1))%nat && (List.length (a :: lk) =? List.length (n :: s3))%nat && _)%bool eqn:E; [|discriminate].
  apply andb_true_iff in E as (E & E3). apply andb_true_iff in E as (E1 & E2). rewrite forallb_app in E3. apply andb_true_iff in E3 as (E3 & E4).
  apply Nat.eqb_eq in E1, E2. apply some_inj in H. subst y.
  apply forallb_dims in E3; [|exact E1]. apply forallb_dims in E4; [|exact E2]. cbn [map] in E3, E4. assert (E3' : map dims li = s1) by congruence. assert (E4' : map dims lk = s3) by congruence.
  assert (M : forall ls, ~ In a ls -> map dims' ls = map dims ls) by (intros ls Hls; apply map_ext_in; intros l Hl; symmetry; apply Dd; intros ->; contradiction).
  replace (((List.length (a :: li) =? List.length (1%nat :: s1))%nat && (List.length (a :: lk) =? List.length (1%nat :: s3))%nat && forallb (fun p => (dims' (fst p) =? snd p)%nat) (combine (a :: li) (1%nat :: s1) ++ combine (a :: lk) (1%nat :: s3)))%bool) with true.
  2:{ symmetry. rewrite forallb_app, (dims_forallb dims'), (dims_forallb dims'). 2:{ cbn [map]. rewrite Da', (M lk Nlk), E4'. reflexivity. } 2:{ cbn [map]. rewrite Da', (M li Nli), E3'. reflexivity. }
      cbn [List.length] in *. rewrite E1, E2, !Nat.eqb_refl. reflexivity. }
  cbn [bind]. unfold first. cbn [shape map]. rewrite Da'. eexists. split; [reflexivity|]. split; [|split].
  - destruct lo as [|l0 lo']; [congruence|]. cbn [shape map]. rewrite Da. eexists. eexists. reflexivity.
  - cbn [sample shape map tl]. rewrite (M lo Nlo). reflexivity.
  - cbn [sample shape map tl at_]. intros i Hi. unfold einsum.
  apply (sum_over_two a b dims dims' (li ++ lk)).
  + intros e e' He Hea HD. cbn [map tl]. rewrite Hea. replace (map e' lk) with (map e lk) by (apply map_ext_in; intros m Hm; apply He; intros ->; contradiction).
    replace (map e' li) with (map e li) by (apply map_ext_in; intros m Hm; apply He; intros ->; contradiction). apply Qmult_comp.
    * destruct S as (_ & S). cbn [sample shape at_] in S. rewrite Ex in S. apply S. cbn [tl]. rewrite <- E3'. apply valid_map. intros l Hl. apply HD. apply in_or_app. left. exact Hl.
    * destruct S2 as (_ & S2). cbn [sample shape at_] in S2. rewrite Ex2 in S2. apply S2. cbn [tl]. rewrite <- E4'. apply valid_map. intros l Hl. apply HD. apply in_or_app. right. exact Hl.
  + unfold contracted. intros X. apply filter_In in X as (_ & X). replace (memb a (a :: lo)) with true in X by (symmetry; apply memb_In; left; reflexivity). discriminate.
  + intros l Hl. apply Dd. intros ->. unfold contracted in Hl. apply filter_In in Hl as (_ & X). replace (memb a (a :: lo)) with true in X by (symmetry; apply memb_In; left; reflexivity). discriminate.
  + intros m Hm. apply bind_agree. exact Hm.
  + cbn [bind_idx]. unfold upd. rewrite Nat.eqb_refl. reflexivity.
  + intros l Hl. destruct (memb l (a :: lo)) eqn:E.
    * right. apply memb_In in E. apply bind_lt; [|exact E]. cbn [map]. rewrite Da. constructor; [exact Hb|exact Hi].
    * left. unfold contracted. apply filter_In. rewrite E. split; [|reflexivity]. unfold all_labels. apply nodup_In. apply in_or_app. apply in_app_or in Hl. cbn [In]. tauto.
Qed.

(** ** reductions over other axes than the batch: the replay of global pooling has no batch axis *)
Lemma memb_S a axes : memb (S a) (map S axes) = memb a axes.
Proof. unfold memb. induction axes as [|c axes IH]; [reflexivity|]. cbn [map existsb]. rewrite IH. reflexivity. Qed.
Lemma memb_0_S axes : memb 0 (map S axes) = false.
Proof. apply memb_false. intros H. apply in_map_iff in H as (c & H & _). discriminate. Qed.
Lemma keep_from_S axes : forall idx a, keep_from (S a) (map S axes) idx = keep_from a axes idx.
Proof. induction idx as [|i idx IH]; intros a; [reflexivity|]. cbn [keep_from]. rewrite memb_S, IH. reflexivity. Qed.
Lemma keep_shape_S axes : forall sh a, keep_shape_from (S a) (map S axes) sh = keep_shape_from a axes sh.
Proof. induction sh as [|i sh IH]; intros a; [reflexivity|]. cbn [keep_shape_from]. rewrite memb_S, IH. reflexivity. Qed.
Lemma drop_axes_S axes : forall sh a, drop_axes (S a) (map S axes) sh = drop_axes a axes sh.
Proof. induction sh as [|i sh IH]; intros a; [reflexivity|]. cbn [drop_axes]. rewrite memb_S, !IH. reflexivity. Qed.
Lemma undrop_S axes : forall sh idx a, undrop (S a) (map S axes) sh idx = undrop a axes sh idx.
Proof. induction sh as [|i sh IH]; intros idx a; [reflexivity|]. cbn [undrop]. rewrite memb_S, !IH. reflexivity. Qed.
Lemma reduce_sample f axes kd n x b : batch_of n x -> (b < n)%nat ->
  shape (np_reduce f (map S axes) kd x) = n :: shape (np_reduce f axes kd (sample b x)) /\ forall i, at_ (np_reduce f (map S axes) kd x) (b :: i) = at_ (np_reduce f axes kd (sample b x)) i.
Proof.
  intros (sh & E) Hb. assert (C : forall g, collect (map S axes) x (b :: g) = collect axes (sample b x) g).
  { intros g. rewrite (collect_sample _ x n sh b g (memb_0_S axes) E Hb). unfold collect. cbn [sample shape at_]. rewrite E. cbn [tl].
    assert (F : forall j, index_eqb (keep_from 1 (map S axes) j) g = index_eqb (keep axes j) g) by (intros j; rewrite keep_from_S; reflexivity).
    rewrite (filter_ext _ _ F). reflexivity. }
  unfold np_reduce. destruct kd; cbn [reduce_keep shape at_]; [split|split].
  - rewrite E. cbn [keep_shape_from sample shape]. rewrite memb_0_S, keep_shape_S, E. reflexivity.
  - intros i. rewrite C. reflexivity.
  - rewrite E. cbn [drop_axes sample shape]. rewrite memb_0_S, drop_axes_S, E. reflexivity.
  - intros i. rewrite E. cbn [undrop hd tl sample shape]. rewrite memb_0_S, undrop_S, C, E. reflexivity.
Qed.
Lemma seq_1 k : seq 1 k = map S (seq 0 k).
Proof. symmetry. apply seq_shift. Qed.
Lemma gpool_shape (k : nat) (kd : bool) (d : nat) (s : list nat) : List.length (d :: s) = S k -> exists (d' : nat) (s' : list nat), (if kd then keep_shape_from 0 (seq 0 k) (d :: s) else drop_axes 0 (seq 0 k) (d :: s)) = d' :: s'.
Proof.
  intros L. destruct kd; [eexists; eexists; reflexivity|]. apply (drop_axes_nonempty _ _ _ k); [lia|]. rewrite in_seq. lia.
Qed.
Lemma gpool_traced f k kd n b x v : (forall l l', Forall2 Qeq l l' -> f l == f l') -> (b < n)%nat -> holds n b x v -> List.length (shape x) = S (S k) ->
  holds n b (np_reduce f (seq 1 k) kd x) (np_reduce f (seq 0 k) kd v).
Proof.
  intros P Hb Hx L. pose proof Hx as ((d & s & Ex) & Sx). rewrite seq_1. destruct (reduce_sample f (seq 0 k) kd n x b (batch_in_of n x (proj1 Hx)) Hb) as (E1 & E2).
  assert (SS : same_tensor (sample b (np_reduce f (map S (seq 0 k)) kd x)) (np_reduce f (seq 0 k) kd (sample b x))).
  { split; [cbn [sample shape]; rewrite E1; reflexivity|]. intros i _. cbn [sample at_]. rewrite E2. reflexivity. }
  split; [|exact (st_trans _ _ _ SS (reduce_same f (seq 0 k) kd _ _ P Sx))].
  destruct (gpool_shape k kd d s) as (d' & s' & G); [rewrite Ex in L; cbn [List.length] in *; lia|]. exists d', s'. rewrite E1. f_equal. rewrite <- G. unfold np_reduce. destruct kd; cbn [reduce_keep sample shape]; rewrite Ex; reflexivity.
Qed.
