From Verif Require Import Num M_Fixed M_State M_Mapper S_Mapper L_Mapper M_Contr M_Ebops L_Ebops M_Pow2 M_Patch L_Patch M_Ops S_Ops.

Lemma same_refl x y : shape x = shape y -> (forall i, valid_index (shape x) i -> at_ x i = at_ y i) -> same_tensor x y.
Proof. intros E H. split; [exact E|]. intros i Hi. rewrite (H i Hi). reflexivity. Qed.
Lemma sample_shape n x b : batch_of n x -> shape x = n :: shape (sample b x).
Proof. intros (sh & E). cbn [sample shape]. rewrite E. reflexivity. Qed.

Lemma some_inj {A} (x y : A) : Some x = Some y -> x = y.
Proof. congruence. Qed.

(** ** concatenation *)
Lemma cat_at_sample a b xs : forall idx,
  (forall x, In x xs -> shape x <> []) ->
  cat_at (S a) xs (b :: idx) = cat_at (S a) (map newaxis (map (sample b) xs)) (0%nat :: idx).
Proof.
  induction xs as [|x xs IH]; intros idx H; [reflexivity|]. cbn [map cat_at].
  assert (Hx : shape x <> []) by (apply H; left; reflexivity).
  cbn [newaxis sample shape at_ nth tl put_nth].
  replace (nth (S a) (shape x) 0%nat) with (nth a (tl (shape x)) 0%nat) by (destruct (shape x); [contradiction|reflexivity]).
  destruct (_ <? _)%nat; [reflexivity|]. apply IH. intros y Hy. apply H. right. exact Hy.
Qed.
Lemma np_axis_lt z n a : np_axis z n = Some a -> (a < n)%nat.
Proof. unfold np_axis. set (z' := if (z <? 0)%Z then _ else z). destruct ((0 <=? z') && (z' <? Z.of_nat n))%Z eqn:E; [|discriminate]. intros H. injection H as <-. lia. Qed.
Lemma agree_sample a s t n : agree_off (S a) (n :: s) (n :: t) = agree_off (S a) (1%nat :: s) (1%nat :: t).
Proof.
  unfold agree_off. cbn [put_nth].
  destruct (list_eq_dec Nat.eq_dec (n :: put_nth a 0%nat s) (n :: put_nth a 0%nat t)) as [E|E], (list_eq_dec Nat.eq_dec (1%nat :: put_nth a 0%nat s) (1%nat :: put_nth a 0%nat t)) as [F|F]; try reflexivity; exfalso.
  - apply F. injection E as ->. reflexivity.
  - apply E. injection F as ->. reflexivity.
Qed.
Lemma concatenate_traced n axis xs y a :
  (forall x, In x xs -> batch_of n x) -> (forall x, hd_error xs = Some x -> np_axis axis (length (shape x)) = Some (S a)) ->
  keras_concatenate axis xs = Some y -> traced_right n y (fun b => replay_concatenate axis (map (sample b) xs)).
Proof.
  intros HB HA. unfold keras_concatenate, np_concatenate. destruct xs as [|x xs]; [discriminate|].
  specialize (HA x eq_refl). rewrite HA. cbn [bind].
  assert (Hx : batch_of n x) by (apply HB; left; reflexivity). destruct Hx as (sh & Ex).
  destruct (forallb _ (x :: xs)) eqn:F; [|discriminate]. intros H. injection H as <-. split.
  - cbn [shape]. set (k := fold_right _ _ _). clearbody k. rewrite Ex. eexists. reflexivity.
  - intros b Hb. unfold replay_concatenate, np_concatenate. cbn [map].
    assert (E1 : shape (newaxis (sample b x)) = 1%nat :: sh) by (cbn [newaxis sample shape]; rewrite Ex; reflexivity).
    rewrite E1. replace (length (1%nat :: sh)) with (length (shape x)) by (rewrite Ex; reflexivity). rewrite HA. cbn [bind].
    assert (F' : forallb (fun y => agree_off (S a) (1%nat :: sh) (shape y)) (newaxis (sample b x) :: map newaxis (map (sample b) xs)) = true).
    { change (newaxis (sample b x) :: map newaxis (map (sample b) xs)) with (map newaxis (map (sample b) (x :: xs))).
      rewrite forallb_forall in F |- *. intros z Hz. apply in_map_iff in Hz as (z1 & <- & Hz). apply in_map_iff in Hz as (z0 & <- & Hz).
      specialize (F z0 Hz). cbn beta in F. destruct (HB z0 Hz) as (s0 & E0). cbn [newaxis sample shape]. rewrite E0. cbn [tl]. rewrite Ex, E0 in F.
      rewrite <- (agree_sample a sh s0 n). exact F. }
    rewrite F'. cbn [bind first shape put_nth]. eexists. split; [reflexivity|]. apply same_refl.
    + cbn [sample shape]. rewrite Ex. cbn [put_nth tl]. f_equal. cbn [fold_right nth]. f_equal.
      f_equal. rewrite !map_map. apply map_ext_in. intros z Hz. destruct (HB z (or_intror Hz)) as (s0 & E0). cbn [newaxis sample shape]. rewrite E0. reflexivity.
    + intros i _. cbn [sample at_]. apply (cat_at_sample a b (x :: xs) i).
      intros z Hz. destruct (HB z Hz) as (s0 & E0). rewrite E0. discriminate.
Qed.

(** ** repeat *)
Lemma repeat_traced n k axis x y a : batch_of n x -> np_axis axis (length (shape x)) = Some (S a) ->
  np_repeat k axis x = Some y -> traced_right n y (fun b => replay_repeat k axis (sample b x)).
Proof.
  intros (sh & E) HA. unfold np_repeat. rewrite HA. cbn [bind]. intros H. injection H as <-. split.
  - cbn [shape]. rewrite E. eexists. reflexivity.
  - intros b Hb. unfold replay_repeat, np_repeat. cbn [newaxis sample shape]. rewrite E. cbn [tl].
    replace (length (1%nat :: sh)) with (length (shape x)) by (rewrite E; reflexivity). rewrite HA. cbn [bind put_nth first shape nth tl at_].
    eexists. split; [reflexivity|]. apply same_refl; [reflexivity|]. intros i _. reflexivity.
Qed.

(** ** moveaxis *)
Lemma index_of_S a l : index_of (S a) (map S l) = index_of a l.
Proof. induction l as [|b l IH]; [reflexivity|]. cbn [map index_of Nat.eqb]. destruct (a =? b)%nat; [reflexivity|]. rewrite IH. reflexivity. Qed.
Lemma transpose_sample order b n x sh : shape x = n :: sh -> 
  sample b (transpose_by (0%nat :: map S order) x) = sample b (transpose_by (0%nat :: map S order) x) /\
  shape (transpose_by (0%nat :: map S order) x) = n :: map (fun a => nth a sh 0%nat) order /\
  forall i, at_ (transpose_by (0%nat :: map S order) x) (b :: i) = at_ x (b :: map (fun a => nth (index_of a order) i 0%nat) (seq 0 (length sh))).
Proof.
  intros E. split; [reflexivity|]. split.
  - cbn [transpose_by shape map]. rewrite E. cbn [nth]. rewrite map_map. reflexivity.
  - intros i. cbn [transpose_by at_]. rewrite E. cbn [length seq map index_of nth Nat.eqb]. rewrite <- seq_shift, map_map. f_equal. f_equal.
    apply map_ext. intros a. rewrite index_of_S. reflexivity.
Qed.
Lemma order_shift s d m : (d <= m)%nat -> insert_at (S d) (S s) (filter (fun n => negb (n =? S s)%nat) (seq 0 (S m))) =
  0%nat :: map S (insert_at d s (filter (fun n => negb (n =? s)%nat) (seq 0 m))).
Proof.
  intros Hd. cbn [seq filter]. change (negb (0 =? S s)%nat) with true. cbn iota. cbn [insert_at]. f_equal.
  rewrite <- seq_shift. set (l := seq 0 m). assert (G : filter (fun n => negb (n =? S s)%nat) (map S l) = map S (filter (fun n => negb (n =? s)%nat) l)).
  { induction l as [|a l IH]; [reflexivity|]. cbn [map filter]. cbn [Nat.eqb]. destruct (negb (a =? s)%nat); cbn [map]; rewrite IH; reflexivity. }
  rewrite G. clear. set (l' := filter _ l). clearbody l'. revert l'. induction d as [|d IH]; intros l'; [reflexivity|].
  destruct l' as [|a l']; [reflexivity|]. cbn [map insert_at]. f_equal. apply IH.
Qed.
Lemma moveaxis_traced n s d s' d' x y : batch_of n x ->
  np_axis s (length (shape x)) = Some (S s') -> np_axis d (length (shape x)) = Some (S d') ->
  np_moveaxis s d x = Some y -> traced_right n y (fun b => replay_moveaxis s d (sample b x)).
Proof.
  intros (sh & E) Hs Hd. assert (Ld := np_axis_lt _ _ _ Hd). unfold np_moveaxis. rewrite Hs, Hd. cbn [bind]. intros H. apply some_inj in H. subst y.
  rewrite E in Ld. cbn [length] in Ld.
  assert (Eo : insert_at (S d') (S s') (filter (fun n0 => negb (n0 =? S s')%nat) (seq 0 (length (shape x)))) =
    0%nat :: map S (insert_at d' s' (filter (fun n => negb (n =? s')%nat) (seq 0 (length sh))))) by (rewrite E; apply order_shift; lia).
  rewrite Eo. set (o := insert_at d' s' _) in *. split.
  - destruct (transpose_sample o 0%nat n x sh E) as (_ & Sh & _). eexists. exact Sh.
  - intros b Hb. unfold replay_moveaxis, np_moveaxis.
    assert (E1 : shape (newaxis (sample b x)) = 1%nat :: sh) by (cbn [newaxis sample shape]; rewrite E; reflexivity).
    assert (El : length (shape (newaxis (sample b x))) = length (shape x)) by (rewrite E1, E; reflexivity).
    rewrite El, Hs, Hd. cbn [bind]. rewrite Eo. unfold first.
    destruct (transpose_sample o 0%nat 1%nat (newaxis (sample b x)) sh E1) as (_ & Sh1 & At1). rewrite Sh1. eexists. split; [reflexivity|].
    destruct (transpose_sample o b n x sh E) as (_ & Sh & At). apply same_refl.
    + cbn [sample shape]. change (map (fun a => nth a (shape x) 0%nat) (0%nat :: map S o)) with (shape (transpose_by (0%nat :: map S o) x)). rewrite Sh. reflexivity.
    + intros i _. change (at_ (sample b (transpose_by (0%nat :: map S o) x)) i) with (at_ (transpose_by (0%nat :: map S o) x) (b :: i)).
      cbn [at_]. rewrite At, At1. reflexivity.
Qed.

(** ** reshape *)
Lemma reshape_traced n sh x y : batch_of n x -> keras_reshape sh x = Some y -> nprod sh = nprod (tl (shape x)) ->
  traced_right n y (fun b => replay_reshape sh (sample b x)).
Proof.
  intros (s & E). unfold keras_reshape, np_reshape. rewrite E. cbn [tl]. intros H P.
  destruct (nprod (n :: sh) =? nprod (n :: s))%nat; [|discriminate]. injection H as <-. split; [eexists; reflexivity|].
  intros b Hb. unfold replay_reshape, np_reshape. cbn [sample shape]. rewrite E. cbn [tl]. rewrite P, Nat.eqb_refl. eexists. split; [reflexivity|].
  apply same_refl; [reflexivity|]. cbn [sample shape at_ tl]. intros i Hi. f_equal.
  assert (L := flat_lt _ _ Hi). cbn [flat unflat]. rewrite P in *. f_equal.
  - rewrite Nat.div_add_l by lia. rewrite Nat.div_small by lia. lia.
  - rewrite Nat.add_comm, Nat.mod_add by lia. rewrite Nat.mod_small by lia. reflexivity.
Qed.
Lemma flatten_traced n x y : batch_of n x -> keras_flatten x = Some y -> traced_right n y (fun b => replay_flatten (sample b x)).
Proof.
  intros (s & E) H. unfold keras_flatten in H. rewrite E in H.
  assert (K : keras_reshape [nprod s] x = Some y) by (unfold keras_reshape; rewrite E; exact H).
  apply (reshape_traced n) in K; [|exists s; exact E|rewrite E; unfold nprod; cbn [fold_right tl]; lia].
  destruct K as (B & K). split; [exact B|]. intros b Hb. destruct (K b Hb) as (z & Hz & S). exists z. split; [|exact S].
  unfold replay_flatten. cbn [sample shape]. rewrite E. exact Hz.
Qed.

(** ** reductions *)
Lemma index_eqb_cons i j b g : index_eqb (i :: j) (b :: g) = (i =? b)%nat && index_eqb j g.
Proof.
  unfold index_eqb. destruct (list_eq_dec Nat.eq_dec (i :: j) (b :: g)) as [E|E]; destruct (Nat.eqb_spec i b) as [F|F]; cbn [andb]; destruct (list_eq_dec Nat.eq_dec j g) as [G|G]; try reflexivity; exfalso; try (injection E; intros; contradiction).
  apply E. subst. reflexivity.
Qed.
Lemma filter_heads (P R : index -> bool) b L l : (forall i j, P (i :: j) = (i =? b)%nat && R j) -> NoDup l ->
  filter P (flat_map (fun i => map (cons i) L) l) = if memb b l then map (cons b) (filter R L) else [].
Proof.
  intros HP. induction 1 as [|a l Ha N IH]; [reflexivity|]. cbn [flat_map]. rewrite filter_app, IH.
  assert (G : filter P (map (cons a) L) = if (a =? b)%nat then map (cons b) (filter R L) else []).
  { clear IH. induction L as [|j L IH]; [destruct (a =? b)%nat; reflexivity|]. cbn [map filter]. rewrite HP.
    destruct (Nat.eqb_spec a b) as [->|F]; cbn [andb].
    - destruct (R j); cbn [map]; rewrite IH; reflexivity.
    - exact IH. }
  rewrite G. unfold memb. cbn [existsb]. rewrite (Nat.eqb_sym b a). destruct (Nat.eqb_spec a b) as [->|F]; cbn [orb].
  - replace (existsb (Nat.eqb b) l) with false; [apply app_nil_r|]. symmetry. apply memb_false. exact Ha.
  - reflexivity.
Qed.
Lemma collect_sample axes (x : tensor Q) n sh b g : memb 0 axes = false -> shape x = n :: sh -> (b < n)%nat ->
  collect axes x (b :: g) = map (fun j => at_ x (b :: j)) (filter (fun j => index_eqb (keep_from 1 axes j) g) (indices sh)).
Proof.
  intros H0 E Hb. unfold collect. rewrite E. cbn [indices].
  rewrite (filter_heads _ (fun j => index_eqb (keep_from 1 axes j) g) b).
  - replace (memb b (seq 0 n)) with true; [apply map_map|]. symmetry. apply memb_In, in_seq. lia.
  - intros i j. unfold keep. cbn [keep_from]. rewrite H0. apply index_eqb_cons.
  - apply seq_NoDup.
Qed.
Lemma reduce_traced f axes kd n x : batch_of n x -> memb 0 axes = false ->
  traced_right n (np_reduce f axes kd x) (fun b => replay_reduction f axes kd (sample b x)).
Proof.
  intros (sh & E) H0. split.
  - unfold batch_of, np_reduce. destruct kd; cbn [reduce_keep shape]; rewrite E; cbn [keep_shape_from drop_axes]; rewrite H0; eexists; reflexivity.
  - intros b Hb. unfold replay_reduction, np_reduce.
    assert (E1 : shape (newaxis (sample b x)) = 1%nat :: sh) by (cbn [newaxis sample shape]; rewrite E; reflexivity).
    assert (C : forall g, collect axes x (b :: g) = collect axes (newaxis (sample b x)) (0%nat :: g)).
    { intros g. rewrite (collect_sample axes x n sh b g H0 E Hb), (collect_sample axes (newaxis (sample b x)) 1 sh 0 g H0 E1) by lia. reflexivity. }
    destruct kd; unfold first; cbn [reduce_keep shape at_]; rewrite E1; cbn [keep_shape_from drop_axes]; rewrite H0; (eexists; split; [reflexivity|]); apply same_refl.
    + cbn [sample shape reduce_keep]. rewrite E. cbn [keep_shape_from tl]. try rewrite H0. reflexivity.
    + intros i _. cbn [sample at_ reduce_keep]. rewrite C. reflexivity.
    + cbn [sample shape reduce_keep]. rewrite E. cbn [drop_axes tl]. try rewrite H0. reflexivity.
    + intros i _. cbn [sample at_ reduce_keep]. rewrite E. cbn [undrop]. rewrite H0. cbn [hd tl]. rewrite C. reflexivity.
Qed.
Lemma qsum_traced axes kd scale n x : batch_of n x -> memb 0 axes = false ->
  traced_right n (layer_qsum axes kd scale x) (fun b => replay_qsum axes kd scale (sample b x)).
Proof.
  intros B H0. destruct (reduce_traced qsum axes kd n x B H0) as ((sh & E) & R). split; [exists sh; exact E|].
  intros b Hb. destruct (R b Hb) as (z & Hz & (S1 & S2)). exists (tmap (fun v => v * scale) z). split.
  - unfold replay_qsum. rewrite Hz. reflexivity.
  - split; [exact S1|]. intros i Hi. unfold layer_qsum. cbn [sample tmap at_]. specialize (S2 i Hi). cbn [sample at_] in S2. rewrite S2. reflexivity.
Qed.

(** ** merging layers *)
Definition leq (s r : list nat) : Prop := Forall2 (fun d e => e = 1%nat -> d = 1%nat) s r.
Lemma leq_refl s : leq s s.
Proof. induction s; constructor; auto. Qed.
Lemma leq_trans s t r : leq s t -> leq t r -> leq s r.
Proof. intros H. revert r. induction H as [|d e s t H1 H2 IH]; intros r K.
  - inversion K. constructor.
  - inversion K as [|? e' ? r' K1 K2]; subst. constructor; [intros E; exact (H1 (K1 E))|exact (IH _ K2)].
Qed.
Lemma join_dim_leq d e f : join_dim d e = Some f -> (f = 1%nat -> d = 1%nat) /\ (f = 1%nat -> e = 1%nat).
Proof.
  unfold join_dim. destruct (Nat.eqb_spec d 1) as [->|D].
  - intros H. injection H as ->. auto.
  - destruct ((e =? 1) || (d =? e))%nat; [|discriminate]. intros H. injection H as ->. split; intros; lia.
Qed.
Lemma join_shape_leq s : forall t r, join_shape s t = Some r -> leq s r /\ leq t r.
Proof.
  induction s as [|d s IH]; intros [|e t] r H; cbn [join_shape] in H; try discriminate.
  - injection H as <-. split; constructor.
  - destruct (join_dim d e) as [f|] eqn:J; [|discriminate]. cbn [bind] in H. destruct (join_shape s t) as [r'|] eqn:K; [|discriminate]. cbn [bind] in H. injection H as <-.
    destruct (IH _ _ K), (join_dim_leq _ _ _ J). split; constructor; auto.
Qed.
Lemma leq_length s r : leq s r -> length s = length r.
Proof. apply Forall2_len. Qed.
Lemma bcast_bcast s r : leq s r -> forall idx, bcast_index s (bcast_index r idx) = bcast_index s idx.
Proof.
  induction 1 as [|d e s r H1 H2 IH]; intros [|i idx]; try reflexivity. cbn [bcast_index]. rewrite IH. f_equal.
  destruct (Nat.eqb_spec d 1) as [D|D]; [reflexivity|]. destruct (Nat.eqb_spec e 1) as [E|E]; [|reflexivity]. destruct (D (H1 E)).
Qed.
Lemma bcast_valid s idx : valid_index s idx -> bcast_index s idx = idx.
Proof.
  induction 1 as [|i d idx s H1 H2 IH]; [reflexivity|]. cbn [bcast_index]. rewrite IH. destruct (Nat.eqb_spec d 1) as [->|D]; [|reflexivity]. replace i with 0%nat by lia. reflexivity.
Qed.
Lemma join_ones s : join_shape (repeat 1%nat (length s)) s = Some s.
Proof. induction s as [|d s IH]; [reflexivity|]. cbn [length repeat join_shape]. rewrite IH. reflexivity. Qed.
Definition foldj (acc : option (list nat)) (ss : list (list nat)) : option (list nat) := fold_left (fun acc s => do r <- acc; join_shape r s) ss acc.
Lemma foldj_None ss : foldj None ss = None.
Proof. induction ss as [|s ss IH]; [reflexivity|]. exact IH. Qed.
Lemma foldj_cons n ss : forall s, foldj (Some (n :: s)) (map (cons n) ss) = do r <- foldj (Some s) ss; Some (n :: r).
Proof.
  induction ss as [|t ss IH]; intros s; [reflexivity|]. cbn [map]. unfold foldj in *. cbn [fold_left bind join_shape].
  replace (join_dim n n) with (Some n) by (unfold join_dim; rewrite Nat.eqb_refl, orb_true_r; destruct (n =? 1)%nat; reflexivity). cbn [bind].
  destruct (join_shape s t) as [r|]; cbn [bind]; [apply IH|]. change (foldj None (map (cons n) ss) = do r <- foldj None ss; Some (n :: r)). rewrite !foldj_None. reflexivity.
Qed.
Lemma lpad_id s : lpad (length s) s = s.
Proof. unfold lpad. rewrite Nat.sub_diag. reflexivity. Qed.
Lemma lpad_eq n s : n = length s -> lpad n s = s.
Proof. intros ->. apply lpad_id. Qed.
Lemma lpad_length n s : (length s <= n)%nat -> length (lpad n s) = n.
Proof. intros H. unfold lpad. rewrite app_length, repeat_length. lia. Qed.
Lemma fold_binary_spec f N xs : forall acc r, length (shape acc) = N -> (forall x, In x xs -> length (shape x) = N) -> fold_binary f acc xs = Some r ->
  leq (shape acc) (shape r) /\ foldj (Some (shape acc)) (map shape xs) = Some (shape r) /\
  forall idx, valid_index (shape r) idx -> at_ r idx = fold_left f (map (fun x => at_ x (bcast_index (shape x) idx)) xs) (at_ acc (bcast_index (shape acc) idx)).
Proof.
  induction xs as [|x xs IH]; intros acc r LA LX H; cbn [fold_binary] in H.
  - injection H as <-. split; [apply leq_refl|]. split; [reflexivity|]. intros idx Hi. cbn [map fold_left]. rewrite (bcast_valid _ _ Hi). reflexivity.
  - unfold np_binary in H at 1. assert (Lx : length (shape x) = N) by (apply LX; left; reflexivity). rewrite LA, Lx, Nat.max_id in H.
    replace (lpad N (shape acc)) with (shape acc) in H by (rewrite <- LA; symmetry; apply lpad_id). replace (lpad N (shape x)) with (shape x) in H by (rewrite <- Lx; symmetry; apply lpad_id).
    destruct (join_shape (shape acc) (shape x)) as [t|] eqn:J; [|discriminate]. cbn [bind] in H.
    destruct (join_shape_leq _ _ _ J) as (L1 & L2). apply IH in H; [|cbn [shape]; rewrite <- (leq_length _ _ L1); exact LA|intros y Hy; apply LX; right; exact Hy].
    destruct H as (A & B & C). cbn [shape] in *. split; [exact (leq_trans _ _ _ L1 A)|]. split.
    + cbn [map]. unfold foldj in *. cbn [fold_left bind]. rewrite J. exact B.
    + intros idx Hi. rewrite (C idx Hi). cbn [map fold_left at_]. f_equal. unfold bcast_at.
      rewrite LA, Lx, Nat.sub_diag. cbn [skipn].
      replace (lpad N (shape acc)) with (shape acc) by (rewrite <- LA; symmetry; apply lpad_id). replace (lpad N (shape x)) with (shape x) by (rewrite <- Lx; symmetry; apply lpad_id).
      rewrite (bcast_bcast _ _ L1), (bcast_bcast _ _ L2). reflexivity.
Qed.
Lemma expand1_spec x n s : shape x = n :: s -> shape (expand1 x) = n :: 1%nat :: s /\ forall b i, at_ (expand1 x) (b :: i) = at_ x (b :: skipn 1 i).
Proof. intros E. unfold expand1. rewrite E. split; [reflexivity|]. intros b i. cbn [at_ hd tl]. destruct i; reflexivity. Qed.
Lemma skipn_skipn_add {A} k m (l : list A) : skipn k (skipn m l) = skipn (m + k) l.
Proof. revert l. induction m as [|m IH]; intros l; [reflexivity|]. destruct l; [destruct k; reflexivity|]. apply IH. Qed.
Lemma expand_iter k x n s : shape x = n :: s -> shape (Nat.iter k expand1 x) = n :: repeat 1%nat k ++ s /\ forall b i, at_ (Nat.iter k expand1 x) (b :: i) = at_ x (b :: skipn k i).
Proof.
  intros E. induction k as [|k (IH1 & IH2)]; [split; [exact E|reflexivity]|]. change (Nat.iter (S k) expand1 x) with (expand1 (Nat.iter k expand1 x)).
  destruct (expand1_spec _ _ _ IH1) as (A & B). split; [exact A|]. intros b i. rewrite B, IH2, skipn_skipn_add. reflexivity.
Qed.
Lemma max_ndim_ge xs x : In x xs -> (length (shape x) <= max_ndim xs)%nat.
Proof. unfold max_ndim. induction xs as [|y xs IH]; intros H; [destruct H|]. cbn [map fold_right]. destruct H as [->|H]; [lia|]. specialize (IH H). lia. Qed.
Lemma max_ndim_sample n b xs : (forall x, In x xs -> batch_of n x) -> max_ndim (map (sample b) xs) = pred (max_ndim xs).
Proof.
  unfold max_ndim. induction xs as [|x xs IH]; intros H; [reflexivity|]. cbn [map fold_right]. rewrite IH by (intros y Hy; apply H; right; exact Hy).
  destruct (H x (or_introl eq_refl)) as (s & E). cbn [sample shape]. rewrite E. cbn [tl length]. lia.
Qed.
Lemma qsum_fold l : forall a, fold_left Qplus l a == a + qsum l.
Proof. induction l as [|x l IH]; intros a; cbn [fold_left]; [unfold qsum; cbn [fold_right]; ring|]. rewrite IH. change (qsum (x :: l)) with (x + qsum l). ring. Qed.
Lemma qprod_fold l : forall a, fold_left Qmult l a == a * qprod l.
Proof. induction l as [|x l IH]; intros a; cbn [fold_left]; [unfold qprod; cbn [fold_right]; ring|]. rewrite IH. change (qprod (x :: l)) with (x * qprod l). ring. Qed.
Lemma Qmin_opp a b : Qmin a b == - Qmax (- a) (- b).
Proof. destruct (Q.min_spec a b) as [(H & E)|(H & E)], (Q.max_spec (-a) (-b)) as [(K & F)|(K & F)]; rewrite E, F; lra. Qed.
Lemma qmin_fold l : forall a a', a == - a' -> fold_left Qmin l a == - fold_left Qmax (map Qopp l) a'.
Proof.
  induction l as [|x l IH]; intros a a' H; cbn [map fold_left]; [exact H|]. apply IH. rewrite Qmin_opp. rewrite H. rewrite Qopp_involutive. reflexivity.
Qed.
Definition scale_of (op : merge_op) (n : nat) : Q := match op with MAveragePow2 => pow2_scale (Z.of_nat n) | _ => 1 end.
Lemma merge_fn_fold op v vs : merge_arity op (S (length vs)) = true ->
  replay_merge_fn op (v :: vs) == fold_left (bin_op op) vs v * scale_of op (S (length vs)).
Proof.
  intros H. destruct op; cbn [replay_merge_fn bin_op scale_of].
  - rewrite qsum_fold. change (qsum (v :: vs)) with (v + qsum vs). ring.
  - rewrite qsum_fold. change (qsum (v :: vs)) with (v + qsum vs). reflexivity.
  - destruct vs as [|w [|u vs]]; try discriminate. cbn [nth fold_left]. ring.
  - rewrite qprod_fold. change (qprod (v :: vs)) with (v * qprod vs). ring.
  - unfold np_max. ring.
  - rewrite Qmult_1_r. unfold np_min. cbn [map np_max]. rewrite (qmin_fold vs v (- v)) by ring. reflexivity.
Qed.
Lemma fold_left_ext_Q f l : forall l' a, l = l' -> fold_left (f : Q -> Q -> Q) l a = fold_left f l' a.
Proof. intros l' a ->. reflexivity. Qed.
Lemma merge_traced op n xs y : (forall x, In x xs -> batch_of n x) -> keras_merge op xs = Some y ->
  traced_right n y (fun b => replay_merge op (map (sample b) xs)).
Proof.
  intros HB H. unfold keras_merge in H. destruct (merge_arity op (length xs)) eqn:Ar; [|discriminate].
  destruct xs as [|x xs]; [discriminate|]. set (N := max_ndim (x :: xs)) in *. cbn [map] in H.
  destruct (fold_binary (bin_op op) (expand_to N x) (map (expand_to N) xs)) as [r|] eqn:Fo; [|discriminate]. cbn [bind] in H. apply some_inj in H.
  assert (Ex : forall z, In z (x :: xs) -> shape (expand_to N z) = n :: lpad (pred N) (tl (shape z)) /\
            forall b i, at_ (expand_to N z) (b :: i) = at_ z (b :: skipn (N - length (shape z)) i)).
  { intros z Hz. destruct (HB z Hz) as (s & E). destruct (expand_iter (N - length (shape z)) z n s E) as (A & B). split; [|exact B].
    unfold expand_to. rewrite A. unfold lpad. rewrite E. cbn [tl length]. do 3 f_equal. lia. }
  assert (LN : forall z, In z (x :: xs) -> length (shape (expand_to N z)) = N).
  { intros z Hz. destruct (Ex z Hz) as (A & _). rewrite A. cbn [length]. destruct (HB z Hz) as (s & E). pose proof (max_ndim_ge _ _ Hz) as G. fold N in G. rewrite E in G |- *. cbn [length tl] in *.
    rewrite lpad_length; lia. }
  destruct (fold_binary_spec _ N _ _ _ (LN x (or_introl eq_refl)) (fun z Hz => match proj1 (in_map_iff _ _ _) Hz with ex_intro _ w (conj e h) => eq_ind _ (fun z => length (shape z) = N) (LN w (or_intror h)) _ e end) Fo) as (_ & FJ & V).
  destruct (Ex x (or_introl eq_refl)) as (Sx & Ax).
  assert (SS : map shape (map (expand_to N) xs) = map (cons n) (map (lpad (pred N)) (map (fun z => tl (shape z)) xs))).
  { rewrite !map_map. apply map_ext_in. intros z Hz. apply Ex. right. exact Hz. }
  rewrite Sx, SS, foldj_cons in FJ. destruct (foldj _ _) as [rs|] eqn:FS in FJ; [|discriminate]. cbn [bind] in FJ. apply some_inj in FJ.
  assert (Sy : shape y = n :: rs /\ forall i, at_ y i == at_ r i * scale_of op (length (x :: xs))).
  { subst y. destruct op; cbn [tmap shape at_ scale_of]; (split; [symmetry; exact FJ|intros i; try reflexivity; ring]). }
  destruct Sy as (Sy & Ay). split; [exists rs; exact Sy|]. intros b Hb. unfold replay_merge. rewrite map_length, Ar.
  unfold broadcast_arrays. rewrite (max_ndim_sample n) by exact HB. fold N.
  assert (JS : join_shapes (pred N) (map shape (map (sample b) (x :: xs))) = Some rs).
  { unfold join_shapes. cbn [map fold_left bind]. set (l0 := lpad (pred N) (shape (sample b x))).
    assert (L0 : length l0 = pred N). { specialize (LN x (or_introl eq_refl)). rewrite Sx in LN. cbn [length] in LN. unfold l0. cbn [sample shape]. lia. }
    replace (repeat 1%nat (pred N)) with (repeat 1%nat (length l0)) by (rewrite L0; reflexivity). rewrite join_ones. rewrite <- FS. unfold foldj. rewrite !map_map. cbn [sample shape] in *. fold l0.
    generalize (Some l0). generalize (pred N). clear. intros N. induction xs as [|z xs IH]; intros acc; [reflexivity|]. cbn [map fold_left]. apply IH. }
  rewrite JS. cbn [bind map]. eexists. split; [reflexivity|]. split; [cbn [sample shape]; rewrite Sy; reflexivity|].
  intros i Hi. cbn [sample shape] in Hi. rewrite Sy in Hi. cbn [tl] in Hi. cbn [sample at_]. rewrite Ay.
  rewrite V by (rewrite <- FJ; constructor; [exact Hb|exact Hi]).
  assert (Vz : forall z, In z (x :: xs) -> at_ (expand_to N z) (bcast_index (shape (expand_to N z)) (b :: i)) = bcast_at (pred N) (sample b z) i).
  { intros z Hz. destruct (Ex z Hz) as (A & B). rewrite A. cbn [bcast_index]. rewrite B. unfold bcast_at. cbn [sample shape at_]. destruct (HB z Hz) as (s & E). rewrite E. cbn [length tl].
    replace (N - S (length s))%nat with (pred N - length s)%nat by lia. f_equal. f_equal. destruct (Nat.eqb_spec n 1); lia. }
  rewrite merge_fn_fold by (rewrite !map_length; exact Ar). rewrite !map_length. cbn [length]. apply Qmult_comp; [|reflexivity].
  rewrite (Vz x (or_introl eq_refl)). rewrite !map_map. cbn [at_]. match goal with |- ?a == ?b => cut (a = b); [intros ->; reflexivity|] end. apply fold_left_ext_Q. apply map_ext_in. intros z Hz. apply Vz. right. exact Hz.
Qed.

(** ** keras.layers.Concatenate *)
Lemma cat_at_cons a b xs : forall idx, (forall x, In x xs -> shape x <> []) -> cat_at (S a) xs (b :: idx) = cat_at a (map (sample b) xs) idx.
Proof.
  induction xs as [|x xs IH]; intros idx H; [reflexivity|]. cbn [map cat_at sample shape at_ nth put_nth].
  replace (nth (S a) (shape x) 0%nat) with (nth a (tl (shape x)) 0%nat) by (specialize (H x (or_introl eq_refl)); destruct (shape x); [contradiction|reflexivity]).
  destruct (_ <? _)%nat; [reflexivity|]. apply IH. intros y Hy. apply H. right. exact Hy.
Qed.
Lemma put_nth_length {A} n (v : A) l : length (put_nth n v l) = length l.
Proof. revert n. induction l as [|x l IH]; intros [|n]; cbn [put_nth length]; try reflexivity. rewrite IH. reflexivity. Qed.
Lemma nth_put {A} n (v d : A) l m : (n < length l)%nat -> nth m (put_nth n v l) d = if (m =? n)%nat then v else nth m l d.
Proof.
  revert n m. induction l as [|x l IH]; intros [|n] [|m] H; cbn [put_nth nth Nat.eqb]; try (cbn in H; lia); try reflexivity. apply IH. cbn in H. lia.
Qed.
Lemma valid_nth sh idx : valid_index sh idx <-> length idx = length sh /\ forall a, (a < length sh)%nat -> (nth a idx 0 < nth a sh 0)%nat.
Proof.
  unfold valid_index. split.
  - induction 1 as [|i d idx sh H1 H2 (L & IH)]; [split; [reflexivity|intros a H; cbn in H; lia]|]. split; [cbn; lia|]. intros [|a] H; cbn [nth]; [exact H1|]. apply IH. cbn in H. lia.
  - revert idx. induction sh as [|d sh IH]; intros [|i idx] (L & H); try discriminate; constructor.
    + apply (H 0%nat). cbn. lia.
    + apply IH. split; [cbn in L; lia|]. intros a Ha. apply (H (S a)). cbn. lia.
Qed.
Lemma cat_at_ext a sh (f g : tensor Q -> tensor Q) xs : (a < length sh)%nat -> (forall x, In x xs -> shape (f x) = sh /\ shape (g x) = sh /\ forall i, valid_index sh i -> at_ (f x) i = at_ (g x) i) ->
  forall idx, valid_index (put_nth a (length xs * nth a sh 0)%nat sh) idx -> cat_at a (map f xs) idx = cat_at a (map g xs) idx.
Proof.
  intros La. induction xs as [|x xs IH]; intros H idx Hi; [reflexivity|]. cbn [map cat_at].
  destruct (H x (or_introl eq_refl)) as (E1 & E2 & V). rewrite E1, E2. apply valid_nth in Hi as (Li & Hi). rewrite put_nth_length in *.
  destruct (Nat.ltb_spec (nth a idx 0) (nth a sh 0))%nat as [C|C].
  - apply V, valid_nth. split; [exact Li|]. intros k Hk. specialize (Hi k Hk). rewrite nth_put in Hi by exact La. destruct (Nat.eqb_spec k a) as [Ek|D]; [rewrite Ek; exact C|exact Hi].
  - apply IH; [intros y Hy; apply H; right; exact Hy|]. apply valid_nth. rewrite !put_nth_length. split; [exact Li|]. intros k Hk. specialize (Hi k Hk).
    rewrite nth_put in Hi by exact La. rewrite !nth_put by lia. cbn [length] in Hi. destruct (Nat.eqb_spec k a) as [Ek|D]; [rewrite Ek in Hi; lia|exact Hi].
Qed.
Lemma np_axis_neg axis m a : (axis < 0)%Z -> np_axis axis (S m) = Some (S a) -> np_axis axis m = Some a.
Proof.
  unfold np_axis. intros H. apply Z.ltb_lt in H. rewrite H. apply Z.ltb_lt in H.
  destruct ((0 <=? axis + Z.of_nat (S m)) && (axis + Z.of_nat (S m) <? Z.of_nat (S m)))%Z eqn:E; [|discriminate]. intros K. apply some_inj in K.
  replace ((0 <=? axis + Z.of_nat m) && (axis + Z.of_nat m <? Z.of_nat m))%Z with true by lia. f_equal. lia.
Qed.
Lemma join_self s : join_shape s s = Some s.
Proof. induction s as [|d s IH]; [reflexivity|]. cbn [join_shape]. rewrite IH. unfold join_dim. rewrite Nat.eqb_refl, orb_true_r. destruct (d =? 1)%nat; reflexivity. Qed.
Lemma broadcast_equal sh x xs : (forall y, In y (x :: xs) -> shape y = sh) ->
  broadcast_arrays (x :: xs) = Some (map (fun y => mk_tensor sh (bcast_at (length sh) y)) (x :: xs)).
Proof.
  intros H. assert (M : max_ndim (x :: xs) = length sh).
  { unfold max_ndim. cbn [map fold_right]. rewrite (H x (or_introl eq_refl)).
    assert (G : (fold_right Nat.max 0 (map (fun y => length (shape y)) xs) <= length sh)%nat); [|lia].
    assert (H' : forall y, In y xs -> shape y = sh) by (intros y Hy; apply H; right; exact Hy). clear H. induction xs as [|y xs IH]; [cbn; lia|]. cbn [map fold_right]. rewrite (H' y (or_introl eq_refl)). 
    specialize (IH (fun z Hz => H' z (or_intror Hz))). lia. }
  unfold broadcast_arrays. rewrite M. assert (J : join_shapes (length sh) (map shape (x :: xs)) = Some sh).
  { unfold join_shapes. cbn [map fold_left bind]. rewrite (H x (or_introl eq_refl)), lpad_id, join_ones.
    assert (H' : forall y, In y xs -> shape y = sh) by (intros y Hy; apply H; right; exact Hy). clear H M. induction xs as [|y xs IH]; [reflexivity|].
    cbn [map fold_left bind]. rewrite (H' y (or_introl eq_refl)), lpad_id, join_self. apply IH. intros z Hz. apply H'. right. exact Hz. }
  rewrite J. reflexivity.
Qed.
Lemma bcast_at_valid sh (x : tensor Q) i : shape x = sh -> valid_index sh i -> bcast_at (length sh) x i = at_ x i.
Proof. intros E V. unfold bcast_at. rewrite E, lpad_id, Nat.sub_diag. cbn [skipn]. rewrite (bcast_valid _ _ V). reflexivity. Qed.
Lemma sum_same sh a (xs : list (tensor Q)) : (forall y, In y xs -> shape y = sh) -> fold_right Nat.add 0%nat (map (fun y => nth a (shape y) 0%nat) xs) = (length xs * nth a sh 0)%nat.
Proof. induction xs as [|x xs IH]; intros H; [reflexivity|]. cbn [map fold_right length]. rewrite (H x (or_introl eq_refl)), IH by (intros y Hy; apply H; right; exact Hy). lia. Qed.
Lemma cat_same axis a sh x xs : (forall y, In y (x :: xs) -> shape y = sh) -> np_axis axis (length sh) = Some a ->
  np_concatenate axis (x :: xs) = Some (mk_tensor (put_nth a (length (x :: xs) * nth a sh 0)%nat sh) (cat_at a (x :: xs))).
Proof.
  intros H A. unfold np_concatenate. rewrite (H x (or_introl eq_refl)) at 1. rewrite A. cbn [bind].
  assert (F : forallb (fun y => agree_off a (shape x) (shape y)) (x :: xs) = true).
  { apply forallb_forall. intros y Hy. rewrite (H y Hy), (H x (or_introl eq_refl)). unfold agree_off. destruct (list_eq_dec _ _ _); [reflexivity|congruence]. }
  rewrite F, (sum_same sh a (x :: xs) H), (H x (or_introl eq_refl)). reflexivity.
Qed.
Lemma concatenate_layer_traced n sh axis a xs y : (axis < 0)%Z -> np_axis axis (S (length sh)) = Some (S a) -> (forall x, In x xs -> shape x = n :: sh) ->
  keras_concatenate axis xs = Some y -> traced_right n y (fun b => replay_concatenate_layer axis (map (sample b) xs)).
Proof.
  intros N A H K. destruct xs as [|x xs]; [discriminate|]. unfold keras_concatenate in K. rewrite (cat_same axis (S a) (n :: sh)) in K by assumption. apply some_inj in K. subst y.
  split; [exists (put_nth a (length (x :: xs) * nth a sh 0)%nat sh); reflexivity|]. intros b Hb.
  assert (A' := np_axis_neg _ _ _ N A). assert (La := np_axis_lt _ _ _ A').
  assert (HS : forall y, In y (map (sample b) (x :: xs)) -> shape y = sh). { intros y Hy. apply in_map_iff in Hy as (z & <- & Hz). cbn [sample shape]. rewrite (H z Hz). reflexivity. }
  unfold replay_concatenate_layer. cbn [map]. rewrite (broadcast_equal sh) by exact HS. cbn [bind map].
  rewrite (cat_same axis a sh); [|intros y [<-|Hy]; [reflexivity|apply in_map_iff in Hy as (z & <- & _); reflexivity]|exact A'].
  eexists. split; [reflexivity|]. cbn [length]. rewrite !map_length. apply same_refl; [reflexivity|]. cbn [sample shape at_ tl put_nth nth]. intros i Hi.
  rewrite cat_at_cons by (intros z Hz; rewrite (H z Hz); discriminate).
  change (map (sample b) (x :: xs)) with (map (fun z => sample b z) (x :: xs)).
  transitivity (cat_at a (map (fun z => mk_tensor sh (bcast_at (length sh) (sample b z))) (x :: xs)) i); [|cbn [map]; rewrite map_map; reflexivity].
  apply (cat_at_ext a sh); [exact La| |exact Hi]. intros z Hz. assert (Ez : shape (sample b z) = sh) by (cbn [sample shape]; rewrite (H z Hz); reflexivity). split; [exact Ez|]. split; [reflexivity|].
  intros j Hj. cbn [at_]. symmetry. apply bcast_at_valid; assumption.
Qed.
(** with a positive axis the traced layer joins the next axis, or raises *)
Lemma np_axis_pos axis m a : (0 <= axis)%Z -> np_axis axis m = Some a -> Z.of_nat a = axis.
Proof. unfold np_axis. intros H. replace (axis <? 0)%Z with false by lia. destruct (_ && _); [|discriminate]. intros E. apply some_inj in E. lia. Qed.
Lemma concatenate_layer_wrong n sh axis xs y z b : (0 < axis)%Z -> (forall x, In x xs -> shape x = n :: sh) -> (2 <= length xs)%nat -> Forall (fun d => 0 < d)%nat sh ->
  keras_concatenate axis xs = Some y -> replay_concatenate_layer axis (map (sample b) xs) = Some z -> shape z <> shape (sample b y).
Proof.
  intros P H L D K R. destruct xs as [|x xs]; [discriminate|]. unfold keras_concatenate in K.
  destruct (np_axis axis (length (n :: sh))) as [a|] eqn:A; [|unfold np_concatenate in K; rewrite (H x (or_introl eq_refl)), A in K; discriminate].
  rewrite (cat_same axis a (n :: sh)) in K by assumption. apply some_inj in K. subst y. assert (La := np_axis_lt _ _ _ A). assert (Ea := np_axis_pos _ _ _ (Z.lt_le_incl _ _ P) A).
  assert (HS : forall y, In y (map (sample b) (x :: xs)) -> shape y = sh). { intros y Hy. apply in_map_iff in Hy as (w & <- & Hz). cbn [sample shape]. rewrite (H w Hz). reflexivity. }
  unfold replay_concatenate_layer in R. cbn [map] in R. rewrite (broadcast_equal sh) in R by exact HS. cbn [bind map] in R.
  assert (HT : forall y, In y (mk_tensor sh (bcast_at (length sh) (sample b x)) :: map (fun y => mk_tensor sh (bcast_at (length sh) y)) (map (sample b) xs)) -> shape y = sh).
  { intros y [<-|Hy]; [reflexivity|apply in_map_iff in Hy as (w & <- & _); reflexivity]. }
  destruct (np_axis axis (length sh)) as [a'|] eqn:A'; [|unfold np_concatenate in R; rewrite (HT _ (or_introl eq_refl)), A' in R; discriminate].
  rewrite (cat_same axis a' sh) in R by assumption. apply some_inj in R. subst z. assert (La' := np_axis_lt _ _ _ A'). assert (Ea' := np_axis_pos _ _ _ (Z.lt_le_incl _ _ P) A').
  assert (EE : a' = a) by lia. subst a'. destruct a as [|a]; [lia|]. cbn [sample shape put_nth tl nth length] in *. rewrite !map_length. intros E.
  apply (f_equal (fun l => nth a l 0%nat)) in E. change (nth a (put_nth (S a) (S (length xs) * nth (S a) sh 0)%nat sh) 0%nat = nth a (put_nth a (S (length xs) * nth a sh 0)%nat sh) 0%nat) in E. rewrite nth_put in E by lia. rewrite nth_put in E by lia. rewrite Nat.eqb_refl in E. replace (a =? S a)%nat with false in E by (symmetry; apply Nat.eqb_neq; lia).
  rewrite Forall_forall in D. assert (0 < nth a sh 0)%nat by (apply D, nth_In; lia). nia.
Qed.
(** ** transpose, RepeatVector *)
Lemma transpose_raises n axes x y b : batch_of n x -> np_transpose axes x = Some y -> replay_transpose axes (sample b x) = None.
Proof.
  intros (sh & E) H. unfold replay_transpose, np_transpose in *. rewrite E in H. cbn [sample shape]. rewrite E. cbn [tl].
  destruct (check_axis axes (length (n :: sh))) as [o|] eqn:C; [|discriminate]. cbn [bind] in H.
  destruct (length o =? length (n :: sh))%nat eqn:L; [|discriminate]. apply Nat.eqb_eq in L.
  destruct (check_axis axes (length sh)) as [o'|] eqn:C'; [|reflexivity]. cbn [bind].
  assert (LL : length o' = length axes) by (clear H; unfold check_axis in C'; destruct (forallb _ _) in C'; [|discriminate]; apply some_inj in C'; subst o'; rewrite !map_length; reflexivity).
  assert (LL2 : length o = length axes) by (clear H; unfold check_axis in C; destruct (forallb _ _) in C; [|discriminate]; apply some_inj in C; subst o; rewrite !map_length; reflexivity).
  replace (length o' =? length sh)%nat with false; [reflexivity|]. symmetry. apply Nat.eqb_neq. cbn in L. lia.
Qed.
Lemma repeat_vector_wrong n k x y b : batch_of n x -> (0 < k)%nat -> keras_repeat_vector k x = Some y ->
  exists z, replay_repeat_vector k (sample b x) = Some z /\ same_tensor z (sample b x) /\ shape z <> shape (sample b y).
Proof.
  intros (sh & E) P H. unfold keras_repeat_vector in H. rewrite E in H. destruct sh as [|f [|? ?]]; try discriminate. apply some_inj in H. subst y.
  assert (R : exists z, replay_repeat_vector k (sample b x) = Some z /\ shape z = [f] /\ forall i, at_ z i = at_ (sample b x) i).
  { unfold replay_repeat_vector. destruct (k =? 1)%nat; [exists (sample b x); repeat split; cbn [sample shape]; rewrite E; reflexivity|].
    unfold np_repeat. cbn [newaxis sample shape]. rewrite E. cbn [tl length]. change (np_axis 0 2) with (Some 0%nat). cbn [bind put_nth nth].
    destruct k as [|k]; [lia|]. cbn [first shape Nat.mul]. eexists. split; [reflexivity|]. split; [reflexivity|]. intros i. cbn [at_ nth put_nth tl]. reflexivity. }
  destruct R as (z & R1 & R2 & R3). exists z. split; [exact R1|]. split.
  - apply same_refl; [cbn [sample shape]; rewrite E; exact R2|]. intros i _. apply R3.
  - rewrite R2. cbn [sample shape tl]. discriminate.
Qed.

(** ** Dot *)
Lemma filter_id a l : ~ In a l -> filter (fun c => negb (c =? a)%nat) l = l.
Proof. induction l as [|x l IH]; intros H; [reflexivity|]. cbn [filter]. destruct (Nat.eqb_spec x a) as [->|E]; [destruct H; left; reflexivity|]. cbn [negb]. rewrite IH; [reflexivity|]. intros K. apply H. right. exact K. Qed.
Lemma upd_off e a v l : ~ In a l -> map (upd e a v) l = map e l.
Proof. intros H. apply map_ext_in. intros x Hx. unfold upd. destruct (Nat.eqb_spec x a) as [->|E]; [contradiction|reflexivity]. Qed.
Lemma map_upd_insert e a v l : forall p, NoDup l -> (p < length l)%nat -> nth p l 0%nat = a ->
  map (upd e a v) l = insert_at p v (map e (filter (fun c => negb (c =? a)%nat) l)).
Proof.
  induction l as [|x l IH]; intros p N L E; [cbn in L; lia|]. apply NoDup_cons_iff in N as (Nx & N). destruct p as [|p]; cbn [nth] in E.
  - subst x. cbn [map filter]. rewrite Nat.eqb_refl. cbn [negb insert_at]. rewrite filter_id by exact Nx. unfold upd at 1. rewrite Nat.eqb_refl. f_equal. apply upd_off. exact Nx.
  - cbn [length] in L. assert (D : x <> a). { intros ->. apply Nx. rewrite <- E. apply nth_In. lia. }
    cbn [map filter]. apply Nat.eqb_neq in D. rewrite D. cbn [negb map insert_at]. f_equal; [unfold upd; rewrite D; reflexivity|]. apply IH; [exact N|lia|exact E].
Qed.
Lemma bind_map e lo : forall idx, NoDup lo -> length idx = length lo -> map (bind_idx lo idx e) lo = idx.
Proof.
  induction lo as [|l lo IH]; intros [|v idx] N L; try discriminate; [reflexivity|]. apply NoDup_cons_iff in N as (Nl & N). cbn [map bind_idx]. f_equal; [unfold upd; rewrite Nat.eqb_refl; reflexivity|].
  rewrite upd_off by exact Nl. apply IH; [exact N|cbn in L; lia].
Qed.
Lemma filter_neq_length a l : NoDup l -> In a l -> S (length (filter (fun c => negb (c =? a)%nat) l)) = length l.
Proof.
  induction l as [|x l IH]; intros N H; [destruct H|]. apply NoDup_cons_iff in N as (Nx & N). cbn [filter length]. destruct (Nat.eqb_spec x a) as [->|E]; cbn [negb].
  - rewrite filter_id by exact Nx. reflexivity.
  - destruct H as [->|H]; [contradiction|]. cbn [length]. rewrite IH by assumption. reflexivity.
Qed.
Lemma in_neq a l c : In c (filter (fun c => negb (c =? a)%nat) l) <-> In c l /\ c <> a.
Proof. rewrite filter_In. split; intros (A & B); (split; [exact A|]). - intros ->. rewrite Nat.eqb_refl in B. discriminate. - apply Nat.eqb_neq in B. rewrite B. reflexivity. Qed.
Lemma put_in {A} p (v : A) l x : In x (put_nth p v l) -> x = v \/ In x l.
Proof. revert p. induction l as [|y l IH]; intros [|p] H; cbn [put_nth] in H; try (destruct H; fail). - destruct H as [<-|H]; [left; reflexivity|right; right; exact H]. - destruct H as [<-|H]; [right; left; reflexivity|]. destruct (IH _ H) as [E|E]; [left; exact E|right; right; exact E]. Qed.
Lemma put_nodup p (v : nat) l : NoDup l -> ~ In v l -> NoDup (put_nth p v l).
Proof.
  revert p. induction l as [|y l IH]; intros [|p] N H; cbn [put_nth]; try constructor; apply NoDup_cons_iff in N as (Ny & N).
  - intros K. apply H. right. exact K.
  - exact N.
  - intros K. apply put_in in K as [->|K]; [apply H; left; reflexivity|contradiction].
  - apply IH; [exact N|]. intros K. apply H. right. exact K.
Qed.
Lemma filter_put a p l : ~ In a l -> (p < length l)%nat -> filter (fun c => negb (c =? a)%nat) (put_nth p a l) = firstn p l ++ skipn (S p) l.
Proof.
  revert p. induction l as [|y l IH]; intros [|p] H L; cbn [length] in L; try lia; cbn [put_nth filter firstn skipn app].
  - rewrite Nat.eqb_refl. cbn [negb]. apply filter_id. intros K. apply H. right. exact K.
  - destruct (Nat.eqb_spec y a) as [->|E]; [destruct H; left; reflexivity|]. cbn [negb]. f_equal. apply IH; [|lia]. intros K. apply H. right. exact K.
Qed.
Lemma filter_seq k a m : (k <= a < k + m)%nat -> filter (fun c => negb (c =? a)%nat) (seq k m) = seq k (a - k) ++ seq (S a) (k + m - S a).
Proof.
  revert k. induction m as [|m IH]; intros k H; [lia|]. cbn [seq filter]. destruct (Nat.eqb_spec k a) as [->|E]; cbn [negb].
  - rewrite Nat.sub_diag. cbn [seq app]. rewrite filter_id by (rewrite in_seq; lia). f_equal. lia.
  - rewrite IH by lia. replace (a - k)%nat with (S (a - S k)) by lia. cbn [seq app]. do 3 f_equal. lia.
Qed.
(** reading the sizes of labels *)
Lemma map_nth_drop (s : list nat) p : (p < length s)%nat ->
  map (fun c => nth c s 0%nat) (seq 0 p ++ seq (S p) (length s - S p)) = firstn p s ++ skipn (S p) s.
Proof.
  intros H. rewrite map_app. f_equal.
  - revert p H. induction s as [|d s IH]; intros p H; [cbn in H; lia|]. destruct p as [|p]; [reflexivity|]. cbn [seq map nth firstn]. f_equal. rewrite <- seq_shift, map_map. apply IH. cbn in H. lia.
  - revert p H. induction s as [|d s IH]; intros p H; [cbn in H; lia|]. cbn [skipn length]. rewrite <- seq_shift, map_map. cbn [nth].
    destruct p as [|p].
    + cbn [skipn]. rewrite Nat.sub_succ, Nat.sub_0_r. clear. induction s as [|d s IH]; [reflexivity|]. cbn [length seq map nth]. f_equal. rewrite <- seq_shift, map_map. exact IH.
    + cbn [length] in H. replace (S (length s) - S (S p))%nat with (length s - S p)%nat by lia. apply IH. lia.
Qed.
Lemma index_of_put p a l : ~ In a l -> (p < length l)%nat -> index_of a (put_nth p a l) = p.
Proof. revert p. induction l as [|y l IH]; intros [|p] H L; cbn [length] in L; try lia; cbn [put_nth index_of]. - rewrite Nat.eqb_refl. reflexivity. - destruct (Nat.eqb_spec a y) as [->|E]; [destruct H; left; reflexivity|]. f_equal. apply IH; [|lia]. intros K. apply H. right. exact K. Qed.
Lemma index_of_put_other p a l c : c <> a -> In c (firstn p l ++ skipn (S p) l) -> NoDup l -> (p < length l)%nat -> index_of c (put_nth p a l) = index_of c l.
Proof.
  revert p. induction l as [|y l IH]; intros [|p] D H N L; cbn [length] in L; try lia; cbn [put_nth index_of firstn skipn app] in *; apply NoDup_cons_iff in N as (Ny & N).
  - apply Nat.eqb_neq in D. rewrite D. destruct (Nat.eqb_spec c y) as [->|E]; [contradiction|]. reflexivity.
  - destruct (Nat.eqb_spec c y) as [->|E]; [reflexivity|]. f_equal. destruct H as [H|H]; [destruct E; symmetry; exact H|]. apply IH; try assumption. lia.
Qed.
Lemma index_of_seq k m c : (k <= c < k + m)%nat -> index_of c (seq k m) = (c - k)%nat.
Proof. revert k. induction m as [|m IH]; intros k H; [lia|]. cbn [seq index_of]. destruct (Nat.eqb_spec c k) as [->|E]; [lia|]. rewrite IH by lia. lia. Qed.
Lemma NoDup_app_intro {A} (l m : list A) : NoDup l -> NoDup m -> (forall x, In x l -> ~ In x m) -> NoDup (l ++ m).
Proof. induction 1 as [|x l H N IH]; intros M D; [exact M|]. cbn [app]. constructor. - intros K. apply in_app_iff in K as [K|K]; [contradiction|]. apply (D x); [left; reflexivity|exact K]. - apply IH; [exact M|]. intros y Hy. apply D. right. exact Hy. Qed.
Lemma filter_all_single (a : nat) l : NoDup l -> In a l -> (forall c, In c l -> c <> a -> False) -> l = [a].
Proof. intros N H K. destruct l as [|x [|y l]]; [destruct H|..]. - destruct H as [->|[]]. reflexivity. - exfalso. apply NoDup_cons_iff in N as (Nx & N).
  destruct (Nat.eq_dec x a) as [->|E]; [|apply (K x); [left; reflexivity|exact E]]. apply (K y); [right; left; reflexivity|]. intros ->. apply Nx. left. reflexivity. Qed.
Lemma index_of_nth p l : NoDup l -> (p < length l)%nat -> index_of (nth p l 0%nat) l = p.
Proof. revert p. induction l as [|x l IH]; intros p N L; [cbn in L; lia|]. apply NoDup_cons_iff in N as (Nx & N). destruct p as [|p]; cbn [nth index_of]; [rewrite Nat.eqb_refl; reflexivity|].
  cbn [length] in L. destruct (Nat.eqb_spec (nth p l 0%nat) x) as [E|E]; [destruct Nx; rewrite <- E; apply nth_In; lia|]. f_equal. apply IH; [exact N|lia]. Qed.
Lemma combine_nth_in (l m : list nat) q : In q (combine l m) -> exists p, (p < length l)%nat /\ (p < length m)%nat /\ fst q = nth p l 0%nat /\ snd q = nth p m 0%nat.
Proof.
  revert m. induction l as [|x l IH]; intros [|y m] H; try (destruct H; fail). destruct H as [<-|H]; [exists 0%nat; cbn; repeat split; lia|].
  destruct (IH _ H) as (p & A & B & C & D). exists (S p). cbn [length nth]. repeat split; try lia; assumption.
Qed.
Lemma memb_seq c k m : memb c (seq k m) = ((k <=? c) && (c <? k + m))%nat.
Proof. destruct (memb c (seq k m)) eqn:E; [apply memb_In, in_seq in E|apply memb_false in E; rewrite in_seq in E]; destruct (Nat.leb_spec k c), (Nat.ltb_spec c (k + m)); cbn [andb]; try reflexivity; exfalso; lia. Qed.
Section AlkaidDot.
  Context (n : nat) (s t : list nat) (a0 a1 : nat)
    (H0 : (0 < a0 < S (length s))%nat) (H1 : (0 < a1 < S (length t))%nat)
    (HN : nth (a0 - 1) s 0%nat = nth (a1 - 1) t 0%nat).
  Let d0 := S (length s).
  Let l0 := seq 0 d0.
  Let base := (0%nat :: seq d0 (length t)).
  Let l1 := put_nth a1 a0 base.
  Let L0 := filter (fun c => negb (c =? a0)%nat) l0.
  Let L1 := filter (fun c => negb (c =? a0)%nat) (tl l1).
  Let lo := L0 ++ L1.
  Let dims := label_dims l0 (n :: s) l1 (n :: t).
  Let s' := firstn (a0 - 1) s ++ skipn a0 s.
  Let t' := firstn (a1 - 1) t ++ skipn a1 t.
  Lemma ad_notin : ~ In a0 base.
  Proof. unfold base. cbn [In]. rewrite in_seq. unfold d0. lia. Qed.
  Lemma ad_base : NoDup base.
  Proof. unfold base. constructor; [rewrite in_seq; unfold d0; lia|apply seq_NoDup]. Qed.
  Lemma ad_l1 : NoDup l1.
  Proof. apply put_nodup; [apply ad_base|apply ad_notin]. Qed.
  Lemma ad_base_length : length base = S (length t).
  Proof. unfold base. cbn [length]. rewrite seq_length. reflexivity. Qed.
  Lemma ad_l1_length : length l1 = S (length t).
  Proof. unfold l1. rewrite put_nth_length. apply ad_base_length. Qed.
  Lemma ad_l1_cons : l1 = 0%nat :: put_nth (a1 - 1) a0 (seq d0 (length t)).
  Proof. unfold l1, base. destruct a1 as [|a]; [lia|]. cbn [put_nth]. do 2 f_equal. lia. Qed.
  Lemma ad_L1 : L1 = map (fun p => d0 + p)%nat (seq 0 (a1 - 1) ++ seq a1 (length t - a1)).
  Proof.
    unfold L1. rewrite ad_l1_cons. cbn [tl]. rewrite filter_put by (rewrite ?in_seq, ?seq_length; unfold d0; lia).
    rewrite <- map_nth_drop by (rewrite seq_length; lia). rewrite seq_length. replace (S (a1 - 1)) with a1 by lia. apply map_ext_in. intros p Hp.
    rewrite in_app_iff, !in_seq in Hp. rewrite seq_nth by lia. reflexivity.
  Qed.
  Lemma ad_L0 : L0 = 0%nat :: map S (seq 0 (a0 - 1) ++ seq a0 (length s - a0)).
  Proof.
    unfold L0, l0. rewrite filter_seq by (unfold d0; lia). rewrite Nat.sub_0_r. destruct a0 as [|a]; [lia|]. cbn [seq app]. f_equal.
    rewrite map_app, !seq_shift. replace (S a - 1)%nat with a by lia. reflexivity.
  Qed.
  Lemma ad_filter1 : filter (fun c => negb (c =? a0)%nat) l1 = 0%nat :: L1.
  Proof. unfold L1. rewrite ad_l1_cons. cbn [filter tl]. destruct (Nat.eqb_spec 0 a0); [lia|]. reflexivity. Qed.
  Lemma ad_dims0 c : (c < d0)%nat -> dims c = nth c (n :: s) 0%nat.
  Proof. intros H. unfold dims, label_dims, l0. rewrite memb_seq. replace ((0 <=? c) && (c <? 0 + d0))%nat with true by (symmetry; apply andb_true_iff; split; [apply Nat.leb_le; lia|apply Nat.ltb_lt; lia]). rewrite index_of_seq by lia. rewrite Nat.sub_0_r. reflexivity. Qed.
  Lemma ad_dims1 p : (p < S (length t))%nat -> dims (nth p l1 0%nat) = nth p (n :: t) 0%nat.
  Proof.
    intros H. destruct (Nat.eq_dec p a1) as [->|D].
    - replace (nth a1 l1 0%nat) with a0 by (unfold l1; rewrite nth_put by (rewrite ad_base_length; lia); rewrite Nat.eqb_refl; reflexivity).
      rewrite ad_dims0 by (unfold d0; lia). destruct a0 as [|a]; [lia|]. destruct a1 as [|a']; [lia|]. cbn [nth]. cbn [Nat.sub] in HN. rewrite !Nat.sub_0_r in HN. exact HN.
    - destruct p as [|p]; [rewrite ad_l1_cons; cbn [nth]; rewrite ad_dims0 by (unfold d0; lia); reflexivity|].
      assert (E : nth (S p) l1 0%nat = (d0 + p)%nat).
      { unfold l1. rewrite nth_put by (rewrite ad_base_length; lia). apply Nat.eqb_neq in D. rewrite D. unfold base. cbn [nth]. apply seq_nth. lia. }
      unfold dims, label_dims. rewrite E at 1. unfold l0 at 1. rewrite memb_seq. replace ((0 <=? d0 + p) && (d0 + p <? 0 + d0))%nat with false by (symmetry; apply andb_false_iff; right; apply Nat.ltb_ge; lia).
      rewrite index_of_nth; [reflexivity|apply ad_l1|rewrite ad_l1_length; lia].
  Qed.
  Lemma ad_shape : map dims lo = n :: s' ++ t'.
  Proof.
    unfold lo. rewrite map_app, ad_L0, ad_L1. cbn [map]. rewrite ad_dims0 by (unfold d0; lia). cbn [nth app]. f_equal. f_equal.
    - rewrite map_map. unfold s'. replace (skipn a0 s) with (skipn (S (a0 - 1)) s) by (f_equal; lia). rewrite <- map_nth_drop by lia. replace (S (a0 - 1)) with a0 by lia.
      apply map_ext_in. intros c Hc. rewrite in_app_iff, !in_seq in Hc. rewrite ad_dims0 by (unfold d0; lia). reflexivity.
    - rewrite map_map. unfold t'. replace (skipn a1 t) with (skipn (S (a1 - 1)) t) by (f_equal; lia). rewrite <- map_nth_drop by lia. replace (S (a1 - 1)) with a1 by lia.
      apply map_ext_in. intros p Hp. rewrite in_app_iff, !in_seq in Hp.
      assert (D : S p <> a1) by lia. replace (d0 + p)%nat with (nth (S p) l1 0%nat); [rewrite ad_dims1 by lia; reflexivity|].
      unfold l1. rewrite nth_put by (rewrite ad_base_length; lia). apply Nat.eqb_neq in D. rewrite D. unfold base. cbn [nth]. apply seq_nth. lia.
  Qed.
  Lemma ad_sizes : ((length l0 =? length (n :: s))%nat && (length l1 =? length (n :: t))%nat &&
      forallb (fun p => (dims (fst p) =? snd p)%nat) (combine l0 (n :: s) ++ combine l1 (n :: t)))%bool = true.
  Proof.
    unfold l0 at 1. rewrite seq_length, ad_l1_length. cbn [length]. fold d0. rewrite !Nat.eqb_refl. cbn [andb]. apply forallb_forall. intros q Hq. apply Nat.eqb_eq.
    apply in_app_iff in Hq as [Hq|Hq]; apply combine_nth_in in Hq as (p & A & B & C & D); rewrite C, D.
    - unfold l0 in A. rewrite seq_length in A. unfold l0. rewrite seq_nth by lia. apply ad_dims0. lia.
    - apply ad_dims1. rewrite ad_l1_length in A. exact A.
  Qed.
  Lemma ad_in_lo c : c <> a0 -> In c (l0 ++ l1) -> In c lo.
  Proof.
    intros D H. unfold lo. apply in_app_iff. apply in_app_iff in H as [H|H]; [left; apply in_neq; split; assumption|].
    rewrite ad_l1_cons in H. destruct H as [<-|H]; [left; rewrite ad_L0; left; reflexivity|]. right. unfold L1. apply in_neq. rewrite ad_l1_cons. split; assumption.
  Qed.
  Lemma ad_contracted : contracted l0 l1 lo = [a0].
  Proof.
    unfold contracted. apply filter_all_single.
    - apply NoDup_filter, NoDup_nodup.
    - apply filter_In. split; [apply nodup_In, in_app_iff; left; apply in_seq; unfold d0; lia|]. replace (memb a0 lo) with false; [reflexivity|]. symmetry. apply memb_false.
      unfold lo. rewrite in_app_iff. unfold L0, L1. rewrite !in_neq. tauto.
    - intros c Hc D. apply filter_In in Hc as (Hc & M). apply nodup_In in Hc. apply (ad_in_lo c D) in Hc. apply memb_In in Hc. rewrite Hc in M. discriminate.
  Qed.
  Lemma ad_lo : NoDup lo.
  Proof.
    unfold lo. apply NoDup_app_intro; [apply NoDup_filter, seq_NoDup| |].
    - apply NoDup_filter. pose proof ad_l1 as N. rewrite ad_l1_cons in N |- *. apply NoDup_cons_iff in N. apply N.
    - intros c Hc K. apply in_neq in Hc as (Hc & D). unfold l0 in Hc. apply in_seq in Hc. rewrite ad_L1 in K. apply in_map_iff in K as (p & E & _). lia.
  Qed.
  Lemma ad_L0_length : length L0 = S (length s').
  Proof.
    rewrite ad_L0. cbn [length]. rewrite map_length, app_length, !seq_length. unfold s'. rewrite app_length, firstn_length, skipn_length. lia.
  Qed.
  Lemma ad_value (x y : tensor Q) idx : length idx = S (length s' + length t') ->
    einsum 0 Qplus Qmult dims l0 l1 lo (at_ x) (at_ y) idx =
    qsum (map (fun v => at_ x (hd 0%nat idx :: insert_at (a0 - 1) v (firstn (length s') (tl idx))) * at_ y (hd 0%nat idx :: insert_at (a1 - 1) v (skipn (length s') (tl idx)))) (seq 0 (nth (a0 - 1) s 0%nat))).
  Proof.
    intros LI. unfold einsum. rewrite ad_contracted. cbn [sum_over]. unfold csum, qsum. f_equal.
    rewrite ad_dims0 by (unfold d0; lia). replace (nth a0 (n :: s) 0%nat) with (nth (a0 - 1) s 0%nat) by (destruct a0 as [|a]; [lia|]; cbn [nth]; f_equal; lia).
    set (e := bind_idx lo idx (fun _ => 0%nat)).
    assert (LL : length idx = length lo). { rewrite LI, <- (map_length dims lo), ad_shape. cbn [length]. rewrite app_length. reflexivity. }
    assert (M : map e lo = idx) by (apply bind_map; [apply ad_lo|exact LL]).
    assert (M0 : map e L0 = hd 0%nat idx :: firstn (length s') (tl idx)).
    { transitivity (firstn (S (length s')) idx); [|destruct idx; [discriminate|reflexivity]]. rewrite <- M. unfold lo. rewrite map_app, firstn_app, map_length, ad_L0_length, Nat.sub_diag. rewrite firstn_O, app_nil_r.
      replace (S (length s')) with (length (map e L0)) by (rewrite map_length; apply ad_L0_length). symmetry. apply firstn_all. }
    assert (M1 : map e L1 = skipn (length s') (tl idx)).
    { transitivity (skipn (S (length s')) idx); [|destruct idx; [discriminate|reflexivity]]. rewrite <- M. unfold lo. rewrite map_app, skipn_app, map_length, ad_L0_length, Nat.sub_diag, skipn_O.
      rewrite skipn_all2; [reflexivity|]. rewrite map_length, ad_L0_length. lia. }
    assert (E0 : e 0%nat = hd 0%nat idx). { rewrite ad_L0 in M0. cbn [map] in M0. injection M0 as M0 _. exact M0. }
    apply map_ext. intros v. f_equal; f_equal.
    - rewrite (map_upd_insert e a0 v l0 a0); [|apply seq_NoDup|unfold l0; rewrite seq_length; unfold d0; lia|unfold l0; rewrite seq_nth by (unfold d0; lia); reflexivity].
      fold L0. rewrite M0. destruct a0 as [|a]; [lia|]. cbn [insert_at]. rewrite Nat.sub_succ, Nat.sub_0_r. reflexivity.
    - rewrite (map_upd_insert e a0 v l1 a1); [|apply ad_l1|rewrite ad_l1_length; lia|unfold l1; rewrite nth_put by (rewrite ad_base_length; lia); rewrite Nat.eqb_refl; reflexivity].
      rewrite ad_filter1. cbn [map]. rewrite E0, M1. destruct a1 as [|a]; [lia|]. cbn [insert_at]. rewrite Nat.sub_succ, Nat.sub_0_r. reflexivity.
  Qed.
End AlkaidDot.
Lemma alkaid_dot_spec n s t a0 a1 x y : shape x = n :: s -> shape y = n :: t -> (0 < a0 < S (length s))%nat -> (0 < a1 < S (length t))%nat -> nth (a0 - 1) s 0%nat = nth (a1 - 1) t 0%nat ->
  let s' := firstn (a0 - 1) s ++ skipn a0 s in let t' := firstn (a1 - 1) t ++ skipn a1 t in
  exists z, alkaid_dot a0 a1 x y = Some z /\ shape z = n :: s' ++ t' /\
  forall idx, length idx = S (length s' + length t') ->
    at_ z idx = qsum (map (fun v => at_ x (hd 0%nat idx :: insert_at (a0 - 1) v (firstn (length s') (tl idx))) * at_ y (hd 0%nat idx :: insert_at (a1 - 1) v (skipn (length s') (tl idx)))) (seq 0 (nth (a0 - 1) s 0%nat))).
Proof.
  intros Ex Ey H0 H1 HN s' t'. unfold alkaid_dot, alkaid_dot_labels. rewrite Ex, Ey. cbn [length]. rewrite Nat.sub_succ, Nat.sub_0_r. unfold np_einsum. rewrite Ex, Ey.
  rewrite (ad_sizes n s t a0 a1 H0 H1 HN). eexists. split; [reflexivity|]. split; [apply (ad_shape n s t a0 a1 H0 H1 HN)|]. intros idx L. cbn [at_]. apply (ad_value n s t a0 a1 H0 H1 HN). exact L.
Qed.
Lemma keras_dot_inv a0 a1 x y z : keras_dot a0 a1 x y = Some z ->
  exists n s t, shape x = n :: s /\ shape y = n :: t /\ (0 < a0 < S (length s))%nat /\ (0 < a1 < S (length t))%nat /\ nth (a0 - 1) s 0%nat = nth (a1 - 1) t 0%nat.
Proof.
  unfold keras_dot. destruct (shape x) as [|n s]; [discriminate|]. destruct (shape y) as [|n' t]; [discriminate|].
  destruct (_ && _)%bool eqn:C; [|discriminate]. intros _. rewrite !andb_true_iff, !Nat.ltb_lt, !Nat.eqb_eq in C. destruct C as (((((C1 & C2) & C3) & C4) & C5) & C6). subst n'. exists n, s, t. split; [reflexivity|]. split; [reflexivity|]. split; [lia|]. split; [lia|exact C6].
Qed.
Lemma alkaid_dot_right a0 a1 x y z : keras_dot a0 a1 x y = Some z -> (length (shape x) + length (shape y) <> 4)%nat ->
  exists z', alkaid_dot a0 a1 x y = Some z' /\ same_tensor z z'.
Proof.
  intros K R. destruct (keras_dot_inv _ _ _ _ _ K) as (n & s & t & Ex & Ey & H0 & H1 & HN).
  destruct (alkaid_dot_spec n s t a0 a1 x y Ex Ey H0 H1 HN) as (z' & A & B & C). cbv zeta in B, C. exists z'. split; [exact A|].
  unfold keras_dot in K. rewrite Ex, Ey in K. destruct (_ && _)%bool eqn:CC in K; [|discriminate]. clear CC.
  assert (E : z = mk_tensor (n :: (firstn (a0 - 1) s ++ skipn a0 s) ++ (firstn (a1 - 1) t ++ skipn a1 t))
    (fun i => qsum (map (fun v => at_ x (hd 0%nat i :: insert_at (a0 - 1) v (firstn (length (firstn (a0 - 1) s ++ skipn a0 s)) (tl i))) * at_ y (hd 0%nat i :: insert_at (a1 - 1) v (skipn (length (firstn (a0 - 1) s ++ skipn a0 s)) (tl i)))) (seq 0 (nth (a0 - 1) s 0%nat))))).
  { assert (L : (length (firstn (a0 - 1) s ++ skipn a0 s) + length (firstn (a1 - 1) t ++ skipn a1 t) <> 0)%nat).
    { rewrite !app_length, !firstn_length, !skipn_length. rewrite Ex, Ey in R. cbn [length] in R. lia. }
    cbv zeta in K. destruct (firstn (a0 - 1) s ++ skipn a0 s); destruct (firstn (a1 - 1) t ++ skipn a1 t); try (apply some_inj in K; symmetry; exact K). cbn in L. lia. }
  rewrite E. apply same_refl; [symmetry; exact B|]. intros i Hi. cbn [shape at_] in *. rewrite C; [reflexivity|].
  apply Forall2_len in Hi. rewrite Hi. cbn [length]. rewrite app_length. reflexivity.
Qed.
Lemma alkaid_dot_2d a0 a1 x y z : keras_dot a0 a1 x y = Some z -> length (shape x) = 2%nat -> length (shape y) = 2%nat ->
  exists n z', alkaid_dot a0 a1 x y = Some z' /\ shape z = [n; 1%nat] /\ shape z' = [n].
Proof.
  intros K Lx Ly. destruct (keras_dot_inv _ _ _ _ _ K) as (n & s & t & Ex & Ey & H0 & H1 & HN).
  destruct (alkaid_dot_spec n s t a0 a1 x y Ex Ey H0 H1 HN) as (z' & A & B & _). cbv zeta in B. exists n, z'. split; [exact A|].
  rewrite Ex in Lx. rewrite Ey in Ly. destruct s as [|ds [|? ?]]; try discriminate. destruct t as [|dt [|? ?]]; try discriminate. cbn [length] in *. assert (a0 = 1%nat) by lia. assert (a1 = 1%nat) by lia. subst.
  split; [|exact B]. unfold keras_dot in K. rewrite Ex, Ey in K. destruct (_ && _)%bool in K; [|discriminate]. apply some_inj in K. subst z. reflexivity.
Qed.
(** the DAIS replay: a size-1 axis more, unless both operands have rank 2 *)
Lemma remove_first_length a l : In a l -> S (length (remove_first a l)) = length l.
Proof. induction l as [|b l IH]; intros H; [destruct H|]. cbn [remove_first]. destruct (Nat.eqb_spec a b) as [->|E]; [reflexivity|]. destruct H as [H|H]; [symmetry in H; contradiction|]. cbn [length]. rewrite (IH H). reflexivity. Qed.
Lemma put_has {A} p (v : A) l : (p < length l)%nat -> In v (put_nth p v l).
Proof. revert p. induction l as [|y l IH]; intros [|p] H; cbn [length] in H; try lia; cbn [put_nth]; [left; reflexivity|right; apply IH; lia]. Qed.
Lemma remove_first_app a l m : In a l -> remove_first a (l ++ m) = remove_first a l ++ m.
Proof. induction l as [|b l IH]; intros H; [destruct H|]. cbn [app remove_first]. destruct (Nat.eqb_spec a b) as [->|E]; [reflexivity|]. destruct H as [H|H]; [symmetry in H; contradiction|]. cbn [app]. rewrite (IH H). reflexivity. Qed.
Lemma replay_dot_rank a0 a1 x y z b c r : keras_dot a0 a1 x y = Some z -> (length (shape x) + length (shape y) <> 4)%nat ->
  replay_dot a0 a1 (sample b x) (sample c y) = Some r -> length (shape r) = S (length (shape (sample b z))).
Proof.
  intros K R H. destruct (keras_dot_inv _ _ _ _ _ K) as (n & s & t & Ex & Ey & H0 & H1 & HN).
  destruct (alkaid_dot_right _ _ _ _ _ K R) as (z' & A & (S1 & _)). destruct (alkaid_dot_spec n s t a0 a1 x y Ex Ey H0 H1 HN) as (z'' & A' & B & _). cbv zeta in B. rewrite A in A'. apply some_inj in A'. subst z''.
  cbn [sample shape]. rewrite S1, B. cbn [tl].
  unfold replay_dot in H. destruct (dais_dot_labels _ _ a0 a1) as ((l0 & l1) & lo) eqn:DL. cbn [sample shape] in *. rewrite Ex, Ey in DL. cbn [tl] in DL. assert (Eo : remove_first a0 (remove_first a0 (seq 0 (S (length s)) ++ put_nth a1 a0 (seq (S (length s)) (S (length t))))) = lo) by exact (f_equal snd DL).
  destruct (np_einsum l0 l1 lo _ _) as [q|] eqn:NE; [|discriminate]. cbn [bind] in H. unfold np_einsum in NE. destruct (_ && _)%bool in NE; [|discriminate]. apply some_inj in NE.
  assert (Lq : length (shape q) = length lo) by (subst q; cbn [shape]; apply map_length).
  assert (Lo : S (S (length lo)) = (S (length s) + S (length t))%nat).
  { rewrite <- Eo. rewrite remove_first_length.
    - rewrite remove_first_length by (apply in_app_iff; left; apply in_seq; lia). rewrite app_length, put_nth_length, !seq_length. reflexivity.
    - rewrite remove_first_app by (apply in_seq; lia). apply in_app_iff. right. apply put_has. rewrite seq_length. lia. }
  unfold first in H. destruct (shape q) as [|[|d] sq] eqn:Eq; try discriminate. apply some_inj in H. subst r. cbn [shape]. cbn [length] in Lq.
  rewrite !app_length, !firstn_length, !skipn_length. lia.
Qed.
Lemma replay_dot_2d n a0 a1 x y z : batch_of n x -> keras_dot a0 a1 x y = Some z -> length (shape x) = 2%nat -> length (shape y) = 2%nat ->
  traced_right n z (fun b => replay_dot a0 a1 (sample b x) (sample b y)).
Proof.
  intros (s0 & Es0) K Lx Ly. destruct (keras_dot_inv _ _ _ _ _ K) as (n' & s & t & Ex & Ey & H0 & H1 & HN). rewrite Ex in Es0. injection Es0 as -> <-.
  rewrite Ex in Lx. rewrite Ey in Ly. destruct s as [|d [|? ?]]; try discriminate. destruct t as [|d' [|? ?]]; try discriminate. cbn [length] in *. assert (a0 = 1%nat) by lia. assert (a1 = 1%nat) by lia. subst. cbn [nth Nat.sub] in HN. subst d'.
  unfold keras_dot in K. rewrite Ex, Ey in K. destruct (_ && _)%bool in K; [|discriminate]. apply some_inj in K. subst z. cbn [Nat.sub firstn skipn app nth insert_at].
  split; [eexists; reflexivity|]. intros b Hb. unfold replay_dot. cbn [sample shape]. rewrite Ex, Ey. cbn [tl length].
  change (dais_dot_labels 2 2 1 1) with ([0%nat; 1%nat], [2%nat; 1%nat], [0%nat; 2%nat]). unfold np_einsum. cbn [newaxis sample shape]. rewrite Ex, Ey. cbn [tl].
  set (dm := label_dims [0%nat; 1%nat] [1%nat; d] [2%nat; 1%nat] [1%nat; d]).
  assert (D0 : dm 0%nat = 1%nat) by reflexivity. assert (D1 : dm 1%nat = d) by reflexivity. assert (D2 : dm 2%nat = 1%nat) by reflexivity.
  cbn [length Nat.eqb andb combine app forallb fst snd]. rewrite D0, D1, D2. rewrite !Nat.eqb_refl. cbn [Nat.eqb andb bind map]. rewrite D0, D2. unfold first. cbn [shape]. eexists. split; [reflexivity|].
  apply same_refl; [reflexivity|]. cbn [sample shape at_ tl]. intros i Hi. clearbody dm. inversion Hi as [|i0 e1 i1 e2 Hi0 Hi1]; inversion Hi1; subst. cbn [hd].
  unfold einsum. change (contracted [0%nat; 1%nat] [2%nat; 1%nat] [0%nat; 2%nat]) with [1%nat]. cbn [sum_over]. unfold csum, qsum. f_equal.
Qed.

(** ** arithmetic on operands of equal rank *)
Lemma arith_traced f n x y z : batch_of n x -> batch_of n y -> length (shape x) = length (shape y) -> np_binary f x y = Some z ->
  traced_right n z (fun b => replay_arith f (sample b x) (sample b y)).
Proof.
  intros (s & Ex) (t & Ey) L H. rewrite Ex, Ey in L. cbn [length] in L. unfold np_binary in H. rewrite Ex, Ey in H. cbn [length] in H.
  replace (Nat.max (S (length s)) (S (length t))) with (S (length s)) in H by lia.
  rewrite (lpad_eq (S (length s)) (n :: s)), (lpad_eq (S (length s)) (n :: t)) in H by (cbn [length]; lia). cbn [join_shape] in H.
  replace (join_dim n n) with (Some n) in H by (unfold join_dim; rewrite Nat.eqb_refl, orb_true_r; destruct (n =? 1)%nat; reflexivity). cbn [bind] in H.
  destruct (join_shape s t) as [r|] eqn:J; [|discriminate]. cbn [bind] in H. apply some_inj in H. subst z. split; [eexists; reflexivity|].
  intros b Hb. unfold replay_arith, np_binary. cbn [sample shape]. rewrite Ex, Ey. cbn [tl]. replace (Nat.max (length s) (length t)) with (length s) by lia.
  rewrite !lpad_eq, J by lia. cbn [bind]. eexists. split; [reflexivity|]. apply same_refl; [reflexivity|]. cbn [sample shape at_ tl]. intros i Hi.
  assert (G : forall (w : tensor Q) u, shape w = n :: u -> length u = length s -> bcast_at (S (length s)) w (b :: i) = bcast_at (length s) (sample b w) i).
  { intros w u E Lu. unfold bcast_at. cbn [sample shape at_]. rewrite E. cbn [tl length]. rewrite !lpad_eq by (cbn [length]; lia). rewrite Lu, !Nat.sub_diag. cbn [skipn bcast_index].
    f_equal. f_equal. destruct (Nat.eqb_spec n 1); lia. }
  rewrite (G x s Ex eq_refl), (G y t Ey) by lia. reflexivity.
Qed.
