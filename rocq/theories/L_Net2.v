From Coq Require Import String.
From Verif Require Import Num M_Fixed L_Fixed M_State M_Wrapper M_Mapper S_Mapper L_Mapper M_Contr M_Ebops L_Ebops M_Pow2 M_Patch S_Patch L_Patch M_Ops S_Ops L_Ops M_Mirror S_Mirror L_Mirror M_Trace S_Trace L_Trace M_Net S_Net L_Lift L_Net S_Ops.
Local Open Scope list_scope.

(** ** a constant operand *)
Lemma bcast_at_same_rank (x : tensor Q) i : bcast_at (length (shape x)) x i = at_ x (bcast_index (shape x) i).
Proof. unfold bcast_at. rewrite lpad_id, Nat.sub_diag. reflexivity. Qed.
Lemma lpad_S n s : (length s <= n)%nat -> lpad (S n) s = 1%nat :: lpad n s.
Proof. intros H. unfold lpad. replace (S n - length s)%nat with (S (n - length s)) by lia. reflexivity. Qed.
Lemma join_dim_1 d : join_dim d 1 = Some d.
Proof. unfold join_dim. destruct (Nat.eqb_spec d 1) as [->|]; [reflexivity|]. rewrite Nat.eqb_refl. reflexivity. Qed.
Lemma bcast_at_const n (w : tensor Q) b i : (length (shape w) <= n)%nat -> bcast_at (S n) w (b :: i) = bcast_at n w i.
Proof.
  intros H. unfold bcast_at. rewrite lpad_S by exact H. replace (S n - length (shape w))%nat with (S (n - length (shape w))) by lia. reflexivity.
Qed.
Lemma const_binary f x w m s : shape x = m :: s -> (length (shape w) <= length s)%nat ->
  np_binary f x w = do sh <- join_shape s (lpad (length s) (shape w));
                    Some (mk_tensor (m :: sh) (fun i => f (at_ x (bcast_index (m :: s) i)) (bcast_at (S (length s)) w i))).
Proof.
  intros Ex L. unfold np_binary. rewrite Ex. cbn [length]. replace (Nat.max (S (length s)) (length (shape w))) with (S (length s)) by lia.
  rewrite (lpad_eq (S (length s)) (m :: s)) by reflexivity. rewrite lpad_S by exact L. cbn [join_shape]. rewrite join_dim_1. cbn [bind].
  destruct (join_shape s (lpad (length s) (shape w))) as [sh|]; [|reflexivity]. cbn [bind]. do 2 f_equal.
  unfold bcast_at at 1. rewrite Ex. cbn [length]. rewrite (lpad_eq (S (length s)) (m :: s)) by reflexivity. rewrite Nat.sub_diag. reflexivity.
Qed.
Lemma const_sample f w v s : shape v = s -> (length (shape w) <= length s)%nat ->
  np_binary f v w = do sh <- join_shape s (lpad (length s) (shape w)); Some (mk_tensor sh (fun i => f (at_ v (bcast_index s i)) (bcast_at (length s) w i))).
Proof.
  intros <- L. unfold np_binary. rewrite Nat.max_l by exact L. rewrite lpad_id. destruct (join_shape (shape v) _); [|reflexivity]. cbn [bind].
  do 2 f_equal. unfold bcast_at at 1. rewrite lpad_id, Nat.sub_diag. reflexivity.
Qed.
Lemma const_traced f n b x v w y : (forall a b c d, a == b -> c == d -> f a c == f b d) -> (b < n)%nat -> holds n b x v -> (length (shape w) < length (shape x))%nat -> np_binary f x w = Some y ->
  exists z, np_binary f v w = Some z /\ holds n b y z.
Proof.
  intros P Hb ((d & s & Ex) & S) L H. assert (Ev : shape v = d :: s) by (destruct S as (S & _); cbn [sample shape] in S; rewrite Ex in S; symmetry; exact S).
  assert (L' : (length (shape w) <= length (d :: s))%nat) by (rewrite Ex in L; cbn [length] in *; lia). rewrite (const_binary f x w n (d :: s) Ex L') in H.
  rewrite (const_sample f w v (d :: s) Ev L'). destruct (join_shape (d :: s) (lpad (length (d :: s)) (shape w))) as [sh|] eqn:J; [|discriminate]. cbn [bind] in *. apply some_inj in H. subst y.
  eexists. split; [reflexivity|]. assert (Hsh : exists d' s', sh = d' :: s').
  { destruct (join_shape_leq _ _ _ J) as (A & _). apply leq_length in A. destruct sh as [|d' s']; [discriminate|]. eauto. }
  destruct Hsh as (d' & s' & ->). split; [exists d', s'; reflexivity|]. split; [reflexivity|]. cbn [sample shape at_ tl]. intros i Hi. apply P.
  - cbn [bcast_index]. replace (if (n =? 1)%nat then 0%nat else b) with b by (destruct (Nat.eqb_spec n 1); lia).
    destruct S as (_ & S). cbn [sample shape at_] in S. rewrite Ex in S. apply S. exact (proj1 (join_valid _ _ _ _ J Hi)).
  - rewrite bcast_at_const by exact L'. reflexivity.
Qed.
(** adding the new axis, adding a constant, dropping the axis *)
Lemma const_newaxis f v r w z s : shape r = 1%nat :: s -> same_tensor (sample 0 r) v -> (forall a b c d, a == b -> c == d -> f a c == f b d) -> (length (shape w) <= length s)%nat -> np_binary f v w = Some z ->
  exists y z', np_binary f r w = Some y /\ first y = Some z' /\ same_tensor z z'.
Proof.
  intros Er S P L H. assert (Ev : shape v = s) by (destruct S as (S & _); cbn [sample shape] in S; rewrite Er in S; symmetry; exact S).
  rewrite (const_sample f w v s Ev L) in H. rewrite (const_binary f r w 1 s Er L). destruct (join_shape s (lpad (length s) (shape w))) as [sh|] eqn:J; [|discriminate].
  cbn [bind] in *. apply some_inj in H. subst z. eexists. eexists. split; [reflexivity|]. split; [reflexivity|]. split; [reflexivity|]. cbn [shape at_]. intros i Hi. apply P.
  - cbn [bcast_index Nat.eqb]. destruct S as (_ & S). cbn [sample shape at_] in S. rewrite Er in S. symmetry. apply S. exact (proj1 (join_valid _ _ _ _ J Hi)).
  - rewrite bcast_at_const by exact L. reflexivity.
Qed.

(** ** einsum *)
Lemma forallb_dims (dims : nat -> nat) : forall li s, length li = length s -> forallb (fun p => (dims (fst p) =? snd p)%nat) (combine li s) = true -> map dims li = s.
Proof.
  induction li as [|l li IH]; intros [|d s] L H; try discriminate; [reflexivity|]. cbn [combine forallb fst snd] in H. apply andb_true_iff in H as (A & B). apply Nat.eqb_eq in A.
  cbn [map]. rewrite A, (IH s) by (try exact B; cbn in L; lia). reflexivity.
Qed.
Lemma dims_forallb (dims : nat -> nat) : forall li s, map dims li = s -> forallb (fun p => (dims (fst p) =? snd p)%nat) (combine li s) = true.
Proof. induction li as [|l li IH]; intros s <-; [reflexivity|]. cbn [map combine forallb fst snd]. rewrite Nat.eqb_refl. apply IH. reflexivity. Qed.
Lemma bind_lt (dims : nat -> nat) lo : forall idx e l, valid_index (map dims lo) idx -> In l lo -> (bind_idx lo idx e l < dims l)%nat.
Proof.
  induction lo as [|a lo IH]; intros idx e l V H; [destruct H|]. inversion V as [|i ? idx' ? Hi V']; subst. cbn [bind_idx]. unfold upd. destruct (Nat.eqb_spec l a) as [->|D]; [exact Hi|].
  destruct H as [H|H]; [congruence|]. apply IH; assumption.
Qed.
Lemma valid_map (dims : nat -> nat) li e : (forall l, In l li -> (e l < dims l)%nat) -> valid_index (map dims li) (map e li).
Proof. induction li as [|l li IH]; intros H; [constructor|]. cbn [map]. constructor; [apply H; left; reflexivity|apply IH; intros m Hm; apply H; right; exact Hm]. Qed.
Lemma sum_over_two a b dims dims' (D : list nat) F F' :
  (forall e e', (forall m, m <> a -> e m = e' m) -> e a = b -> (forall l, In l D -> (e l < dims l)%nat) -> F e == F' e') ->
  forall ls e e', ~ In a ls -> (forall l, In l ls -> dims l = dims' l) -> (forall m, m <> a -> e m = e' m) -> e a = b -> (forall l, In l D -> In l ls \/ (e l < dims l)%nat) ->
  sum_over 0 Qplus dims ls F e == sum_over 0 Qplus dims' ls F' e'.
Proof.
  intros HF. induction ls as [|l ls IH]; intros e e' Na Hd He Hb HD; cbn [sum_over].
  - apply HF; [exact He|exact Hb|]. intros m Hm. destruct (HD m Hm) as [[]|H]; exact H.
  - cq. rewrite <- (Hd l (or_introl eq_refl)). apply qsum_ext. intros v Hv. apply in_seq in Hv.
    assert (Hla : l <> a) by (intros ->; apply Na; left; reflexivity). apply IH.
    + intros X; apply Na; right; exact X.
    + intros m Hm. apply Hd. right. exact Hm.
    + intros m Hm. unfold upd. destruct (m =? l)%nat; [reflexivity|apply He, Hm].
    + unfold upd. destruct (Nat.eqb_spec a l); [congruence|exact Hb].
    + intros m Hm. destruct (Nat.eq_dec m l) as [->|Dm]; [right; unfold upd; rewrite Nat.eqb_refl; lia|]. destruct (HD m Hm) as [[->|H]|H]; [congruence|left; exact H|right].
      unfold upd. destruct (Nat.eqb_spec m l); [congruence|exact H].
Qed.
Lemma bind_agree a lo : forall i b c e m, m <> a -> bind_idx (a :: lo) (b :: i) e m = bind_idx (a :: lo) (c :: i) e m.
Proof. intros i b c e m H. cbn [bind_idx]. unfold upd. destruct (Nat.eqb_spec m a); [congruence|reflexivity]. Qed.

Lemma einsum_traced n b a li lk lo x v k y : (b < n)%nat -> ~ In a (li ++ lk ++ lo) -> holds n b x v -> np_einsum (a :: li) lk (a :: lo) x k = Some y ->
  exists s r, shape y = n :: s /\ length s = length lo /\ np_einsum (a :: li) lk (a :: lo) (newaxis v) k = Some r /\ shape r = 1%nat :: s /\ same_tensor (sample b y) (sample 0 r).
Proof.
  intros Hb Na ((d0 & s0 & Ex) & S) H. set (s1 := d0 :: s0) in *. assert (Ev : shape v = s1) by (destruct S as (S & _); cbn [sample shape] in S; rewrite Ex in S; symmetry; exact S).
  unfold np_einsum in *. cbn [newaxis shape] in *. rewrite Ex in H. rewrite Ev.
  assert (Nli : ~ In a li) by (intros X; apply Na; apply in_or_app; left; exact X). assert (Nlk : ~ In a lk) by (intros X; apply Na; apply in_or_app; right; apply in_or_app; left; exact X).
  assert (Nlo : ~ In a lo) by (intros X; apply Na; apply in_or_app; right; apply in_or_app; right; exact X).
  set (dims := label_dims (a :: li) (n :: s1) lk (shape k)) in *. set (dims' := label_dims (a :: li) (1%nat :: s1) lk (shape k)).
  assert (Dd : forall l, l <> a -> dims l = dims' l).
  { intros l Hl. unfold dims, dims', label_dims. destruct (memb l (a :: li)); [|reflexivity]. cbn [index_of]. destruct (Nat.eqb_spec l a); [congruence|]. reflexivity. }
  assert (Da : dims a = n /\ dims' a = 1%nat).
  { unfold dims, dims', label_dims. replace (memb a (a :: li)) with true by (symmetry; apply memb_In; left; reflexivity). cbn [index_of]. rewrite Nat.eqb_refl. split; reflexivity. }
  destruct Da as (Da & Da'). destruct ((length (a :: li) =? length (n :: s1))%nat && (length lk =? length (shape k))%nat && _)%bool eqn:E; [|discriminate].
  apply andb_true_iff in E as (E & E3). apply andb_true_iff in E as (E1 & E2). rewrite forallb_app in E3. apply andb_true_iff in E3 as (E3 & E4).
  apply Nat.eqb_eq in E1. pose proof (Nat.eqb_eq (length lk) (length (shape k))) as [E2' _]. specialize (E2' E2). apply some_inj in H. subst y.
  apply forallb_dims in E3; [|exact E1]. apply forallb_dims in E4; [|exact E2']. cbn [map] in E3. assert (E3' : map dims li = s1) by congruence.
  assert (M : forall ls, ~ In a ls -> map dims' ls = map dims ls) by (intros ls Hls; apply map_ext_in; intros l Hl; symmetry; apply Dd; intros ->; contradiction).
  replace (((length (a :: li) =? length (1%nat :: s1))%nat && (length lk =? length (shape k))%nat && forallb (fun p => (dims' (fst p) =? snd p)%nat) (combine (a :: li) (1%nat :: s1) ++ combine lk (shape k)))%bool) with true.
  2:{ symmetry. rewrite forallb_app, (dims_forallb dims'), (dims_forallb dims'), E2. 2:{ rewrite (M lk Nlk). exact E4. } 2:{ cbn [map]. rewrite Da', (M li Nli), E3'. reflexivity. }
      cbn [length] in *. rewrite E1, Nat.eqb_refl. reflexivity. }
  exists (map dims lo). eexists. cbn [shape map]. rewrite Da. split; [reflexivity|]. split; [apply map_length|]. split; [reflexivity|]. cbn [shape]. rewrite Da', (M lo Nlo). split; [reflexivity|].
  split; [cbn [sample shape tl]; reflexivity|]. cbn [sample shape tl at_]. intros i Hi. unfold einsum.
  apply (sum_over_two a b dims dims' (li ++ lk)).
  - intros e e' He Hea HD. cbn [map tl]. rewrite Hea. replace (map e' lk) with (map e lk) by (apply map_ext_in; intros m Hm; apply He; intros ->; contradiction).
    replace (map e' li) with (map e li) by (apply map_ext_in; intros m Hm; apply He; intros ->; contradiction). apply Qmult_comp; [|reflexivity].
    destruct S as (_ & S). cbn [sample shape at_] in S. rewrite Ex in S. apply S. cbn [tl]. rewrite <- E3'. apply valid_map. intros l Hl. apply HD. apply in_or_app. left. exact Hl.
  - unfold contracted. intros X. apply filter_In in X as (_ & X). replace (memb a (a :: lo)) with true in X by (symmetry; apply memb_In; left; reflexivity). discriminate.
  - intros l Hl. apply Dd. intros ->. unfold contracted in Hl. apply filter_In in Hl as (_ & X). replace (memb a (a :: lo)) with true in X by (symmetry; apply memb_In; left; reflexivity). discriminate.
  - intros m Hm. apply bind_agree. exact Hm.
  - cbn [bind_idx]. unfold upd. rewrite Nat.eqb_refl. reflexivity.
  - intros l Hl. destruct (memb l (a :: lo)) eqn:E.
    + right. apply memb_In in E. apply bind_lt; [|exact E]. cbn [map]. rewrite Da. constructor; [exact Hb|exact Hi].
    + left. unfold contracted. apply filter_In. rewrite E. split; [|reflexivity]. unfold all_labels. apply nodup_In. apply in_or_app. apply in_app_or in Hl. cbn [In]. tauto.
Qed.
