(** Array operations respect [same_tensor]: concatenation, repetition, transposition, indexing, matmul. *)
From Verif Require Import Num M_Fixed M_State M_Wrapper M_Mapper S_Mapper M_Contr M_Ebops M_Pow2 M_Patch S_Patch M_Ops M_Mirror S_Mirror M_Trace M_Net S_Net M_NetX S_NetX L_Ops L_Net L_Net2 L_Net3 S_Ops.
Local Open Scope list_scope.
Notation length := List.length (only parsing).

Lemma repeat_same k axis x x' y : same_tensor x x' -> np_repeat k axis x = Some y -> exists y', np_repeat k axis x' = Some y' /\ same_tensor y y'.
Proof.
  intros (E & H). unfold np_repeat. rewrite <- E. destruct (np_axis axis (length (shape x))) as [a|] eqn:A; [|discriminate]. cbn [bind]. intros K. apply some_inj in K. subst y.
  eexists. split; [reflexivity|]. split; [reflexivity|]. cbn [shape at_]. intros i Hi. apply H. apply np_axis_lt in A. apply valid_nth in Hi. destruct Hi as (L & V). rewrite put_nth_length in L, V.
  apply valid_nth. rewrite put_nth_length. split; [exact L|]. intros c Hc. rewrite nth_put by lia. specialize (V c Hc). rewrite nth_put in V by exact A. destruct (c =? a)%nat eqn:D; [apply Nat.eqb_eq in D; subst c|exact V].
  destruct k as [|k]; [lia|]. apply Nat.div_lt_upper_bound; lia.
Qed.
Lemma index_of_lt a l : In a l -> (index_of a l < length l)%nat /\ nth (index_of a l) l 0%nat = a.
Proof.
  induction l as [|b l IH]; intros H; [destruct H|]. cbn [index_of length]. destruct (Nat.eqb_spec a b) as [->|D]; [split; [lia|reflexivity]|]. destruct H as [H|H]; [congruence|].
  destruct (IH H). split; [lia|assumption].
Qed.
Lemma insert_in {A} d (s : A) l x : In x (insert_at d s l) <-> x = s \/ In x l.
Proof.
  revert d. induction l as [|y l IH]; intros [|d]; cbn [insert_at In]; try (intuition congruence). rewrite IH. intuition congruence.
Qed.
Lemma transpose_same order x x' : (forall a, (a < length (shape x))%nat -> In a order) -> same_tensor x x' -> same_tensor (transpose_by order x) (transpose_by order x').
Proof.
  intros HO (E & H). unfold transpose_by. split; [cbn [shape]; rewrite E; reflexivity|]. cbn [shape at_]. rewrite <- E. intros i Hi. apply H. apply valid_nth in Hi. destruct Hi as (L & V). rewrite map_length in L, V.
  apply valid_nth. rewrite map_length, seq_length. split; [reflexivity|]. intros a Ha. rewrite (nth_indep _ 0%nat (nth (index_of 0%nat order) i 0%nat)) by (rewrite map_length, seq_length; exact Ha).
  rewrite (map_nth (fun a => nth (index_of a order) i 0%nat)), seq_nth by exact Ha. cbn [Nat.add]. destruct (index_of_lt a order (HO a Ha)) as (P & Q0). specialize (V _ P).
  rewrite (nth_indep (map (fun a => nth a (shape x) 0%nat) order) 0%nat (nth 0%nat (shape x) 0%nat)) in V by (rewrite map_length; exact P). rewrite (map_nth (fun a => nth a (shape x) 0%nat)), Q0 in V. exact V.
Qed.
Lemma moveaxis_same s d x x' y : same_tensor x x' -> np_moveaxis s d x = Some y -> exists y', np_moveaxis s d x' = Some y' /\ same_tensor y y'.
Proof.
  intros S. pose proof (proj1 S) as E. unfold np_moveaxis. rewrite <- E. destruct (np_axis s _) as [s'|]; [|discriminate]. cbn [bind]. destruct (np_axis d _) as [d'|]; [|discriminate]. cbn [bind]. intros K. apply some_inj in K. subst y.
  eexists. split; [reflexivity|]. apply transpose_same; [|exact S]. intros a Ha. apply insert_in. destruct (Nat.eq_dec a s') as [->|D]; [left; reflexivity|]. right. apply filter_In. split; [apply in_seq; lia|].
  apply Nat.eqb_neq in D. rewrite D. reflexivity.
Qed.
Lemma agree_off_valid a s t i m : (a < length s)%nat -> agree_off a s t = true -> valid_index (put_nth a m s) i -> (nth a i 0 < nth a t 0)%nat -> valid_index t i.
Proof.
  intros La A V Hi. unfold agree_off in A. destruct (list_eq_dec _ _ _) as [F|]; [|discriminate]. assert (LT : length t = length s) by (apply (f_equal (@List.length nat)) in F; rewrite !put_nth_length in F; symmetry; exact F).
  apply valid_nth in V. destruct V as (L & V). rewrite put_nth_length in L, V. apply valid_nth. split; [lia|]. intros c Hc. destruct (Nat.eq_dec c a) as [->|D]; [exact Hi|].
  specialize (V c ltac:(lia)). rewrite nth_put in V by lia. apply (f_equal (fun l => nth c l 0%nat)) in F. rewrite !nth_put in F by lia. apply Nat.eqb_neq in D. rewrite D in V, F. lia.
Qed.
Lemma cat_at_same a s : (a < length s)%nat -> forall xs xs', Forall2 same_tensor xs xs' -> forallb (fun y => agree_off a s (shape y)) xs = true ->
  forall idx, valid_index (put_nth a (fold_right Nat.add 0%nat (map (fun y => nth a (shape y) 0%nat) xs)) s) idx -> cat_at a xs idx == cat_at a xs' idx.
Proof.
  intros La xs xs' F. induction F as [|x x' xs xs' (E & H) F IH]; intros A idx V; [reflexivity|]. cbn [forallb] in A. apply andb_true_iff in A as (A & As). cbn [cat_at map fold_right] in *. rewrite <- E.
  destruct (Nat.ltb_spec (nth a idx 0%nat) (nth a (shape x) 0%nat)) as [C|C]; [apply H; exact (agree_off_valid a s _ idx _ La A V C)|].
  apply (IH As). apply valid_nth in V. destruct V as (L & V). rewrite put_nth_length in L, V. apply valid_nth. rewrite !put_nth_length. split; [exact L|]. intros c Hc. specialize (V c Hc). rewrite nth_put in V by exact La. rewrite nth_put by lia.
  rewrite nth_put by lia. destruct (c =? a)%nat eqn:D; [|exact V]. apply Nat.eqb_eq in D. subst c. lia.
Qed.
Lemma concatenate_same axis xs xs' y : Forall2 same_tensor xs xs' -> np_concatenate axis xs = Some y -> exists y', np_concatenate axis xs' = Some y' /\ same_tensor y y'.
Proof.
  intros F. pose proof (sames_shapes _ _ F) as SH. assert (FA : forall p, forallb (fun y => p (shape y)) xs' = forallb (fun y => p (shape y)) xs).
  { intros p. clear - SH. revert xs' SH. induction xs as [|x xs IH]; intros [|x' xs'] E; try discriminate; [reflexivity|]. cbn [map forallb] in *. injection E as -> E. rewrite (IH _ E). reflexivity. }
  assert (FM : forall a, map (fun y => nth a (shape y) 0%nat) xs' = map (fun y => nth a (shape y) 0%nat) xs) by (intros a; rewrite <- !(map_map shape (fun s => nth a s 0%nat)), SH; reflexivity).
  unfold np_concatenate. destruct xs as [|x xs]; [discriminate|]. destruct xs' as [|x' xs']; [inversion F|]. assert (E : shape x = shape x') by (cbn [map] in SH; congruence). rewrite <- E.
  destruct (np_axis axis _) as [a|] eqn:A; [|discriminate]. cbn [bind]. rewrite (FA (agree_off a (shape x))), FM. destruct (forallb _ (x :: xs)) eqn:G; [|discriminate].
  intros K. apply some_inj in K. subst y. eexists. split; [reflexivity|]. split; [reflexivity|]. cbn [shape at_]. intros i Hi. exact (cat_at_same a (shape x) (np_axis_lt _ _ _ A) _ _ F G i Hi).
Qed.
Lemma broadcast_same xs xs' ys : Forall2 same_tensor xs xs' -> broadcast_arrays xs = Some ys -> exists ys', broadcast_arrays xs' = Some ys' /\ Forall2 same_tensor ys ys'.
Proof.
  intros S. unfold broadcast_arrays. rewrite (max_ndim_shapes _ _ (sames_shapes _ _ S)). generalize (max_ndim xs'). intros n. rewrite (sames_shapes _ _ S).
  destruct (join_shapes n (map shape xs')) as [r|] eqn:J; [|discriminate]. cbn [bind]. intros K. apply some_inj in K. subst ys. eexists. split; [reflexivity|].
  rewrite join_shapes_foldj in J. assert (V : forall x i, In x xs' -> valid_index r i -> valid_index (lpad n (shape x)) (bcast_index (lpad n (shape x)) i)).
  { intros x i Hx Hi. apply (proj2 (foldj_valid _ _ _ _ J Hi)). apply in_map, in_map, Hx. }
  clear J. induction S as [|x x' xs xs' Sx S IH]; [constructor|]. cbn [map]. constructor; [|apply IH; intros x0 i Hx; apply V; right; exact Hx].
  split; [reflexivity|]. cbn [shape at_]. intros i Hi. apply bcast_at_same; [exact Sx|]. rewrite (proj1 Sx). apply V; [left; reflexivity|exact Hi].
Qed.
