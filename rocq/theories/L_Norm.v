(** Lemmas on batch normalization. *)
From Coq Require Import Reals List Lia Lra Bool.
From Verif Require Import M_Mapper S_Mapper L_Mapper M_Contr M_Norm S_Norm.
Import ListNotations.
Open Scope R_scope.

Lemma rsum_cons x l : rsum (x :: l) = x + rsum l. Proof. reflexivity. Qed.
Lemma rsum_ext {A} (f g : A -> R) l : (forall a, In a l -> f a = g a) -> rsum (map f l) = rsum (map g l).
Proof.
  induction l as [|x l IH]; intros H; [reflexivity|]. cbn [map]. rewrite !rsum_cons, IH, (H x); auto with datatypes.
Qed.
Lemma rsum_plus {A} (f g : A -> R) l : rsum (map (fun a => f a + g a) l) = rsum (map f l) + rsum (map g l).
Proof. induction l as [|x l IH]; cbn [map]; [cbn; lra|]. rewrite !rsum_cons, IH. lra. Qed.
Lemma rsum_scale {A} c (f : A -> R) l : rsum (map (fun a => c * f a) l) = c * rsum (map f l).
Proof. induction l as [|x l IH]; cbn [map]; [cbn; lra|]. rewrite !rsum_cons, IH. lra. Qed.
Lemma rsum_nonneg l : (forall x, In x l -> 0 <= x) -> 0 <= rsum l.
Proof. induction l as [|x l IH]; intros H; [cbn; lra|]. rewrite rsum_cons. assert (0 <= x) by auto with datatypes. assert (0 <= rsum l) by auto with datatypes. lra. Qed.


Lemma normalized_scaler scale gamma mean var eps x : normalized scale gamma mean var eps x = bn_scaler scale gamma var eps * (x - mean).
Proof. unfold normalized, bn_scaler, Rdiv. destruct scale; ring. Qed.

Lemma bnd_error m mean var x j : unquantized_bnd m ->
  bnd_call m mean var x j = dense_of_bn m mean var x j
    + rsum (map (fun i => mean i * (bn_scaler (d_scale m) (d_gamma m i) (var i) (d_eps m) - 1) * d_kernel m i j) (seq 0 (d_n m))).
Proof.
  intros [Hk Hb]. unfold bnd_call, dense_of_bn, bnd_qkernel, bnd_qbias. rewrite Hb.
  rewrite (rsum_ext _ (fun i => x i * (bn_scaler (d_scale m) (d_gamma m i) (var i) (d_eps m) * d_kernel m i j))) by (intros; rewrite Hk; reflexivity).
  rewrite (rsum_ext (fun i => normalized _ _ _ _ _ _ * _)
     (fun i => x i * (bn_scaler (d_scale m) (d_gamma m i) (var i) (d_eps m) * d_kernel m i j) + (-1) * (mean i * bn_scaler (d_scale m) (d_gamma m i) (var i) (d_eps m) * d_kernel m i j)))
    by (intros; rewrite normalized_scaler; ring).
  rewrite (rsum_ext (fun i => mean i * (_ - 1) * _)
     (fun i => mean i * bn_scaler (d_scale m) (d_gamma m i) (var i) (d_eps m) * d_kernel m i j + (-1) * (mean i * d_kernel m i j))) by (intros; ring).
  rewrite !rsum_plus, !rsum_scale. ring.
Qed.

Lemma bnd_exact_zero_mean m mean var x j : unquantized_bnd m -> (forall i, (i < d_n m)%nat -> mean i = 0) ->
  bnd_call m mean var x j = dense_of_bn m mean var x j.
Proof.
  intros HU Hm. rewrite bnd_error by exact HU.
  rewrite (rsum_ext _ (fun i => 0 * 0)) by (intros i Hi; apply in_seq in Hi; rewrite Hm by lia; ring).
  rewrite (rsum_scale 0 (fun _ => 0)). ring.
Qed.

(** ** einsum *)
Lemma bind_map lk : forall e e0 l, In l lk -> bind_idx lk (map e lk) e0 l = e l.
Proof.
  induction lk as [|a lk IH]; intros e e0 l H; [destruct H|]. cbn [map bind_idx]. unfold upd.
  destruct (l =? a)%nat eqn:E; [apply Nat.eqb_eq in E; congruence|]. apply IH. destruct H as [H|H]; [|exact H].
  apply Nat.eqb_neq in E. congruence.
Qed.
Lemma sum_over_scale dims (F : (nat -> nat) -> R) s norm ls : (forall l, In l norm -> ~ In l ls) -> forall e,
  sum_over 0 Rplus dims ls (fun e => F e * s (map e norm)) e = s (map e norm) * sum_over 0 Rplus dims ls F e.
Proof.
  induction ls as [|l ls IH]; intros Hn e; cbn [sum_over]; [ring|].
  change (csum 0 Rplus) with rsum. rewrite <- rsum_scale. apply rsum_ext. intros v _. rewrite IH by (intros m Hm H; apply (Hn m Hm); right; exact H).
  f_equal. f_equal. apply map_ext_in. intros m Hm. unfold upd. destruct (m =? l)%nat eqn:E; [|reflexivity].
  apply Nat.eqb_eq in E. subst m. exfalso. apply (Hn l Hm). left. reflexivity.
Qed.
Lemma sum_over_congr dims (F G : (nat -> nat) -> R) ls : (forall e, F e = G e) -> forall e, sum_over 0 Rplus dims ls F e = sum_over 0 Rplus dims ls G e.
Proof.
  intros H. induction ls as [|l ls IH]; intros e; cbn [sum_over]; [apply H|]. change (csum 0 Rplus) with rsum. apply rsum_ext. intros v _. apply IH.
Qed.

Lemma ebn_exact m x o : unquantized_ebn m ->
  kernel_order (e_norm m) (e_lk m) = output_order (e_norm m) (e_lo m) ->
  ebn_call m x o = bn_of_einsum m (e_eps m) x o.
Proof.
  intros [Hk Hb] Ho. unfold ebn_call, bn_of_einsum, ebn_bias. rewrite Hb, normalized_scaler.
  fold (ebn_scaler m (map (bind_idx (e_lo m) o (fun _ => 0%nat)) (output_order (e_norm m) (e_lo m)))).
  set (c := map _ (output_order _ _)).
  assert (E : einsum 0 Rplus Rmult (e_dims m) (e_li m) (e_lk m) (e_lo m) x (ebn_kernel m) o
            = ebn_scaler m c * einsum 0 Rplus Rmult (e_dims m) (e_li m) (e_lk m) (e_lo m) x (e_kernel m) o).
  { unfold einsum. unfold c. rewrite <- (sum_over_scale (e_dims m) _ (ebn_scaler m) (output_order (e_norm m) (e_lo m))).
    - apply sum_over_congr. intros e. unfold ebn_kernel. rewrite Hk, Ho, <- Rmult_assoc. f_equal. f_equal.
      apply map_ext_in. intros l Hl. apply bind_map. rewrite <- Ho in Hl. unfold kernel_order in Hl. apply filter_In in Hl. apply Hl.
    - intros l Hl Hc. unfold output_order in Hl. unfold contracted in Hc. apply filter_In in Hl. apply filter_In in Hc.
      destruct Hl as [Hl _]. destruct Hc as [_ Hc]. apply Bool.negb_true_iff, memb_false in Hc. auto. }
  rewrite E. ring.
Qed.

(** ** QBatchNormalization *)
Lemma bnl_value m mean var x : unquantized_bnl m ->
  bnl_call m mean var x = batchnorm (b_scale m) (b_center m) (b_gamma m) (b_beta m) mean var (b_eps m) x + (if b_center m then 0 else 1).
Proof.
  intros [Hk Hb]. unfold bnl_call, batchnorm. rewrite Hk, Hb, normalized_scaler. unfold bnl_offset, bnl_scaler. destruct (b_center m); ring.
Qed.

(** ** Moving statistics *)
Lemma batch_var_nonneg xs : xs <> [] -> 0 <= batch_var xs.
Proof.
  intros H. unfold batch_var, Rdiv. apply Rmult_le_pos.
  - apply rsum_nonneg. intros y Hy. apply in_map_iff in Hy. destruct Hy as (x & <- & _). apply Rle_0_sqr.
  - left. apply Rinv_0_lt_compat. destruct xs; [congruence|]. apply lt_0_INR. cbn. lia.
Qed.
Lemma rsum_between a b xs : (forall x, In x xs -> a <= x <= b) -> a * INR (length xs) <= rsum xs <= b * INR (length xs).
Proof.
  induction xs as [|x xs IH]; intros H; [cbn; lra|]. rewrite rsum_cons. cbn [length]. rewrite S_INR.
  assert (a <= x <= b) by auto with datatypes. assert (a * INR (length xs) <= rsum xs <= b * INR (length xs)) by auto with datatypes. lra.
Qed.
Lemma batch_mean_between a b xs : xs <> [] -> (forall x, In x xs -> a <= x <= b) -> a <= batch_mean xs <= b.
Proof.
  intros Hne H. pose proof (rsum_between a b xs H) as [H1 H2]. unfold batch_mean.
  assert (Hp : 0 < INR (length xs)) by (destruct xs; [congruence|]; apply lt_0_INR; cbn; lia).
  split; [apply (Rmult_le_reg_r (INR (length xs))); [exact Hp|]|apply (Rmult_le_reg_r (INR (length xs))); [exact Hp|]];
    unfold Rdiv; rewrite Rmult_assoc, Rinv_l, Rmult_1_r by lra; assumption.
Qed.
Lemma ema_between a b m old new : 0 <= m <= 1 -> a <= old <= b -> a <= new <= b -> a <= ema m old new <= b.
Proof. intros Hm Ho Hn. unfold ema. nra. Qed.
Lemma stats_var_nonneg m s batches : 0 <= m <= 1 -> 0 <= snd s -> (forall b, In b batches -> b <> []) -> 0 <= snd (stats_run m s batches).
Proof.
  intros Hm. revert s. induction batches as [|b batches IH]; intros s Hs Hb; cbn [stats_run fold_left]; [exact Hs|].
  apply IH; [|auto with datatypes]. cbn [stats_step snd]. unfold ema. pose proof (batch_var_nonneg b ltac:(auto with datatypes)). nra.
Qed.
Lemma stats_mean_between m s batches lo hi : 0 <= m <= 1 -> lo <= fst s <= hi ->
  (forall b, In b batches -> b <> [] /\ forall x, In x b -> lo <= x <= hi) -> lo <= fst (stats_run m s batches) <= hi.
Proof.
  intros Hm. revert s. induction batches as [|b batches IH]; intros s Hs Hb; cbn [stats_run fold_left]; [exact Hs|].
  apply IH; [|auto with datatypes]. cbn [stats_step fst]. destruct (Hb b (or_introl eq_refl)) as [H1 H2].
  apply ema_between; [exact Hm|exact Hs|apply batch_mean_between; assumption].
Qed.
Lemma stats_sqrt_pos m s batches eps : 0 <= m <= 1 -> 0 <= snd s -> (forall b, In b batches -> b <> []) -> 0 < eps ->
  0 < sqrt (snd (stats_run m s batches) + eps).
Proof. intros. apply sqrt_lt_R0. assert (0 <= snd (stats_run m s batches)) by (apply stats_var_nonneg; assumption). lra. Qed.
