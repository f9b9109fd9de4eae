(** Lemmas on EBOPs. *)
From Verif Require Import Num M_Fixed L_Fixed M_State M_Mapper S_Mapper L_Mapper M_Contr M_Ebops S_Ebops.
From Coq Require Import Permutation.

(** ** Sums *)
Lemma qsum_app a b : qsum (a ++ b) == qsum a + qsum b.
Proof.
  induction a as [|x a IH]; [change (qsum b == 0 + qsum b); lra|].
  change (x + qsum (a ++ b) == x + qsum a + qsum b). rewrite IH. lra.
Qed.
Lemma qsum_cons x a : qsum (x :: a) = x + qsum a.
Proof. reflexivity. Qed.
Lemma qsum_single_map {A} (a : A) f : qsum (map f [a]) == f a.
Proof. change (f a + 0 == f a). lra. Qed.
Lemma qsum_ext {A} (f g : A -> Q) l : (forall a, In a l -> f a == g a) -> qsum (map f l) == qsum (map g l).
Proof.
  induction l as [|x l IH]; intros H; [reflexivity|]. cbn [map]. rewrite !qsum_cons, IH, (H x) by (intros; apply H || left; try right; auto). reflexivity.
Qed.
Lemma qsum_le {A} (f g : A -> Q) l : (forall a, In a l -> f a <= g a) -> qsum (map f l) <= qsum (map g l).
Proof.
  induction l as [|x l IH]; intros H; [apply Qle_refl|]. cbn [map]. rewrite !qsum_cons.
  assert (f x <= g x) by (apply H; left; reflexivity).
  assert (qsum (map f l) <= qsum (map g l)) by (apply IH; intros; apply H; right; assumption). lra.
Qed.
Lemma qsum_nonneg {A} (f : A -> Q) l : (forall a, In a l -> 0 <= f a) -> 0 <= qsum (map f l).
Proof.
  induction l as [|x l IH]; intros H; [apply Qle_refl|]. cbn [map]. rewrite qsum_cons.
  assert (0 <= f x) by (apply H; left; reflexivity).
  assert (0 <= qsum (map f l)) by (apply IH; intros; apply H; right; assumption). lra.
Qed.
Lemma qsum_zero_iff {A} (f : A -> Q) l : (forall a, In a l -> 0 <= f a) ->
  (qsum (map f l) == 0 <-> forall a, In a l -> f a == 0).
Proof.
  induction l as [|x l IH]; intros H; [split; [intros _ a []|reflexivity]|]. cbn [map]. rewrite qsum_cons.
  assert (Hx : 0 <= f x) by (apply H; left; reflexivity).
  assert (Hl : forall a, In a l -> 0 <= f a) by (intros; apply H; right; assumption).
  pose proof (qsum_nonneg f l Hl) as Hs. specialize (IH Hl). split.
  - intros E. assert (E1 : f x == 0) by lra. assert (E2 : qsum (map f l) == 0) by lra.
    intros a [<-|Ha]; [exact E1|]. apply IH; assumption.
  - intros E. assert (E1 : f x == 0) by (apply E; left; reflexivity).
    assert (E2 : qsum (map f l) == 0) by (apply IH; intros; apply E; right; assumption). lra.
Qed.
Lemma qsum_flat_map {A} (f : A -> list Q) l : qsum (flat_map f l) == qsum (map (fun a => qsum (f a)) l).
Proof. induction l as [|x l IH]; [reflexivity|]. cbn [map flat_map]. rewrite qsum_cons, qsum_app, IH. reflexivity. Qed.
Lemma qsum_perm a b : Permutation a b -> qsum a == qsum b.
Proof. induction 1; rewrite ?qsum_cons in *; lra. Qed.
Lemma qsum_scale {A} (c : Q) (f : A -> Q) l : qsum (map (fun a => c * f a) l) == c * qsum (map f l).
Proof. induction l as [|x l IH]; [cbn; lra|]. cbn [map]. rewrite !qsum_cons, IH. lra. Qed.
Lemma qsum_plus {A} (f g : A -> Q) l : qsum (map (fun a => f a + g a) l) == qsum (map f l) + qsum (map g l).
Proof. induction l as [|x l IH]; [cbn; lra|]. cbn [map]. rewrite !qsum_cons, IH. lra. Qed.
Lemma qsum_const {A} (c : Q) (l : list A) : qsum (map (fun _ => c) l) == nQ (length l) * c.
Proof.
  induction l as [|x l IH]; [change (0 == 0 * c); lra|]. cbn [map length]. rewrite qsum_cons, IH. unfold nQ.
  rewrite Nat2Z.inj_succ, <- Z.add_1_r, injZ_add. change (inject_Z 1) with 1. lra.
Qed.
Lemma qsum_swap {A B} (f : A -> B -> Q) l m :
  qsum (map (fun a => qsum (map (fun b => f a b) m)) l) == qsum (map (fun b => qsum (map (fun a => f a b) l)) m).
Proof.
  induction l as [|x l IH]; cbn [map].
  - rewrite (qsum_ext (fun b => qsum (map (fun a => f a b) [])) (fun _ => 0) m) by (intros; reflexivity).
    rewrite qsum_const. cbn. lra.
  - rewrite qsum_cons, IH, <- qsum_plus. apply qsum_ext. intros b _. rewrite qsum_cons. reflexivity.
Qed.

Lemma csum_Q l : csum 0 Qplus l = qsum l. Proof. reflexivity. Qed.
Ltac cq := repeat match goal with |- context [csum 0 Qplus ?l] => change (csum 0 Qplus l) with (qsum l) end.

(** ** Costs *)
Lemma cost_app bx bk a b : cost bx bk (a ++ b) == cost bx bk a + cost bx bk b.
Proof. unfold cost. rewrite map_app. apply qsum_app. Qed.
Lemma cost_flat_map {A} bx bk (f : A -> list mult) l : cost bx bk (flat_map f l) == qsum (map (fun a => cost bx bk (f a)) l).
Proof. induction l as [|x l IH]; [reflexivity|]. cbn [map flat_map]. rewrite qsum_cons, cost_app, IH. reflexivity. Qed.
Lemma cost_nonneg bx bk l : (forall a, 0 <= bx a) -> (forall a, 0 <= bk a) -> 0 <= cost bx bk l.
Proof. intros H1 H2. unfold cost. apply qsum_nonneg. intros [a b] _. cbn [fst snd]. specialize (H1 a); specialize (H2 b). nra. Qed.
Lemma cost_le bx bk bx' bk' l : (forall a, 0 <= bx a) -> (forall a, 0 <= bk a) ->
  (forall a, bx a <= bx' a) -> (forall a, bk a <= bk' a) -> cost bx bk l <= cost bx' bk' l.
Proof.
  intros H1 H2 H3 H4. unfold cost. apply qsum_le. intros [a b] _. cbn [fst snd].
  specialize (H1 a); specialize (H2 b); specialize (H3 a); specialize (H4 b). nra.
Qed.
Lemma cost_zero bx bk l : (forall a, 0 <= bx a) -> (forall a, 0 <= bk a) ->
  (cost bx bk l == 0 <-> forall a b, In (a, b) l -> bx a == 0 \/ bk b == 0).
Proof.
  intros H1 H2. unfold cost. rewrite qsum_zero_iff by (intros [a b] _; cbn [fst snd]; specialize (H1 a); specialize (H2 b); nra).
  split.
  - intros H a b Hab. specialize (H _ Hab). cbn [fst snd] in H. apply Qmult_integral in H. exact H.
  - intros H [a b] Hab. cbn [fst snd]. destruct (H a b Hab) as [E|E]; rewrite E; lra.
Qed.

(** ** bits_ *)
Lemma kz_nonneg k : (0 <= kz k)%Z. Proof. destruct k; cbn; lia. Qed.
Lemma q_bits_nonneg om k b : (0 <= b)%Z -> (0 <= q_bits om k b)%Z.
Proof. intros H. pose proof (kz_nonneg k). destruct om; cbn [q_bits]; lia. Qed.
Lemma bits_at q sh t : bits_ q sh = Some t -> shape t = sh /\
  forall idx, at_ t idx = let g := bcast_index (shape (qb_k q)) idx in inject_Z (q_bits (qb_om q) (at_ (qb_k q) g) (at_ (qb_b q) g)).
Proof.
  unfold bits_, broadcast_to, tmap2. cbn [shape at_]. destruct (bcast_ok _ _); [|discriminate].
  intros E. match type of E with Some ?x = _ => assert (E' : t = x) by congruence end.
  subst t. split; reflexivity.
Qed.
Lemma bits_nonneg q sh t : widths_ok q -> bits_ q sh = Some t -> forall idx, 0 <= at_ t idx.
Proof.
  intros H E idx. rewrite (proj2 (bits_at _ _ _ E)). change 0 with (inject_Z 0). rewrite <- Zle_Qle.
  apply q_bits_nonneg, H.
Qed.
Lemma bits_wider q q' sh t : wider q q' -> bits_ q sh = Some t -> exists t', bits_ q' sh = Some t' /\ forall idx, at_ t idx <= at_ t' idx.
Proof.
  intros (H1 & H2 & H3 & H4) E. unfold bits_, broadcast_to, tmap2 in *. cbn [shape at_] in *. rewrite <- H2.
  destruct (bcast_ok _ _); [|discriminate]. eexists. split; [reflexivity|]. intros idx.
  match type of E with Some ?x = _ => assert (E' : t = x) by congruence end. subst t. cbn [at_].
  rewrite <- Zle_Qle, <- H1. set (g := bcast_index _ idx). destruct (H4 g) as [H5 H6].
  unfold q_bits. destruct (qb_om q); try exact H6.
  destruct (at_ (qb_k q) g); [rewrite (H5 eq_refl)|destruct (at_ (qb_k q') g)]; cbn [kz]; lia.
Qed.

Lemma nQ_nonneg n : 0 <= nQ n. Proof. unfold nQ. change 0 with (inject_Z 0). rewrite <- Zle_Qle. lia. Qed.
Lemma nQ_pos n : (0 < n)%nat -> 0 < nQ n. Proof. intros H. unfold nQ. change 0 with (inject_Z 0). rewrite <- Zlt_Qlt. lia. Qed.
Lemma nQ_mul a b : nQ (a * b) == nQ a * nQ b. Proof. unfold nQ. rewrite Nat2Z.inj_mul. apply injZ_mul. Qed.
Lemma tsum_nonneg t : (forall i, 0 <= at_ t i) -> 0 <= tsum t.
Proof. intros H. unfold tsum. apply qsum_nonneg. auto. Qed.
Lemma tsum_le t t' : shape t = shape t' -> (forall i, at_ t i <= at_ t' i) -> tsum t <= tsum t'.
Proof. intros E H. unfold tsum. rewrite E. apply qsum_le. auto. Qed.
Lemma tmean_nonneg t : (forall i, 0 <= at_ t i) -> 0 <= tmean t.
Proof.
  intros H. unfold tmean. pose proof (tsum_nonneg t H). destruct (nprod (shape t)) eqn:E.
  - unfold Qdiv. change (/ nQ 0) with 0. lra.
  - apply Qle_shift_div_l; [apply nQ_pos; lia|]. lra.
Qed.
Lemma tmean_le t t' : shape t = shape t' -> (forall i, at_ t i <= at_ t' i) -> tmean t <= tmean t'.
Proof.
  intros E H. unfold tmean. rewrite E. pose proof (tsum_le t t' E H). destruct (nprod (shape t')) eqn:Ep.
  - unfold Qdiv. change (/ nQ 0) with 0. lra.
  - assert (0 < / nQ (S n)) by (apply Qinv_lt_0_compat, nQ_pos; lia). unfold Qdiv. nra.
Qed.

(** ** broadcasting is uniform: the sum of broadcast values is the mean times the size *)
Lemma length_indices sh : length (indices sh) = nprod sh.
Proof.
  induction sh as [|d sh IH]; [reflexivity|]. cbn [indices nprod fold_right]. fold (nprod sh). rewrite <- IH.
  assert (H : forall l, length (flat_map (fun i => map (cons i) (indices sh)) l) = (length l * length (indices sh))%nat).
  { induction l as [|x l IHl]; [reflexivity|]. cbn [flat_map]. rewrite app_length, map_length, IHl. reflexivity. }
  rewrite H, seq_length. reflexivity.
Qed.
Lemma tsum_cons (d : nat) sh f : qsum (map f (indices (d :: sh))) == qsum (map (fun i => qsum (map (fun j => f (i :: j)) (indices sh))) (seq 0 d)).
Proof.
  cbn [indices]. generalize (seq 0 d). intros l. induction l as [|x l IH]; [reflexivity|].
  cbn [flat_map map]. rewrite map_app, qsum_app, qsum_cons, IH, map_map. reflexivity.
Qed.
Lemma bcast_uniform : forall w sh (f : index -> Q), bcast_ok w sh = true ->
  qsum (map (fun i => f (bcast_index w i)) (indices sh)) * nQ (nprod w) == qsum (map f (indices w)) * nQ (nprod sh).
Proof.
  induction w as [|d w IH]; intros [|e sh] f; try discriminate; [intros _; reflexivity|].
  cbn [bcast_ok]. rewrite andb_true_iff, orb_true_iff, !Nat.eqb_eq. intros [Hd Hw].
  rewrite !tsum_cons. cbn [nprod fold_right]. fold (nprod w). fold (nprod sh). rewrite !nQ_mul.
  destruct (Nat.eq_dec d 1) as [->|Hne].
  - change (seq 0 1) with [0%nat]. rewrite (qsum_single_map 0%nat).
    rewrite (qsum_ext _ (fun _ => qsum (map (fun j => f (0%nat :: bcast_index w j)) (indices sh)))).
    2:{ intros a _. cbn [bcast_index]. reflexivity. }
    rewrite qsum_const, seq_length. change (nQ 1) with 1.
    pose proof (IH sh (fun j => f (0%nat :: j)) Hw) as H. cbn beta in H.
    transitivity (nQ e * (qsum (map (fun j => f (0%nat :: bcast_index w j)) (indices sh)) * nQ (nprod w))); [ring|].
    rewrite H. ring.
  - assert (d = e) by lia. subst e.
    transitivity (nQ d * (qsum (map (fun i => qsum (map (fun j => f (i :: bcast_index w j)) (indices sh)) * nQ (nprod w)) (seq 0 d)))).
    { rewrite (qsum_ext (fun i => qsum (map (fun j => f (i :: bcast_index w j)) (indices sh)) * nQ (nprod w))
                        (fun i => nQ (nprod w) * qsum (map (fun j => f (i :: bcast_index w j)) (indices sh)))) by (intros; apply Qmult_comm).
      rewrite qsum_scale. rewrite (qsum_ext (fun i => qsum (map (fun j => f (bcast_index (d :: w) (i :: j))) (indices sh)))
                                            (fun i => qsum (map (fun j => f (i :: bcast_index w j)) (indices sh)))).
      - ring.
      - intros i _. apply qsum_ext. intros j _. cbn [bcast_index]. destruct (d =? 1)%nat eqn:E; [apply Nat.eqb_eq in E; lia|]. reflexivity. }
    rewrite (qsum_ext _ (fun i => nQ (nprod sh) * qsum (map (fun j => f (i :: j)) (indices w)))).
    2:{ intros i _. rewrite (IH sh (fun j => f (i :: j)) Hw). apply Qmult_comm. }
    rewrite qsum_scale. ring.
Qed.
Lemma nprod_pos_in sh idx : In idx (indices sh) -> (0 < nprod sh)%nat.
Proof. intros H. rewrite <- length_indices. destruct (indices sh); [destruct H|cbn; lia]. Qed.
(** mean(b) * size(sh) = the sum over all positions of sh of the broadcast value *)
Lemma mean_times_size (t : tensor Q) sh : bcast_ok (shape t) sh = true -> (0 < nprod (shape t))%nat ->
  tmean t * nQ (nprod sh) == qsum (map (fun i => at_ t (bcast_index (shape t) i)) (indices sh)).
Proof.
  intros H Hp. pose proof (bcast_uniform (shape t) sh (at_ t) H) as E. unfold tmean, tsum.
  assert (Hn : ~ nQ (nprod (shape t)) == 0) by (pose proof (nQ_pos _ Hp); lra).
  apply (Qmult_inj_r _ _ (nQ (nprod (shape t))) Hn). rewrite E. field. exact Hn.
Qed.

(** ** Dense *)
Lemma qsum_indices_app a b f : qsum (map f (indices (a ++ b))) == qsum (map (fun i => qsum (map (fun j => f (i ++ j)) (indices b))) (indices a)).
Proof.
  revert f. induction a as [|d a IH]; intros f.
  - cbn [app]. change (indices []) with [@nil nat]. rewrite qsum_single_map. cbn [app]. reflexivity.
  - cbn [app]. rewrite !tsum_cons. apply qsum_ext. intros i _. rewrite (IH (fun j => f (i :: j))). reflexivity.
Qed.
Lemma indices_single d f : qsum (map f (indices [d])) == qsum (map (fun j => f [j]) (seq 0 d)).
Proof. rewrite tsum_cons. apply qsum_ext. intros j _. change (indices []) with [@nil nat]. apply (qsum_single_map (@nil nat) (fun j0 => f (j :: j0))). Qed.

Lemma cost_map {A} bx bk (f : A -> mult) l : cost bx bk (map f l) == qsum (map (fun a => bx (fst (f a)) * bk (snd (f a))) l).
Proof. unfold cost. rewrite map_map. reflexivity. Qed.

Lemma dense_mult_cost sh units bx bk :
  tsum (mk_tensor (removelast sh ++ [units]) (matmul 0 Qplus Qmult (last sh 0%nat) bx bk)) == cost bx bk (dense_mults sh units).
Proof.
  unfold tsum. cbn [shape at_]. rewrite qsum_indices_app. unfold dense_mults. rewrite cost_flat_map.
  apply qsum_ext. intros l _. rewrite indices_single, cost_flat_map. apply qsum_ext. intros j _.
  rewrite cost_map. unfold matmul. rewrite csum_Q. apply qsum_ext. intros i _.
  rewrite removelast_last, last_last. reflexivity.
Qed.

Lemma nprod_app a b : nprod (a ++ b) = (nprod a * nprod b)%nat.
Proof.
  induction a as [|x a IH]; [symmetry; apply Nat.mul_1_l|].
  change (x * nprod (a ++ b) = x * nprod a * nprod b)%nat. rewrite IH. apply Nat.mul_assoc.
Qed.
Lemma nprod_ones (l : list nat) : nprod (map (fun _ => 1%nat) l) = 1%nat.
Proof. induction l as [|x l IH]; [reflexivity|]. change (1 * nprod (map (fun _ => 1%nat) l) = 1)%nat. rewrite IH. reflexivity. Qed.

Lemma mean_dense (bb : tensor Q) sh units : shape bb = [units] -> (0 < units)%nat ->
  tmean bb * (nQ (nprod sh) * nQ units) == qsum (map (fun o => at_ bb [last o 0%nat]) (indices (sh ++ [units]))).
Proof.
  intros Hs Hu.
  rewrite qsum_indices_app. rewrite (qsum_ext _ (fun _ => tsum bb)).
  2:{ intros l _. rewrite indices_single. unfold tsum. rewrite Hs, indices_single. apply qsum_ext. intros j _. rewrite last_last. reflexivity. }
  rewrite qsum_const, length_indices. unfold tmean. rewrite Hs. cbn [nprod fold_right]. rewrite Nat.mul_1_r.
  pose proof (nQ_pos _ Hu). field. lra.
Qed.

Lemma dense_ebops_spec sh units pf iq kq bq e : (0 < units)%nat -> dense_ebops sh units pf iq kq bq = Some e ->
  exists bi bk c, bits_ iq sh = Some bi /\ bits_ kq [last sh 0%nat; units] = Some bk /\ dense_bias_cost sh units bq c /\
    e == (cost (at_ bi) (at_ bk) (dense_mults sh units) + c) * dense_factor pf (dense_n_parallel sh) / nQ (dense_n_parallel sh).
Proof.
  intros Hu. unfold dense_ebops. destruct (bits_ iq sh) as [bi|] eqn:Ei; [|discriminate]. cbn [bind].
  destruct (bits_ kq _) as [bk|] eqn:Ek; [|discriminate]. cbn [bind]. destruct bq as [bq|].
  - destruct (bits_ bq [units]) as [bb|] eqn:Eb; [|discriminate]. cbn [bind]. intros E.
    match type of E with Some ?x = _ => assert (E' : e = x) by congruence end.
    exists bi, bk, (tmean bb * (nQ (nprod (removelast sh)) * nQ units)). split; [reflexivity|]. split; [reflexivity|]. split.
    + exists bb. split; [exact Eb|]. apply mean_dense; [|exact Hu]. apply (bits_at _ _ _ Eb).
    + rewrite E'. rewrite dense_mult_cost. reflexivity.
  - cbn [bind]. intros E. match type of E with Some ?x = _ => assert (E' : e = x) by congruence end.
    exists bi, bk, 0. split; [reflexivity|]. split; [reflexivity|]. split; [reflexivity|].
    rewrite E'. rewrite dense_mult_cost, Qplus_0_r. reflexivity.
Qed.

Lemma dense_bias_nonneg sh units bq c : widths_ok_opt bq -> dense_bias_cost sh units bq c -> 0 <= c.
Proof.
  destruct bq as [bq|]; cbn [dense_bias_cost widths_ok_opt]; [|intros _ ->; lra].
  intros Hw (bb & Eb & ->). apply qsum_nonneg. intros i _. apply (bits_nonneg _ _ _ Hw Eb).
Qed.
Lemma dense_bias_le sh units bq bq' c c' : wider_opt bq bq' -> dense_bias_cost sh units bq c -> dense_bias_cost sh units bq' c' -> c <= c'.
Proof.
  destruct bq as [bq|], bq' as [bq'|]; cbn [dense_bias_cost wider_opt]; try contradiction; [|intros _ -> ->; lra].
  intros Hw (bb & Eb & ->) (bb' & Eb' & ->). destruct (bits_wider _ _ _ _ Hw Eb) as (b2 & E2 & Hle).
  assert (b2 = bb') by congruence. subst b2. apply qsum_le. intros i _. apply Hle.
Qed.
Lemma dense_factor_nonneg pf n : 0 <= dense_factor pf n.
Proof.
  unfold dense_factor. change 0 with (inject_Z 0). rewrite <- Zle_Qle. destruct (pf <? 0)%Z eqn:E; [lia|]. apply Z.ltb_ge in E. lia.
Qed.
Lemma scale_nonneg x f n : 0 <= x -> 0 <= f -> 0 <= x * f / nQ n.
Proof.
  intros Hx Hf. destruct n as [|n].
  - unfold Qdiv. change (/ nQ 0) with 0. lra.
  - assert (0 < / nQ (S n)) by (apply Qinv_lt_0_compat, nQ_pos; lia). unfold Qdiv. 
    apply Qmult_le_0_compat; [|lra]. apply Qmult_le_0_compat; assumption.
Qed.
Lemma scale_le x y f n : x <= y -> 0 <= f -> x * f / nQ n <= y * f / nQ n.
Proof.
  intros Hx Hf. pose proof (scale_nonneg (y - x) f n) as H.
  assert (H' : 0 <= (y - x) * f / nQ n) by (apply H; lra). unfold Qdiv in *. lra.
Qed.

Lemma dense_ebops_nonneg sh units pf iq kq bq e : (0 < units)%nat -> widths_ok iq -> widths_ok kq -> widths_ok_opt bq ->
  dense_ebops sh units pf iq kq bq = Some e -> 0 <= e.
Proof.
  intros Hu H1 H2 H3 E. destruct (dense_ebops_spec _ _ _ _ _ _ _ Hu E) as (bi & bk & c & Ei & Ek & Hc & He).
  rewrite He. apply scale_nonneg; [|apply dense_factor_nonneg].
  pose proof (cost_nonneg (at_ bi) (at_ bk) (dense_mults sh units) (bits_nonneg _ _ _ H1 Ei) (bits_nonneg _ _ _ H2 Ek)).
  pose proof (dense_bias_nonneg _ _ _ _ H3 Hc). lra.
Qed.
Lemma dense_ebops_mono sh units pf iq kq bq iq' kq' bq' e e' : (0 < units)%nat -> widths_ok iq -> widths_ok kq ->
  wider iq iq' -> wider kq kq' -> wider_opt bq bq' ->
  dense_ebops sh units pf iq kq bq = Some e -> dense_ebops sh units pf iq' kq' bq' = Some e' -> e <= e'.
Proof.
  intros Hu H1 H2 W1 W2 W3 E E'. destruct (dense_ebops_spec _ _ _ _ _ _ _ Hu E) as (bi & bk & c & Ei & Ek & Hc & He).
  destruct (dense_ebops_spec _ _ _ _ _ _ _ Hu E') as (bi' & bk' & c' & Ei' & Ek' & Hc' & He').
  rewrite He, He'. apply scale_le; [|apply dense_factor_nonneg].
  destruct (bits_wider _ _ _ _ W1 Ei) as (b1 & F1 & L1). assert (b1 = bi') by congruence. subst b1.
  destruct (bits_wider _ _ _ _ W2 Ek) as (b2 & F2 & L2). assert (b2 = bk') by congruence. subst b2.
  pose proof (cost_le (at_ bi) (at_ bk) (at_ bi') (at_ bk') (dense_mults sh units) (bits_nonneg _ _ _ H1 Ei) (bits_nonneg _ _ _ H2 Ek) L1 L2).
  pose proof (dense_bias_le _ _ _ _ _ _ W3 Hc Hc'). lra.
Qed.

(** the mask of pruned operations: with no bias, EBOPs vanish exactly when every multiplication has an operand of width 0 *)
Lemma dense_ebops_zero sh units pf iq kq e bi bk : (0 < units)%nat -> widths_ok iq -> widths_ok kq ->
  bits_ iq sh = Some bi -> bits_ kq [last sh 0%nat; units] = Some bk ->
  (0 < dense_n_parallel sh)%nat -> pf <> 0%Z ->
  dense_ebops sh units pf iq kq None = Some e ->
  (e == 0 <-> forall a b, In (a, b) (dense_mults sh units) -> at_ bi a == 0 \/ at_ bk b == 0).
Proof.
  intros Hu H1 H2 Ei Ek Hn Hp E. destruct (dense_ebops_spec _ _ _ _ _ _ _ Hu E) as (bi' & bk' & c & Ei' & Ek' & Hc & He).
  assert (bi' = bi) by congruence. assert (bk' = bk) by congruence. subst bi' bk'. cbn in Hc. rewrite He, Hc, Qplus_0_r.
  rewrite <- (cost_zero (at_ bi) (at_ bk) (dense_mults sh units) (bits_nonneg _ _ _ H1 Ei) (bits_nonneg _ _ _ H2 Ek)).
  assert (Hf : 0 < dense_factor pf (dense_n_parallel sh) / nQ (dense_n_parallel sh)).
  { apply Qlt_shift_div_l; [apply nQ_pos, Hn|]. rewrite Qmult_0_l. unfold dense_factor. change 0 with (inject_Z 0). rewrite <- Zlt_Qlt.
    destruct (pf <? 0)%Z eqn:El; [lia|]. apply Z.ltb_ge in El. lia. }
  set (f := dense_factor pf _) in *. set (nn := nQ _) in *. set (x := cost _ _ _). unfold Qdiv in *. rewrite <- Qmult_assoc. split; intros H.
  - apply Qmult_integral in H. destruct H as [H|H]; [exact H|]. rewrite H in Hf. exfalso. apply (Qlt_irrefl 0), Hf.
  - rewrite H. lra.
Qed.

(** membership of the multiplication list *)
Lemma in_dense_mults sh units a b : In (a, b) (dense_mults sh units) <->
  exists l i j, valid_index (removelast sh) l /\ (i < last sh 0%nat)%nat /\ (j < units)%nat /\ a = l ++ [i] /\ b = [i; j].
Proof.
  unfold dense_mults. rewrite in_flat_map. split.
  - intros (l & Hl & H). apply in_flat_map in H. destruct H as (j & Hj & H). apply in_map_iff in H. destruct H as (i & Hi & H).
    apply in_seq in Hj. apply in_seq in H. apply in_indices in Hl. exists l, i, j.
    split; [exact Hl|]. split; [lia|]. split; [lia|]. split; congruence.
  - intros (l & i & j & Hl & Hi & Hj & -> & ->). exists l. split; [apply in_indices, Hl|].
    apply in_flat_map. exists j. split; [apply in_seq; lia|]. apply in_map_iff. exists i. split; [reflexivity|]. apply in_seq; lia.
Qed.

(** ** Einsum *)
Definition env_ext {C} (R : C -> C -> Prop) (F : (nat -> nat) -> C) : Prop := forall e e', (forall l, e l = e' l) -> R (F e) (F e').
Lemma upd_ext e e' l v : (forall m, e m = e' m) -> forall m, upd e l v m = upd e' l v m.
Proof. intros H m. unfold upd. destruct (m =? l)%nat; auto. Qed.
Lemma sum_over_ext dims ls F : env_ext Qeq F -> env_ext Qeq (sum_over 0 Qplus dims ls F).
Proof.
  intros HF. induction ls as [|l ls IH]; [exact HF|]. intros e e' H. cbn [sum_over]. rewrite !csum_Q.
  apply qsum_ext. intros v _. apply IH. apply upd_ext, H.
Qed.
Lemma sum_over_F dims ls F G : (forall e, F e == G e) -> forall e, sum_over 0 Qplus dims ls F e == sum_over 0 Qplus dims ls G e.
Proof.
  intros H. induction ls as [|l ls IH]; intros e; cbn [sum_over]; [apply H|]. rewrite !csum_Q. apply qsum_ext. intros v _. apply IH.
Qed.
Lemma sum_over_app dims l1 l2 F e : sum_over 0 Qplus dims (l1 ++ l2) F e == sum_over 0 Qplus dims l1 (sum_over 0 Qplus dims l2 F) e.
Proof.
  revert e. induction l1 as [|l l1 IH]; intros e; cbn [sum_over app]; [reflexivity|]. rewrite !csum_Q. apply qsum_ext. intros v _. apply IH.
Qed.
Lemma sum_over_perm dims F l1 l2 : env_ext Qeq F -> Permutation l1 l2 -> NoDup l1 -> forall e, sum_over 0 Qplus dims l1 F e == sum_over 0 Qplus dims l2 F e.
Proof.
  intros HF HP. induction HP as [|x l1 l2 HP IH|x y l|l1 l2 l3 H12 IH12 H23 IH23]; intros ND e.
  - reflexivity.
  - cbn [sum_over]. rewrite !csum_Q. apply qsum_ext. intros v _. apply IH. inversion ND; assumption.
  - cbn [sum_over]. rewrite !csum_Q.
    transitivity (qsum (map (fun v => qsum (map (fun w => sum_over 0 Qplus dims l F (upd (upd e y v) x w)) (seq 0 (dims x)))) (seq 0 (dims y)))); [reflexivity|].
    rewrite qsum_swap. apply qsum_ext. intros w _. apply (qsum_ext (fun v => sum_over 0 Qplus dims l F (upd (upd e y v) x w)) (fun v => sum_over 0 Qplus dims l F (upd (upd e x w) y v))). intros v _.
    apply sum_over_ext; [exact HF|]. intros m. unfold upd.
    inversion ND as [|? ? Hn ND']; subst. assert (x <> y) by (intros ->; apply Hn; left; reflexivity).
    destruct (m =? x)%nat eqn:E1; destruct (m =? y)%nat eqn:E2; try reflexivity.
    apply Nat.eqb_eq in E1. apply Nat.eqb_eq in E2. congruence.
  - rewrite IH12 by exact ND. apply IH23. apply (Permutation_NoDup H12 ND).
Qed.
Lemma bind_upd ls : forall idx e l v m, ~ In l ls -> upd (bind_idx ls idx e) l v m = bind_idx ls idx (upd e l v) m.
Proof.
  induction ls as [|a ls IH]; intros [|w idx] e l v m Hn; cbn [bind_idx]; try reflexivity.
  assert (Hne : a <> l) by (intros ->; apply Hn; left; reflexivity).
  assert (Hn' : ~ In l ls) by (intros H; apply Hn; right; exact H).
  specialize (IH idx e l v m Hn'). unfold upd in *. destruct (m =? l)%nat eqn:E1; destruct (m =? a)%nat eqn:E2; try assumption; try reflexivity.
  apply Nat.eqb_eq in E1. apply Nat.eqb_eq in E2. congruence.
Qed.
Lemma sum_over_bind dims ls G e : NoDup ls -> env_ext Qeq G ->
  qsum (map (fun o => G (bind_idx ls o e)) (indices (map dims ls))) == sum_over 0 Qplus dims ls G e.
Proof.
  intros ND HG. revert e. induction ls as [|l ls IH]; intros e.
  - cbn [map sum_over]. change (indices []) with [@nil nat]. rewrite qsum_single_map. reflexivity.
  - inversion ND as [|? ? Hn ND']; subst. cbn [map sum_over]. rewrite tsum_cons. cq. apply qsum_ext. intros v _.
    rewrite <- (IH ND' (upd e l v)). apply qsum_ext. intros o _. cbn [bind_idx]. apply HG. intros m. apply bind_upd, Hn.
Qed.

Lemma cost_sum_over bx bk dims ls li lk : forall e,
  cost bx bk (sum_over [] (@app mult) dims ls (fun e => [(map e li, map e lk)]) e)
  == sum_over 0 Qplus dims ls (fun e => bx (map e li) * bk (map e lk)) e.
Proof.
  induction ls as [|l ls IH]; intros e; cbn [sum_over].
  - unfold cost. cbn [map]. rewrite (qsum_single_map (map e li, map e lk) (fun m => bx (fst m) * bk (snd m))). reflexivity.
  - cq. unfold csum.
    assert (H : forall l0, cost bx bk (fold_right (@app mult) [] (map (fun v => sum_over [] (@app mult) dims ls (fun e => [(map e li, map e lk)]) (upd e l v)) l0))
      == qsum (map (fun v => sum_over 0 Qplus dims ls (fun e => bx (map e li) * bk (map e lk)) (upd e l v)) l0)).
    { induction l0 as [|v l0 IHl]; [reflexivity|]. cbn [map fold_right]. rewrite cost_app, qsum_cons, IHl, IH. reflexivity. }
    apply H.
Qed.

Lemma all_labels_perm li lk lo : NoDup lo -> incl lo (li ++ lk) -> Permutation (all_labels li lk) (lo ++ contracted li lk lo).
Proof.
  intros ND HI. apply NoDup_Permutation.
  - apply NoDup_nodup.
  - assert (HND : NoDup (contracted li lk lo)) by (apply NoDup_filter, NoDup_nodup).
    clear -ND HND. assert (Hd : forall x, In x lo -> ~ In x (contracted li lk lo)).
    { intros x Hx H. unfold contracted in H. apply filter_In in H. destruct H as [_ H]. apply negb_true_iff, memb_false in H. auto. }
    generalize dependent lo. intros lo ND. generalize (contracted li lk lo). intros cs HND Hd.
    induction ND as [|x lo Hx ND IH]; [exact HND|]. cbn [app]. constructor.
    + intros H. apply in_app_or in H. destruct H as [H|H]; [auto|]. apply (Hd x); [left; reflexivity|exact H].
    + apply IH. intros y Hy. apply Hd. right. exact Hy.
  - intros x. rewrite in_app_iff. unfold contracted, all_labels. rewrite filter_In, nodup_In. split.
    + intros H. destruct (memb x lo) eqn:E; [left; apply memb_In, E|right; split; [exact H|reflexivity]].
    + intros [H|[H _]]; [apply HI, H|exact H].
Qed.

Lemma einsum_value dims li lk lo x k o :
  einsum 0 Qplus Qmult dims li lk lo x k o == cost x k (out_mults dims li lk lo o).
Proof. unfold out_mults, einsum. rewrite cost_sum_over. reflexivity. Qed.

Lemma einsum_total dims li lk lo bx bk : NoDup lo -> incl lo (li ++ lk) ->
  einsum 0 Qplus Qmult dims li lk [] bx bk [] == qsum (map (fun o => cost bx bk (out_mults dims li lk lo o)) (indices (map dims lo))).
Proof.
  intros ND HI. set (F := fun e => bx (map e li) * bk (map e lk)).
  assert (HF : env_ext Qeq F).
  { intros e e' H. unfold F. rewrite (map_ext e e' H li), (map_ext e e' H lk). reflexivity. }
  rewrite (qsum_ext _ (fun o => sum_over 0 Qplus dims (contracted li lk lo) F (bind_idx lo o (fun _ => 0%nat)))).
  2:{ intros o _. rewrite <- einsum_value. reflexivity. }
  rewrite (sum_over_bind dims lo (sum_over 0 Qplus dims (contracted li lk lo) F) (fun _ => 0%nat) ND (sum_over_ext dims _ F HF)).
  rewrite <- sum_over_app. unfold einsum. cbn [bind_idx].
  assert (Hc : contracted li lk [] = all_labels li lk).
  { unfold contracted. cbn [memb existsb negb]. generalize (all_labels li lk). induction l as [|a l IH]; [reflexivity|]. cbn [filter negb]. f_equal. exact IH. }
  rewrite Hc. apply sum_over_perm; [exact HF|apply all_labels_perm; assumption|apply NoDup_nodup].
Qed.

Lemma mean_bias (bb : tensor Q) (sh : list nat) : (length (shape bb) <= length sh)%nat -> (0 < nprod (shape bb))%nat ->
  bcast_ok (shape bb) (skipn (length sh - length (shape bb)) sh) = true ->
  tmean bb * nQ (nprod sh) == qsum (map (fun o => at_ bb (bcast_index (shape bb) (skipn (length sh - length (shape bb)) o))) (indices sh)).
Proof.
  intros Hl Hp Hb. set (n := (length sh - length (shape bb))%nat) in *.
  rewrite <- (firstn_skipn n sh) at 1 2. rewrite nprod_app, nQ_mul, qsum_indices_app.
  rewrite (qsum_ext _ (fun _ => tmean bb * nQ (nprod (skipn n sh)))).
  - rewrite qsum_const, length_indices. ring.
  - intros l Hin. rewrite (mean_times_size bb _ Hb Hp). apply qsum_ext. intros j _.
    apply in_indices in Hin. assert (Hlen : length l = n).
    { rewrite (Forall2_len _ _ _ Hin). apply firstn_length_le. unfold n. lia. }
    rewrite skipn_app, Hlen, Nat.sub_diag. cbn [skipn]. rewrite skipn_all2 by lia. reflexivity.
Qed.

Lemma factor_eq pf n : dense_factor pf n = factor_of pf n.
Proof. unfold dense_factor, factor_of, nQ. destruct (pf <? 0)%Z; reflexivity. Qed.
Lemma conv_factor_eq pf n : conv_factor pf n = factor_of_conv pf n.
Proof. unfold conv_factor, factor_of_conv, nQ. destruct (pf <=? 0)%Z; reflexivity. Qed.
Lemma conv_factor_nonneg pf n : 0 <= conv_factor pf n.
Proof.
  unfold conv_factor. change 0 with (inject_Z 0). rewrite <- Zle_Qle. destruct (pf <=? 0)%Z eqn:E; [lia|]. apply Z.leb_gt in E. lia.
Qed.

Lemma einsum_dense_spec li lk lo sh ksh osh pf iq kq bq e : NoDup lo -> incl lo (li ++ lk) -> bias_fits osh bq ->
  einsum_dense_ebops li lk lo sh ksh osh pf iq kq bq = Some e ->
  exists bi bk c, bits_ iq sh = Some bi /\ bits_ kq ksh = Some bk /\ einsum_bias_cost osh bq c /\
    let dims := einsum_dims li sh lk ksh in
    let n := einsum_n_parallel li lk lo sh in
    e == (qsum (map (fun o => cost (at_ bi) (at_ bk) (out_mults dims li lk lo o)) (indices (map dims lo))) + c) * dense_factor pf n / nQ n.
Proof.
  intros ND HI HB. unfold einsum_dense_ebops. destruct (bits_ iq sh) as [bi|] eqn:Ei; [|discriminate]. cbn [bind].
  destruct (bits_ kq ksh) as [bk|] eqn:Ek; [|discriminate]. cbn [bind]. destruct bq as [[bsh bq]|].
  - destruct (bits_ bq bsh) as [bb|] eqn:Eb; [|discriminate]. cbn [bind]. intros E.
    match type of E with Some ?x = _ => assert (E' : e = x) by congruence end.
    exists bi, bk, (tmean bb * nQ (nprod (tl osh))). split; [reflexivity|]. split; [reflexivity|]. split.
    + exists bb. split; [exact Eb|]. destruct (bits_at _ _ _ Eb) as [Hs _]. destruct HB as (H1 & H2 & H3). rewrite <- Hs in *.
      apply mean_bias; assumption.
    + cbv zeta. rewrite E', (einsum_total _ li lk lo _ _ ND HI). reflexivity.
  - cbn [bind]. intros E. match type of E with Some ?x = _ => assert (E' : e = x) by congruence end.
    exists bi, bk, 0. split; [reflexivity|]. split; [reflexivity|]. split; [reflexivity|].
    cbv zeta. rewrite E', (einsum_total _ li lk lo _ _ ND HI), Qplus_0_r. reflexivity.
Qed.

Lemma einsum_bias_nonneg osh bq c : widths_ok_bias bq -> einsum_bias_cost osh bq c -> 0 <= c.
Proof.
  destruct bq as [[bsh bq]|]; cbn [einsum_bias_cost widths_ok_bias]; [|intros _ ->; lra].
  intros Hw (bb & Eb & ->). apply qsum_nonneg. intros i _. apply (bits_nonneg _ _ _ Hw Eb).
Qed.
Lemma einsum_bias_le osh bq bq' c c' : wider_bias bq bq' -> einsum_bias_cost osh bq c -> einsum_bias_cost osh bq' c' -> c <= c'.
Proof.
  destruct bq as [[bsh bq]|], bq' as [[bsh' bq']|]; cbn [einsum_bias_cost wider_bias]; try contradiction; [|intros _ -> ->; lra].
  intros [-> Hw] (bb & Eb & ->) (bb' & Eb' & ->). destruct (bits_wider _ _ _ _ Hw Eb) as (b2 & E2 & Hle).
  assert (b2 = bb') by congruence. subst b2. apply qsum_le. intros i _. apply Hle.
Qed.
Lemma bias_fits_wider osh bq bq' : wider_bias bq bq' -> bias_fits osh bq -> bias_fits osh bq'.
Proof. destruct bq as [[bsh bq]|], bq' as [[bsh' bq']|]; cbn; try contradiction; auto. intros [-> _]. auto. Qed.

Lemma einsum_dense_nonneg li lk lo sh ksh osh pf iq kq bq e : NoDup lo -> incl lo (li ++ lk) -> bias_fits osh bq ->
  widths_ok iq -> widths_ok kq -> widths_ok_bias bq ->
  einsum_dense_ebops li lk lo sh ksh osh pf iq kq bq = Some e -> 0 <= e.
Proof.
  intros ND HI HB H1 H2 H3 E. destruct (einsum_dense_spec _ _ _ _ _ _ _ _ _ _ _ ND HI HB E) as (bi & bk & c & Ei & Ek & Hc & He).
  cbv zeta in He. rewrite He. apply scale_nonneg; [|apply dense_factor_nonneg].
  pose proof (einsum_bias_nonneg _ _ _ H3 Hc).
  match goal with |- 0 <= ?s + _ => assert (0 <= s) end; [|lra]. apply qsum_nonneg. intros o _.
  apply cost_nonneg; [apply (bits_nonneg _ _ _ H1 Ei)|apply (bits_nonneg _ _ _ H2 Ek)].
Qed.
Lemma einsum_dense_mono li lk lo sh ksh osh pf iq kq bq iq' kq' bq' e e' : NoDup lo -> incl lo (li ++ lk) -> bias_fits osh bq ->
  widths_ok iq -> widths_ok kq -> wider iq iq' -> wider kq kq' -> wider_bias bq bq' ->
  einsum_dense_ebops li lk lo sh ksh osh pf iq kq bq = Some e -> einsum_dense_ebops li lk lo sh ksh osh pf iq' kq' bq' = Some e' -> e <= e'.
Proof.
  intros ND HI HB H1 H2 W1 W2 W3 E E'. destruct (einsum_dense_spec _ _ _ _ _ _ _ _ _ _ _ ND HI HB E) as (bi & bk & c & Ei & Ek & Hc & He).
  destruct (einsum_dense_spec _ _ _ _ _ _ _ _ _ _ _ ND HI (bias_fits_wider _ _ _ W3 HB) E') as (bi' & bk' & c' & Ei' & Ek' & Hc' & He').
  cbv zeta in He, He'. rewrite He, He'. apply scale_le; [|apply dense_factor_nonneg].
  destruct (bits_wider _ _ _ _ W1 Ei) as (b1 & F1 & L1). assert (b1 = bi') by congruence. subst b1.
  destruct (bits_wider _ _ _ _ W2 Ek) as (b2 & F2 & L2). assert (b2 = bk') by congruence. subst b2.
  pose proof (einsum_bias_le _ _ _ _ _ W3 Hc Hc').
  match goal with |- ?s + _ <= ?t + _ => assert (s <= t) end; [|lra]. apply qsum_le. intros o _.
  apply cost_le; [apply (bits_nonneg _ _ _ H1 Ei)|apply (bits_nonneg _ _ _ H2 Ek)|exact L1|exact L2].
Qed.

(** ** Convolution *)
Definition conv_list (pad : padding) (cs : list cdim) (G gi go : nat) : list (index * nat * mult) :=
  flat_map (fun o => flat_map (fun co => flat_map (fun t => flat_map (fun ci =>
     match c_positions pad cs o t with
     | Some p => [((o, co), (0%nat :: p ++ [co / go * gi + ci]%nat, t ++ [ci; co]))]
     | None => [] end) (seq 0 gi)) (indices (map c_k cs))) (seq 0 (G * go))) (indices (conv_out_shape pad cs)).

Lemma c_positions_spec pad cs : forall o t p, c_positions pad cs o t = Some p ->
  (length o >= length cs)%nat /\ (length t >= length cs)%nat /\ length p = length cs /\
  forall d c, nth_error cs d = Some c -> reads pad c (nth d o 0%nat) (nth d t 0%nat) (nth d p 0%nat).
Proof.
  induction cs as [|c cs IH]; intros o t p; cbn [c_positions].
  - intros E. assert (p = []) by congruence. subst p. cbn. repeat split; try lia. all: destruct d; discriminate.
  - destruct o as [|o1 o], t as [|t1 t]; try discriminate. destruct (c_pos pad c o1 t1) as [p1|] eqn:E1; [|discriminate].
    destruct (c_positions pad cs o t) as [ps|] eqn:E2; [|discriminate]. intros E. assert (p = p1 :: ps) by congruence. subst p.
    destruct (IH _ _ _ E2) as (H1 & H2 & H3 & H4). cbn [length]. split; [lia|]. split; [lia|]. split; [lia|].
    intros [|d] c'; cbn [nth_error nth]; [|apply H4]. intros Ec. assert (c' = c) by congruence. subst c'.
    unfold c_pos in E1. destruct (_ <? c_left pad c)%nat eqn:L1; [discriminate|]. destruct (_ <? c_in c)%nat eqn:L2; [|discriminate].
    apply Nat.ltb_ge in L1. apply Nat.ltb_lt in L2. assert (p1 = (o1 * c_stride c + t1 * c_dil c - c_left pad c)%nat) by congruence.
    split; lia.
Qed.
Lemma c_positions_complete pad cs : forall o t p, length o = length cs -> length t = length cs -> length p = length cs ->
  (forall d c, nth_error cs d = Some c -> reads pad c (nth d o 0%nat) (nth d t 0%nat) (nth d p 0%nat)) ->
  c_positions pad cs o t = Some p.
Proof.
  induction cs as [|c cs IH]; intros [|o1 o] [|t1 t] [|p1 p] H1 H2 H3 H; try discriminate; cbn [c_positions]; [reflexivity|].
  rewrite (IH o t p); cbn [length] in *; try lia.
  - destruct (H 0%nat c eq_refl) as [R1 R2]. cbn [nth] in R1, R2. unfold c_pos.
    assert (L1 : (o1 * c_stride c + t1 * c_dil c <? c_left pad c)%nat = false) by (apply Nat.ltb_ge; lia).
    assert (L2 : (o1 * c_stride c + t1 * c_dil c - c_left pad c <? c_in c)%nat = true) by (apply Nat.ltb_lt; lia).
    rewrite L1, L2. f_equal. f_equal. lia.
  - intros d c' Hd. apply (H (S d) c' Hd).
Qed.

Lemma NoDup_flat_map {A B} (f : A -> list B) (key : B -> A) l : NoDup l -> (forall a, In a l -> NoDup (f a)) ->
  (forall a b, In a l -> In b (f a) -> key b = a) -> NoDup (flat_map f l).
Proof.
  induction l as [|a l IH]; intros ND Hf Hk; cbn [flat_map]; [constructor|].
  inversion ND as [|? ? Hn ND']; subst.
  assert (H1 : NoDup (flat_map f l)) by (apply IH; [exact ND'|intros; apply Hf; right; assumption|intros; apply Hk; [right|]; assumption]).
  assert (H2 : NoDup (f a)) by (apply Hf; left; reflexivity).
  assert (Hd : forall b, In b (f a) -> ~ In b (flat_map f l)).
  { intros b Hb H. apply in_flat_map in H. destruct H as (a' & Ha' & Hb').
    assert (key b = a) by (apply Hk; [left; reflexivity|exact Hb]). assert (key b = a') by (apply Hk; [right; exact Ha'|exact Hb']). congruence. }
  revert H2 Hd. generalize (f a). induction l0 as [|b l0 IHl]; intros H2 Hd; [exact H1|]. cbn [app].
  inversion H2 as [|? ? Hb H2']; subst. constructor.
  - intros H. apply in_app_or in H. destruct H as [H|H]; [auto|]. apply (Hd b); [left; reflexivity|exact H].
  - apply IHl; [exact H2'|]. intros b' Hb'. apply Hd. right. exact Hb'.
Qed.
Lemma NoDup_indices sh : NoDup (indices sh).
Proof.
  induction sh as [|d sh IH]; cbn [indices]; [constructor; [intros []|constructor]|].
  apply (NoDup_flat_map _ (fun i => hd 0%nat i)).
  - apply seq_NoDup.
  - intros a _. apply FinFun.Injective_map_NoDup; [intros x y E; congruence|exact IH].
  - intros a b _ H. apply in_map_iff in H. destruct H as (j & <- & _). reflexivity.
Qed.

Lemma valid_index_map (f : cdim -> nat) cs o : valid_index (map f cs) o <-> Forall2 (fun c oc => (oc < f c)%nat) cs o.
Proof.
  unfold valid_index. revert o. induction cs as [|c cs IH]; intros o; cbn [map]; split; intros H; inversion H; subst; constructor; auto; apply IH; assumption.
Qed.
Lemma snoc2 {A} (t : list A) a b : t ++ [a; b] = (t ++ [a]) ++ [b].
Proof. rewrite <- app_assoc. reflexivity. Qed.

Lemma conv_list_spec pad cs G gi go : conv_mults_spec pad cs G gi go (conv_list pad cs G gi go).
Proof.
  split.
  - unfold conv_list. apply (NoDup_flat_map _ (fun x => fst (fst x))).
    + apply NoDup_indices.
    + intros o Ho. apply (NoDup_flat_map _ (fun x => snd (fst x))).
      * apply seq_NoDup.
      * intros co _. apply (NoDup_flat_map _ (fun x => removelast (removelast (snd (snd x))))).
        -- apply NoDup_indices.
        -- intros t _. apply (NoDup_flat_map _ (fun x => last (removelast (snd (snd x))) 0%nat)).
           ++ apply seq_NoDup.
           ++ intros ci _. destruct (c_positions pad cs o t); constructor; [intros []|constructor].
           ++ intros ci b _ H. destruct (c_positions pad cs o t) as [p|]; [|destruct H]. destruct H as [<-|[]]. cbn [snd].
              rewrite snoc2, removelast_last, last_last. reflexivity.
        -- intros t b _ H. apply in_flat_map in H. destruct H as (ci & _ & H). destruct (c_positions pad cs o t) as [p|]; [|destruct H].
           destruct H as [<-|[]]. cbn [snd]. rewrite snoc2, !removelast_last. reflexivity.
      * intros co b _ H. apply in_flat_map in H. destruct H as (t & _ & H). apply in_flat_map in H. destruct H as (ci & _ & H).
        destruct (c_positions pad cs o t) as [p|]; [|destruct H]. destruct H as [<-|[]]. reflexivity.
    + intros o b _ H. apply in_flat_map in H. destruct H as (co & _ & H). apply in_flat_map in H. destruct H as (t & _ & H).
      apply in_flat_map in H. destruct H as (ci & _ & H). destruct (c_positions pad cs o t) as [p|]; [|destruct H]. destruct H as [<-|[]]. reflexivity.
  - intros o co m. unfold conv_list. rewrite in_flat_map. split.
    + intros (o' & Ho & H). apply in_flat_map in H. destruct H as (co' & Hco & H). apply in_flat_map in H. destruct H as (t & Ht & H).
      apply in_flat_map in H. destruct H as (ci & Hci & H). destruct (c_positions pad cs o' t) as [p|] eqn:Ep; [|destruct H].
      destruct H as [H|[]]. assert (o' = o) by congruence. assert (co' = co) by congruence. subst o' co'.
      apply in_indices in Ho. apply in_indices in Ht. apply in_seq in Hco. apply in_seq in Hci.
      destruct (c_positions_spec _ _ _ _ _ Ep) as (P1 & P2 & P3 & P4).
      unfold conv_out_shape in Ho. apply valid_index_map in Ho. apply valid_index_map in Ht.
      split; [exact Ho|]. split; [lia|]. exists p, t, ci. split; [congruence|]. split; [exact Ht|]. split; [lia|].
      split; [symmetry; apply (Forall2_len _ _ _ Ho)|]. split; [exact P3|exact P4].
    + intros (Ho & Hco & p & t & ci & -> & Ht & Hci & Hl & Hp & HR). exists o. split.
      { apply in_indices. unfold conv_out_shape. apply valid_index_map, Ho. }
      apply in_flat_map. exists co. split; [apply in_seq; lia|]. apply in_flat_map. exists t. split; [apply in_indices, valid_index_map, Ht|].
      apply in_flat_map. exists ci. split; [apply in_seq; lia|].
      rewrite (c_positions_complete pad cs o t p); [left; reflexivity|exact Hl|symmetry; apply (Forall2_len _ _ _ Ht)|exact Hp|exact HR].
Qed.

Lemma map_flat_map {A B C} (g : B -> C) (f : A -> list B) l : map g (flat_map f l) = flat_map (fun a => map g (f a)) l.
Proof. induction l as [|a l IH]; [reflexivity|]. cbn [flat_map]. rewrite map_app, IH. reflexivity. Qed.

Lemma conv_cost pad cs G gi go bx bk :
  qsum (flat_map (fun o => map (fun co => conv 0 Qplus Qmult pad cs gi go bx bk o co) (seq 0 (G * go))) (indices (conv_out_shape pad cs)))
  == cost bx bk (map snd (conv_list pad cs G gi go)).
Proof.
  unfold conv_list. rewrite map_flat_map, cost_flat_map, qsum_flat_map. apply qsum_ext. intros o _.
  rewrite map_flat_map, cost_flat_map. apply qsum_ext. intros co _. unfold conv. cq. rewrite qsum_flat_map, map_flat_map, cost_flat_map.
  apply qsum_ext. intros t _. rewrite map_flat_map, cost_flat_map. apply qsum_ext. intros ci _.
  destruct (c_positions pad cs o t) as [p|]; cbn [map snd].
  - unfold cost. symmetry. exact (qsum_single_map (_, _) (fun m => bx (fst m) * bk (snd m))).
  - reflexivity.
Qed.

(** uniqueness: the cost does not depend on which list satisfies the specification *)
Lemma conv_spec_unique pad cs G gi go l l' bx bk : conv_mults_spec pad cs G gi go l -> conv_mults_spec pad cs G gi go l' ->
  cost bx bk (map snd l) == cost bx bk (map snd l').
Proof.
  intros [N1 H1] [N2 H2]. unfold cost. apply qsum_perm. apply Permutation_map, Permutation_map, NoDup_Permutation; [exact N1|exact N2|].
  intros [[o co] m]. rewrite H1, H2. reflexivity.
Qed.

Lemma conv_ebops_spec pad cs G gi go pf iq kq bq e l : conv_mults_spec pad cs G gi go l ->
  conv_ebops pad cs G gi go pf iq kq bq = Some e ->
  exists bi bk c, bits_ iq (1%nat :: map c_in cs ++ [G * gi]%nat) = Some bi /\ bits_ kq (map c_k cs ++ [gi; G * go]%nat) = Some bk /\
    match bq with None => c == 0 | Some bq => exists bb, bits_ bq [G * go]%nat = Some bb /\ c == tmean bb * nQ (nprod (map c_in cs) * (G * go)) end /\
    e == cost (at_ bi) (at_ bk) (map snd l) * (conv_factor pf (conv_n_parallel pad cs) / nQ (conv_n_parallel pad cs)) + c.
Proof.
  intros HL. unfold conv_ebops. destruct (bits_ iq _) as [bi|] eqn:Ei; [|discriminate]. cbn [bind].
  destruct (bits_ kq _) as [bk|] eqn:Ek; [|discriminate]. cbn [bind].
  assert (HC := conv_cost pad cs G gi go (at_ bi) (at_ bk)).
  rewrite (conv_spec_unique _ _ _ _ _ _ _ _ _ (conv_list_spec pad cs G gi go) HL) in HC.
  destruct bq as [bq|].
  - destruct (bits_ bq _) as [bb|] eqn:Eb; [|discriminate]. cbn [bind]. intros E.
    match type of E with Some ?x = _ => assert (E' : e = x) by congruence end.
    exists bi, bk, (tmean bb * nQ (nprod (map c_in cs) * (G * go))). split; [reflexivity|]. split; [reflexivity|]. split.
    + exists bb. split; [reflexivity|reflexivity].
    + rewrite E', HC. 
      assert (Hsh : nprod (removelast (1%nat :: map c_in cs ++ [G * gi]%nat)) = nprod (map c_in cs)).
      { change (1%nat :: map c_in cs ++ [G * gi]%nat) with ((1%nat :: map c_in cs) ++ [G * gi]%nat). rewrite removelast_last. apply Nat.mul_1_l. }
      rewrite Hsh. reflexivity.
  - cbn [bind]. intros E. match type of E with Some ?x = _ => assert (E' : e = x) by congruence end.
    exists bi, bk, 0. split; [reflexivity|]. split; [reflexivity|]. split; [reflexivity|]. rewrite E', HC, Qplus_0_r. reflexivity.
Qed.

Lemma ratio_nonneg pf n : 0 <= conv_factor pf n / nQ n.
Proof. pose proof (scale_nonneg 1 (conv_factor pf n) n) as H. unfold Qdiv in *. pose proof (conv_factor_nonneg pf n).
  assert (H1 : 0 <= 1 * conv_factor pf n * / nQ n) by (apply H; lra). rewrite Qmult_1_l in H1. exact H1. Qed.
Lemma conv_ebops_nonneg pad cs G gi go pf iq kq bq e : widths_ok iq -> widths_ok kq -> widths_ok_opt bq ->
  conv_ebops pad cs G gi go pf iq kq bq = Some e -> 0 <= e.
Proof.
  intros H1 H2 H3 E. destruct (conv_ebops_spec _ _ _ _ _ _ _ _ _ _ _ (conv_list_spec pad cs G gi go) E) as (bi & bk & c & Ei & Ek & Hc & He).
  rewrite He.
  pose proof (cost_nonneg (at_ bi) (at_ bk) (map snd (conv_list pad cs G gi go)) (bits_nonneg _ _ _ H1 Ei) (bits_nonneg _ _ _ H2 Ek)) as Hm.
  assert (0 <= c).
  { destruct bq as [bq|]; [|rewrite Hc; lra]. destruct Hc as (bb & Eb & ->).
    apply Qmult_le_0_compat; [apply tmean_nonneg; intros i; apply (bits_nonneg _ _ _ H3 Eb)|apply nQ_nonneg]. }
  pose proof (Qmult_le_0_compat _ _ Hm (ratio_nonneg pf (conv_n_parallel pad cs))). lra.
Qed.
Lemma conv_ebops_mono pad cs G gi go pf iq kq bq iq' kq' bq' e e' : widths_ok iq -> widths_ok kq ->
  wider iq iq' -> wider kq kq' -> wider_opt bq bq' ->
  conv_ebops pad cs G gi go pf iq kq bq = Some e -> conv_ebops pad cs G gi go pf iq' kq' bq' = Some e' -> e <= e'.
Proof.
  intros H1 H2 W1 W2 W3 E E'.
  destruct (conv_ebops_spec _ _ _ _ _ _ _ _ _ _ _ (conv_list_spec pad cs G gi go) E) as (bi & bk & c & Ei & Ek & Hc & He).
  destruct (conv_ebops_spec _ _ _ _ _ _ _ _ _ _ _ (conv_list_spec pad cs G gi go) E') as (bi' & bk' & c' & Ei' & Ek' & Hc' & He').
  rewrite He, He'.
  destruct (bits_wider _ _ _ _ W1 Ei) as (b1 & F1 & L1). assert (b1 = bi') by congruence. subst b1.
  destruct (bits_wider _ _ _ _ W2 Ek) as (b2 & F2 & L2). assert (b2 = bk') by congruence. subst b2.
  pose proof (cost_le (at_ bi) (at_ bk) (at_ bi') (at_ bk') (map snd (conv_list pad cs G gi go)) (bits_nonneg _ _ _ H1 Ei) (bits_nonneg _ _ _ H2 Ek) L1 L2) as Hm.
  assert (Hcc : c <= c').
  { destruct bq as [bq|], bq' as [bq'|]; cbn [wider_opt] in W3; try contradiction; [|rewrite Hc, Hc'; lra].
    destruct Hc as (bb & Eb & ->). destruct Hc' as (bb' & Eb' & ->).
    destruct (bits_wider _ _ _ _ W3 Eb) as (b3 & F3 & L3). assert (b3 = bb') by congruence. subst b3.
    apply Qmult_le_compat_r; [|apply nQ_nonneg]. apply tmean_le; [|exact L3].
    rewrite (proj1 (bits_at _ _ _ Eb)), (proj1 (bits_at _ _ _ Eb')). reflexivity. }
  pose proof (Qmult_le_compat_r _ _ _ Hm (ratio_nonneg pf (conv_n_parallel pad cs))). lra.
Qed.

(** ** The parallelization factor *)
Lemma dense_ebops_pf sh units pf iq kq bq e : dense_ebops sh units pf iq kq bq = Some e ->
  forall pf', exists e', dense_ebops sh units pf' iq kq bq = Some e' /\
    (e' * factor_of pf (dense_n_parallel sh) == e * factor_of pf' (dense_n_parallel sh)).
Proof.
  unfold dense_ebops. destruct (bits_ iq sh) as [bi|]; [|discriminate]. cbn [bind]. destruct (bits_ kq _) as [bk|]; [|discriminate]. cbn [bind].
  destruct bq as [bq|]; [destruct (bits_ bq [units]) as [bb|]; [|discriminate]|]; cbn [bind]; intros E pf';
    match type of E with Some ?x = _ => assert (E' : e = x) by congruence end; eexists; (split; [reflexivity|]); rewrite E', !factor_eq; unfold Qdiv; ring.
Qed.
Lemma dense_linear sh units p iq kq bq full : (0 < dense_n_parallel sh)%nat -> (0 <= p)%Z ->
  dense_ebops sh units (-1) iq kq bq = Some full ->
  exists e, dense_ebops sh units p iq kq bq = Some e /\ e == inject_Z p / nQ (dense_n_parallel sh) * full.
Proof.
  intros Hn Hp E. destruct (dense_ebops_pf _ _ _ _ _ _ _ E p) as (e & Ee & Hl). exists e. split; [exact Ee|].
  unfold factor_of in Hl. change (-1 <? 0)%Z with true in Hl. cbn iota in Hl.
  assert (Hp' : (p <? 0)%Z = false) by (apply Z.ltb_ge; lia). rewrite Hp' in Hl.
  pose proof (nQ_pos _ Hn). apply (Qmult_inj_r _ _ (nQ (dense_n_parallel sh))); [lra|]. rewrite Hl. field. lra.
Qed.
Lemma einsum_linear li lk lo sh ksh osh p iq kq bq full : (0 < einsum_n_parallel li lk lo sh)%nat -> (0 <= p)%Z ->
  einsum_dense_ebops li lk lo sh ksh osh (-1) iq kq bq = Some full ->
  exists e, einsum_dense_ebops li lk lo sh ksh osh p iq kq bq = Some e /\ e == inject_Z p / nQ (einsum_n_parallel li lk lo sh) * full.
Proof.
  intros Hn Hp. unfold einsum_dense_ebops. destruct (bits_ iq sh) as [bi|]; [|discriminate]. cbn [bind]. destruct (bits_ kq _) as [bk|]; [|discriminate]. cbn [bind].
  assert (Hp' : (p <? 0)%Z = false) by (apply Z.ltb_ge; lia). pose proof (nQ_pos _ Hn).
  destruct bq as [[bsh bq]|]; [destruct (bits_ bq bsh) as [bb|]; [|discriminate]|]; cbn [bind]; intros E;
    match type of E with Some ?x = _ => assert (E' : full = x) by congruence end; eexists; (split; [reflexivity|]);
    rewrite E', !factor_eq; unfold factor_of; rewrite Hp'; change (-1 <? 0)%Z with true; cbn iota; field; lra.
Qed.
Lemma conv_linear_nobias pad cs G gi go p iq kq full : (0 < conv_n_parallel pad cs)%nat -> (0 < p)%Z ->
  conv_ebops pad cs G gi go (-1) iq kq None = Some full ->
  exists e, conv_ebops pad cs G gi go p iq kq None = Some e /\ e == inject_Z p / nQ (conv_n_parallel pad cs) * full.
Proof.
  intros Hn Hp. unfold conv_ebops. destruct (bits_ iq _) as [bi|]; [|discriminate]. cbn [bind]. destruct (bits_ kq _) as [bk|]; [|discriminate]. cbn [bind].
  assert (Hp' : (p <=? 0)%Z = false) by (apply Z.leb_gt; lia). pose proof (nQ_pos _ Hn).
  intros E. match type of E with Some ?x = _ => assert (E' : full = x) by congruence end; eexists; (split; [reflexivity|]);
    rewrite E', !conv_factor_eq; unfold factor_of_conv; rewrite Hp'; change (-1 <=? 0)%Z with true; cbn iota; field; lra.
Qed.

(** the widths of one application of the dense layer *)
Lemma dense_reuse sh units p iq kq e bi bk l0 : (0 < units)%nat -> (0 < dense_n_parallel sh)%nat -> (0 <= p)%Z ->
  hd 0%nat sh = 1%nat -> (2 <= length sh)%nat ->
  bits_ iq sh = Some bi -> bits_ kq [last sh 0%nat; units] = Some bk ->
  valid_index (removelast sh) l0 ->
  (forall l i, valid_index (removelast sh) l -> (i < last sh 0%nat)%nat -> at_ bi (l ++ [i]) == at_ bi (l0 ++ [i])) ->
  dense_ebops sh units p iq kq None = Some e ->
  e == inject_Z p * cost (at_ bi) (at_ bk) (flat_map (fun j => map (fun i => (l0 ++ [i], [i; j])) (seq 0 (last sh 0%nat))) (seq 0 units)).
Proof.
  intros Hu Hn Hp H1 Hl Ei Ek Hv Heq E. destruct (dense_ebops_spec _ _ _ _ _ _ _ Hu E) as (bi' & bk' & c & Ei' & Ek' & Hc & He).
  assert (bi' = bi) by congruence. assert (bk' = bk) by congruence. subst bi' bk'. cbn in Hc. rewrite He, Hc, Qplus_0_r.
  unfold dense_mults. rewrite cost_flat_map.
  set (one := cost _ _ (flat_map (fun j => map (fun i => (l0 ++ [i], [i; j])) _) _)).
  rewrite (qsum_ext _ (fun _ => one)).
  2:{ intros l Hin. apply in_indices in Hin. unfold one. rewrite !cost_flat_map. apply qsum_ext. intros j _. rewrite !cost_map. apply qsum_ext.
      intros i Hi. apply in_seq in Hi. cbn [fst snd]. rewrite (Heq l i Hin) by lia. reflexivity. }
  rewrite qsum_const, length_indices, factor_eq. unfold factor_of. assert (Hp' : (p <? 0)%Z = false) by (apply Z.ltb_ge; lia). rewrite Hp'.
  assert (Hpar : nprod (removelast sh) = dense_n_parallel sh).
  { unfold dense_n_parallel. destruct sh as [|a [|b sh]]; cbn [length] in Hl; try lia. cbn [hd] in H1. subst a.
    change (tl (1%nat :: b :: sh)) with (b :: sh). change (removelast (1%nat :: b :: sh)) with (1%nat :: removelast (b :: sh)).
    apply Nat.mul_1_l. }
  rewrite Hpar. pose proof (nQ_pos _ Hn). field. lra.
Qed.

(** ** Elementwise layers *)
Lemma qmin_list_le d l : qmin_list d l <= d /\ forall x, In x l -> qmin_list d l <= x.
Proof.
  unfold qmin_list. revert d. induction l as [|y l IH]; intros d; cbn [fold_left]; [split; [apply Qle_refl|intros x []]|].
  destruct (IH (Qmin d y)) as [H1 H2]. pose proof (Q.le_min_l d y). pose proof (Q.le_min_r d y). split; [lra|].
  intros x [<-|Hx]; [lra|apply H2, Hx].
Qed.
Lemma qmin_list_in d l : qmin_list d l == d \/ exists x, In x l /\ qmin_list d l == x.
Proof.
  unfold qmin_list. revert d. induction l as [|y l IH]; intros d; cbn [fold_left]; [left; reflexivity|].
  destruct (IH (Qmin d y)) as [H|(x & Hx & H)].
  - destruct (Q.min_spec d y) as [[_ E]|[_ E]].
    + left. rewrite H. exact E.
    + right. exists y. split; [left; reflexivity|]. rewrite H. exact E.
  - right. exists x. split; [right; exact Hx|exact H].
Qed.
Lemma fold_plus l : forall a, fold_left Qplus l a == a + qsum l.
Proof. induction l as [|x l IH]; intros a; cbn [fold_left]; [change (a == a + 0); lra|]. rewrite IH, qsum_cons. lra. Qed.

(** sum minus minimum: non negative and monotone *)
Lemma smm_nonneg a l : 0 <= a -> (forall x, In x l -> 0 <= x) -> 0 <= qsum (a :: l) - qmin_list a l.
Proof.
  intros Ha Hl. destruct (qmin_list_le a l) as [H _]. rewrite qsum_cons.
  assert (0 <= qsum l). { rewrite <- (map_id l). apply qsum_nonneg. exact Hl. } lra.
Qed.
Lemma qsum_F2 l l' : Forall2 Qle l l' -> qsum l <= qsum l'.
Proof. induction 1 as [|x y l l' H F IH]; [apply Qle_refl|]. rewrite !qsum_cons. lra. Qed.
Lemma qsum_F2_in l l' x : Forall2 Qle l l' -> In x l -> exists y, In y l' /\ qsum l - x <= qsum l' - y.
Proof.
  induction 1 as [|a b l l' H F IH]; [intros []|]. intros [<-|Hx].
  - exists b. split; [left; reflexivity|]. rewrite !qsum_cons. pose proof (qsum_F2 _ _ F). lra.
  - destruct (IH Hx) as (y & Hy & Hle). exists y. split; [right; exact Hy|]. rewrite !qsum_cons. lra.
Qed.
Lemma smm_mono a l a' l' : a <= a' -> Forall2 Qle l l' -> qsum (a :: l) - qmin_list a l <= qsum (a' :: l') - qmin_list a' l'.
Proof.
  intros Ha Hl. assert (HF : Forall2 Qle (a :: l) (a' :: l')) by (constructor; assumption).
  assert (Hm : exists x, In x (a :: l) /\ qmin_list a l == x).
  { destruct (qmin_list_in a l) as [E|(x & Hx & E)]; [exists a; split; [left; reflexivity|exact E]|exists x; split; [right; exact Hx|exact E]]. }
  destruct Hm as (x & Hx & E). destruct (qsum_F2_in _ _ _ HF Hx) as (y & Hy & Hle).
  assert (Hmin : qmin_list a' l' <= y). { destruct (qmin_list_le a' l') as [H1 H2]. destruct Hy as [<-|Hy]; [exact H1|apply H2, Hy]. }
  rewrite E. lra.
Qed.

Lemma all_bits_spec iqs sh : forall bs, all_bits iqs sh = Some bs -> Forall2 (fun q b => bits_ q sh = Some b) iqs bs.
Proof.
  induction iqs as [|q iqs IH]; intros bs; cbn [all_bits]; [intros E; assert (bs = []) by congruence; subst; constructor|].
  destruct (bits_ q sh) as [b|] eqn:Eb; [|discriminate]. cbn [bind]. destruct (all_bits iqs sh) as [bs'|]; [|discriminate]. cbn [bind].
  intros E. assert (bs = b :: bs') by congruence. subst. constructor; [exact Eb|apply IH; reflexivity].
Qed.
Lemma all_bits_nonneg iqs sh bs : Forall widths_ok iqs -> all_bits iqs sh = Some bs -> forall b i, In b bs -> 0 <= at_ b i.
Proof.
  intros HW E. apply all_bits_spec in E. induction E as [|q b iqs bs Eb F IH]; intros b' i; [intros []|].
  inversion HW; subst. intros [<-|Hb]; [eapply bits_nonneg; eassumption|apply IH; assumption].
Qed.
Lemma all_bits_wider iqs iqs' sh bs bs' : wider_list iqs iqs' -> all_bits iqs sh = Some bs -> all_bits iqs' sh = Some bs' ->
  Forall2 (fun b b' => forall i, at_ b i <= at_ b' i) bs bs'.
Proof.
  intros HW E E'. apply all_bits_spec in E. apply all_bits_spec in E'. revert bs bs' E E'.
  induction HW as [|q q' l l' W F IH]; intros bs bs' E E'; inversion E; inversion E'; subst; constructor.
  - match goal with H : bits_ q sh = Some _ |- _ => destruct (bits_wider _ _ _ _ W H) as (b2 & E2 & L2) end.
    intros i. specialize (L2 i). congruence.
  - apply IH; assumption.
Qed.

Lemma excl_max_form sh iqs e : excl_max_ebops sh iqs = Some e ->
  exists b0 rest, all_bits iqs sh = Some (b0 :: rest) /\
    e == qsum (map (fun i => qsum (at_ b0 i :: map (fun b => at_ b i) rest) - qmin_list (at_ b0 i) (map (fun b => at_ b i) rest)) (indices sh)).
Proof.
  unfold excl_max_ebops. destruct (all_bits iqs sh) as [[|b0 rest]|]; cbn [bind]; try discriminate. intros E.
  match type of E with Some ?x = _ => assert (E' : e = x) by congruence end. exists b0, rest. split; [reflexivity|]. rewrite E'.
  unfold Qminus. rewrite qsum_plus.
  rewrite (qsum_ext (fun i => fold_left Qplus (map (fun b => at_ b i) (b0 :: rest)) 0) (fun i => qsum (at_ b0 i :: map (fun b => at_ b i) rest))).
  2:{ intros i _. rewrite fold_plus. cbn [map]. lra. }
  apply Qplus_inj_l.
  rewrite (qsum_ext (fun i => - qmin_list (at_ b0 i) (map (fun b => at_ b i) rest)) (fun i => (-(1)) * qmin_list (at_ b0 i) (map (fun b => at_ b i) rest))) by (intros; lra).
  rewrite qsum_scale. lra.
Qed.
Lemma excl_max_nonneg sh iqs e : Forall widths_ok iqs -> excl_max_ebops sh iqs = Some e -> 0 <= e.
Proof.
  intros HW E. destruct (excl_max_form _ _ _ E) as (b0 & rest & Eb & ->). apply qsum_nonneg. intros i _. apply smm_nonneg.
  - apply (all_bits_nonneg _ _ _ HW Eb). left. reflexivity.
  - intros x Hx. apply in_map_iff in Hx. destruct Hx as (b & <- & Hb). apply (all_bits_nonneg _ _ _ HW Eb). right. exact Hb.
Qed.
Lemma excl_max_mono sh iqs iqs' e e' : wider_list iqs iqs' -> excl_max_ebops sh iqs = Some e -> excl_max_ebops sh iqs' = Some e' -> e <= e'.
Proof.
  intros HW E E'. destruct (excl_max_form _ _ _ E) as (b0 & rest & Eb & ->). destruct (excl_max_form _ _ _ E') as (b0' & rest' & Eb' & ->).
  pose proof (all_bits_wider _ _ _ _ _ HW Eb Eb') as F. inversion F as [|? ? ? ? F0 F1]; subst. apply qsum_le. intros i _. apply smm_mono; [apply F0|].
  clear -F1. induction F1 as [|b b' l l' H F IH]; constructor; [apply H|exact IH].
Qed.

(** QSum: group the elements by the reduced axes *)
Lemma qsum_partition {A} (key : A -> index) (f : A -> Q) (l : list A) (gs : list index) : NoDup gs ->
  (forall a, In a l -> In (key a) gs) ->
  qsum (map f l) == qsum (map (fun g => qsum (map f (filter (fun a => index_eqb (key a) g) l))) gs).
Proof.
  intros ND. induction l as [|a l IH]; intros Hk.
  - cbn [filter map]. rewrite qsum_const. change (qsum []) with 0. lra.
  - cbn [map]. rewrite qsum_cons, IH by (intros; apply Hk; right; assumption).
    assert (Hone : qsum (map (fun g => if index_eqb (key a) g then f a else 0) gs) == f a).
    { assert (Ha : In (key a) gs) by (apply Hk; left; reflexivity). clear -ND Ha. induction gs as [|g gs IH]; [destruct Ha|].
      inversion ND as [|? ? Hn ND']; subst. cbn [map]. rewrite qsum_cons. unfold index_eqb at 1. destruct (list_eq_dec Nat.eq_dec (key a) g) as [E|E].
      - rewrite (qsum_ext _ (fun _ => 0) gs).
        + rewrite qsum_const. lra.
        + intros g' Hg'. unfold index_eqb. destruct (list_eq_dec _ _ _); [congruence|reflexivity].
      - destruct Ha as [Ha|Ha]; [congruence|]. rewrite IH by assumption. lra. }
    rewrite <- Hone at 1. rewrite <- qsum_plus. apply qsum_ext. intros g _. cbn [filter].
    destruct (index_eqb (key a) g); cbn [map]; [rewrite qsum_cons; reflexivity|lra].
Qed.
Lemma keep_valid hom : forall sh a idx, valid_index sh idx -> valid_index (keep_shape_from a hom sh) (keep_from a hom idx).
Proof.
  induction sh as [|d sh IH]; intros a idx H; inversion H; subst; cbn [keep_shape_from keep_from]; constructor; [|apply IH; assumption].
  destruct (memb a hom); lia.
Qed.
Definition min_of (l : list Q) : Q := match l with [] => 0 | x :: l' => qmin_list x l' end.
Lemma sum_form axes sh iq e : sum_ebops axes sh iq = Some e -> exists b, bits_ iq sh = Some b /\
  e == qsum (map (fun g => qsum (collect axes b g) - min_of (collect axes b g)) (indices (keep_shape_from 0 axes sh))) * (65 # 100).
Proof.
  unfold sum_ebops. destruct (bits_ iq sh) as [b|] eqn:Eb; [|discriminate]. cbn [bind]. intros E.
  match type of E with Some ?x = _ => assert (E' : e = x) by congruence end. exists b. split; [reflexivity|]. rewrite E'.
  destruct (bits_at _ _ _ Eb) as [Hs _]. apply Qmult_inj_r; [discriminate|].
  unfold tsum at 1. rewrite (qsum_partition (keep axes) (at_ b) (indices (shape b)) (indices (keep_shape_from 0 axes sh)) (NoDup_indices _)).
  2:{ intros a Ha. apply in_indices. apply in_indices in Ha. apply keep_valid. rewrite <- Hs. exact Ha. }
  unfold tsum, min_over, reduce_keep. cbn [shape at_]. rewrite Hs.
  unfold Qminus. rewrite qsum_plus. unfold collect. rewrite Hs. apply Qplus_inj_l.
  set (m := fun g : index => min_of (map (at_ b) (filter (fun idx => index_eqb (keep axes idx) g) (indices sh)))).
  transitivity (- qsum (map m (indices (keep_shape_from 0 axes sh)))); [reflexivity|].
  transitivity (qsum (map (fun g => - m g) (indices (keep_shape_from 0 axes sh)))); [|reflexivity].
  rewrite (qsum_ext (fun g => - m g) (fun g => (-(1)) * m g)) by (intros; lra). rewrite qsum_scale. lra.
Qed.
Lemma collect_le hom b b' g : shape b = shape b' -> (forall i, at_ b i <= at_ b' i) -> Forall2 Qle (collect hom b g) (collect hom b' g).
Proof. intros E H. unfold collect. rewrite E. induction (filter _ _); constructor; auto. Qed.
Lemma sum_ebops_nonneg axes sh iq e : widths_ok iq -> sum_ebops axes sh iq = Some e -> 0 <= e.
Proof.
  intros HW E. destruct (sum_form _ _ _ _ E) as (b & Eb & ->). apply Qmult_le_0_compat; [|discriminate]. apply qsum_nonneg. intros g _.
  assert (Hc : forall x, In x (collect axes b g) -> 0 <= x).
  { intros x Hx. unfold collect in Hx. apply in_map_iff in Hx. destruct Hx as (i & <- & _). apply (bits_nonneg _ _ _ HW Eb). }
  destruct (collect axes b g) as [|x l]; [cbn; discriminate|]. apply smm_nonneg; [apply Hc; left; reflexivity|intros; apply Hc; right; assumption].
Qed.
Lemma sum_ebops_mono axes sh iq iq' e e' : wider iq iq' -> sum_ebops axes sh iq = Some e -> sum_ebops axes sh iq' = Some e' -> e <= e'.
Proof.
  intros HW E E'. destruct (sum_form _ _ _ _ E) as (b & Eb & ->). destruct (sum_form _ _ _ _ E') as (b' & Eb' & ->).
  destruct (bits_wider _ _ _ _ HW Eb) as (b2 & E2 & L2). assert (b2 = b') by congruence. subst b2.
  apply Qmult_le_compat_r; [|discriminate]. apply qsum_le. intros g _.
  assert (HF : Forall2 Qle (collect axes b g) (collect axes b' g)).
  { apply collect_le; [|exact L2]. rewrite (proj1 (bits_at _ _ _ Eb)), (proj1 (bits_at _ _ _ Eb')). reflexivity. }
  inversion HF as [|x y l l' Hx Hl]; [lra|]. cbn [min_of]. apply smm_mono; assumption.
Qed.

Lemma subtract_nonneg sh q0 q1 e : widths_ok q0 -> subtract_ebops sh q0 q1 = Some e -> 0 <= e.
Proof.
  intros HW. unfold subtract_ebops. destruct (bits_ q0 sh) as [b0|] eqn:E0; [|discriminate]. cbn [bind]. destruct (bits_ q1 sh) as [b1|]; [|discriminate]. cbn [bind].
  intros E. match type of E with Some ?x = _ => assert (E' : e = x) by congruence end. rewrite E'. apply qsum_nonneg. intros i _.
  pose proof (bits_nonneg _ _ _ HW E0 i). pose proof (Q.le_max_l (at_ b0 i) (at_ b1 i)). lra.
Qed.
Lemma subtract_mono sh q0 q1 q0' q1' e e' : wider q0 q0' -> wider q1 q1' ->
  subtract_ebops sh q0 q1 = Some e -> subtract_ebops sh q0' q1' = Some e' -> e <= e'.
Proof.
  intros W0 W1. unfold subtract_ebops. destruct (bits_ q0 sh) as [b0|] eqn:E0; [|discriminate]. cbn [bind]. destruct (bits_ q1 sh) as [b1|] eqn:E1; [|discriminate]. cbn [bind].
  destruct (bits_wider _ _ _ _ W0 E0) as (c0 & F0 & L0). destruct (bits_wider _ _ _ _ W1 E1) as (c1 & F1 & L1). rewrite F0, F1. cbn [bind].
  intros E E'. match type of E with Some ?x = _ => assert (G : e = x) by congruence end. match type of E' with Some ?x = _ => assert (G' : e' = x) by congruence end.
  rewrite G, G'. apply qsum_le. intros i _. apply Q.max_le_compat; auto.
Qed.
Lemma fold_mult_nonneg l : forall a, 0 <= a -> (forall x, In x l -> 0 <= x) -> 0 <= fold_left Qmult l a.
Proof.
  induction l as [|x l IH]; intros a Ha Hl; cbn [fold_left]; [exact Ha|]. apply IH; [|intros; apply Hl; right; assumption].
  apply Qmult_le_0_compat; [exact Ha|apply Hl; left; reflexivity].
Qed.
Lemma fold_mult_mono l l' : Forall2 (fun x y => 0 <= x /\ x <= y) l l' -> forall a a', 0 <= a -> a <= a' -> fold_left Qmult l a <= fold_left Qmult l' a'.
Proof.
  induction 1 as [|x y l l' [Hx Hxy] F IH]; intros a a' Ha Haa; cbn [fold_left]; [exact Haa|]. apply IH; nra.
Qed.
Lemma multiply_nonneg sh iqs e : Forall widths_ok iqs -> multiply_ebops sh iqs = Some e -> 0 <= e.
Proof.
  intros HW. unfold multiply_ebops. destruct (all_bits iqs sh) as [[|b0 rest]|] eqn:Eb; cbn [bind]; try discriminate. intros E.
  match type of E with Some ?x = _ => assert (E' : e = x) by congruence end. rewrite E'. apply qsum_nonneg. intros i _. apply fold_mult_nonneg.
  - apply (all_bits_nonneg _ _ _ HW Eb). left. reflexivity.
  - intros x Hx. apply in_map_iff in Hx. destruct Hx as (b & <- & Hb). apply (all_bits_nonneg _ _ _ HW Eb). right. exact Hb.
Qed.
Lemma multiply_mono sh iqs iqs' e e' : Forall widths_ok iqs -> wider_list iqs iqs' -> multiply_ebops sh iqs = Some e -> multiply_ebops sh iqs' = Some e' -> e <= e'.
Proof.
  intros HO HW. unfold multiply_ebops. destruct (all_bits iqs sh) as [[|b0 rest]|] eqn:Eb; cbn [bind]; try discriminate.
  destruct (all_bits iqs' sh) as [[|b0' rest']|] eqn:Eb'; cbn [bind]; try discriminate. intros E E'.
  match type of E with Some ?x = _ => assert (G : e = x) by congruence end. match type of E' with Some ?x = _ => assert (G' : e' = x) by congruence end.
  rewrite G, G'. pose proof (all_bits_wider _ _ _ _ _ HW Eb Eb') as F. inversion F as [|? ? ? ? F0 F1]; subst.
  assert (HN := all_bits_nonneg _ _ _ HO Eb). apply qsum_le. intros i _. apply fold_mult_mono.
  - assert (HN' : forall b, In b rest -> 0 <= at_ b i) by (intros b Hb; apply HN; right; exact Hb).
    clear -F1 HN'. induction F1 as [|b b' l l' H F IH]; cbn [map]; constructor.
    + split; [apply HN'; left; reflexivity|apply H].
    + apply IH. intros b2 Hb2. apply HN'. right. exact Hb2.
  - apply HN. left. reflexivity.
  - apply F0.
Qed.
Lemma pool_nonneg sh osp pf iq e : widths_ok iq -> pool_ebops sh osp pf iq = Some e -> 0 <= e.
Proof.
  intros HW. unfold pool_ebops. destruct (bits_ iq sh) as [b|] eqn:Eb; [|discriminate]. cbn [bind]. intros E.
  match type of E with Some ?x = _ => assert (E' : e = x) by congruence end. rewrite E'. apply scale_nonneg; [|apply conv_factor_nonneg].
  apply tsum_nonneg, (bits_nonneg _ _ _ HW Eb).
Qed.
Lemma pool_mono sh osp pf iq iq' e e' : wider iq iq' -> pool_ebops sh osp pf iq = Some e -> pool_ebops sh osp pf iq' = Some e' -> e <= e'.
Proof.
  intros HW. unfold pool_ebops. destruct (bits_ iq sh) as [b|] eqn:Eb; [|discriminate]. cbn [bind].
  destruct (bits_wider _ _ _ _ HW Eb) as (c & F & L). rewrite F. cbn [bind]. intros E E'.
  match type of E with Some ?x = _ => assert (G : e = x) by congruence end. match type of E' with Some ?x = _ => assert (G' : e' = x) by congruence end.
  rewrite G, G'. apply scale_le; [|apply conv_factor_nonneg]. apply tsum_le; [|exact L].
  rewrite (proj1 (bits_at _ _ _ Eb)), (proj1 (bits_at _ _ _ F)). reflexivity.
Qed.
Lemma lut_nonneg sh iq oq e : widths_ok oq -> lut_ebops sh iq oq = Some e -> 0 <= e.
Proof.
  intros HW. unfold lut_ebops. destruct (bits_ iq sh) as [b|]; [|discriminate]. cbn [bind]. destruct (bits_ oq sh) as [c|] eqn:Ec; [|discriminate]. cbn [bind].
  intros E. match type of E with Some ?x = _ => assert (E' : e = x) by congruence end. rewrite E'. apply Qmult_le_0_compat; [|discriminate].
  apply qsum_nonneg. intros i _. apply Qmult_le_0_compat; [pose proof (pow2_pos (Qfloor (at_ b i))); lra|apply (bits_nonneg _ _ _ HW Ec)].
Qed.
Lemma lut_mono sh iq oq iq' oq' e e' : widths_ok oq -> wider iq iq' -> wider oq oq' -> lut_ebops sh iq oq = Some e -> lut_ebops sh iq' oq' = Some e' -> e <= e'.
Proof.
  intros HW W1 W2. unfold lut_ebops. destruct (bits_ iq sh) as [b|] eqn:Eb; [|discriminate]. cbn [bind]. destruct (bits_ oq sh) as [c|] eqn:Ec; [|discriminate]. cbn [bind].
  destruct (bits_wider _ _ _ _ W1 Eb) as (b' & F1 & L1). destruct (bits_wider _ _ _ _ W2 Ec) as (c' & F2 & L2). rewrite F1, F2. cbn [bind].
  intros E E'. match type of E with Some ?x = _ => assert (G : e = x) by congruence end. match type of E' with Some ?x = _ => assert (G' : e' = x) by congruence end.
  rewrite G, G'. apply Qmult_le_compat_r; [|discriminate]. apply qsum_le. intros i _.
  pose proof (bits_nonneg _ _ _ HW Ec i). pose proof (pow2_pos (Qfloor (at_ b i))). pose proof (L2 i).
  assert (pow2 (Qfloor (at_ b i)) <= pow2 (Qfloor (at_ b' i))) by (apply pow2_le, floor_mono, L1). nra.
Qed.
Lemma bn_nonneg sh axis iq kq bq e : widths_ok iq -> widths_ok kq -> widths_ok bq -> bn_ebops sh axis iq kq bq = Some e -> 0 <= e.
Proof.
  intros H1 H2 H3. unfold bn_ebops. destruct (bits_ iq sh) as [b|] eqn:Eb; [|discriminate]. cbn [bind].
  destruct (bits_ kq _) as [k|] eqn:Ek; [|discriminate]. cbn [bind]. destruct (bits_ bq _) as [c|] eqn:Ec; [|discriminate]. cbn [bind].
  intros E. match type of E with Some ?x = _ => assert (E' : e = x) by congruence end. rewrite E'.
  match goal with |- 0 <= ?s + ?t => assert (0 <= s /\ 0 <= t) end; [split|lra].
  - apply qsum_nonneg. intros i _. apply Qmult_le_0_compat; [apply (bits_nonneg _ _ _ H1 Eb)|apply (bits_nonneg _ _ _ H2 Ek)].
  - apply Qmult_le_0_compat; [apply tmean_nonneg, (bits_nonneg _ _ _ H3 Ec)|apply nQ_nonneg].
Qed.
Lemma bn_mono sh axis iq kq bq iq' kq' bq' e e' : widths_ok iq -> widths_ok kq -> wider iq iq' -> wider kq kq' -> wider bq bq' ->
  bn_ebops sh axis iq kq bq = Some e -> bn_ebops sh axis iq' kq' bq' = Some e' -> e <= e'.
Proof.
  intros H1 H2 W1 W2 W3. unfold bn_ebops. destruct (bits_ iq sh) as [b|] eqn:Eb; [|discriminate]. cbn [bind].
  destruct (bits_ kq _) as [k|] eqn:Ek; [|discriminate]. cbn [bind]. destruct (bits_ bq _) as [c|] eqn:Ec; [|discriminate]. cbn [bind].
  destruct (bits_wider _ _ _ _ W1 Eb) as (b' & F1 & L1). destruct (bits_wider _ _ _ _ W2 Ek) as (k' & F2 & L2). destruct (bits_wider _ _ _ _ W3 Ec) as (c' & F3 & L3).
  rewrite F1, F2, F3. cbn [bind].
  intros E E'. match type of E with Some ?x = _ => assert (G : e = x) by congruence end. match type of E' with Some ?x = _ => assert (G' : e' = x) by congruence end.
  rewrite G, G'. apply Qplus_le_compat.
  - apply qsum_le. intros i _. pose proof (bits_nonneg _ _ _ H1 Eb i). pose proof (bits_nonneg _ _ _ H2 Ek [nth axis i 0%nat]).
    pose proof (L1 i). pose proof (L2 [nth axis i 0%nat]). nra.
  - apply Qmult_le_compat_r; [|apply nQ_nonneg]. apply tmean_le; [|exact L3]. rewrite (proj1 (bits_at _ _ _ Ec)), (proj1 (bits_at _ _ _ F3)). reflexivity.
Qed.
