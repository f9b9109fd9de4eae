(** Every covered operation, traced. *)
From Coq Require Import String.
From Verif Require Import Num M_Fixed M_State M_Wrapper M_Mapper S_Mapper L_Mapper M_Contr M_Ebops L_Ebops M_Pow2 M_Patch S_Patch M_Ops M_Mirror S_Mirror L_Mirror M_Trace L_Trace L_Lift M_Table S_Table M_Softmax L_Softmax M_Attn M_Net S_Net M_NetX S_NetX L_Ops L_Net L_Net2 L_Net3 L_Net5 L_NetX1 L_NetX2 L_NetX3 S_Ops.
Local Open Scope list_scope.

Lemma rank_is_eq r x : rank_is r x = true -> List.length (shape x) = r.
Proof. apply Nat.eqb_eq. Qed.
Lemma join_rones s : join_shape s (repeat 1%nat (List.length s)) = Some s.
Proof. induction s as [|d s IH]; [reflexivity|]. cbn [List.length repeat join_shape]. unfold join_dim. destruct (d =? 1)%nat eqn:D; [apply Nat.eqb_eq in D; subst d|]; cbn [Nat.eqb orb bind]; rewrite IH; reflexivity. Qed.
Lemma relu_traced n b neg maxv x v low : (b < n)%nat -> (forall m, maxv = Some m -> 0 <= m) -> holds n b x v -> (forall i, valid_index (shape v) i -> low i <= at_ v i) ->
  exists z, replay_leaky low (mk_tensor [] (fun _ => neg)) maxv v = Some z /\ holds n b (tmap (keras_relu 0 neg maxv) x) z.
Proof.
  intros Hb M Hx Low. set (f := fun p a => keras_relu 0 a maxv p). pose proof Hx as ((d & s & Ex) & _).
  assert (G : exists y, np_binary f x (mk_tensor [] (fun _ => neg)) = Some y /\ shape y = shape x /\ same_tensor (tmap (keras_relu 0 neg maxv) x) y).
  { rewrite (const_binary f x (mk_tensor [] (fun _ => neg)) n (d :: s) Ex) by (cbn [shape List.length]; lia). unfold lpad. cbn [shape]. rewrite app_nil_r. change (List.length (@nil nat)) with 0%nat. rewrite Nat.sub_0_r, join_rones. cbn [bind].
    eexists. split; [reflexivity|]. cbn [shape]. split; [symmetry; exact Ex|]. split; [cbn [tmap shape]; exact Ex|]. cbn [tmap shape at_]. intros i Vi. unfold f. rewrite bcast_valid by (rewrite <- Ex; exact Vi). reflexivity. }
  destruct G as (y & Ey & Sy & St). destruct (leaky_traced n b (mk_tensor [] (fun _ => neg)) maxv x v y low f Hb Hx) as (z & Ez & Hz); [rewrite Ex; cbn [shape List.length]; lia|exact Ey|exact Sy|exact Low| |].
  { intros lo a p L. apply relu0_replay; assumption. }
  exists z. split; [exact Ez|]. exact (holds_left n b _ y z Hb St Hz).
Qed.
Lemma sames_same xs vs : sames xs vs -> Forall2 same_tensor xs vs.
Proof. intros H. exact H. Qed.
Lemma concat_rank axis x xs y : np_concatenate axis (x :: xs) = Some y -> List.length (shape y) = List.length (shape x).
Proof.
  unfold np_concatenate. destruct (np_axis axis (List.length (shape x))) as [a|]; [|discriminate]. cbn [bind]. match goal with |- (if ?c then _ else _) = _ -> _ => destruct c; [|discriminate] end.
  intros H. apply some_inj in H. subst y. cbn [shape]. apply put_nth_length.
Qed.
Lemma insert_ne d (s : nat) l : (d = 0 \/ l <> [])%nat -> insert_at d s l <> [].
Proof. destruct d, l; cbn [insert_at]; intros [H|H]; congruence. Qed.
Lemma moveaxis_rank a e source destination x y : np_axis source (List.length (shape x)) = Some (S a) -> np_axis destination (List.length (shape x)) = Some (S e) -> np_moveaxis source destination x = Some y -> (2 <= List.length (shape y))%nat.
Proof.
  intros A E H. unfold np_moveaxis in H. rewrite A, E in H. cbn [bind] in H. apply some_inj in H. subst y. pose proof (np_axis_lt _ _ _ A) as La. pose proof (np_axis_lt _ _ _ E) as Le.
  destruct (List.length (shape x)) as [|m]; [lia|]. rewrite order_shift by lia. unfold transpose_by. cbn [shape]. rewrite map_length. cbn [List.length]. rewrite map_length.
  destruct (insert_at e a (filter (fun n => negb (n =? a)%nat) (seq 0 m))) as [|c l] eqn:I; [|cbn [List.length]; lia]. exfalso. revert I. apply insert_ne.
  destruct e as [|e]; [left; reflexivity|right]. intros X. assert (Y : In (if (a =? 0)%nat then 1 else 0)%nat (filter (fun n => negb (n =? a)%nat) (seq 0 m))).
  { apply filter_In. split; [apply in_seq; destruct (a =? 0)%nat; lia|]. destruct (a =? 0)%nat eqn:D; [apply Nat.eqb_eq in D; subst a; reflexivity|]. rewrite Nat.eqb_sym, D. reflexivity. }
  rewrite X in Y. destruct Y.
Qed.
Lemma concat_ok n b axis r xs vs y a : (b < n)%nat -> Forall2 (holds n b) xs vs -> forallb (rank_is r) xs = true -> np_axis axis r = Some (S a) -> np_concatenate axis xs = Some y ->
  exists z, replay_concatenate axis vs = Some z /\ holds n b y z.
Proof.
  intros Hb F R A H. destruct (Forall2_holds _ _ _ _ F) as (S & B). rewrite forallb_forall in R.
  destruct (concatenate_traced n axis xs y a (fun x Hx => batch_in_of _ _ (B x Hx))) as (By & T); [|exact H|].
  { intros x Hx. destruct xs as [|x0 xs]; [discriminate|]. injection Hx as <-. rewrite (rank_is_eq _ _ (R x0 (or_introl eq_refl))). exact A. }
  destruct (T b Hb) as (z0 & E0 & S0). unfold replay_concatenate in *.
  assert (Q : Forall2 same_tensor (map newaxis (map (sample b) xs)) (map newaxis vs)).
  { clear - S. revert S. generalize (map (sample b) xs). intros us F. induction F as [|u v us vs Suv F IH]; [constructor|]. cbn [map]. constructor; [apply st_newaxis, Suv|exact IH]. }
  destruct (np_concatenate axis (map newaxis (map (sample b) xs))) as [w0|] eqn:E1; [|discriminate]. cbn [bind] in E0.
  destruct (concatenate_same axis _ _ w0 Q E1) as (w & Ew & Sw). rewrite Ew. cbn [bind]. destruct (st_first _ _ _ Sw E0) as (z & Ez & Sz). exists z. split; [exact Ez|].
  apply holds_of; [exact By| |exact (st_trans _ _ _ S0 Sz)].
  destruct xs as [|x xs]; [discriminate|]. rewrite (concat_rank axis x xs y H). destruct (B x (or_introl eq_refl)) as (d & s & ->). cbn [List.length]. lia.
Qed.
Lemma concat_layer_ok n b axis shs sh xs vs y a : (b < n)%nat -> Forall2 (holds n b) xs vs -> shapes_are shs xs = true -> (axis < 0)%Z -> (forall s, In s shs -> s = sh) -> np_axis axis (S (List.length sh)) = Some (S a) -> np_concatenate axis xs = Some y ->
  exists z, replay_concatenate_layer axis vs = Some z /\ holds n b y z.
Proof.
  intros Hb F R Neg Hs A H. destruct (Forall2_holds _ _ _ _ F) as (S & B). unfold shapes_are in R. destruct (list_eq_dec _ _ _) as [R'|]; [|discriminate]. subst shs.
  assert (SH : forall x, In x xs -> shape x = n :: sh).
  { intros x Hx. destruct (B x Hx) as (d & s & E). rewrite E. f_equal. apply Hs. apply in_map_iff. exists x. rewrite E. split; [reflexivity|exact Hx]. }
  destruct (concatenate_layer_traced n sh axis a xs y Neg A SH H) as (By & T). destruct (T b Hb) as (z0 & E0 & S0). unfold replay_concatenate_layer in *.
  destruct (broadcast_arrays (map (sample b) xs)) as [ws|] eqn:E1; [|discriminate]. cbn [bind] in E0. destruct (broadcast_same _ _ _ S E1) as (ws' & E1' & Sws). rewrite E1'. cbn [bind].
  destruct (concatenate_same axis _ _ _ Sws E0) as (z & Ez & Sz). exists z. split; [exact Ez|]. apply holds_of; [exact By| |exact (st_trans _ _ _ S0 Sz)].
  destruct xs as [|x xs]; [discriminate|]. rewrite (concat_rank axis x xs y H). destruct (B x (or_introl eq_refl)) as (d & s & ->). cbn [List.length]. lia.
Qed.
Lemma op_traced n b o tup low args args' y : (b < n)%nat -> traceable_op o -> (takes_list o -> tup = true) -> Forall2 (rel_inp (holds n b)) args args' ->
  (forall v, args' = [One v] -> forall i, valid_index (shape v) i -> low i <= at_ v i) -> keras_op o args = Some y -> exists z, replay_op o tup low args' = Some z /\ holds n b y z.
Proof.
  intros Hb T U F Low H. unfold keras_op in H.
  destruct F as [|i i' args args' Ri F]; [destruct o; discriminate|].
  destruct F as [|j j' args args' Rj F].
  - destruct Ri as [x v Hx|xs vs Hx].
    + specialize (Low v eq_refl). destruct o; try discriminate; cbn [replay_op traceable_op] in *; try contradiction.
      * apply some_inj in H. subst y. eexists. split; [reflexivity|]. apply (holds_tmap n b Qabs); [intros p q E; rewrite E; reflexivity|exact Hx].
      * destruct (rank_is ndim x) eqn:R; [|discriminate]. apply rank_is_eq in R. destruct T as (a & A). pose proof (repeat_traced n k axis x y a (batch_in_of _ _ (proj1 Hx))) as G. rewrite R in G. specialize (G A H).
        destruct (right_then (replay_repeat k axis) n b x v y Hb G) with (2 := proj2 Hx) as (z & Ez & Sz).
        { intros u u' w Su Eu. unfold replay_repeat in *. destruct (np_repeat k axis (newaxis u)) as [w0|] eqn:E0; [|discriminate]. destruct (repeat_same k axis _ _ _ (st_newaxis _ _ Su) E0) as (w1 & -> & S1). exact (st_first _ _ _ S1 Eu). }
        exists z. split; [exact Ez|]. apply holds_of; [exact (proj1 G)| |exact Sz]. unfold np_repeat in H. destruct (np_axis axis (List.length (shape x))); [|discriminate]. cbn [bind] in H. apply some_inj in H. subst y. cbn [shape]. rewrite put_nth_length. apply (holds_rank _ _ _ _ Hx).
      * destruct (rank_is ndim x) eqn:R; [|discriminate]. apply rank_is_eq in R. destruct T as (a & e & A & E). pose proof (moveaxis_traced n source destination a e x y (batch_in_of _ _ (proj1 Hx))) as G. rewrite R in G. specialize (G A E H).
        destruct (right_then (replay_moveaxis source destination) n b x v y Hb G) with (2 := proj2 Hx) as (z & Ez & Sz).
        { intros u u' w Su Eu. unfold replay_moveaxis in *. destruct (np_moveaxis source destination (newaxis u)) as [w0|] eqn:E0; [|discriminate]. destruct (moveaxis_same _ _ _ _ _ (st_newaxis _ _ Su) E0) as (w1 & -> & S1). exact (st_first _ _ _ S1 Eu). }
        exists z. split; [exact Ez|]. apply holds_of; [exact (proj1 G)| |exact Sz]. apply (moveaxis_rank a e source destination x y); [rewrite R; exact A|rewrite R; exact E|exact H].
      * destruct (rank_is ndim x) eqn:R; [|discriminate]. exact (getitem_traced n b key ndim x v y Hb T Hx R H).
      * destruct (List.length (shape x) =? S (S pool_dim))%nat eqn:R; [|discriminate]. apply Nat.eqb_eq in R. apply some_inj in H. subst y. eexists. split; [reflexivity|]. destruct mx.
        -- exact (gpool_traced qmax_of pool_dim keepdims n b x v qmax_Forall2 Hb Hx R).
        -- pose proof (proj1 (proj2 Hx)) as Es. cbn [sample shape] in Es. rewrite Es. apply holds_tmap; [intros p q E; rewrite E; reflexivity|]. exact (gpool_traced qsum pool_dim keepdims n b x v qsum_F2 Hb Hx R).
      * destruct (List.length (shape alpha) <? List.length (shape x))%nat eqn:R; [|discriminate]. apply Nat.ltb_lt in R. destruct (np_binary (fun p a => keras_prelu a p) x alpha) as [y0|] eqn:E; [|discriminate]. cbn [bind] in H.
        destruct (nat_list_eqb (shape y0) (shape x)) eqn:S; [|discriminate]. apply nat_list_eqb_eq in S. apply some_inj in H. subst y0.
        apply (leaky_traced n b alpha None x v y low (fun p a => keras_prelu a p) Hb Hx R E S Low). intros lo a p L. apply prelu_replay, L.
      * apply some_inj in H. subst y. exact (relu_traced n b neg maxv x v low Hb T Hx Low).
      * exact (softmax_traced n b s x v y Hb T Hx H).
    + destruct o; try discriminate; cbn [replay_op traceable_op] in *.
      * destruct (forallb (rank_is ndim) xs) eqn:R; [|discriminate]. destruct T as (a & A). exact (concat_ok n b axis ndim xs vs y a Hb Hx R A H).
      * destruct (shapes_are shapes xs) eqn:R; [|discriminate]. destruct T as (N & sh & a & Hs & A). exact (concat_layer_ok n b axis shapes sh xs vs y a Hb Hx R N Hs A H).
      * destruct T as (a & li' & lk' & lo' & -> & -> & -> & Na & Nl). destruct Hx as [|x v xs vs Hx1 Hx]; [discriminate|]. destruct Hx as [|x2 v2 xs vs Hx2 Hx]; [discriminate|]. destruct Hx; [|discriminate].
        rewrite (U I). exact (einsum2_traced n b a li' lk' lo' x v x2 v2 y Hb Na Nl Hx1 Hx2 H).
  - destruct F as [|? ? ? ? R3 F]; [|exfalso; clear - H; destruct o, i, j; try discriminate; repeat match type of H with context [match ?l with [] => _ | _ :: _ => _ end] => destruct l; try discriminate end]. destruct Ri as [x v Hx|xs vs Hx]; [|exfalso; clear - H; destruct o; try discriminate; repeat match type of H with context [match ?l with [] => _ | _ :: _ => _ end] => destruct l; try discriminate end]. destruct Rj as [x2 v2 Hx2|xs vs Hx2]; [|destruct o; discriminate].
    destruct o; try discriminate; cbn [replay_op traceable_op] in *.
    + destruct (rank_is rx x) eqn:R1; [|discriminate]. destruct (rank_is ry x2) eqn:R2; [|discriminate]. cbn [andb] in H. apply rank_is_eq in R1, R2. subst. apply (arith_holds (arith_fn a) n b x x2 v v2 y (arith_fn_ext a) Hb Hx Hx2); congruence.
    + destruct (rank_is ndim x) eqn:R1; [|discriminate]. destruct (rank_is ndim x2) eqn:R2; [|discriminate]. cbn [andb] in H. exact (matmul_traced n b ndim x v x2 v2 y Hb T Hx Hx2 R1 R2 H).
    + destruct T as (a & li' & lk' & lo' & -> & -> & -> & Na & Nl). exact (einsum2_traced n b a li' lk' lo' x v x2 v2 y Hb Na Nl Hx Hx2 H).
Qed.
