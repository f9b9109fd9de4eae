From Coq Require Import String.
From Verif Require Import Num M_Fixed L_Fixed M_State M_Wrapper M_Mapper S_Mapper L_Mapper M_Contr M_Ebops L_Ebops M_Pow2 M_Patch S_Patch L_Patch M_Ops S_Ops L_Ops M_Mirror S_Mirror L_Mirror M_Trace S_Trace L_Trace M_Net S_Net L_Lift L_Net L_Net2 L_Net3 S_Ops.
Local Open Scope list_scope.

Lemma valid_snoc_inv s c i : valid_index (s ++ [c]) i -> valid_index s (removelast i) /\ (last i 0 < c)%nat.
Proof.
  intros H. assert (Ni : i <> []) by (intros ->; apply valid_len in H; rewrite app_length in H; cbn [length] in H; lia).
  pose proof (last_split _ Ni) as E. rewrite E in H. clear Ni E. revert s H. generalize (removelast i) (last i 0%nat). intros l a s. revert l.
  induction s as [|d s IH]; intros l H.
  - destruct l as [|b l]; cbn [app] in H.
    + inversion H; subst. split; [constructor|assumption].
    + inversion H as [|? ? ? ? _ X]; subst. inversion X as [Y|]. symmetry in Y. apply app_eq_nil in Y as (_ & Y). discriminate.
  - destruct l as [|b l]; cbn [app] in H; inversion H as [|? ? ? ? A X]; subst.
    + apply valid_len in X. rewrite app_length in X. cbn [length] in X. lia.
    + destruct (IH l X) as (B & C). split; [constructor; assumption|exact C].
Qed.
Lemma conv_same pad cs cin_g cout_g groups x x' k o co : (0 < cout_g)%nat -> (co < groups * cout_g)%nat ->
  (forall p c, valid_index (map c_in cs) p -> (c < groups * cin_g)%nat -> x (0%nat :: p ++ [c]) == x' (0%nat :: p ++ [c])) ->
  conv 0 Qplus Qmult pad cs cin_g cout_g x k o co == conv 0 Qplus Qmult pad cs cin_g cout_g x' k o co.
Proof.
  intros Ho Hco H. unfold conv, csum. change (fold_right Qplus 0) with qsum. induction (indices (map c_k cs)) as [|t ts IH]; [reflexivity|]. cbn [flat_map]. rewrite !qsum_app, IH.
  apply Qplus_comp; [|reflexivity]. apply qsum_ext. intros ci Hci. apply in_seq in Hci. destruct (c_positions pad cs o t) as [p|] eqn:E; [|reflexivity].
  apply Qmult_comp; [|reflexivity]. apply H; [exact (c_positions_valid _ _ _ _ _ E)|].
  assert (co / cout_g < groups)%nat by (apply Nat.div_lt_upper_bound; lia). nia.
Qed.
Lemma conv_traced n b pad cs groups cin_g cout_g k x v y : (b < n)%nat -> holds n b x v -> (0 < groups)%nat -> (0 < cin_g)%nat -> (0 < cout_g)%nat -> groups = 1%nat \/ cin_g = 1%nat ->
  (Z.of_nat (nprod (map c_in cs ++ [groups * cin_g]%nat)) <= 2 ^ 24)%Z -> keras_conv pad cs groups cin_g cout_g k x = Some y ->
  exists z, replay_conv_layer pad cs groups cin_g cout_g k v = Some z /\ holds n b y z.
Proof.
  intros Hb Hx Hg Hi Ho Hs Hz H. unfold keras_conv in H. pose proof Hx as ((d & s & Ex) & _). rewrite Ex in H. pose proof (holds_shape _ _ _ _ _ _ Hx Ex) as Ev.
  unfold replay_conv_layer. rewrite Ev. destruct (conv_fits cs groups cin_g cout_g k (d :: s)) eqn:F; [|discriminate]. apply some_inj in H. subst y.
  unfold conv_fits in F. apply andb_true_iff in F as (F1 & F2). apply nat_list_eqb_eq in F1. apply nat_list_eqb_eq in F2.
  eexists. split; [reflexivity|]. split.
  { destruct (conv_out_shape pad cs ++ [(groups * cout_g)%nat]) as [|d' s'] eqn:E; [apply app_eq_nil in E as (_ & E); discriminate|]. exists d', s'. cbn [shape]. reflexivity. }
  split; [reflexivity|]. cbn [sample shape tl at_ hd]. intros i Vi. apply valid_snoc_inv in Vi as (Vo & Vc). rewrite F1, F2.
  pose proof (replay_conv_exact pad cs groups cin_g cout_g (fun j => at_ v (tl j)) (at_ k) (fun _ => 0) Hg Hi Ho Hz (removelast i) (last i 0%nat) Vc Hs) as R.
  unfold ravel_img, ravel_kernel in R. cbn [tl] in R. rewrite R, Qplus_0_r. apply (conv_same pad cs cin_g cout_g groups); [exact Ho|exact Vc|].
  intros p c Vp Hc. cbn [tl]. destruct Hx as (_ & (_ & Hx)). cbn [sample shape at_] in Hx. rewrite Ex in Hx. apply Hx. cbn [tl]. rewrite F1. apply valid_snoc; assumption.
Qed.

(** ** pooling *)
Lemma window_same pad cs ch x x' o c : (c < ch)%nat -> (forall p, valid_index (map c_in cs) p -> x (0%nat :: p ++ [c]) == x' (0%nat :: p ++ [c])) ->
  Forall2 Qeq (window pad cs x o c) (window pad cs x' o c).
Proof.
  intros Hc H. unfold window. induction (indices (map c_k cs)) as [|t ts IH]; [constructor|]. cbn [flat_map]. destruct (c_positions pad cs o t) as [p|] eqn:E; [|exact IH].
  cbn [app]. constructor; [apply H; exact (c_positions_valid _ _ _ _ _ E)|exact IH].
Qed.
Lemma pool_traced n b kpool rpool pad cs ch x v y : (b < n)%nat -> holds n b x v ->
  (forall f g o c, valid_index (conv_out_shape pad cs) o -> (c < ch)%nat -> (forall p c, valid_index (map c_in cs) p -> (c < ch)%nat -> f (0%nat :: p ++ [c]) == g (0%nat :: p ++ [c])) -> kpool f o c == kpool g o c) ->
  (forall f o c, valid_index (conv_out_shape pad cs) o -> (c < ch)%nat -> rpool (ravel_img cs ch f) o c == kpool f o c) ->
  keras_pool kpool pad cs ch x = Some y -> exists z, replay_pool rpool pad cs ch v = Some z /\ holds n b y z.
Proof.
  intros Hb Hx Hk Hr H. unfold keras_pool in H. pose proof Hx as ((d & s & Ex) & _). rewrite Ex in H. pose proof (holds_shape _ _ _ _ _ _ Hx Ex) as Ev.
  unfold replay_pool. rewrite Ev. destruct (nat_list_eqb (d :: s) (map c_in cs ++ [ch])) eqn:F; [|discriminate]. apply some_inj in H. subst y. apply nat_list_eqb_eq in F.
  eexists. split; [reflexivity|]. split.
  { destruct (conv_out_shape pad cs ++ [ch]) as [|d' s'] eqn:E; [apply app_eq_nil in E as (_ & E); discriminate|]. exists d', s'. cbn [shape]. reflexivity. }
  split; [reflexivity|]. cbn [sample shape tl at_ hd]. intros i Vi. apply valid_snoc_inv in Vi as (Vo & Vc). rewrite F.
  pose proof (Hr (fun j => at_ v (tl j)) (removelast i) (last i 0%nat) Vo Vc) as R. unfold ravel_img in R. cbn [tl] in R. rewrite R. apply Hk; [exact Vo|exact Vc|].
  intros p c Vp Hc. cbn [tl]. destruct Hx as (_ & (_ & Hx)). cbn [sample shape at_] in Hx. rewrite Ex in Hx. apply Hx. cbn [tl]. rewrite F. apply valid_snoc; assumption.
Qed.
Lemma avg_pool_same pad cs ch f g o c : (c < ch)%nat -> (forall p c, valid_index (map c_in cs) p -> (c < ch)%nat -> f (0%nat :: p ++ [c]) == g (0%nat :: p ++ [c])) -> avg_pool pad cs f o c == avg_pool pad cs g o c.
Proof.
  intros Hc H. pose proof (window_same pad cs ch f g o c Hc (fun p Vp => H p c Vp Hc)) as W. unfold avg_pool. rewrite (qsum_Forall2 _ _ W), (Forall2_len _ _ _ W). reflexivity.
Qed.
Lemma max_pool_same pad cs ch f g o c : (c < ch)%nat -> (forall p c, valid_index (map c_in cs) p -> (c < ch)%nat -> f (0%nat :: p ++ [c]) == g (0%nat :: p ++ [c])) -> max_pool pad cs f o c == max_pool pad cs g o c.
Proof. intros Hc H. exact (np_max_same _ _ (window_same pad cs ch f g o c Hc (fun p Vp => H p c Vp Hc))). Qed.
Lemma max_pool_valid cs ch f o c : pool_ok cs -> (Z.of_nat (img_size cs ch) <= 2 ^ 24)%Z -> (c < ch)%nat -> valid_index (conv_out_shape VALID cs) o ->
  replay_max_pool VALID cs ch (ravel_img cs ch f) o c == max_pool VALID cs f o c.
Proof.
  intros Hp Hs Hc Vo. unfold replay_max_pool, max_pool. rewrite (pool_x_taps 0 VALID cs ch _ o c Hc Hs), (pool_mask_taps VALID cs ch o c Hc Hs Hp Vo). unfold window.
  assert (V : forall t, In t (indices (map c_k cs)) -> exists p, c_positions VALID cs o t = Some p).
  { intros t Ht. apply in_indices in Ht. exact (valid_inside cs (fun c' H => proj1 (Hp c' H)) o t Vo Ht). }
  match goal with |- np_max ?l == np_max ?r => replace l with r; [reflexivity|] end.
  induction (indices (map c_k cs)) as [|t ts IH]; [reflexivity|]. destruct (V t (or_introl eq_refl)) as (p & E). cbn [flat_map map combine fst snd]. rewrite E. cbn [app Z.eqb].
  rewrite IH by (intros u Hu; apply V; right; exact Hu). rewrite (ravel_img_at cs ch f p c (c_positions_valid _ _ _ _ _ E) Hc). reflexivity.
Qed.
