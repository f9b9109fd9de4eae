(** Lemmas for C61: a budget for dense layers, and what the conditions exclude. *)
From Coq Require Import String Permutation.
From Verif Require Import Num M_Fixed L_Fixed M_State M_Wrapper M_Mapper S_Mapper L_Mapper M_Contr M_Ebops L_Ebops M_Pow2 M_Patch L_Patch M_Ops L_Ops M_Mirror L_Mirror M_Trace S_Trace L_Trace L_Lift M_Net S_Net L_Net L_Net2 L_Net3 L_Net4 M_Causal L_Causal S_Ops M_FloatNet S_FloatNet L_FloatNum L_FloatQuant L_FloatNet L_FloatNet2.
Local Open Scope list_scope.

Lemma fits_sum_fits e l : fits e l -> sum_fits l = true.
Proof.
  intros (He & Hm & Hs). unfold sum_fits. cbv zeta. destruct (Qeq_bool (qsum (map Qabs l)) 0) eqn:Z; [reflexivity|]. cbn [orb].
  assert (P : 0 < qsum (map Qabs l)). { pose proof (qabs_nonneg l). apply Qeq_bool_neq in Z. apply Qle_lteq in H as [H|H]; [exact H|]. exfalso. apply Z. symmetry. exact H. }
  assert (C : (ceil_log2 (qsum (map Qabs l)) <= 24 + e)%Z).
  { destruct (ceil_log2_spec _ P) as (_ & C). destruct (Z_le_gt_dec (ceil_log2 (qsum (map Qabs l))) (24 + e)) as [|G]; [assumption|exfalso].
    assert (X : pow2 (24 + e) <= pow2 (ceil_log2 (qsum (map Qabs l)) - 1)) by (apply pow2_le; lia). lra. }
  apply andb_true_iff. split; [apply Z.leb_le; lia|]. apply forallb_forall. intros x Hx. apply multiple_spec. rewrite Forall_forall in Hm. eapply mult_weaken; [|exact (Hm x Hx)]. lia.
Qed.
Lemma tall_total t : (forall i, valid_index (shape t) i -> exists v, at_ t i = Some v) -> exists y, tall t = Some y.
Proof.
  intros H. unfold tall. destruct (forallb _ _) eqn:E; [eexists; reflexivity|]. exfalso. assert (X : forallb (fun g => match at_ t g with Some _ => true | None => false end) (indices (shape t)) = true).
  { apply forallb_forall. intros i Hi. apply in_indices in Hi. destruct (H i Hi) as (v & ->). reflexivity. }
  congruence.
Qed.
Lemma join_bias u : forall s, join_shape (s ++ [u]) (repeat 1%nat (length s) ++ [u]) = Some (s ++ [u]).
Proof.
  induction s as [|d s IH]; [cbn [app length repeat join_shape]; unfold join_dim; rewrite Nat.eqb_refl, orb_true_r; destruct (u =? 1)%nat; reflexivity|].
  cbn [app length repeat join_shape]. rewrite join_dim_1. cbn [bind]. rewrite IH. reflexivity.
Qed.
Lemma bias_index u : forall s i, valid_index (s ++ [u]) i -> skipn (length s) (bcast_index (repeat 1%nat (length s) ++ [u]) i) = [last i 0%nat].
Proof.
  induction s as [|d s IH]; intros i V; cbn [app] in V; inversion V as [|a n i' sh Ha V']; subst.
  - inversion V'; subst. cbn [length repeat app skipn bcast_index last]. destruct (Nat.eqb_spec u 1) as [->|]; [|reflexivity]. f_equal. lia.
  - cbn [length repeat app bcast_index skipn]. rewrite (IH i' V'). destruct i' as [|a' i']; [|reflexivity]. inversion V'. destruct s; discriminate.
Qed.
Lemma csum_mul (x k : nat -> Q) L : csum [] (@app term) (map (fun j => [Mul (x j) (k j)]) L) = map (fun j => Mul (x j) (k j)) L.
Proof. induction L as [|j L IH]; [reflexivity|]. cbn [map csum fold_right app] in *. f_equal. exact IH. Qed.
Lemma dense_never_refused c u ex ek B k b x : dense_budget c u ex ek B k b -> within c ex B x -> exists y, core_in checked_arith (CDense k (Some b)) (One x) = Some y.
Proof.
  intros (He & Sk & Sb & Hk & Hb & Hs) (s & Sx & Hx). cbn [core_in]. unfold matmul_terms. rewrite Sk, Sx.
  assert (E1 : nat_list_eqb (s ++ [c]) [] = false) by (destruct s; reflexivity). rewrite E1, last_last, Nat.eqb_refl. cbn [negb andb bind]. rewrite removelast_last.
  cbn [bias_terms]. unfold gbinary. cbv zeta. cbn [shape]. rewrite Sb, app_length. cbn [length]. replace (Nat.max (length s + 1) 1) with (length (s ++ [u])) by (rewrite app_length; cbn [length]; lia).
  rewrite lpad_id. replace (lpad (length (s ++ [u])) [u]) with (repeat 1%nat (length s) ++ [u]) by (unfold lpad; rewrite app_length; cbn [length]; do 2 f_equal; lia).
  rewrite join_bias. cbn [bind]. unfold sum_terms. apply tall_total. cbn [shape at_]. intros i V. cbn [a_sum checked_arith]. cbv zeta.
  unfold gbcast_at. cbn [shape at_]. rewrite Sb, lpad_id, Nat.sub_diag. cbn [skipn]. rewrite (bcast_valid _ _ V).
  replace (length (s ++ [u]) - length [u])%nat with (length s) by (rewrite app_length; cbn [length]; lia).
  replace (lpad (length (s ++ [u])) [u]) with (repeat 1%nat (length s) ++ [u]) by (unfold lpad; rewrite app_length; cbn [length]; do 2 f_equal; lia).
  rewrite (bias_index u s i V). apply valid_snoc_inv in V as (V1 & V2). unfold matmul. rewrite csum_mul, map_app, map_map. cbn [map tval].
  set (o := last i 0%nat) in *. set (i0 := removelast i) in *.
  rewrite (fits_sum_fits (ex + ek)); [eexists; reflexivity|]. split; [exact He|]. split.
  - apply Forall_app. split; [|constructor; [exact (Hb o V2)|constructor]]. apply Forall_forall. intros v Hv. apply in_map_iff in Hv as (j & <- & Hj). apply in_seq in Hj.
    destruct (proj1 (Hx i0 j V1 ltac:(lia))) as (z & Ez). destruct (Hk j o ltac:(lia) V2) as (w & Ew). exists (z * w)%Z. rewrite Ez, Ew, inject_Z_mult, pow2_add. ring.
  - eapply Qle_trans; [|exact (Hs o V2)]. rewrite map_app, qsum_app. cbn [map]. rewrite qsum1. apply Qplus_le_compat; [|apply Qle_refl]. rewrite map_map. apply qsum_le. intros j Hj. apply in_seq in Hj.
    rewrite Qabs_Qmult. apply Qmult_le_compat_r; [exact (proj2 (Hx i0 j V1 ltac:(lia)))|apply Qabs_nonneg].
Qed.
Lemma quantized_within rm om k i f x : (exists z, base_call rm om false k i f x == inject_Z z * pow2 (- f)) /\ Qabs (base_call rm om false k i f x) <= pow2 i.
Proof. destruct (L_Float.quantized_code rm om k i f x) as (n & A & B). split; [exists n; exact A|exact B]. Qed.
Lemma checked_total l x y : act_ok l -> layer_val checked_arith l (One x) [] = Some y -> exists z, checked_layer l [VArr x] [] = Some [("final"%string, [z])].
Proof.
  intros V H. unfold checked_layer. rewrite layer_in_val. cbn [one_arg bind]. rewrite H. cbn [bind].
  destruct (layer_val_same _ _ l (One x) (One x) [] [] y checked_exact V (st_refl x) (kw_refl []) H) as (y2 & E2 & S2). destruct (layer_val_exact l [VArr x] (One x) [] y2 V eq_refl E2) as (z & Ez & _). exists z. exact Ez.
Qed.
Lemma dense_layer_accepted q k b a c u ex ek B x s kx ix fx :
  c_weight (q_c q) = false -> w_scaler (q_w q) = None -> w_affine (q_w q) = None ->
  shape x = s ++ [c] ->
  broadcast_to (fst (fst (match q_s q with inl s => kif_widths s | inr s => kbi_widths s end))) (shape x) = Some kx ->
  broadcast_to (snd (fst (match q_s q with inl s => kif_widths s | inr s => kbi_widths s end))) (shape x) = Some ix ->
  broadcast_to (snd (match q_s q with inl s => kif_widths s | inr s => kbi_widths s end)) (shape x) = Some fx ->
  (forall i j, valid_index s i -> (j < c)%nat -> (at_ fx (i ++ [j]) <= - ex)%Z /\ pow2 (at_ ix (i ++ [j])) <= B j /\
     quant_fits (c_rm (q_c q)) (c_om (q_c q)) (at_ kx (i ++ [j])) (at_ ix (i ++ [j])) (at_ fx (i ++ [j])) (at_ x (i ++ [j])) = true) ->
  dense_budget c u ex ek B k b -> act_ok (LQ (Some (QSingle q)) (CDense k (Some b)) a None) ->
  exists z, checked_layer (LQ (Some (QSingle q)) (CDense k (Some b)) a None) [VArr x] [] = Some [("final"%string, [z])].
Proof.
  intros W Sc Af Sx Hk Hi Hf Hx D V.
  assert (Q : exists y, quant_in checked_arith q x = Some y /\ within c ex B y).
  { unfold quant_in. rewrite W, Sc, Af. cbn [bind]. destruct (match q_s q with inl s => kif_widths s | inr s => kbi_widths s end) as [[k0 i0] f0]. cbn [fst snd] in *. rewrite Hk, Hi, Hf. cbn [bind].
    set (T := mk_tensor (shape x) (fun j => a_quant checked_arith (c_rm (q_c q)) (c_om (q_c q)) (at_ kx j) (at_ ix j) (at_ fx j) (at_ x j))).
    destruct (tall_total T) as (y & Ey).
    { subst T. cbn [shape at_ a_quant checked_arith]. rewrite Sx. intros i Vi. assert (Ni : i <> []) by (intros ->; apply valid_len in Vi; rewrite app_length in Vi; cbn [length] in Vi; lia).
      apply valid_snoc_inv in Vi as (V1 & V2). rewrite (last_split _ Ni). destruct (Hx _ _ V1 V2) as (_ & _ & ->). eexists. reflexivity. }
    rewrite Ey. cbn [bind]. exists y. split; [reflexivity|]. destruct (tall_spec _ _ Ey) as (Sy & Ay). exists s. subst T. cbn [shape at_ a_quant checked_arith] in Sy, Ay. split; [congruence|].
    intros i j Vi Vj. specialize (Hx i j Vi Vj) as (H1 & H2 & H3). specialize (Ay (i ++ [j])). rewrite Sx, H3 in Ay. specialize (Ay (valid_snoc _ _ _ _ Vi Vj)). apply some_inj in Ay. rewrite <- Ay.
    destruct (quantized_within (c_rm (q_c q)) (c_om (q_c q)) (at_ kx (i ++ [j])) (at_ ix (i ++ [j])) (at_ fx (i ++ [j])) (at_ x (i ++ [j]))) as ((z & Ez) & Bz). split.
    - assert (M : mult (- at_ fx (i ++ [j])) (base_call (c_rm (q_c q)) (c_om (q_c q)) false (at_ kx (i ++ [j])) (at_ ix (i ++ [j])) (at_ fx (i ++ [j])) (at_ x (i ++ [j])))) by (exists z; exact Ez).
      apply (mult_weaken ex) in M; [exact M|lia].
    - eapply Qle_trans; eassumption. }
  destruct Q as (y & Ey & Wy). destruct (dense_never_refused c u ex ek B k b y D Wy) as (w & Ew).
  apply (checked_total _ x (tmap (act_fn a) w) V). cbn [layer_val training_off]. cbn [iq_in]. rewrite Ey. cbn [bind]. rewrite Ew. reflexivity.
Qed.

(** ** the numbers binary32 carries *)
From Coq Require Import Reals Qreals.
From Flocq Require Import Core.
From Verif Require Import M_Float S_Float L_Float.
Open Scope Q_scope.
Lemma rep_format x : rep x <-> generic_format radix2 (FLT_exp (-149) 24) (Q2R x).
Proof.
  split.
  - intros H. rewrite <- (Qeq_eqR _ _ (fl32_rep x H)), Q2R_fl32. apply b32_format.
  - intros H. apply FLT_format_generic in H; [|reflexivity]. destruct H as [[m e] E N P]. cbn [Fnum Fexp] in *. exists m, e. split; [|split; [apply Z.lt_le_incl; exact N|exact P]].
    apply eqR_Qeq. rewrite E, Q2R_mult, Q2R_inject, Q2R_pow2. reflexivity.
Qed.
Lemma carried_format x : carried 24 x = true <-> generic_format radix2 (FLT_exp (-149) 24) (Q2R x) /\ Qabs x < pow2 128.
Proof.
  rewrite <- rep_format. split; [apply carried_rep|intros (A & B); apply rep_carried; assumption].
Qed.

(** ** an order: from the left, with fused multiply-adds *)
Definition from_left (l : list term) : ftree := fold_left (fun acc t => match t with Val c => FAdd acc (FVal c) | Mul a b => FFma a b acc end) l FZero.
Lemma from_left_all l : Permutation (fterms (from_left l)) l.
Proof.
  unfold from_left. assert (G : forall acc, Permutation (fterms (fold_left (fun acc t => match t with Val c => FAdd acc (FVal c) | Mul a b => FFma a b acc end) l acc)) (fterms acc ++ l)).
  { induction l as [|t l IH]; intros acc; cbn [fold_left]; [rewrite app_nil_r; reflexivity|]. rewrite IH. destruct t; cbn [fterms]; [rewrite <- app_assoc; reflexivity|]. cbn [app]. apply Permutation_middle. }
  exact (G FZero).
Qed.
Lemma any_order ts t : Permutation (fterms t) ts -> sum_fits (map tval ts) = true -> exists v, feval t = Some v /\ v == qsum (map tval ts).
Proof.
  intros P H. destruct (sum_fits_spec _ H) as (e & F). pose proof (Permutation_map tval (Permutation_sym P)) as PV. apply (fits_perm e _ _ PV) in F.
  destruct (feval_exact e _ F) as (v & E & V). exists v. split; [exact E|]. rewrite V. symmetry. apply qsum_perm, PV.
Qed.
Lemma network_exact ord fuel m xs ys xs' : sums_all ord -> well_formed fuel m -> all_layers value_act fuel m -> evaluates checked_layer fuel m xs ys -> Forall2 same_tensor xs xs' ->
  evaluates keras_layer fuel m xs ys /\ exists d ys', run_fl ord fuel m xs' = Some d /\ assoc "final"%string d = Some ys' /\ Forall2 same_tensor ys ys'.
Proof. intros O W L E F. split; [exact (evaluates_mono _ _ checked_keras fuel m xs ys E)|exact (network_float ord fuel m xs ys xs' O W L E F)]. Qed.
Lemma backends_agree ord ord' fuel m xs ys zs zs' : sums_all ord -> sums_all ord' -> well_formed fuel m -> all_layers value_act fuel m -> evaluates checked_layer fuel m xs ys ->
  evaluates (fl_layer ord) fuel m xs zs -> evaluates (fl_layer ord') fuel m xs zs' -> Forall2 same_tensor zs zs'.
Proof.
  intros O O' W L E A B. assert (R : Forall2 same_tensor xs xs) by (clear; induction xs; constructor; [apply st_refl|assumption]).
  pose proof (network_float_unique ord fuel m xs ys xs zs O W L E R A) as F1. pose proof (network_float_unique ord' fuel m xs ys xs zs' O' W L E R B) as F2.
  clear - F1 F2. revert zs' F2. induction F1 as [|y z ys zs S F IH]; intros zs' F2; inversion F2; subst; constructor; [eapply st_trans; [apply st_sym, S|assumption]|apply IH; assumption].
Qed.
Lemma rnd_differs :
  (let x := (1#2) - pow2 (-25) in carried 24 x = true /\ exists v, fl_base_call RND WRAP false 4 0 x = Some v /\ v == 1 /\ base_call RND WRAP false false 4 0 x == 0) /\
  (let x := pow2 23 + 1 in carried 24 x = true /\ exists v, fl_base_call RND SAT true 25 0 x = Some v /\ v == pow2 23 + 2 /\ base_call RND SAT false true 25 0 x == pow2 23 + 1).
Proof. split; cbv zeta; (split; [vm_compute; reflexivity|]); eexists; (split; [vm_compute; reflexivity|]); split; vm_compute; reflexivity. Qed.
Lemma wrap_differs : let x := pow2 24 in carried 24 x = true /\ exists v, fl_base_call TRN WRAP true 0 0 x = Some v /\ v == -(1) /\ base_call TRN WRAP false true 0 0 x == 0.
Proof. cbv zeta. split; [vm_compute; reflexivity|]. eexists. split; [vm_compute; reflexivity|]. split; vm_compute; reflexivity. Qed.
