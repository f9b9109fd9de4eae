(** Lookup-table layers, traced. *)
From Coq Require Import String.
From Verif Require Import Num M_Fixed L_Fixed M_State M_Wrapper M_Mapper S_Mapper L_Mapper M_Contr M_Ebops L_Ebops M_Pow2 M_Patch S_Patch L_Patch M_Ops M_Mirror S_Mirror L_Mirror M_Trace L_Trace L_Lift M_Table S_Table L_Table M_Softmax M_Attn M_Net S_Net M_NetX S_NetX L_Ops L_Net L_Net2 L_Net3 L_Net4 L_Net5 L_NetX1 L_NetX2 L_NetX3 L_NetX4 S_Ops.
Local Open Scope list_scope.

Lemma patches_traced n b p x v y : (b < n)%nat -> match p with None => True | Some (_, cs, ch) => (0 < ch)%nat /\ (Z.of_nat (nprod (map c_in cs ++ [ch])) <= 2 ^ 24)%Z end ->
  holds n b x v -> keras_patches p x = Some y -> exists z, replay_patches p v = Some z /\ holds n b y z.
Proof.
  intros Hb T Hx H. destruct p as [[[pad cs] ch]|]; cbn [keras_patches replay_patches] in *; [|apply some_inj in H; subst y; exists v; split; [reflexivity|exact Hx]].
  pose proof Hx as ((d & s & Ex) & (Sv & Av)). pose proof (holds_shape _ _ _ _ _ _ Hx Ex) as Ev. rewrite Ex in H. destruct (nat_list_eqb (d :: s) (map c_in cs ++ [ch])) eqn:E; [|discriminate]. apply some_inj in H. subst y.
  rewrite Ev, E. apply nat_list_eqb_eq in E. eexists. split; [reflexivity|]. split.
  - set (o := conv_out_shape pad cs). destruct o as [|d' o']; [exists (nprod (map c_k cs) * ch)%nat, []|exists d', (o' ++ [(nprod (map c_k cs) * ch)%nat])]; reflexivity.
  - split; [reflexivity|]. cbn [sample shape at_ tl hd]. intros i Vi. assert (Lb : last (b :: i) 0%nat = last i 0%nat) by (destruct i; [apply valid_len in Vi; rewrite app_length in Vi; cbn [List.length] in Vi; lia|reflexivity]). rewrite Lb. rewrite sym_extract_spec by (try apply T; unfold img_size; apply T). unfold extract.
    destruct (c_positions pad cs (removelast i) (unflat (map c_k cs) (last i 0%nat / ch)%nat)) as [p|] eqn:P; [|reflexivity]. cbn [sample shape at_] in Av. rewrite Ex in Av. cbn [tl] in Av. apply Av.
    apply unflat_valid. rewrite E. apply flat_lt. apply valid_snoc; [exact (c_positions_valid _ _ _ _ _ P)|]. apply Nat.mod_upper_bound. destruct T. lia.
Qed.
Lemma removelast_snoc {A} (l : list A) a : removelast (l ++ [a]) = l.
Proof. apply removelast_last. Qed.
Lemma spread_holds n b m x v : holds n b x v -> holds n b (spread m x) (spread m v).
Proof.
  intros Hx. pose proof Hx as ((d & s & Ex) & (Sv & Av)). split; [exists d, (s ++ [m]); cbn [spread shape]; rewrite Ex; reflexivity|]. cbn [sample shape] in Sv. rewrite Ex in Sv. cbn [tl] in Sv.
  split; [cbn [sample spread shape]; rewrite Ex, <- Sv; reflexivity|]. cbn [sample spread shape at_]. rewrite Ex. cbn [app tl]. intros i Vi. change (d :: s ++ [m]) with ((d :: s) ++ [m]) in Vi. destruct (valid_snoc_inv _ _ _ Vi) as (V1 & _).
  destruct i as [|j i]; [inversion Vi|]. change (removelast (b :: j :: i)) with (b :: removelast (j :: i)). cbn [sample shape at_] in Av. apply Av. rewrite Ex. exact V1.
Qed.
Lemma subnet_proper act' ls c x y : translates act' ls -> x == y -> subnet ls c x == subnet ls c y.
Proof. intros T E. rewrite <- (subnet_ext act' ls c x x T (Qeq_refl x)). apply subnet_ext; assumption. Qed.
(** the output quantizer of the tables at each position *)
Lemma table_quant_mirror q T z : traceable_quant q -> w_affine (q_w q) = None -> quant_mirror q T = Some z ->
  exists tq, table_quant q (shape T) = Some tq /\ (forall p x y, x == y -> tq p x == tq p y) /\ shape z = shape T /\ forall j, valid_index (shape T) j -> at_ z j == tq (flat (shape T) j) (at_ T j).
Proof.
  intros Tq Af H. pose proof Tq as (Sc & _ & ha & oa & bu & het & wsh & B & W). unfold quant_mirror, mirror_with, mirror_quantizer in H. rewrite Sc, Af in H. unfold table_quant.
  destruct (match q_s q with inl s => kif_widths s | inr s => kbi_widths s end) as [[k i] f] eqn:K.
  assert (I8 : int8_widths i /\ int8_widths f) by (destruct (q_s q); cbn in K; injection K as <- <- <-; destruct W as (_ & W1 & W2); split; assumption).
  destruct (broadcast_to k (1%nat :: shape T)) as [kx|] eqn:B1; [|discriminate]. cbn [bind] in *. destruct (broadcast_to i (1%nat :: shape T)) as [ix|] eqn:B2; [|discriminate]. cbn [bind] in *.
  destruct (broadcast_to f (1%nat :: shape T)) as [fx|] eqn:B3; [|discriminate]. cbn [bind] in *. apply some_inj in H. subst z. eexists. split; [reflexivity|]. split; [|split; [reflexivity|]].
  - intros p x y E. cbv zeta. rewrite !hw_quantize_eq. apply base_call_Proper, E.
  - cbn [shape at_]. intros j Hj. cbv zeta. rewrite (unflat_flat _ _ Hj).
    assert (G : forall (w wx : tensor Z), int8_widths w -> broadcast_to w (1%nat :: shape T) = Some wx -> to_int8 (at_ wx (0%nat :: j)) = at_ wx (0%nat :: j)).
    { intros w wx IW BW. unfold broadcast_to in BW. destruct (bcast_ok (shape w) (1%nat :: shape T)) eqn:BO; [|discriminate]. apply some_inj in BW. subst wx. cbn [at_]. apply to_int8_id, IW. apply (bcast_in _ _ _ BO). constructor; [lia|exact Hj]. }
    rewrite (G i ix (proj1 I8) B2), (G f fx (proj2 I8) B3). reflexivity.
Qed.
Lemma table_traced n b t lhs_of x v y : (b < n)%nat -> traceable_table t -> sound_lhs lhs_of -> holds n b x v -> keras_table t x = Some y ->
  exists z, replay_table t lhs_of v = Some z /\ holds n b y z.
Proof.
  intros Hb ((iq & Eiq & Tiq) & Ttoq & Af & _ & Hbn & Tr & _ & Tp) Snd Hx H. unfold keras_table in H. unfold replay_table. rewrite Eiq in *.
  destruct (keras_patches (xt_patch t) x) as [x1|] eqn:E1; [|discriminate]. cbn [bind] in H. destruct (patches_traced n b (xt_patch t) x v x1 Hb Tp Hx E1) as (v1 & -> & H1). cbn [bind].
  destruct (last (shape x1) 0 =? xt_in t)%nat eqn:El; [|discriminate]. apply Nat.eqb_eq in El. cbv zeta in *.
  pose proof (spread_holds n b (xt_out t) x1 v1 H1) as H2. destruct (quant_call iq (spread (xt_out t) x1)) as [X|] eqn:EX; [|discriminate]. cbn [bind] in H.
  destruct (quant_traced n b iq _ X _ Hb Tiq H2 EX) as (xq & -> & HX). cbn [bind]. pose proof (quant_call_shape n iq _ X Tiq (proj1 H2) EX) as SX.
  set (T := mk_tensor (shape X) _) in H. destruct (quant_call (xt_toq t) T) as [r|] eqn:Er; [|discriminate]. cbn [bind] in H. apply some_inj in H. subst y.
  pose proof HX as ((dX & sX & EsX) & (SvX & AvX)). assert (HT : holds n b T (sample b T)) by (split; [exists dX, sX; exact EsX|apply st_refl]).
  destruct (quant_traced n b (xt_toq t) T r (sample b T) Hb Ttoq HT Er) as (rz & Mz & Hr).
  destruct (table_quant_mirror (xt_toq t) (sample b T) rz Ttoq Af Mz) as (tq & Etq & Ptq & Sz & Az).
  cbn [sample shape] in SvX, AvX. rewrite EsX in SvX, AvX. cbn [tl] in SvX, AvX. assert (ST : shape (sample b T) = shape xq) by (cbn [sample T shape]; rewrite EsX, <- SvX; reflexivity). rewrite ST in *. rewrite Etq. cbn [bind].
  (* the shape of the quantized inputs *)
  pose proof H1 as ((d1 & s1 & Es1) & _). rewrite Es1 in El. cbn [spread shape] in SX. rewrite Es1 in SX. rewrite EsX in SX.
  assert (Lead : exists lead, shape xq = lead ++ [xt_in t; xt_out t] /\ d1 :: s1 = lead ++ [xt_in t]).
  { exists (removelast (d1 :: s1)). assert (Q1 : d1 :: s1 = removelast (d1 :: s1) ++ [xt_in t]) by (rewrite <- El; change (last (n :: d1 :: s1) 0%nat) with (last (d1 :: s1) 0%nat); apply last_split; discriminate).
    split; [|exact Q1]. rewrite <- SvX. injection SX as -> ->. change (d1 :: s1 ++ [xt_out t]) with ((d1 :: s1) ++ [xt_out t]). rewrite Q1 at 1. rewrite <- app_assoc. reflexivity. }
  destruct Lead as (lead & Exq & Es1').
  set (sh := shape xq) in *. set (vars := map (fun p => lhs_of xq (unflat sh p)) (seq 0 (nprod sh))). set (L := table_of t tq).
  assert (Lv : List.length vars = nprod sh) by (unfold vars; rewrite map_length, seq_length; reflexivity).
  assert (Ln : nprod sh = (nprod lead * xt_in t * xt_out t)%nat).
  { rewrite Exq. clear. induction lead as [|d l IH]; [cbn; lia|]. cbn [app]. rewrite !nprod_cons, IH. lia. }
  assert (Nv : forall p, (p < nprod sh)%nat -> nth p vars dflt_lhs = lhs_of xq (unflat sh p)).
  { intros p Hp. unfold vars. rewrite (nth_indep _ dflt_lhs (lhs_of xq (unflat sh 0%nat))) by (rewrite map_length, seq_length; exact Hp). rewrite (map_nth (fun p => lhs_of xq (unflat sh p)) (seq 0 (nprod sh)) 0%nat p). rewrite seq_nth by exact Hp. reflexivity. }
  set (codes := fun p => pred (table_size (nth p vars dflt_lhs))).
  assert (Hvar : forall p, (p < List.length vars)%nat -> var_ok (nth p vars dflt_lhs) (codes p) /\ var_value (nth p vars dflt_lhs) (codes p) (at_ xq (unflat sh p))).
  { intros p Hp. rewrite Lv in Hp. destruct (Snd xq (unflat sh p) (unflat_valid sh p Hp)) as (N & V1 & V2). unfold codes. rewrite (Nv p Hp), (table_size_ok _ _ V1). cbn [pred]. split; assumption. }
  replace (forallb _ (seq 0 (nprod sh))) with true.
  2:{ symmetry. apply forallb_forall. intros p Hp. apply in_seq in Hp. unfold replay_tables. rewrite raw_tables_spec; [reflexivity| |rewrite Lv; lia]. cbn [L table_of tl_in tl_out]. nia. }
  eexists. split; [reflexivity|].
  assert (Shr : shape r = n :: sh).
  { rewrite (quant_call_shape n (xt_toq t) T r Ttoq (proj1 HT) Er). cbn [T shape]. rewrite EsX, SvX. reflexivity. }
  assert (RL : removelast (removelast (n :: sh)) = n :: lead).
  { rewrite Exq. change (n :: lead ++ [xt_in t; xt_out t]) with ((n :: lead) ++ [xt_in t] ++ [xt_out t]). rewrite app_assoc. rewrite !removelast_last. reflexivity. }
  assert (RL' : removelast (removelast sh) = lead).
  { rewrite Exq. change (lead ++ [xt_in t; xt_out t]) with (lead ++ [xt_in t] ++ [xt_out t]). rewrite app_assoc. rewrite !removelast_last. reflexivity. }
  rewrite RL'. split.
  - unfold sum_inputs. unfold batch_in. cbn [shape]. rewrite Shr, RL. destruct lead as [|d' l']; [exists (xt_out t), []|exists d', (l' ++ [xt_out t])]; reflexivity.
  - split; [cbn [sample sum_inputs shape]; rewrite Shr, RL; reflexivity|]. cbn [sample sum_inputs shape at_]. rewrite Shr, RL. cbn [app tl]. intros i Vi. destruct (valid_snoc_inv _ _ _ Vi) as (V1 & V2). set (o := last i 0%nat) in *. set (l := removelast i) in *.
    assert (Lb : last (b :: i) 0%nat = o) by (destruct i; [inversion Vi as [Q|]; destruct lead; discriminate|reflexivity]).
    assert (Rb : removelast (b :: i) = b :: l) by (destruct i; [inversion Vi as [Q|]; destruct lead; discriminate|reflexivity]).
    rewrite Lb, Rb.
    destruct (dense_table_exact L (xt_translate t) tq vars codes (fun p => at_ xq (unflat sh p)) (nprod lead)) with (b := flat lead l) (o := o) (act := fun q : Q => q) as (yy & Eyy & Hyy).
    + cbn [L table_of tl_in tl_out]. rewrite Lv. exact Ln.
    + exact Hvar.
    + exact Tr.
    + intros p q1 q2 E. exact (Ptq p q1 q2 E).
    + exact Hbn.
    + apply flat_lt, V1.
    + exact V2.
    + intros q1 q2 E. exact E.
    + rewrite Eyy. rewrite Hyy. unfold dense_t_call. cbv zeta. cbn [L table_of tl_in tl_out tl_net tl_bn tl_isqrt tl_toq]. apply qsum_ext. intros j Hj. apply in_seq in Hj.
      assert (Vj : valid_index sh (l ++ [j; o])).
      { rewrite Exq. change (lead ++ [xt_in t; xt_out t]) with (lead ++ [xt_in t] ++ [xt_out t]). change (l ++ [j; o]) with (l ++ [j] ++ [o]). rewrite !app_assoc. apply valid_snoc; [apply valid_snoc; [exact V1|lia]|exact V2]. }
      assert (Fj : flat sh (l ++ [j; o]) = ((flat lead l * xt_in t + j) * xt_out t + o)%nat) by (rewrite Exq; apply flat_snoc2; apply (valid_len _ _ V1)).
      rewrite <- Fj. pose proof (proj2 Hr) as (Srz & Arz). cbn [sample shape at_] in Srz, Arz. rewrite Shr in Arz. cbn [tl] in Arz. change ((b :: l) ++ [j; o]) with (b :: (l ++ [j; o])). rewrite (Arz _ Vj).
      rewrite (Az _ Vj). rewrite (unflat_flat _ _ Vj). apply Ptq. cbn [sample T at_].
      assert (La : last (b :: l ++ [j; o]) 0%nat = o) by (change (b :: l ++ [j; o]) with ((b :: l) ++ [j] ++ [o]); rewrite app_assoc; apply last_last).
      assert (Ra : last (removelast (b :: l ++ [j; o])) 0%nat = j) by (change (b :: l ++ [j; o]) with ((b :: l) ++ [j] ++ [o]); rewrite app_assoc, removelast_last; apply last_last).
      rewrite La, Ra. assert (EQ : subnet (xt_net t) (j * xt_out t + o) (at_ X (b :: l ++ [j; o])) == subnet (xt_net t) (j * xt_out t + o) (at_ xq (l ++ [j; o]))).
      { apply (subnet_proper (xt_translate t)); [exact Tr|]. apply AvX. rewrite SvX. exact Vj. }
      destruct (xt_bn t) as [bn|]; [|exact EQ]. unfold bn_apply. rewrite EQ. reflexivity.
Qed.
