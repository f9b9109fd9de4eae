From Coq Require Import String.
From Verif Require Import Num M_Fixed L_Fixed M_State M_Wrapper M_Mapper S_Mapper M_Contr M_Ebops M_Pow2 M_Patch S_Patch M_Ops M_Mirror S_Mirror M_Trace S_Trace M_Table S_Table M_Softmax M_Net S_Net L_Net M_NetX S_NetX L_Lift L_NetX8 L_NetX9 S_Ops.
From Verif Require Import L_Ops M_Calib S_Calib M_Attn S_Attn M_Prog M_Rnn S_Rnn S_Prog L_Prog L_Prog2 L_Prog3 L_Prog4 L_Prog5 M_ProgAttn S_ProgAttn L_ProgAttn2 L_Mapper S_Batch.
Local Open Scope list_scope.

Definition point_env (x : xlayer) (args : list (varg da)) (name : string) (k : nat) (t : tensor Q) : obj := mk_obj k (fun i => mk_lhs (at_ t i) (at_ t i) 1).
Lemma point_ranges t k : in_ranges (mk_da t (mk_obj k (fun i => mk_lhs (at_ t i) (at_ t i) 1))).
Proof. intros i _. exists 0%nat. split; [split; [reflexivity|cbn; ring]|]. exists 0%nat. split; [lia|]. cbn. ring. Qed.
Lemma point_sound : sound point_env.
Proof. intros x args name k t. apply point_ranges. Qed.
Lemma same_da n b n' b' xs xs' : Forall2 (same_sample n b n' b') xs xs' -> exists ds, Forall2 (holds_x n b) xs ds /\ Forall2 (holds_x n' b') xs' ds.
Proof.
  induction 1 as [|x x' xs xs' (Bx & Bx' & S) F (ds & G & G')]; [exists []; split; constructor|].
  exists (mk_da (sample b x) (mk_obj 0 (fun i => mk_lhs (at_ (sample b x) i) (at_ (sample b x) i) 1)) :: ds). split; (constructor; [|assumption]); (split; [|apply point_ranges]); cbn [da_val].
  - split; [exact Bx|apply st_refl].
  - split; [exact Bx'|apply st_sym, S].
Qed.
Lemma network_batch fuel m n b n' b' xs xs' ys ys' : well_formed fuel m -> every_op traceable_x fuel m -> evaluates keras_x fuel m xs ys -> evaluates keras_x fuel m xs' ys' ->
  (b < n)%nat -> (b' < n')%nat -> Forall2 (same_sample n b n' b') xs xs' -> Forall2 (same_sample n b n' b') ys ys'.
Proof.
  intros W T E E' Hb Hb' S. destruct (same_da _ _ _ _ _ _ S) as (ds & D & D').
  destruct (network_x_traced point_env fuel m n b xs ds ys point_sound W T E Hb D) as (d & zs & E1 & E2 & G).
  destruct (network_x_traced point_env fuel m n' b' xs' ds ys' point_sound W T E' Hb' D') as (d' & zs' & E1' & E2' & G').
  rewrite E1 in E1'. apply some_inj in E1'. subst d'. rewrite E2 in E2'. apply some_inj in E2'. subst zs'. clear -G G'. revert ys' G'.
  induction G as [|y z ys zs Hz G IH]; intros ys' G'; inversion G' as [|y' ? ys2 ? Hz' G2]; subst; constructor; [|apply IH, G2].
  destruct Hz as ((B1 & S1) & _), Hz' as ((B2 & S2) & _). split; [exact B1|]. split; [exact B2|]. exact (st_trans _ _ _ S1 (st_sym _ _ S2)).
Qed.

(** the second batch with its sample replaced by the very function of the first *)
Definition graft (b b' : nat) (x x' : tensor Q) : tensor Q :=
  mk_tensor (shape x') (fun i => match i with c :: r => if (c =? b')%nat then at_ x (b :: r) else at_ x' i | [] => at_ x' i end).
Lemma graft_same n b n' b' x x' : same_sample n b n' b' x x' -> same_tensor x' (graft b b' x x').
Proof.
  intros ((d & sh & Ex) & (d' & sh' & Ex') & Se & Sv). split; [reflexivity|]. intros i Hi. cbn [graft at_]. destruct i as [|c r]; [reflexivity|]. destruct (Nat.eqb_spec c b') as [->|_]; [|reflexivity].
  symmetry. specialize (Sv r). cbn [sample at_] in Sv. apply Sv. cbn [sample shape] in *. rewrite Ex, Ex' in *. cbn [tl] in *. rewrite Se. inversion Hi; assumption.
Qed.
Lemma graft_rows n b n' b' x x' : same_sample n b n' b' x x' -> rows b' (graft b b' x x') = rows b x.
Proof.
  intros ((d & sh & Ex) & (d' & sh' & Ex') & Se & _). cbn [sample shape] in Se. rewrite Ex, Ex' in Se. cbn [tl] in Se. injection Se as <- <-. unfold rows, graft. cbn [at_ shape]. rewrite Ex, Ex'. cbn [nth]. rewrite (Nat.eqb_refl b'). reflexivity.
Qed.
Lemma rows_sample u b b' (y y' : tensor Q) B B' T T' : shape y = [B; T; u] -> shape y' = [B'; T'; u] -> (b < B)%nat -> (b' < B')%nat -> same_seq u (rows b y) (rows b' y') -> same_sample B b B' b' y y'.
Proof.
  intros Ey Ey' Hb Hb' S. unfold same_sample, batch_in. split; [eauto|]. split; [eauto|].
  assert (L : T = T').
  { pose proof (Forall2_len _ _ _ S) as L. unfold rows in L. rewrite !map_length, !seq_length, Ey, Ey' in L. exact L. }
  subst T'. split; [cbn [sample shape]; rewrite Ey, Ey'; reflexivity|]. intros i Hi. cbn [sample shape at_] in *. rewrite Ey in Hi. cbn [tl] in Hi.
  inversion Hi as [|t ? r ? Ht Hr]; subst. inversion Hr as [|j ? r' ? Hj Hn]; subst. inversion Hn; subst. unfold same_seq, rows in S. rewrite Ey, Ey' in S. cbn [nth] in S.
  assert (G : forall l, Forall2 (same_vec u) (map (fun t j => at_ y [b; t; j]) l) (map (fun t j => at_ y' [b'; t; j]) l) -> In t l -> at_ y [b; t; j] == at_ y' [b'; t; j]).
  { clear -Hj. induction l as [|t0 l IH]; intros F H; [destruct H|]. cbn [map] in F. inversion F as [|? ? ? ? F1 F2]; subst. destruct H as [->|H]; [apply F1, Hj|apply IH; assumption]. }
  apply (G _ S). apply in_seq. lia.
Qed.
Lemma returned_sample (sequences : bool) u b b' outs (y y' : tensor Q) B B' : (b < B)%nat -> (b' < B')%nat ->
  (if sequences then exists T, shape y = [B; T; u] else shape y = [B; u]) -> (if sequences then exists T, shape y' = [B'; T; u] else shape y' = [B'; u]) ->
  returned sequences u b outs y -> returned sequences u b' outs y' -> same_sample B b B' b' y y'.
Proof.
  intros Hb Hb' S S' R R'. destruct sequences.
  - destruct S as (T & S), S' as (T' & S'). apply (rows_sample u b b' y y' B B' T T' S S' Hb Hb'). unfold returned, same_seq in *. clear -R R'. revert R'. generalize (rows b' y'). induction R as [|o v outs vs H R IH]; intros vs' R'; inversion R' as [|? v' ? vs2 H' R2]; subst; constructor; [|apply IH, R2].
    intros j Hj. rewrite <- (H j Hj). apply H', Hj.
  - unfold same_sample, batch_in. split; [exists u, []; exact S|]. split; [exists u, []; exact S'|]. split; [cbn [sample shape]; rewrite S, S'; reflexivity|]. intros i Hi. cbn [sample shape at_] in *. rewrite S in Hi. cbn [tl] in Hi.
    inversion Hi as [|j ? r ? Hj Hr]; subst. inversion Hr; subst. destruct R as (_ & R), R' as (_ & R'). unfold row in *. rewrite <- (R j Hj). apply R', Hj.
Qed.
Lemma graft_eval tab call n b n' b' x x' y' : values_only call -> same_sample n b n' b' x x' -> eval tab (call (One x')) = Some y' ->
  exists y2, eval tab (call (One (graft b b' x x'))) = Some y2 /\ same_tensor y' y2.
Proof. intros V S E. apply (eval_same same_tensor tab _ _ (V (One x') (One (graft b b' x x')) (graft_same _ _ _ _ _ _ S)) _ E). Qed.
Lemma sample_same_r n b n' b' y y2 y' : (b' < n')%nat -> same_tensor y' y2 -> same_sample n b n' b' y y2 -> same_sample n b n' b' y y'.
Proof.
  intros Hb (Se & Sv) (B1 & (d & sh & E) & S1 & S2). split; [exact B1|]. split; [exists d, sh; congruence|]. split; [rewrite S1; cbn [sample shape]; rewrite Se; reflexivity|].
  intros i Hi. rewrite (S2 i Hi). cbn [sample at_]. symmetry. apply Sv. rewrite Se, E. constructor; [exact Hb|]. rewrite S1 in Hi. cbn [sample shape] in Hi. rewrite E in Hi. exact Hi.
Qed.
Lemma same_sample_shape n b n' b' x x' s : same_sample n b n' b' x x' -> shape x = n :: s -> shape x' = n' :: s.
Proof. intros (_ & (d' & s' & E') & S & _) E. cbn [sample shape] in S. rewrite E, E' in S. cbn [tl] in S. rewrite E'. congruence. Qed.
Lemma srnn_batch tab l f T B b B' b' x x' y y' : on_numbers (sr_act l) -> rnn_built tab l f -> shape x = [B; T; f] -> (b < B)%nat -> (b' < B')%nat -> same_sample B b B' b' x x' ->
  eval tab (srnn_prog l (One x)) = Some y -> eval tab (srnn_prog l (One x')) = Some y' -> same_sample B b B' b' y y'.
Proof.
  intros A R Ex Hb Hb' S E E'. destruct (graft_eval _ _ _ _ _ _ _ _ _ (srnn_values_only l A) S E') as (y2 & E2 & S2). apply (sample_same_r _ _ _ _ _ y2 _ Hb' S2).
  assert (Eg : shape (graft b b' x x') = [B'; T; f]) by exact (same_sample_shape _ _ _ _ _ _ _ S Ex).
  destruct (srnn_row tab B b Hb l f T x y A R Ex E) as (c & Ec & Rc). destruct (srnn_row tab B' b' Hb' l f T _ y2 A R Eg E2) as (c' & Ec' & Rc').
  rewrite Ec in Ec'. apply some_inj in Ec'. subst c'. rewrite (graft_rows _ _ _ _ _ _ S) in Rc'.
  exact (returned_sample _ _ _ _ _ _ _ _ _ Hb Hb' (srnn_shape _ _ _ _ _ _ _ Ex E) (srnn_shape _ _ _ _ _ _ _ Eg E2) Rc Rc').
Qed.
Lemma sgru_batch tab l f T B b B' b' x x' y y' : on_numbers (sg_act l) -> on_numbers (sg_ract l) -> gru_built tab l f -> shape x = [B; T; f] -> (b < B)%nat -> (b' < B')%nat -> same_sample B b B' b' x x' ->
  eval tab (sgru_prog l (One x)) = Some y -> eval tab (sgru_prog l (One x')) = Some y' -> same_sample B b B' b' y y'.
Proof.
  intros A A2 R Ex Hb Hb' S E E'. destruct (graft_eval _ _ _ _ _ _ _ _ _ (sgru_values_only l A A2) S E') as (y2 & E2 & S2). apply (sample_same_r _ _ _ _ _ y2 _ Hb' S2).
  assert (Eg : shape (graft b b' x x') = [B'; T; f]) by exact (same_sample_shape _ _ _ _ _ _ _ S Ex).
  destruct (sgru_row tab B b Hb l f T x y A A2 R Ex E) as (c & Ec & Rc). destruct (sgru_row tab B' b' Hb' l f T _ y2 A A2 R Eg E2) as (c' & Ec' & Rc').
  rewrite Ec in Ec'. apply some_inj in Ec'. subst c'. rewrite (graft_rows _ _ _ _ _ _ S) in Rc'.
  exact (returned_sample _ _ _ _ _ _ _ _ _ Hb Hb' (sgru_shape _ _ _ _ _ _ _ Ex E) (sgru_shape _ _ _ _ _ _ _ Eg E2) Rc Rc').
Qed.
Lemma spike_on_numbers (f : Q -> Q) : (forall v, (0 < v -> f v == 1) /\ (v <= 0 -> f v == 0)) -> on_numbers f.
Proof.
  intros H p q E. destruct (Qlt_le_dec 0 p) as [L|L].
  - rewrite (proj1 (H p) L). symmetry. apply (proj1 (H q)). rewrite <- E. exact L.
  - rewrite (proj2 (H p) L). symmetry. apply (proj2 (H q)). rewrite <- E. exact L.
Qed.
Lemma ssnn_batch tab l T B b B' b' x x' y y' : snn_built tab l -> shape x = [B; S T; sn_units l] -> (b < B)%nat -> (b' < B')%nat -> same_sample B b B' b' x x' ->
  eval tab (ssnn_prog l (One x)) = Some y -> eval tab (ssnn_prog l (One x')) = Some y' -> same_sample B b B' b' y y'.
Proof.
  intros R Ex Hb Hb' Ss E E'. assert (A : on_numbers (sn_spike l)) by (apply spike_on_numbers; apply R).
  destruct (graft_eval _ _ _ _ _ _ _ _ _ (ssnn_values_only l A) Ss E') as (y2 & E2 & S2). apply (sample_same_r _ _ _ _ _ y2 _ Hb' S2).
  assert (Eg : shape (graft b b' x x') = [B'; S T; sn_units l]) by exact (same_sample_shape _ _ _ _ _ _ _ Ss Ex).
  destruct (ssnn_row tab B b Hb l T x y R Ex E) as (c & Ec & Rc). destruct (ssnn_row tab B' b' Hb' l T _ y2 R Eg E2) as (c' & Ec' & Rc').
  rewrite Ec in Ec'. apply some_inj in Ec'. subst c'. rewrite (graft_rows _ _ _ _ _ _ Ss) in Rc'.
  exact (returned_sample _ _ _ _ _ _ _ _ _ Hb Hb' (rnn_shape _ _ _ _ _ _ _ _ _ _ Ex E) (rnn_shape _ _ _ _ _ _ _ _ _ _ Eg E2) Rc Rc').
Qed.
(** attention *)
Definition graft_in (b b' : nat) (x x' : tin) : tin :=
  match x, x' with One x, One x' => One (graft b b' x x') | Many xs, Many xs' => Many (map (fun p => graft b b' (fst p) (snd p)) (List.combine xs xs')) | _, _ => x' end.
Lemma graft_in_same n b n' b' x x' : same_samples n b n' b' x x' -> same_inputs x' (graft_in b b' x x').
Proof.
  destruct x as [x|xs], x' as [x'|xs']; cbn [same_samples graft_in same_inputs]; try contradiction; [apply graft_same|].
  induction 1 as [|x x' xs xs' S F IH]; cbn [List.combine map fst snd]; constructor; [apply (graft_same _ _ _ _ _ _ S)|exact IH].
Qed.
Lemma graft_sample2 b b' x x' : sample2 b' (graft b b' x x') = sample2 b x.
Proof. unfold sample2, graft. cbn [at_]. rewrite (Nat.eqb_refl b'). reflexivity. Qed.
Lemma graft_qvk n b n' b' x x' q v k : same_samples n b n' b' x x' -> qvk x = Some (q, v, k) ->
  exists q' v' k', qvk (graft_in b b' x x') = Some (q', v', k') /\ sample2 b' q' = sample2 b q /\ option_map (sample2 b') v' = option_map (sample2 b) v /\ option_map (sample2 b') k' = option_map (sample2 b) k /\
    forall z, sizes_of n z q v k -> sizes_of n' z q' v' k'.
Proof.
  intros S X. destruct x as [x|xs], x' as [x'|xs']; cbn [same_samples] in S; try contradiction; cbn [graft_in].
  - injection X as <- <- <-. exists (graft b b' x x'), None, None. split; [reflexivity|]. rewrite graft_sample2. repeat (split; [reflexivity|]). intros z (Z1 & Z2 & Z3). cbn [or_else] in *.
    repeat split; cbn [graft shape or_else]; apply (same_sample_shape _ _ _ _ _ _ _ S); assumption.
  - inversion S as [|x1 x1' r r' S1 F1]; subst; [discriminate X|]. inversion F1 as [|x2 x2' r2 r2' S2 F2]; subst; [discriminate X|]. inversion F2 as [|x3 x3' r3 r3' S3 F3]; subst.
    + injection X as <- <- <-. cbn [List.combine map fst snd]. exists (graft b b' x1 x1'), (Some (graft b b' x2 x2')), None. split; [reflexivity|]. cbn [option_map]. rewrite !graft_sample2. repeat (split; [reflexivity|]). intros z (Z1 & Z2 & Z3). cbn [or_else] in *.
      repeat split; cbn [graft shape or_else]; first [apply (same_sample_shape _ _ _ _ _ _ _ S1); assumption|apply (same_sample_shape _ _ _ _ _ _ _ S2); assumption].
    + inversion F3; subst; [|discriminate X]. injection X as <- <- <-. cbn [List.combine map fst snd]. exists (graft b b' x1 x1'), (Some (graft b b' x2 x2')), (Some (graft b b' x3 x3')). split; [reflexivity|]. cbn [option_map]. rewrite !graft_sample2. repeat (split; [reflexivity|]).
      intros z (Z1 & Z2 & Z3). cbn [or_else] in *.
      repeat split; cbn [graft shape or_else]; [apply (same_sample_shape _ _ _ _ _ _ _ S1); assumption|apply (same_sample_shape _ _ _ _ _ _ _ S2); assumption|apply (same_sample_shape _ _ _ _ _ _ _ S3); assumption].
Qed.
Lemma attn_batch tab a z B b B' b' x x' q v k y y' : on_numbers (ha_exp a) -> on_numbers (ha_inv a) -> attn_built tab a z -> qvk x = Some (q, v, k) -> sizes_of B z q v k ->
  (b < B)%nat -> (b' < B')%nat -> same_samples B b B' b' x x' ->
  eval tab (smha_prog (attn_prog a) x) = Some y -> eval tab (smha_prog (attn_prog a) x') = Some y' -> same_sample B b B' b' y y'.
Proof.
  intros Fe Fi Ab X Z Hb Hb' Ss E E'. destruct (eval_same same_tensor tab _ _ (attn_values_only a Fe Fi x' (graft_in b b' x x') (graft_in_same _ _ _ _ _ _ Ss)) _ E') as (y2 & E2 & S2).
  apply (sample_same_r _ _ _ _ _ y2 _ Hb' S2). destruct (graft_qvk _ _ _ _ _ _ _ _ _ Ss X) as (q' & v' & k' & X' & G1 & G2 & G3 & G4).
  destruct (attn_sample tab B b Hb a z x q v k y Fe Fi Ab X Z E) as (c & Ec & Sy & V). destruct (attn_sample tab B' b' Hb' a z _ q' v' k' y2 Fe Fi Ab X' (G4 z Z) E2) as (c' & Ec' & Sy' & V').
  rewrite Ec in Ec'. apply some_inj in Ec'. subst c'. rewrite G1, G2, G3 in V'. unfold same_sample, batch_in. split; [eauto|]. split; [eauto|]. split; [cbn [sample shape]; rewrite Sy, Sy'; reflexivity|].
  intros i Hi. cbn [sample shape at_] in *. rewrite Sy in Hi. cbn [tl] in Hi. inversion Hi as [|t ? r ? Ht Hr]; subst. inversion Hr as [|e ? r' ? He Hn]; subst. inversion Hn; subst. rewrite (V t e Ht He). symmetry. apply V'; assumption.
Qed.
