(** Lemmas for C68: limits of numbers, tensors, and of the operations. *)
From Coq Require Import String.
From Verif Require Import Num M_Fixed L_Fixed M_State M_Wrapper S_Wrapper L_Wrapper M_Mapper S_Mapper L_Mapper M_Contr M_Ebops L_Ebops M_Pow2 M_Patch L_Patch M_Ops L_Ops M_Mirror L_Mirror M_Trace L_Trace M_Softmax M_Net S_Net L_Net L_Net2 L_Net3 L_Net4 L_Net5 M_Causal L_Causal M_Calib S_Ops S_Calib L_Calib L_Calib2 M_Prog S_Prog L_Prog L_Prog2 L_Prog3 S_Limit.
Local Open Scope list_scope.

(** ** numbers *)
Lemma tends_ext a b l m : (forall n, a n == b n) -> l == m -> tends a l -> tends b m.
Proof. intros E F H e He. destruct (H e He) as (N & HN). exists N. intros n Hn. rewrite <- (E n), <- F. exact (HN n Hn). Qed.
Lemma tends_const c : tends (fun _ => c) c.
Proof. intros e He. exists 0%nat. intros n _. setoid_replace (c - c) with 0 by ring. exact He. Qed.
Lemma tends_plus a b l m : tends a l -> tends b m -> tends (fun n => a n + b n) (l + m).
Proof.
  intros H K e He. destruct (H (e * (1#2)) ltac:(lra)) as (N & HN). destruct (K (e * (1#2)) ltac:(lra)) as (M & HM). exists (Nat.max N M). intros n Hn. specialize (HN n ltac:(lia)). specialize (HM n ltac:(lia)).
  setoid_replace (a n + b n - (l + m)) with ((a n - l) + (b n - m)) by ring. pose proof (Qabs_triangle (a n - l) (b n - m)). lra.
Qed.
Lemma tends_scale c a l : tends a l -> tends (fun n => c * a n) (c * l).
Proof.
  intros H e He. pose proof (Qabs_nonneg c) as C. assert (P : 0 < / (Qabs c + 1)) by (apply Qinv_lt_0_compat; lra). assert (Pe : 0 < e * / (Qabs c + 1)) by (apply Qmult_lt_0_compat; assumption).
  destruct (H _ Pe) as (N & HN). exists N. intros n Hn. specialize (HN n Hn).
  setoid_replace (c * a n - c * l) with (c * (a n - l)) by ring. rewrite Qabs_Qmult. set (d := Qabs (a n - l)) in *. assert (D : 0 <= d) by apply Qabs_nonneg.
  apply Qle_lt_trans with ((Qabs c + 1) * d); [apply Qmult_le_compat_r; [lra|exact D]|].
  assert (E : e == (Qabs c + 1) * (e * / (Qabs c + 1))) by (field; lra). rewrite E. apply Qmult_lt_l; [lra|exact HN].
Qed.
Lemma tends_zero_mult a b : tends a 0 -> tends b 0 -> tends (fun n => a n * b n) 0.
Proof.
  intros H K e He. destruct (H e He) as (N & HN). destruct (K 1 ltac:(reflexivity)) as (M & HM). exists (Nat.max N M). intros n Hn. specialize (HN n ltac:(lia)). specialize (HM n ltac:(lia)).
  setoid_replace (a n * b n - 0) with ((a n - 0) * (b n - 0)) by ring. rewrite Qabs_Qmult. set (u := Qabs (a n - 0)) in *. set (v := Qabs (b n - 0)) in *. assert (U : 0 <= u) by apply Qabs_nonneg. assert (V : 0 <= v) by apply Qabs_nonneg.
  apply Qle_lt_trans with (u * 1); [rewrite !(Qmult_comm u); apply Qmult_le_compat_r; [lra|exact U]|lra].
Qed.
Lemma tends_mult a b l m : tends a l -> tends b m -> tends (fun n => a n * b n) (l * m).
Proof.
  intros H K. assert (H0 : tends (fun n => a n + - l) 0) by (eapply tends_ext; [| |exact (tends_plus _ _ _ _ H (tends_const (- l)))]; [reflexivity|ring]).
  assert (K0 : tends (fun n => b n + - m) 0) by (eapply tends_ext; [| |exact (tends_plus _ _ _ _ K (tends_const (- m)))]; [reflexivity|ring]).
  eapply tends_ext; [| |exact (tends_plus _ _ _ _ (tends_plus _ _ _ _ (tends_plus _ _ _ _ (tends_zero_mult _ _ H0 K0) (tends_scale l _ _ K0)) (tends_scale m _ _ H0)) (tends_const (l * m)))]; [intros n; cbn beta; ring|ring].
Qed.
Lemma tends_minus a b l m : tends a l -> tends b m -> tends (fun n => a n - b n) (l - m).
Proof. intros H K. eapply tends_ext; [| |exact (tends_plus _ _ _ _ H (tends_scale (-(1)) _ _ K))]; [intros n; cbn beta; ring|ring]. Qed.
Lemma max_dist a b l m e : Qabs (a - l) < e -> Qabs (b - m) < e -> Qabs (Qmax a b - Qmax l m) < e.
Proof.
  intros H K. apply Qabs_Qlt_condition in H. apply Qabs_Qlt_condition in K. apply Qabs_Qlt_condition.
  destruct (Q.max_spec a b) as [(X & E)|(X & E)], (Q.max_spec l m) as [(Y & F)|(Y & F)]; rewrite E, F; split; lra.
Qed.
Lemma min_dist a b l m e : Qabs (a - l) < e -> Qabs (b - m) < e -> Qabs (Qmin a b - Qmin l m) < e.
Proof.
  intros H K. apply Qabs_Qlt_condition in H. apply Qabs_Qlt_condition in K. apply Qabs_Qlt_condition.
  destruct (Q.min_spec a b) as [(X & E)|(X & E)], (Q.min_spec l m) as [(Y & F)|(Y & F)]; rewrite E, F; split; lra.
Qed.
Lemma tends_both (f : Q -> Q -> Q) a b l m : (forall a b l m e, Qabs (a - l) < e -> Qabs (b - m) < e -> Qabs (f a b - f l m) < e) -> tends a l -> tends b m -> tends (fun n => f (a n) (b n)) (f l m).
Proof.
  intros D H K e He. destruct (H e He) as (N & HN). destruct (K e He) as (M & HM). exists (Nat.max N M). intros n Hn. apply D; [apply HN|apply HM]; lia.
Qed.
Lemma tends_fn f a l : continuous_at f l -> tends a l -> tends (fun n => f (a n)) (f l).
Proof. intros C H e He. destruct (C e He) as (d & Hd & C'). destruct (H d Hd) as (N & HN). exists N. intros n Hn. apply C', HN, Hn. Qed.
Lemma tends_qsum {I} (F : nat -> I -> Q) (f : I -> Q) l : (forall i, In i l -> tends (fun n => F n i) (f i)) -> tends (fun n => qsum (map (F n) l)) (qsum (map f l)).
Proof.
  induction l as [|i l IH]; intros H; cbn [map]; [exact (tends_const 0)|].
  exact (tends_plus _ _ _ _ (H i (or_introl eq_refl)) (IH (fun j Hj => H j (or_intror Hj)))).
Qed.
Lemma continuous_id : continuous (fun x => x).
Proof. intros x e He. exists e. split; [exact He|]. intros y H. exact H. Qed.
Lemma continuous_scale c : continuous (fun x => x * c).
Proof.
  intros x e He. pose proof (Qabs_nonneg c) as C. assert (P : 0 < / (Qabs c + 1)) by (apply Qinv_lt_0_compat; lra). exists (e * / (Qabs c + 1)). split; [apply Qmult_lt_0_compat; assumption|]. intros y H.
  setoid_replace (y * c - x * c) with (c * (y - x)) by ring. rewrite Qabs_Qmult. set (d := Qabs (y - x)) in *. assert (D : 0 <= d) by apply Qabs_nonneg.
  apply Qle_lt_trans with ((Qabs c + 1) * d); [apply Qmult_le_compat_r; [lra|exact D]|].
  assert (E : e == (Qabs c + 1) * (e * / (Qabs c + 1))) by (field; lra). rewrite E. apply Qmult_lt_l; [lra|exact H].
Qed.
Lemma continuous_relu : continuous relu.
Proof.
  intros x e He. exists e. split; [exact He|]. intros y H. unfold relu. apply max_dist; [exact He|exact H].
Qed.
Lemma continuous_one_minus : continuous (fun v => 1 - v).
Proof. intros x e He. exists e. split; [exact He|]. intros y H. setoid_replace (1 - y - (1 - x)) with (- (y - x)) by ring. rewrite Qabs_opp. exact H. Qed.

(** ** the quantizer *)
Lemma fine_value rm om i f x : (0 <= f)%Z -> (0 <= i)%Z -> Qabs x + 2 <= pow2 i -> base_call rm om false true i f x == round_f rm f x /\ Qabs (round_f rm f x - x) <= pow2 (- f).
Proof.
  intros Hf Hi B. pose proof (round_f_bound rm f x) as R. pose proof (pow2_pos (- f)) as P. assert (S : step_bound rm f <= pow2 (- f)) by (unfold step_bound; destruct rm; lra).
  assert (R2 : Qabs (round_f rm f x - x) <= pow2 (- f)) by lra. split; [|exact R2].
  assert (P1 : pow2 (- f) <= 1) by (change 1 with (pow2 0); apply pow2_le; lia).
  apply inference_in_range; [cbn [kz]; lia|]. apply Qabs_Qle_condition in R2. destruct R2 as (R3 & R4).
  assert (X : Qabs x <= pow2 i - 2) by lra. apply Qabs_Qle_condition in X. destruct X as (X1 & X2). unfold q_min, q_max. split; [|lra]. destruct om; cbn [symmetric kz]; change (inject_Z 1) with 1; change (inject_Z 0) with 0; lra.
Qed.
Lemma pow2_above q : exists k, (0 <= k)%Z /\ forall j, (k <= j)%Z -> q <= pow2 j.
Proof.
  exists (Z.max 0 (Qceiling q)). split; [lia|]. intros j Hj. rewrite (pow2_inject j ltac:(lia)). pose proof (Qle_ceiling q) as C. eapply Qle_trans; [exact C|]. rewrite <- Zle_Qle.
  pose proof (Z.pow_gt_lin_r 2 j ltac:(lia) ltac:(lia)). lia.
Qed.
Lemma pow2_below e : 0 < e -> exists k, (0 <= k)%Z /\ forall j, (k <= j)%Z -> pow2 (- j) <= e.
Proof.
  intros He. destruct (pow2_above (/ e)) as (k & Hk & H). exists k. split; [exact Hk|]. intros j Hj. specialize (H j Hj). pose proof (pow2_opp_mul j) as M. pose proof (pow2_pos (- j)) as P.
  assert (E : e == e * (pow2 j * pow2 (- j))) by (rewrite M; ring). rewrite E. assert (X : 1 <= e * pow2 j). { assert (Y : 1 == e * / e) by (field; lra). rewrite Y. rewrite !(Qmult_comm e). apply Qmult_le_compat_r; [exact H|lra]. }
  setoid_replace (e * (pow2 j * pow2 (- j))) with (e * pow2 j * pow2 (- j)) by ring. setoid_replace (pow2 (- j)) with (1 * pow2 (- j)) at 1 by ring. apply Qmult_le_compat_r; [exact X|lra].
Qed.
Lemma bcast_valid : forall w sh i, bcast_ok w sh = true -> valid_index sh i -> valid_index w (bcast_index w i).
Proof.
  induction w as [|d w IH]; intros sh i B V; [destruct sh; [|discriminate]; constructor|]. destruct sh as [|e sh]; [discriminate|]. inversion V as [|a ? i' ? Ha V']; subst. cbn [bcast_ok] in B. apply andb_true_iff in B as (B1 & B2).
  cbn [bcast_index]. constructor; [|exact (IH _ _ B2 V')]. apply orb_true_iff in B1. destruct (Nat.eqb_spec d 1) as [->|]; [lia|]. destruct B1 as [B1|B1]; [discriminate|]. apply Nat.eqb_eq in B1. subst e. exact Ha.
Qed.
Lemma fine_base c k i f x y j m : (0 <= m)%Z -> (forall g, valid_index (shape k) g -> at_ k g = true) -> (forall g, valid_index (shape i) g -> (m <= at_ i g)%Z) -> (forall g, valid_index (shape f) g -> (m <= at_ f g)%Z) ->
  base_tcall c false k i f x = Some y -> valid_index (shape x) j -> Qabs (at_ x j) + 2 <= pow2 m -> Qabs (at_ y j - at_ x j) <= pow2 (- m).
Proof.
  intros Hm Hk Hi Hf. unfold base_tcall, broadcast_to. destruct (bcast_ok (shape k) (shape x)) eqn:Bk; [|discriminate]. destruct (bcast_ok (shape i) (shape x)) eqn:Bi; [|discriminate]. destruct (bcast_ok (shape f) (shape x)) eqn:Bf; [|discriminate].
  cbn [bind]. intros H V L. apply some_inj in H. subst y. cbn [at_]. rewrite (Hk _ (bcast_valid _ _ _ Bk V)). specialize (Hi _ (bcast_valid _ _ _ Bi V)). specialize (Hf _ (bcast_valid _ _ _ Bf V)).
  set (ii := at_ i _) in *. set (ff := at_ f _) in *. assert (L2 : Qabs (at_ x j) + 2 <= pow2 ii) by (eapply Qle_trans; [exact L|apply pow2_le, Hi]).
  destruct (fine_value (c_rm c) (c_om c) ii ff (at_ x j) ltac:(lia) ltac:(lia) L2) as (E & D). rewrite E. eapply Qle_trans; [exact D|]. apply pow2_le. lia.
Qed.
Lemma fine_round c f x y j m : (0 <= m)%Z -> (forall g, valid_index (shape f) g -> (m <= at_ f g)%Z) -> broadcast_to f (shape x) = Some y -> valid_index (shape x) j -> Qabs (at_ (round_t c x y) j - at_ x j) <= pow2 (- m).
Proof.
  intros Hm Hf. unfold broadcast_to. destruct (bcast_ok (shape f) (shape x)) eqn:Bf; [|discriminate]. intros H V. apply some_inj in H. subst y. cbn [round_t tmap2 at_]. specialize (Hf _ (bcast_valid _ _ _ Bf V)). set (ff := at_ f _) in *.
  pose proof (round_f_bound (c_rm c) ff (at_ x j)) as R. pose proof (pow2_pos (- ff)). assert (step_bound (c_rm c) ff <= pow2 (- ff)) by (unfold step_bound; destruct (c_rm c); lra).
  eapply Qle_trans; [exact R|]. eapply Qle_trans; [eassumption|]. apply pow2_le. lia.
Qed.
Lemma fine_call m q x y j : (0 <= m)%Z -> fine m q -> quant_call q x = Some y -> valid_index (shape x) j -> Qabs (at_ x j) + 2 <= pow2 m -> Qabs (at_ y j - at_ x j) <= pow2 (- m).
Proof.
  intros Hm (Sc & Af & W) H V L. unfold quant_call, quantizer_infer in H. cbv zeta in H. rewrite Sc, Af in H. destruct (match q_s q with inl s => _ | inr s => _ end x) as [o|] eqn:E; [|discriminate]. cbn [bind] in H. apply some_inj in H. subst o.
  destruct (q_s q) as [s|s].
  - destruct W as (Wk & Wi & Wf). unfold kif_infer in E. destruct (kif_tcall (q_c q) (q_hom q) Infer s x) as [[s' o]|] eqn:K; [|discriminate]. cbn [bind] in E. apply some_inj in E. subst o. unfold kif_tcall in K. cbv zeta in K. cbn [is_train] in K.
    assert (Bs : forall o, base_tcall (q_c q) false (t_k s) (tmap round_even (t_i s)) (tmap round_even (t_f s)) x = Some o -> Qabs (at_ o j - at_ x j) <= pow2 (- m)).
    { intros o Eo. refine (fine_base _ _ _ _ _ _ _ _ Hm Wk _ _ Eo V L); cbn [tmap shape at_]; assumption. }
    destruct (is_wrap (c_om (q_c q)) && c_trainable (q_c q))%bool.
    + destruct (broadcast_to _ (shape x)) as [f|] eqn:B; [cbn [bind] in K|discriminate]. destruct (c_weight (q_c q)).
      * injection K as <- <-. refine (fine_round _ _ _ _ _ _ Hm _ B V). cbn [tmap shape at_]. exact Wf.
      * destruct (base_tcall _ _ _ _ _ x) as [o|]; [|discriminate]. cbn [bind] in K. injection K as <- <-. exact (Bs o eq_refl).
    + destruct (base_tcall _ _ _ _ _ x) as [o|]; [|discriminate]. cbn [bind] in K. injection K as <- <-. exact (Bs o eq_refl).
  - destruct W as (Sh & Wk & Wi). unfold kbi_infer in E. destruct (kbi_tcall (q_c q) (q_hom q) Infer s x) as [[s' o]|] eqn:K; [|discriminate]. cbn [bind] in E. apply some_inj in E. subst o. unfold kbi_tcall in K. cbv zeta in K. cbn [is_train] in K.
    assert (Wf : forall g, valid_index (shape (tmap2 Z.sub (tmap round_even (u_b s)) (tmap round_even (u_i s)))) g -> (m <= at_ (tmap2 Z.sub (tmap round_even (u_b s)) (tmap round_even (u_i s))) g)%Z).
    { cbn [tmap tmap2 shape at_]. rewrite Sh. intros g Hg. exact (proj2 (Wi g Hg)). }
    assert (Bs : forall o, base_tcall (q_c q) false (u_k s) (tmap round_even (u_i s)) (tmap2 Z.sub (tmap round_even (u_b s)) (tmap round_even (u_i s))) x = Some o -> Qabs (at_ o j - at_ x j) <= pow2 (- m)).
    { intros o Eo. refine (fine_base _ _ _ _ _ _ _ _ Hm Wk _ Wf Eo V L). cbn [tmap shape at_]. intros g Hg. exact (proj1 (Wi g Hg)). }
    destruct (is_wrap (c_om (q_c q)) && c_trainable (q_c q))%bool.
    + destruct (broadcast_to _ (shape x)) as [f|] eqn:B; [cbn [bind] in K|discriminate]. destruct (c_weight (q_c q) && _)%bool.
      * injection K as <- <-. exact (fine_round _ _ _ _ _ _ Hm Wf B V).
      * destruct (base_tcall _ _ _ _ _ x) as [o|]; [|discriminate]. cbn [bind] in K. injection K as <- <-. exact (Bs o eq_refl).
    + destruct (base_tcall _ _ _ _ _ x) as [o|]; [|discriminate]. cbn [bind] in K. injection K as <- <-. exact (Bs o eq_refl).
Qed.
Lemma quant_tends (q : nat -> quant) X x Y : (forall k, exists N, forall n, (N <= n)%nat -> fine k (q n)) -> tends_to X x -> (forall n, quant_call (q n) (X n) = Some (Y n)) -> tends_to Y x.
Proof.
  intros W (Sx & Tx) E. assert (Sy : forall n, shape (Y n) = shape x) by (intros n; rewrite (quant_shape _ _ _ (E n)); apply Sx). split; [exact Sy|]. intros i Vi e He.
  destruct (Tx i Vi (Qmin 1 (e * (1#2)))) as (N1 & H1). { apply Q.min_glb_lt; lra. }
  destruct (pow2_above (Qabs (at_ x i) + 3)) as (k1 & P1 & H2). destruct (pow2_below (e * (1#4))) as (k2 & P2 & H3); [lra|]. destruct (W (Z.max k1 k2)) as (N2 & H4). exists (Nat.max N1 N2). intros n Hn.
  specialize (H1 n ltac:(lia)). specialize (H4 n ltac:(lia)). specialize (H2 (Z.max k1 k2) ltac:(lia)). specialize (H3 (Z.max k1 k2) ltac:(lia)). set (k := Z.max k1 k2) in *. cbn beta in *.
  pose proof (Q.le_min_l 1 (e * (1#2))) as M1. pose proof (Q.le_min_r 1 (e * (1#2))) as M2. set (d := Qmin 1 (e * (1#2))) in *.
  assert (A : Qabs (at_ (X n) i) <= Qabs (at_ x i) + 1). { setoid_replace (at_ (X n) i) with (at_ x i + (at_ (X n) i - at_ x i)) by ring. eapply Qle_trans; [apply Qabs_triangle|]. lra. }
  assert (Vn : valid_index (shape (X n)) i) by (rewrite Sx; exact Vi).
  pose proof (fine_call k (q n) (X n) (Y n) i ltac:(lia) H4 (E n) Vn ltac:(lra)) as F.
  setoid_replace (at_ (Y n) i - at_ x i) with ((at_ (Y n) i - at_ (X n) i) + (at_ (X n) i - at_ x i)) by ring. pose proof (Qabs_triangle (at_ (Y n) i - at_ (X n) i) (at_ (X n) i - at_ x i)). lra.
Qed.
