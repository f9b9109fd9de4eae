From Coq Require Import Permutation.
From Verif Require Import Num M_Fixed M_State M_Mapper M_Ebops M_Rnn M_Softmax M_Attn S_Softmax S_Attn S_Perm L_Fixed L_Ebops L_Rnn L_Softmax L_Attn.

Lemma rearrange_perm n p : rearrangement n p -> Permutation (map p (seq 0 n)) (seq 0 n).
Proof.
  intros [H1 H2]. apply NoDup_Permutation_bis.
  - assert (G : forall l, NoDup l -> (forall i, In i l -> (i < n)%nat) -> NoDup (map p l)).
    { induction l as [|a l IH]; intros N B; [constructor|]. inversion N as [|? ? Na Nl]; subst. cbn [map]. constructor.
      - intros I. apply in_map_iff in I. destruct I as (b & Eb & Ib). apply Na. rewrite <- (H2 b a); [exact Ib|apply B; right; exact Ib|apply B; left; reflexivity|exact Eb].
      - apply IH; [exact Nl|intros; apply B; right; assumption]. }
    apply G; [apply seq_NoDup|]. intros i I. apply in_seq in I. lia.
  - rewrite map_length. lia.
  - intros i I. apply in_map_iff in I. destruct I as (j & <- & I). apply in_seq in I. apply in_seq. specialize (H1 j ltac:(lia)). lia.
Qed.
Lemma qsum_perm l l' : Permutation l l' -> qsum l == qsum l'.
Proof.
  induction 1 as [|a l l' _ IH|a b l|l l' l'' _ IH1 _ IH2]; [reflexivity| | |rewrite IH1; exact IH2].
  - rewrite !qsum_cons, IH. reflexivity.
  - rewrite !qsum_cons. ring.
Qed.
Lemma qmax_perm l l' : Permutation l l' -> qmax_of l == qmax_of l'.
Proof.
  intros P. destruct l as [|a l]; [apply Permutation_nil in P; subst; reflexivity|].
  assert (N : l' <> []) by (intros ->; apply Permutation_sym, Permutation_nil in P; discriminate P).
  apply (is_max_unique _ _ l'); [|apply qmax_is_max, N]. destruct (qmax_is_max (a :: l) ltac:(discriminate)) as [(x & Ix & Ex) B]. split.
  - exists x. split; [apply (Permutation_in _ P), Ix|exact Ex].
  - intros y Iy. apply B. apply (Permutation_in _ (Permutation_sym P)), Iy.
Qed.
Lemma qsumn_reorder n p f : rearrangement n p -> qsumn n (fun i => f (p i)) == qsumn n f.
Proof. intros H. unfold qsumn. rewrite <- (map_map p f). apply qsum_perm, Permutation_map, rearrange_perm, H. Qed.

(** masks as functions: absent and all-true are the same *)
Definition msk (m : option (nat -> bool)) (p : nat) : bool := match m with Some m => m p | None => true end.
Lemma mask_input_msk m x p : mask_input m x p == mz (msk m p) * x p - (1 - mz (msk m p)) * 1000000000.
Proof. unfold mask_input. destruct m; cbn [msk mz]; [reflexivity|ring]. Qed.
Lemma sm_exps_msk s m x ps p : sm_exps s m x ps p == mz (msk m p) * sm_exp s p (sm_exp_input s m x ps p).
Proof. unfold sm_exps. destruct m; cbn [msk mz]; [reflexivity|ring]. Qed.

Lemma sm_call_reorder s1 s2 m1 m2 x y n p i : rearrangement n p ->
  sm_stable s1 = sm_stable s2 -> (forall q v w, (q < n)%nat -> v == w -> sm_iq s1 q v == sm_iq s2 (p q) w) ->
  (forall q v w, (q < n)%nat -> v == w -> sm_exp s1 q v == sm_exp s2 (p q) w) -> (forall v w, v == w -> sm_inv s1 v == sm_inv s2 w) ->
  (forall q, (q < n)%nat -> msk m1 q = msk m2 (p q)) -> (forall q, (q < n)%nat -> x q == y (p q)) -> (i < n)%nat ->
  sm_call s1 m1 x (seq 0 n) i == sm_call s2 m2 y (seq 0 n) (p i).
Proof.
  intros P A0 A1 A2 A3 AM E Hi.
  assert (HE : forall q, (q < n)%nat -> sm_exps s1 m1 x (seq 0 n) q == sm_exps s2 m2 y (seq 0 n) (p q)).
  { intros q Hq. rewrite !sm_exps_msk, (AM q Hq). apply Qmult_comp; [reflexivity|]. apply A2; [exact Hq|]. unfold sm_exp_input. rewrite A0. destruct (sm_stable s2); [|apply A1, E; exact Hq].
    assert (Hm : forall r, (r < n)%nat -> mask_input m1 (fun q0 => sm_iq s1 q0 (x q0)) r == mask_input m2 (fun q0 => sm_iq s2 q0 (y q0)) (p r)).
    { intros r Hr. rewrite !mask_input_msk, (AM r Hr), (A1 r _ _ Hr (E r Hr)). reflexivity. }
    cbv zeta. apply Qplus_comp; [|rewrite (Hm q Hq); reflexivity].
    rewrite (qmax_ext _ (fun r => mask_input m2 (fun q0 => sm_iq s2 q0 (y q0)) (p r)) (seq 0 n)) by (intros r Hr; apply in_seq in Hr; apply Hm; lia).
    rewrite <- (map_map p). apply qmax_perm, Permutation_map, rearrange_perm, P. }
  unfold sm_call. apply Qmult_comp; [apply HE, Hi|]. apply A3.
  rewrite (qsum_ext _ (fun r => sm_exps s2 m2 y (seq 0 n) (p r)) (seq 0 n)) by (intros r Hr; apply in_seq in Hr; apply HE; lia).
  rewrite <- (map_map p). apply qsum_perm, Permutation_map, rearrange_perm, P.
Qed.

Lemma lq_blind1 q x y a a' b c : blind1 q -> x a b c == y a' b c -> lq q x a b c == lq q y a' b c.
Proof. intros B E. destruct (B a a' b c) as (K & I & F). unfold lq. rewrite K, I, F. apply affine_comp, base_call_Proper, E. Qed.
Lemma lq_blind2 q x y a b b' c : blind2 q -> x a b c == y a b' c -> lq q x a b c == lq q y a b' c.
Proof. intros B E. destruct (B a b b' c) as (K & I & F). unfold lq. rewrite K, I, F. apply affine_comp, base_call_Proper, E. Qed.
Lemma lq_blind23 q x y a b b' c c' : blind23 q -> x a b c == y a b' c' -> lq q x a b c == lq q y a b' c'.
Proof. intros B E. destruct (B a b b' c c') as (K & I & F). unfold lq. rewrite K, I, F. apply affine_comp, base_call_Proper, E. Qed.
Lemma dense_reorder iq cin pr x p i n d : (forall q, iq = Some q -> blind1 q) -> blind1 (p_oq pr) ->
  dense_call lq iq cin pr (reorder p x) i n d == dense_call lq iq cin pr x (p i) n d.
Proof.
  intros Bi Bo. unfold dense_call. apply lq_blind1; [exact Bo|]. unfold project. apply Qplus_comp; [|reflexivity]. apply qsumn_ext. intros j _.
  apply Qmult_comp; [|reflexivity]. destruct iq as [q|]; cbn [oapp]; [|reflexivity]. apply lq_blind1; [apply Bi; reflexivity|reflexivity].
Qed.
Lemma msk_attend m t s : msk (at_query (layer_mask m) t) s = true <-> may_attend m t s.
Proof.
  destruct (layer_mask m) as [k|] eqn:E; cbn [at_query msk]; [apply mask_attend, E|]. split; [intros _; apply no_mask_attend, E|reflexivity].
Qed.
Lemma core_reorder c m m' p s xq xk xv : attn_functions c -> position_blind c -> rearrangement (a_T c) p -> rearrangement (a_S c) s -> masks_follow c m m' p s ->
  reordered c p s (layer_core c id_ten m xq xk xv) (layer_core c id_ten m' (reorder p xq) (reorder s xk) (reorder s xv)).
Proof.
  intros [F1 F2] (Bi & Bq & Bk & Bv & Bo & Bei & Beo & Bs & Bii & Bio & BE) Pp Ps M. unfold layer_core, layer_attend, id_ten. cbv zeta.
  set (q := dense_call lq (query_iq c) (a_cq c) (a_q c) xq). set (q' := dense_call lq (query_iq c) (a_cq c) (a_q c) (reorder p xq)).
  set (k := dense_call lq (key_iq c) (a_ck c) (a_k c) xk). set (k' := dense_call lq (key_iq c) (a_ck c) (a_k c) (reorder s xk)).
  set (v := dense_call lq (value_iq c) (a_cv c) (a_v c) xv). set (v' := dense_call lq (value_iq c) (a_cv c) (a_v c) (reorder s xv)).
  assert (Eq : forall i n d, q' i n d == q (p i) n d) by (intros; apply dense_reorder; [intros; apply Bi; auto|exact Bq]).
  assert (Ek : forall i n d, k' i n d == k (s i) n d) by (intros; apply dense_reorder; [intros; apply Bi; auto|exact Bk]).
  assert (Ev : forall i n d, v' i n d == v (s i) n d) by (intros; apply dense_reorder; [intros; apply Bi; auto|exact Bv]).
  set (sc := dot_product (a_dk c) k (fun t n d => q t n d * 1)). set (sc' := dot_product (a_dk c) k' (fun t n d => q' t n d * 1)).
  assert (Es : forall n i j, sc' n i j == sc n (p i) (s j)) by (intros; unfold sc, sc', dot_product; apply qsumn_ext; intros d _; rewrite Ek, Eq; reflexivity).
  clearbody sc sc'. clear Eq Ek. clear q q' k k'.
  assert (Ew : forall n i j, (i < a_T c)%nat -> (j < a_S c)%nat -> layer_weights c (layer_mask m') sc' n i j == layer_weights c (layer_mask m) sc n (p i) (s j)).
  { intros n i j Hi Hj. unfold layer_weights. apply lq_blind23; [exact Bs|]. apply sm_call_reorder; [exact Ps|reflexivity|intros; assumption| | | | |exact Hj].
    - intros r u w _ E. cbn [group_softmax sm_exp]. unfold table. apply lq_blind23; [exact Beo|]. rewrite (BE n i (p i) r (s r)). apply F1.
      destruct (a_stable c); cbn [oapp]; [apply lq_blind23; [exact Bei|exact E]|exact E].
    - intros u w E. cbn [group_softmax sm_inv]. unfold table. apply lq_blind2; [exact Bio|]. apply F2. cbn [oapp]. apply lq_blind2; [exact Bii|exact E].
    - intros r Hr. pose proof (msk_attend m' i r) as G1. pose proof (msk_attend m (p i) (s r)) as G2. specialize (M i r Hi Hr).
      destruct (msk (at_query (layer_mask m') i) r), (msk (at_query (layer_mask m) (p i)) (s r)); try reflexivity; exfalso.
      + assert (H : false = true) by (apply G2, M, G1; reflexivity). discriminate H.
      + assert (H : false = true) by (apply G1, M, G2; reflexivity). discriminate H.
    - intros r _. apply Es. }
  split; cbn [fst snd]; [|intros n i j _ Hi Hj; apply Ew; assumption].
  intros i e Hi _. unfold out_dense. cbv zeta. apply Qplus_comp; [|reflexivity]. apply qsumn_ext. intros n _. apply qsumn_ext. intros d _.
  apply Qmult_comp; [|reflexivity]. apply lq_blind1; [exact Bo|]. unfold combine. rewrite <- (qsumn_reorder (a_S c) s (fun j => layer_weights c (layer_mask m) sc n (p i) j * v j n d) Ps). apply qsumn_ext. intros j Hj.
  rewrite (Ew n i j Hi Hj), Ev. reflexivity.
Qed.
Lemma mha_reorder c m m' p s xq xk xv : attn_functions c -> position_blind c -> rearrangement (a_T c) p -> rearrangement (a_S c) s -> masks_follow c m m' p s ->
  reordered c p s (layer_mha c m xq (Some xv) (Some xk)) (layer_mha c m' (reorder p xq) (Some (reorder s xv)) (Some (reorder s xk))).
Proof. intros. apply core_reorder; assumption. Qed.
Lemma self_reorder c m m' p x : attn_functions c -> position_blind c -> a_T c = a_S c -> rearrangement (a_T c) p -> masks_follow c m m' p p ->
  reordered c p p (layer_mha c m x None None) (layer_mha c m' (reorder p x) None None).
Proof. intros F B E P M. unfold layer_mha, or_else. apply core_reorder; try assumption. rewrite <- E. exact P. Qed.
Lemma pooled_reorder c m m' p x e : attn_functions c -> position_blind c -> a_T c = a_S c -> rearrangement (a_T c) p -> masks_follow c m m' p p -> (e < a_out c)%nat ->
  pooled (a_T c) (fst (layer_mha c m' (reorder p x) None None)) e == pooled (a_T c) (fst (layer_mha c m x None None)) e.
Proof.
  intros F B E P M He. destruct (self_reorder c m m' p x F B E P M) as [H _]. change (qsumn (a_T c) (fun i => fst (layer_mha c m' (reorder p x) None None) i e) == qsumn (a_T c) (fun i => fst (layer_mha c m x None None) i e)).
  rewrite <- (qsumn_reorder (a_T c) p (fun i => fst (layer_mha c m x None None) i e) P). apply qsumn_ext. intros i Hi. apply H; assumption.
Qed.
Lemma id_rearrangement n : rearrangement n (fun i => i).
Proof. split; auto. Qed.
Lemma keys_reorder c m m' s xq xk xv : attn_functions c -> position_blind c -> rearrangement (a_S c) s -> masks_follow c m m' (fun i => i) s ->
  same2 (a_T c) (a_out c) (fst (layer_mha c m' xq (Some (reorder s xv)) (Some (reorder s xk)))) (fst (layer_mha c m xq (Some xv) (Some xk))).
Proof. intros F B P M i e Hi He. apply (proj1 (mha_reorder c m m' (fun i => i) s xq xk xv F B (id_rearrangement _) P M)); assumption. Qed.
Lemma linformer_reorder c lk lv len m m' p xq xk xv : attn_functions c -> position_blind c -> rearrangement (a_T c) p -> masks_follow c m m' p (fun j => j) ->
  m_causal m = false -> m_causal m' = false ->
  exists r r', layer_linformer c lk lv len m xq (Some xv) (Some xk) = Some r /\ layer_linformer c lk lv len m' (reorder p xq) (Some xv) (Some xk) = Some r' /\ reordered c p (fun j => j) r r'.
Proof.
  intros F B P M C C'. unfold layer_linformer. rewrite C, C'. cbn [or_else]. eexists. eexists. split; [reflexivity|]. split; [reflexivity|].
  apply core_reorder; try assumption. apply id_rearrangement.
Qed.
Lemma hw_reorder c lo lo' m m' p id id' x : build_ok c -> attn_fits c -> attn_functions c -> position_blind c -> fuse_supported c ->
  masks_alike c m -> masks_alike c m' -> a_T c = a_S c -> rearrangement (a_T c) p -> masks_follow c m m' p p ->
  lower_bounds c lo (layer_scores c id_ten x x x) -> lower_bounds c lo' (layer_scores c id_ten (reorder p x) (reorder p x) (reorder p x)) ->
  (a_stable c = true -> above_1e9 c m (layer_scores c id_ten x x x) /\ above_1e9 c m' (layer_scores c id_ten (reorder p x) (reorder p x) (reorder p x))) ->
  exists r r', replay_mha c lo m (mk_arr id x) None None = Some r /\ replay_mha c lo' m' (mk_arr id' (reorder p x)) None None = Some r' /\ reordered c p p r r'.
Proof.
  intros HB W F B HF A A' E P M L L' H. 
  assert (CS : forall a, call_supported c a a a) by (intros a; unfold call_supported; destruct (a_fuse c); auto).
  assert (SO : forall a, same_object_same_values a a a) by (intros a; split; intros; reflexivity).
  destruct (mha_same c lo m (mk_arr id x) None None HB W F HF A (CS _) (SO _) L (fun e => proj1 (H e))) as (r & E1 & S1 & S1').
  destruct (mha_same c lo' m' (mk_arr id' (reorder p x)) None None HB W F HF A' (CS _) (SO _) L' (fun e => proj2 (H e))) as (r' & E2 & S2 & S2').
  exists r, r'. split; [exact E1|]. split; [exact E2|]. destruct (self_reorder c m m' p x F B E P M) as [R1 R2].
  cbn [r_val given] in *. assert (P1 : forall i, (i < a_T c)%nat -> (p i < a_T c)%nat) by (apply P). split.
  - intros i e Hi He. rewrite (S2 i e Hi He), (R1 i e Hi He). symmetry. apply S1; [apply P1; exact Hi|exact He].
  - intros n i j Hn Hi Hj. rewrite (S2' n i j Hn Hi Hj), (R2 n i j Hn Hi Hj). symmetry. apply S1'; [exact Hn|apply P1; exact Hi|]. rewrite <- E. apply P1. rewrite E. exact Hj.
Qed.
