(** C50: the traced attention layers equal the layers; masked positions do not matter. *)
From Verif Require Import Num M_Fixed M_State M_Mapper M_Contr M_Rnn M_Patch M_Attn S_Attn L_Attn.

(** QMultiHeadAttention, any fuse mode, any masks of one shape, outputs and attention weights: the replay is defined and
    equal to the layer at every position. *)
Theorem C50_traced_attention :
  forall c lo m query value key, build_ok c -> attn_fits c -> attn_functions c -> fuse_supported c -> masks_alike c m ->
  let v := or_else value query in let k := or_else key v in
  call_supported c query k v -> same_object_same_values query k v ->
  let scores := layer_scores c id_ten (r_val query) (r_val k) (r_val v) in
  lower_bounds c lo scores -> (a_stable c = true -> above_1e9 c m scores) ->
  exists r, replay_mha c lo m query value key = Some r /\ same_result c r (layer_mha c m (r_val query) (given value) (given key)).
Proof. exact mha_same. Qed.
Print Assumptions C50_traced_attention.
(** QLinformerAttention: any projections of the sequence, shared or not, with or without their quantizers. *)
Theorem C50_traced_linformer :
  forall c lk lv len fresh lo m query value key, a_fuse c = FNone -> a_enable_iq c = true -> attn_fits c -> attn_functions c -> masks_alike c m -> m_causal m = false ->
  lin_fits len (a_S c) (a_ck c) lk -> lin_fits len (a_S c) (a_cv c) lv ->
  let v := or_else value query in let k := or_else key v in
  let scores := layer_scores c id_ten (r_val query) (lin_call lq lk len (r_val k)) (lin_call lq lv len (r_val v)) in
  lower_bounds c lo scores -> (a_stable c = true -> above_1e9 c m scores) ->
  exists r r', replay_linformer c lk lv len fresh lo m query value key = Some r /\ layer_linformer c lk lv len m (r_val query) (given value) (given key) = Some r' /\ same_result c r r'.
Proof. exact linformer_same. Qed.
Print Assumptions C50_traced_linformer.
(** QSALTAttention: with or without clustering, with or without the convolution of the scores (joint or one per head). *)
Theorem C50_traced_salt :
  forall z fresh lo m query value key, let c := z_attn z in
  a_fuse c = FNone -> a_enable_iq c = true -> attn_fits c -> attn_functions c -> masks_alike c m -> m_causal m = false ->
  (0 < a_heads c)%nat -> (0 < a_S c)%nat -> salt_fits z -> (forall v, z_conv z = Some v -> small_image c) ->
  let v := or_else value query in let k := or_else key v in
  (z_cluster_v z = true -> (z_len_v z mod a_S c <> 0)%nat) ->
  (forall pv, salt_value lq z (r_val v) = Some pv ->
     let scores := layer_scores c (layer_pre z) (r_val query) (salt_key lq z (r_val k)) pv in
     lower_bounds c lo scores /\ (a_stable c = true -> above_1e9 c m scores)) ->
  exists r r', replay_salt z fresh lo m query value key = Some r /\ layer_salt z m (r_val query) (given value) (given key) = Some r' /\ same_result c r r'.
Proof. exact salt_same. Qed.
Print Assumptions C50_traced_salt.
(** the padded sequence is cut into clusters without loss: M clusters of equal length, fewer than M padding rows *)
Theorem C50_clusters :
  forall len M, (0 < M)%nat -> (M * cluster_length len M = len + n_pad len M)%nat /\ (n_pad len M < M)%nat.
Proof. exact cluster_length_spec. Qed.
Print Assumptions C50_clusters.
(** Keys and values at positions a query may not attend to have no effect on the weights or on the output. *)
Theorem C50_masked_positions_ignored :
  forall c m xq xk xv xk' xv', attn_functions c -> t_aff (a_sm_oq c) = None ->
  (forall t s, (t < a_T c)%nat -> (s < a_S c)%nat -> may_attend m t s -> (forall j, xk s j == xk' s j) /\ (forall j, xv s j == xv' s j)) ->
  same_result c (layer_core c id_ten m xq xk xv) (layer_core c id_ten m xq xk' xv').
Proof. exact masked_ignored. Qed.
Print Assumptions C50_masked_positions_ignored.

(** The projections act along the sequence: a Linformer projection that selects rows gives the attention over the selected
    keys and values; a SALT cluster projection that selects entry [sel m] of cluster m reads that row of the sequence. *)
Theorem C50_linformer_selection :
  forall c lk lv len sel m query value key, attn_functions c -> t_aff (a_sm_oq c) = None -> m_causal m = false ->
  (forall l, l = lk \/ l = lv -> l_iq l = None /\ l_oq l = None /\ forall p m', l_w l p m' == if Nat.eqb p (sel m') then 1 else 0) ->
  (forall s, (s < a_S c)%nat -> (sel s < len)%nat) ->
  exists r, layer_linformer c lk lv len m query (Some value) (Some key) = Some r /\
            same_result c r (layer_core c id_ten m query (fun s => key (sel s)) (fun s => value (sel s))).
Proof. exact linformer_selects. Qed.
Print Assumptions C50_linformer_selection.
Theorem C50_cluster_selection :
  forall l len M sel x m d, l_iq l = None -> l_oq l = None ->
  (forall m' b, l_w l m' b == if Nat.eqb b (sel m') then 1 else 0) -> (sel m < cluster_length len M)%nat ->
  (m * cluster_length len M + sel m < len)%nat ->
  cluster_call lq l (cluster_length len M) (clusters len M x) m d == x (m * cluster_length len M + sel m)%nat d.
Proof. exact cluster_selects. Qed.
Print Assumptions C50_cluster_selection.

(** What does not hold: each of these conditions is necessary; the layer computes, the replay raises. *)
Theorem C50_unequal_head_sizes_refuted :
  forall c lo m q k v pre, a_fuse c <> FNone -> a_dk c <> a_dv c -> replay_core c pre lo m q k v = None.
Proof. exact fused_sizes_refused. Qed.
Print Assumptions C50_unequal_head_sizes_refuted.
Theorem C50_fused_different_arrays_refuted :
  forall c lo m q k v pre, ~ call_supported c q k v -> replay_core c pre lo m q k v = None.
Proof. exact call_refused. Qed.
Print Assumptions C50_fused_different_arrays_refuted.
Theorem C50_no_input_quantizer_refuted :
  forall c lo m q k v pre, a_fuse c <> FQkv -> a_enable_iq c = false -> replay_core c pre lo m q k v = None.
Proof. exact no_iq_refused. Qed.
Print Assumptions C50_no_input_quantizer_refuted.
Theorem C50_masks_of_two_shapes_refuted :
  forall c lo m q k v pre, ~ masks_alike c m -> replay_core c pre lo m q k v = None.
Proof. exact masks_refused. Qed.
Print Assumptions C50_masks_of_two_shapes_refuted.
(** and the layer itself cannot be called when the value sequence needs no padding *)
Theorem C50_salt_value_clusters_refuted :
  forall z m query value key, (0 < a_S (z_attn z))%nat -> z_cluster_v z = true -> (z_len_v z mod a_S (z_attn z) = 0)%nat -> layer_salt z m query value key = None.
Proof. exact salt_value_refused. Qed.
Print Assumptions C50_salt_value_clusters_refuted.

(** ** a concrete layer: two heads of size 1, three positions, fuse="qkv", causal *)
Definition ex_q (i f : Z) : tq := mk_tq RND SAT (fun _ _ _ => true) (fun _ _ _ => i) (fun _ _ _ => f) None.
Definition ex_e (v : Q) : Q := if Qle_bool v (1 # 2) then 1 else if Qle_bool v (3 # 2) then 1 # 2 else 1 # 4.
Definition ex_i (v : Q) : Q := if Qle_bool v 1 then 1 else if Qle_bool v (3 # 2) then 3 # 4 else 1 # 2.
Definition ex_p (g : nat -> nat -> Z) (b : option (nat -> nat -> Q)) : proj := mk_proj (fun j n _ => inject_Z (g j n)) b (ex_q 3 1).
Definition ex_attn (fuse : fuse_mode) (enable_iq : bool) (dv : nat) : mha :=
  mk_mha 3 3 2 2 2 2 1 dv 2 fuse enable_iq (ex_q 2 0) (ex_q 2 1) (ex_q 2 2)
    (ex_p (fun j n => Z.of_nat (j + n)) (Some (fun n _ => inject_Z (Z.of_nat n)))) (ex_p (fun j n => (1 - Z.of_nat (j * n))%Z) None) (ex_p (fun j n => (2 - Z.of_nat j)%Z) (Some (fun _ _ => 1 # 2)))
    true (ex_q 3 1) (fun _ _ _ => ex_e) (ex_q 1 3) (ex_q 3 2) ex_i (ex_q 1 3) (ex_q 1 4)
    (ex_q 3 2) (fun n _ e => inject_Z (Z.of_nat (n + e))) None.
Definition ex_in : arr := mk_arr 7 (fun p j => inject_Z (Z.of_nat p) * (1 # 2) - inject_Z (Z.of_nat j)).
Definition ex_lo : nat -> nat -> nat -> Q := fun _ _ _ => - (100).
Definition ex_m : masks := mk_masks None None None true None.
Lemma ex_qle x y b : x == y -> Qle_bool x b = Qle_bool y b.
Proof. intros H. rewrite H. reflexivity. Qed.
Example ex_functions fuse iq dv : attn_functions (ex_attn fuse iq dv).
Proof.
  split; cbn [a_exp a_inv ex_attn]; intros; [unfold ex_e|unfold ex_i]; rewrite !(ex_qle _ _ _ H); reflexivity.
Qed.
Example ex_fits fuse iq dv : attn_fits (ex_attn fuse iq dv).
Proof.
  assert (G : forall A B C i f, (-128 <= i <= 127)%Z -> (-128 <= f <= 127)%Z -> S_Attn.fits A B C (ex_q i f)) by (intros A B C i f Hi Hf a b c _ _ _; split; assumption).
  assert (O : forall A B C q, (exists i f, (-128 <= i <= 127)%Z /\ (-128 <= f <= 127)%Z /\ (q = Some (ex_q i f) \/ q = None)) -> ofits A B C q).
  { intros A B C q (i & f & Hi & Hf & [->| ->]) q' E; [injection E as <-; apply G; assumption|discriminate]. }
  unfold attn_fits. split; [|split; [|split; [|split; [|split]]]].
  - split; [|split]; apply O; unfold query_iq, key_iq, value_iq; destruct fuse, iq; cbn [a_enable_iq a_fuse ex_attn a_iq_q a_iq_k a_iq_v];
      first [exists 2%Z, 0%Z; split; [lia|split; [lia|first [left; reflexivity|right; reflexivity]]]|exists 2%Z, 1%Z; split; [lia|split; [lia|first [left; reflexivity|right; reflexivity]]]|exists 2%Z, 2%Z; split; [lia|split; [lia|first [left; reflexivity|right; reflexivity]]]].
  - split; [|split]; apply G; lia.
  - split; apply G; lia.
  - split; apply G; lia.
  - apply G; lia.
  - apply G; lia.
Qed.
Lemma lt3 n : (n < 3)%nat -> n = 0%nat \/ n = 1%nat \/ n = 2%nat. Proof. lia. Qed.
Lemma lt2 n : (n < 2)%nat -> n = 0%nat \/ n = 1%nat. Proof. lia. Qed.
Example C50_hypotheses_met :
  let c := ex_attn FQkv true 1 in let scores := layer_scores c id_ten (r_val ex_in) (r_val ex_in) (r_val ex_in) in
  build_ok c /\ fuse_supported c /\ call_supported c ex_in ex_in ex_in /\ same_object_same_values ex_in ex_in ex_in /\ masks_alike c ex_m /\
  lower_bounds c ex_lo scores /\ above_1e9 c ex_m scores.
Proof.
  cbv zeta. split; [cbn; auto|]. split; [reflexivity|]. split; [cbn; auto|]. split; [split; intros; reflexivity|].
  split; [split; [|split]; cbn; intros; try congruence; destruct H; congruence|]. split.
  - intros n t s Hn Ht Hs. cbn [a_heads a_T a_S ex_attn] in *.
    destruct (lt2 n Hn) as [->| ->], (lt3 t Ht) as [->|[->| ->]], (lt3 s Hs) as [->|[->| ->]]; vm_compute; discriminate.
  - intros n t s Hn Ht Hs _. cbn [a_heads a_T a_S ex_attn] in *.
    destruct (lt2 n Hn) as [->| ->], (lt3 t Ht) as [->|[->| ->]], (lt3 s Hs) as [->|[->| ->]]; vm_compute; discriminate.
Qed.
Definition show2 (T E : nat) (x : nat -> nat -> Q) : list (list Q) := map (fun t => map (fun e => Qred (x t e)) (seq 0 E)) (seq 0 T).
Example C50_ex :
  let c := ex_attn FQkv true 1 in
  option_map (fun r => (show2 3 2 (fst r), show2 3 3 (snd r 1%nat))) (replay_mha c ex_lo ex_m ex_in None None) =
  Some (show2 3 2 (fst (layer_mha c ex_m (r_val ex_in) None None)), show2 3 3 (snd (layer_mha c ex_m (r_val ex_in) None None) 1%nat)).
Proof. vm_compute. reflexivity. Qed.
Example C50_ex_values :
  let c := ex_attn FQkv true 1 in show2 3 3 (snd (layer_mha c ex_m (r_val ex_in) None None) 1%nat) = [[1; 0; 0]; [1 # 2; 1 # 2; 0]; [1 # 8; 1 # 4; 1 # 2]].
Proof. vm_compute. reflexivity. Qed.
(** SALT: five positions clustered to three (one row of padding), a 3x3 convolution of the scores, one per head *)
Definition ex_salt (len_v : nat) : salt :=
  mk_salt (ex_attn FNone true 1) 5 len_v true true (mk_lin (Some (ex_q 3 1)) (fun m n => inject_Z (Z.of_nat (m + n)) * (1 # 2)) None) (mk_lin None (fun m n => 1 - inject_Z (Z.of_nat n)) (Some (ex_q 3 2)))
    (Some (mk_sconv 3 true None (fun idx => match idx with [a; b; _; _] => inject_Z (Z.of_nat a - 1) + (1 # 2) * inject_Z (Z.of_nat b) | _ => 0 end) (Some (fun n => inject_Z (Z.of_nat n))) (Some (ex_q 4 1)))).
Definition ex_in5 : arr := mk_arr 8 (fun p j => inject_Z (Z.of_nat p) * (1 # 2) - inject_Z (Z.of_nat j)).
Example C50_ex_salt :
  option_map (fun r => (show2 3 2 (fst r), show2 3 3 (snd r 1%nat))) (replay_salt (ex_salt 5) 9 ex_lo no_masks ex_in (Some ex_in5) None) =
  option_map (fun r => (show2 3 2 (fst r), show2 3 3 (snd r 1%nat))) (layer_salt (ex_salt 5) no_masks (r_val ex_in) (Some (r_val ex_in5)) None) /\
  layer_salt (ex_salt 5) no_masks (r_val ex_in) (Some (r_val ex_in5)) None <> None /\ layer_salt (ex_salt 6) no_masks (r_val ex_in) (Some (r_val ex_in5)) None = None.
Proof. split; [vm_compute; reflexivity|]. split; [discriminate|reflexivity]. Qed.
(** key_dim 1 and value_dim 2 with fuse="kv", and a causal mask with a key mask: the replay raises *)
Example C50_ex_refused :
  replay_mha (ex_attn FKv true 2) ex_lo ex_m ex_in None None = None /\
  replay_mha (ex_attn FQkv true 1) ex_lo (mk_masks None None (Some (fun s => Nat.ltb 0 s)) true None) ex_in None None = None /\
  replay_mha (ex_attn FKv true 1) ex_lo ex_m ex_in None None <> None /\ replay_mha (ex_attn FNone false 1) ex_lo ex_m ex_in None None = None.
Proof. split; [reflexivity|]. split; [reflexivity|]. split; [discriminate|reflexivity]. Qed.
