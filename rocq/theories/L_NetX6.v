(** Attention layers on arrays, traced. *)
From Coq Require Import String.
From Verif Require Import Num M_Fixed L_Fixed M_State M_Wrapper M_Mapper S_Mapper L_Mapper M_Contr M_Ebops L_Ebops M_Pow2 M_Patch S_Patch L_Patch M_Ops M_Mirror S_Mirror L_Mirror M_Trace L_Trace L_Lift M_Table S_Table M_Rnn M_Softmax M_Attn S_Attn L_Attn M_Net S_Net M_NetX S_NetX L_Ops L_Net L_Net2 L_Net3 L_Net4 L_Net5 L_NetX1 L_NetX2 L_NetX3 S_Ops.
Local Open Scope list_scope.

(** the scores and the result of one sample *)
Definition core_ready (c : mha) (pre' pre : ten -> ten) (m : masks) (q k v : arr) (xq xk xv : mat) : Prop :=
  exists sc, core_scores c pre' q k v = Some sc /\ forall lo, lower_bounds c lo sc -> exists r, replay_core c pre' lo m q k v = Some r /\ same_result c r (layer_core c pre m xq xk xv).
Lemma core_ready_same c pre' pre m q k v xq xk xv : build_ok c -> attn_fits c -> attn_functions c -> fuse_supported c -> call_supported c q k v ->
  (a_fuse c <> FNone -> same_object_same_values q k v) -> masks_alike c m -> pre_same c pre' pre ->
  vals_same (a_T c) (a_cq c) q xq -> vals_same (a_S c) (a_ck c) k xk -> vals_same (a_S c) (a_cv c) v xv ->
  (a_stable c = true -> above_1e9 c m (layer_scores c pre xq xk xv)) -> core_ready c pre' pre m q k v xq xk xv.
Proof.
  intros HB W F HF HC HS HM HP Eq Ek Ev HA. unfold core_ready, core_scores.
  destruct (qkv_same c q k v xq xk xv HB W HF HC HS Eq Ek Ev) as (q' & k' & v' & E & Sq & Sk & Sv). rewrite E. eexists. split; [reflexivity|]. intros lo HL.
  apply (core_same c pre' pre lo m q k v xq xk xv); try assumption.
  assert (Ss : same3 (a_heads c) (a_T c) (a_S c) (pre' (dot_product (a_dk c) k' q')) (layer_scores c pre xq xk xv)) by (apply HP, dot_same; assumption).
  intros n t s Hn Ht Hs. rewrite <- (Ss n t s Hn Ht Hs). apply HL; assumption.
Qed.
(** without fuse="qkv" the identity of the query does not matter *)
Lemma qkv_query_id c i j x k v : a_fuse c <> FQkv -> replay_qkv c (mk_arr i x) k v = replay_qkv c (mk_arr j x) k v.
Proof. intros N. unfold replay_qkv. destruct (a_fuse c); [reflexivity|congruence|reflexivity]. Qed.
Lemma core_query_id c pre' pre m i j x k v xq xk xv : a_fuse c <> FQkv -> core_ready c pre' pre m (mk_arr i x) k v xq xk xv -> core_ready c pre' pre m (mk_arr j x) k v xq xk xv.
Proof. intros N. unfold core_ready, core_scores, replay_core. rewrite (qkv_query_id c i j x k v N). auto. Qed.

(** the arrays a call uses, with defaults filled in *)
Definition attn_ready (kd : attn_kind) (fresh : nat) (m : masks) (q k v : arr) (xq xk xv : mat) : Prop :=
  let c := attn_mha kd in
  exists sc, replay_scores kd fresh q (Some v) (Some k) = Some sc /\ forall lo, lower_bounds c lo sc ->
    exists r r', replay_attn kd fresh lo m q (Some v) (Some k) = Some r /\ layer_attn kd m xq (Some xv) (Some xk) = Some r' /\ same_result c r r'.
Lemma causal_alike c causal : masks_alike c (attn_masks causal).
Proof. unfold masks_alike, attn_masks. cbn. split; [|split]; intros H; [congruence|congruence|destruct H; congruence]. Qed.
Definition same_arrays (c : mha) (q k v : arr) : Prop :=
  match a_fuse c with FNone => True | FKv => k = v | FQkv => q = k /\ k = v end.
Lemma attn_ready_ok a fresh causal q k v xq xk xv : traceable_attn a -> same_arrays (attn_mha (xa_kind a)) q k v ->
  same2 (nprod (xa_pos a)) (a_cq (attn_mha (xa_kind a))) (r_val q) xq -> same2 (nprod (xa_kpos a)) (a_ck (attn_mha (xa_kind a))) (r_val k) xk -> same2 (nprod (xa_vpos a)) (a_cv (attn_mha (xa_kind a))) (r_val v) xv ->
  layer_attn (xa_kind a) (attn_masks causal) xq (Some xv) (Some xk) <> None -> attn_ready (xa_kind a) fresh (attn_masks causal) q k v xq xk xv.
Proof.
  intros (Ep & Es & HB & W & F & HF & HA & HK) SA Sq Sk Sv LN. unfold attn_ready. set (kd := xa_kind a) in *. set (c := attn_mha kd) in *.
  assert (HM := causal_alike c causal). rewrite Ep in Sq.
  assert (AB : forall pre xk' xv', pre = attn_pre kd -> a_stable c = true -> above_1e9 c (attn_masks causal) (layer_scores c pre xq xk' xv')).
  { intros pre xk' xv' -> St n t s Hn Ht Hs _. apply HA; assumption. }
  destruct kd as [c0|c0 lk lv len|z]; cbn [attn_mha] in c; subst c; cbn [replay_scores replay_attn layer_attn or_else attn_mha] in *.
  - destruct HK as (Ev & Ek). rewrite Ev in Sv. rewrite Ek in Sk.
    assert (G : core_ready c0 id_ten id_ten (attn_masks causal) q k v xq xk xv).
    { unfold same_arrays in SA. destruct (a_fuse c0) eqn:Ef.
      - apply core_ready_same; try assumption; [unfold call_supported; rewrite Ef; exact I|congruence|apply id_same|apply AB; reflexivity].
      - destruct SA as (-> & ->). apply core_ready_same; try assumption; [unfold call_supported; rewrite Ef; split; reflexivity| |apply id_same|apply AB; reflexivity].
        intros _. split; intros _ p j; reflexivity.
      - subst k. destruct q as [i x]. apply (core_query_id c0 _ _ _ (S (r_id v)) i); [congruence|].
        apply core_ready_same; try assumption; [unfold call_supported; rewrite Ef; reflexivity| |apply id_same|apply AB; reflexivity].
        intros _. split; [|intros _ p j; reflexivity]. cbn [r_id]. intros X. exfalso. apply (Nat.neq_succ_diag_l (r_id v)). exact X. }
    destruct G as (sc & Esc & G). exists sc. split; [exact Esc|]. intros lo HL. destruct (G lo HL) as (r & Er & Sr). exists r. eexists. split; [exact Er|]. split; [reflexivity|exact Sr].
  - destruct HK as (HN & Ev & Ek & Wk & Wv). rewrite Ev in Sv. rewrite Ek in Sk.
    assert (G : core_ready c0 id_ten id_ten (attn_masks causal) q (mk_arr fresh (lin_call mq lk len (r_val k))) (mk_arr (S fresh) (lin_call mq lv len (r_val v))) xq (lin_call lq lk len xk) (lin_call lq lv len xv)).
    { apply core_ready_same; try assumption.
      - unfold call_supported. rewrite HN. exact I.
      - intros X. contradiction.
      - apply id_same.
      - apply lin_same; assumption.
      - apply lin_same; assumption.
      - apply AB. reflexivity. }
    destruct G as (sc & Esc & G). exists sc. split; [exact Esc|]. intros lo HL. destruct (G lo HL) as (r & Er & Sr). exists r. unfold layer_linformer in *. unfold replay_linformer. destruct (m_causal (attn_masks causal)); [congruence|].
    eexists. split; [exact Er|]. split; [reflexivity|exact Sr].
  - destruct HK as (HN & Ev & Ek & P1 & P2 & WS & Hsm). rewrite Ev in Sv. rewrite Ek in Sk. unfold layer_salt, replay_salt in *. cbn [or_else] in *. destruct (m_causal (attn_masks causal)) eqn:Ca; [congruence|].
    pose proof (salt_value_same z (r_val v) xv P2 WS Sv) as SV. destruct (salt_value lq z xv) as [pv|]; [|exfalso; apply LN; reflexivity]. destruct (salt_value mq z (r_val v)) as [pv'|]; [|contradiction]. cbn [bind].
    assert (G : core_ready (z_attn z) (replay_pre z) (layer_pre z) (attn_masks causal) q (mk_arr fresh (salt_key mq z (r_val k))) (mk_arr (S fresh) pv') xq (salt_key lq z xk) pv).
    { apply core_ready_same; try assumption.
      - unfold call_supported. rewrite HN. exact I.
      - intros X. contradiction.
      - apply pre_salt_same; assumption.
      - apply salt_key_same; assumption.
      - apply AB. reflexivity. }
    destruct G as (sc & Esc & G). exists sc. split; [exact Esc|]. intros lo HL. destruct (G lo HL) as (r & Er & Sr). exists r. eexists. split; [exact Er|]. split; [reflexivity|exact Sr].
Qed.
(** whether the layer computes does not depend on the values *)
Lemma layer_attn_total kd m q v k q' v' k' : layer_attn kd m q v k <> None -> layer_attn kd m q' v' k' <> None.
Proof.
  destruct kd as [c|c lk lv len|z]; cbn [layer_attn]; [discriminate| |]; unfold layer_linformer, layer_salt; destruct (m_causal m); try congruence; try discriminate.
  unfold salt_value. destruct (0 <? n_v_pad z)%nat; [discriminate|]. destruct (z_cluster_v z); [congruence|discriminate].
Qed.
