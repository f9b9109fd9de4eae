(** C60: attention treats the sequence as a set: reordering the positions reorders the result, when no quantizer has formats of its own
    for a position. *)
From Verif Require Import Num M_Fixed M_State M_Mapper M_Rnn M_Attn S_Attn S_Perm L_Perm P_Attn.

(** Queries in another order and keys with values in another order, with the masks carried along: the outputs come in the order of the
    queries and are otherwise unchanged, the attention weights follow both. *)
Theorem C60_attention_equivariant :
  forall c m m' p s xq xk xv, attn_functions c -> position_blind c -> rearrangement (a_T c) p -> rearrangement (a_S c) s -> masks_follow c m m' p s ->
  reordered c p s (layer_mha c m xq (Some xv) (Some xk)) (layer_mha c m' (reorder p xq) (Some (reorder s xv)) (Some (reorder s xk))).
Proof. exact mha_reorder. Qed.
Print Assumptions C60_attention_equivariant.
(** self-attention *)
Theorem C60_self_attention_equivariant :
  forall c m m' p x, attn_functions c -> position_blind c -> a_T c = a_S c -> rearrangement (a_T c) p -> masks_follow c m m' p p ->
  reordered c p p (layer_mha c m x None None) (layer_mha c m' (reorder p x) None None).
Proof. exact self_reorder. Qed.
Print Assumptions C60_self_attention_equivariant.
(** followed by a sum over the positions the result does not depend on the order of the sequence *)
Theorem C60_pooled_invariant :
  forall c m m' p x e, attn_functions c -> position_blind c -> a_T c = a_S c -> rearrangement (a_T c) p -> masks_follow c m m' p p -> (e < a_out c)%nat ->
  pooled (a_T c) (fst (layer_mha c m' (reorder p x) None None)) e == pooled (a_T c) (fst (layer_mha c m x None None)) e.
Proof. exact pooled_reorder. Qed.
Print Assumptions C60_pooled_invariant.
(** the order in which keys and values are listed has no effect on the output *)
Theorem C60_key_order_irrelevant :
  forall c m m' s xq xk xv, attn_functions c -> position_blind c -> rearrangement (a_S c) s -> masks_follow c m m' (fun i => i) s ->
  same2 (a_T c) (a_out c) (fst (layer_mha c m' xq (Some (reorder s xv)) (Some (reorder s xk)))) (fst (layer_mha c m xq (Some xv) (Some xk))).
Proof. exact keys_reorder. Qed.
Print Assumptions C60_key_order_irrelevant.
(** Linformer: equivariant in the queries *)
Theorem C60_linformer_queries_equivariant :
  forall c lk lv len m m' p xq xk xv, attn_functions c -> position_blind c -> rearrangement (a_T c) p -> masks_follow c m m' p (fun j => j) ->
  m_causal m = false -> m_causal m' = false ->
  exists r r', layer_linformer c lk lv len m xq (Some xv) (Some xk) = Some r /\ layer_linformer c lk lv len m' (reorder p xq) (Some xv) (Some xk) = Some r' /\ reordered c p (fun j => j) r r'.
Proof. exact linformer_reorder. Qed.
Print Assumptions C60_linformer_queries_equivariant.
(** the hardware description of a self-attention layer is equivariant too *)
Theorem C60_hardware_equivariant :
  forall c lo lo' m m' p id id' x, build_ok c -> attn_fits c -> attn_functions c -> position_blind c -> fuse_supported c ->
  masks_alike c m -> masks_alike c m' -> a_T c = a_S c -> rearrangement (a_T c) p -> masks_follow c m m' p p ->
  lower_bounds c lo (layer_scores c id_ten x x x) -> lower_bounds c lo' (layer_scores c id_ten (reorder p x) (reorder p x) (reorder p x)) ->
  (a_stable c = true -> above_1e9 c m (layer_scores c id_ten x x x) /\ above_1e9 c m' (layer_scores c id_ten (reorder p x) (reorder p x) (reorder p x))) ->
  exists r r', replay_mha c lo m (mk_arr id x) None None = Some r /\ replay_mha c lo' m' (mk_arr id' (reorder p x)) None None = Some r' /\ reordered c p p r r'.
Proof. exact hw_reorder. Qed.
Print Assumptions C60_hardware_equivariant.

(** ** The default quantizers share their formats over the batch only (homogeneous_axis=(0,), quantizer/config.py 105, 324): each
    position has formats of its own, calibrated on what was seen there.  A layer calibrated on a sequence computes something else on the
    same sequence in another order: here the rows (1/2, -1/2) and (3, -3) are swapped and the 3 meets the format calibrated on 1/2. *)
Definition sw_conf : qconf := mk_qconf RND WRAP true false None None.
Definition sw_state (v : Q) : kif_state := match kif_call sw_conf Trace (mk_kif false (-4) 3) [v] with Some (s, _) => s | None => mk_kif false 0 0 end.
Definition sw_in : nat -> nat -> Q := fun t j => (if Nat.eqb t 0 then 1 # 2 else 3) * (if Nat.eqb j 0 then 1 else - (1)).
Definition sw_iq : tq := mk_tq RND WRAP (fun a b _ => kif_k (sw_state (sw_in a b))) (fun a b _ => kif_iz (sw_state (sw_in a b))) (fun a b _ => kif_fz (sw_state (sw_in a b))) None.
Definition sw_attn (iq : tq) : mha :=
  mk_mha 2 2 2 2 2 1 1 1 1 FQkv true iq iq iq
    (ex_p (fun j n => 1%Z) None) (ex_p (fun j n => 1%Z) None) (ex_p (fun j n => (1 - Z.of_nat j)%Z) None)
    true (ex_q 3 1) (fun _ _ _ => ex_e) (ex_q 1 3) (ex_q 3 2) ex_i (ex_q 1 3) (ex_q 1 4)
    (ex_q 3 2) (fun _ _ _ => 1) None.
Definition sw_p (i : nat) : nat := (1 - i)%nat.
Lemma sw_rearrangement : rearrangement 2 sw_p.
Proof. split; unfold sw_p; intros; lia. Qed.
Theorem C60_default_formats_refuted :
  exists c x p, attn_functions c /\ a_T c = a_S c /\ rearrangement (a_T c) p /\
    (forall t j, (t < a_T c)%nat -> (j < a_cq c)%nat -> forall q, query_iq c = Some q ->
       exists s y, kif_call sw_conf Trace (mk_kif false (-4) 3) [x t j] = Some (s, [y]) /\ t_k q t j 0%nat = kif_k s /\ t_i q t j 0%nat = kif_iz s /\ t_f q t j 0%nat = kif_fz s /\
         lq q (lift x) t j 0%nat == x t j) /\
    ~ reordered c p p (layer_mha c no_masks x None None) (layer_mha c no_masks (reorder p x) None None) /\
    ~ pooled (a_T c) (fst (layer_mha c no_masks (reorder p x) None None)) 0 == pooled (a_T c) (fst (layer_mha c no_masks x None None)) 0.
Proof.
  exists (sw_attn sw_iq), sw_in, sw_p. split; [apply (ex_functions FQkv true 1)|]. split; [reflexivity|]. split; [exact sw_rearrangement|]. split; [|split].
  - intros t j Ht Hj q E. injection E as <-. cbn [a_T a_cq sw_attn] in Ht, Hj. destruct (lt2 t Ht) as [->| ->], (lt2 j Hj) as [->| ->];
      (eexists; eexists; split; [vm_compute; reflexivity|]; split; [reflexivity|]; split; [reflexivity|]; split; reflexivity).
  - intros [H _]. specialize (H 0%nat 0%nat ltac:(cbn; lia) ltac:(cbn; lia)). vm_compute in H. discriminate H.
  - intros H. vm_compute in H. discriminate H.
Qed.
Print Assumptions C60_default_formats_refuted.

(** ** the hypotheses are met: the layer of C50's example, three positions, rotated; a mask of allowed pairs rotated with them *)
Example ex_blind fuse iq dv : position_blind (ex_attn fuse iq dv).
Proof.
  split.
  { intros q H. assert (G : exists f, q = ex_q 2 f).
    { unfold query_iq, key_iq, value_iq in H. cbn [ex_attn a_enable_iq a_fuse a_iq_q a_iq_k a_iq_v] in H.
      destruct iq; [|destruct H as [H|[H|H]]; discriminate H]. destruct fuse, H as [H|[H|H]]; injection H as <-; eexists; reflexivity. }
    destruct G as [f ->]. intros a a' b c. auto. }
  do 9 (split; [intros a; intros; repeat split|]). intros n t t' s s' v. reflexivity.
Qed.
Definition rot (i : nat) : nat := if Nat.ltb i 2 then S i else 0%nat.
Example rot_rearrangement : rearrangement 3 rot.
Proof. split; [intros i Hi|intros i j Hi Hj]; unfold rot; [destruct (Nat.ltb_spec i 2); lia|]. destruct (Nat.ltb_spec i 2), (Nat.ltb_spec j 2); intros; lia. Qed.
Definition cm : masks := mk_masks None None None true None.
Definition rm : masks := mk_masks None None None false (Some (fun t s => Nat.leb (rot s) (rot t))).
Example C60_hypotheses_met : masks_follow (ex_attn FQkv true 1) cm rm rot rot.
Proof.
  intros i j Hi Hj. unfold may_attend. cbn [cm rm m_query m_value m_key m_causal m_attn]. split; intros (A & B & C & D & E).
  - repeat (split; [intros; discriminate|]). split; [|intros; discriminate]. intros _. apply Nat.leb_le. exact (E _ eq_refl).
  - repeat (split; [intros; discriminate|]). intros a Ea. injection Ea as <-. apply Nat.leb_le. apply D. reflexivity.
Qed.
Example C60_ex :
  let c := ex_attn FQkv true 1 in
  show2 3 2 (fst (layer_mha c cm (r_val ex_in) None None)) = [[-(1) # 2; -(3) # 2]; [1 # 4; 3 # 4]; [3 # 2; 9 # 2]] /\
  show2 3 2 (fst (layer_mha c rm (reorder rot (r_val ex_in)) None None)) = [[1 # 4; 3 # 4]; [3 # 2; 9 # 2]; [-(1) # 2; -(3) # 2]].
Proof. split; vm_compute; reflexivity. Qed.
(** with one format for all positions the swap of the refutation is harmless *)
Example C60_ex_shared :
  let c := sw_attn (ex_q 2 3) in
  show2 2 1 (fst (layer_mha c no_masks sw_in None None)) = rev (show2 2 1 (fst (layer_mha c no_masks (reorder sw_p sw_in) None None))) /\
  show2 2 1 (fst (layer_mha (sw_attn sw_iq) no_masks sw_in None None)) = show2 2 1 (fst (layer_mha c no_masks sw_in None None)).
Proof. split; vm_compute; reflexivity. Qed.
