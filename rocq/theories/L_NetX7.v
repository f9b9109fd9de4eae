(** Attention layers, traced: calls with defaults and keyword arguments. *)
From Coq Require Import String.
From Verif Require Import Num M_Fixed L_Fixed M_State M_Wrapper M_Mapper S_Mapper L_Mapper M_Contr M_Ebops L_Ebops M_Pow2 M_Patch S_Patch L_Patch M_Ops M_Mirror S_Mirror L_Mirror M_Trace L_Trace L_Lift M_Table S_Table M_Rnn M_Softmax M_Attn S_Attn L_Attn M_Net S_Net M_NetX S_NetX L_Ops L_Net L_Net2 L_Net3 L_Net4 L_Net5 L_NetX1 L_NetX2 L_NetX3 L_NetX6 S_Ops.
Local Open Scope list_scope.

Lemma scores_default kd f q v k : replay_scores kd f q v k = replay_scores kd f q (Some (or_else v q)) (Some (or_else k (or_else v q))).
Proof. destruct kd, v, k; reflexivity. Qed.
Lemma replay_default kd f lo m q v k : replay_attn kd f lo m q v k = replay_attn kd f lo m q (Some (or_else v q)) (Some (or_else k (or_else v q))).
Proof. destruct kd, v, k; reflexivity. Qed.
Lemma layer_default kd m q v k : layer_attn kd m q v k = layer_attn kd m q (Some (or_else v q)) (Some (or_else k (or_else v q))).
Proof. destruct kd, v, k; reflexivity. Qed.

Definition orel {A B} (R : A -> B -> Prop) (o : option A) (o' : option B) : Prop := match o, o' with Some x, Some y => R x y | None, None => True | _, _ => False end.
Lemma orel_else {A B} (R : A -> B -> Prop) o o' d d' : orel R o o' -> R d d' -> R (or_else o d) (or_else o' d').
Proof. destruct o, o'; cbn; intros H K; try contradiction; assumption. Qed.
Lemma map_else {A B} (f : A -> B) o d : or_else (option_map f o) (f d) = f (or_else o d).
Proof. destruct o; reflexivity. Qed.
Lemma attn_shapes_iff {V} (sh : V -> list nat) a pre q v k : attn_shapes a pre (sh q) (option_map sh v) (option_map sh k) = true <->
  let c := attn_mha (xa_kind a) in sh q = pre ++ xa_pos a ++ [a_cq c] /\ sh (or_else v q) = pre ++ xa_vpos a ++ [a_cv c] /\ sh (or_else k (or_else v q)) = pre ++ xa_kpos a ++ [a_ck c].
Proof.
  unfold attn_shapes. cbv zeta. rewrite (map_else sh v q), (map_else sh k (or_else v q)), !andb_true_iff, !nat_list_eqb_eq. tauto.
Qed.
Lemma snoc_inj (s t : list nat) x y : s ++ [x] = t ++ [y] -> s = t.
Proof. intros H. apply app_inj_tail in H. apply H. Qed.
Lemma mat_same n b pos c x v : (b < n)%nat -> holds n b x v -> shape x = [n] ++ pos ++ [c] -> same2 (nprod pos) c (mat_of [] pos v) (mat_of [b] pos x).
Proof.
  intros Hb (_ & S) E p j Hp Hj. unfold mat_of. cbn [app]. symmetry. apply (proj2 S). cbn [sample shape]. rewrite E. cbn [app tl]. apply valid_snoc; [apply unflat_valid, Hp|exact Hj].
Qed.
Lemma holds_tail n b x v s : holds n b x v -> shape x = [n] ++ s -> shape v = s.
Proof. intros (_ & S) E. rewrite <- (proj1 S). cbn [sample shape]. rewrite E. reflexivity. Qed.

Lemma batch2 n s c (t : tensor Q) : shape t = [n] ++ s ++ [c] -> batch_in n t.
Proof. intros E. destruct s as [|d s]; [exists c, []; exact E|exists d, (s ++ [c]); exact E]. Qed.

Lemma attn_call_traced n b a lhs_of fresh causal q v k q' v' k' : (b < n)%nat -> traceable_attn a -> sound_lhs lhs_of ->
  holds n b q (da_val q') -> orel (fun x d => holds n b x (da_val d)) v v' -> orel (fun x d => holds n b x (da_val d)) k k' ->
  (let V := or_else v' q' in let K := or_else k' V in match a_fuse (attn_mha (xa_kind a)) with FNone => True | FKv => K = V | FQkv => q' = K /\ K = V end) ->
  attn_shapes a [n] (shape q) (option_map shape v) (option_map shape k) = true ->
  let run := fun pre => layer_attn (xa_kind a) (attn_masks causal) (mat_of pre (xa_pos a) q) (option_map (mat_of pre (xa_vpos a)) v) (option_map (mat_of pre (xa_kpos a)) k) in
  let R := fun pre => or_else (run pre) zero_result in
  run [0%nat] <> None ->
  let qa := da_arr (xa_pos a) q' in let va := option_map (da_arr (xa_vpos a)) v' in let ka := option_map (da_arr (xa_kpos a)) k' in
  attn_shapes a [] (shape (da_val q')) (option_map (fun d => shape (da_val d)) v') (option_map (fun d => shape (da_val d)) k') = true /\
  exists sc r, replay_scores (xa_kind a) fresh qa va ka = Some sc /\
    replay_attn (xa_kind a) fresh (fun n t s => v_l (lhs_of (as_tensor (attn_mha (xa_kind a)) sc) [n; t; s])) (attn_masks causal) qa va ka = Some r /\
    holds n b (attn_out a [n] R) (attn_out a [] (fun _ => r)) /\ holds n b (attn_scores a [n] R) (attn_scores a [] (fun _ => r)).
Proof.
  intros Hb T Snd Hq Hv Hk SA HS run R HR qa va ka. cbv zeta in SA.
  apply attn_shapes_iff in HS. cbv zeta in HS. destruct HS as (Eq & Ev & Ek).
  assert (HV : holds n b (or_else v q) (da_val (or_else v' q'))) by (apply (orel_else (fun x d => holds n b x (da_val d)) v v' q q' Hv Hq)).
  assert (HK : holds n b (or_else k (or_else v q)) (da_val (or_else k' (or_else v' q')))) by (apply (orel_else (fun x d => holds n b x (da_val d)) k k' _ _ Hk HV)).
  pose proof (holds_tail _ _ _ _ _ Hq Eq) as Fq. pose proof (holds_tail _ _ _ _ _ HV Ev) as Fv. pose proof (holds_tail _ _ _ _ _ HK Ek) as Fk.
  split; [apply (attn_shapes_iff (fun d => shape (da_val d))); cbv zeta; cbn [app]; auto|].
  set (c := attn_mha (xa_kind a)) in *.
  (* defaults *)
  assert (Dv : or_else va qa = da_arr (xa_vpos a) (or_else v' q')).
  { subst va qa. destruct v' as [d|]; [reflexivity|]. cbn [option_map or_else] in *. rewrite Fq in Fv. apply snoc_inj in Fv. rewrite Fv. reflexivity. }
  assert (Dk : or_else ka (or_else va qa) = da_arr (xa_kpos a) (or_else k' (or_else v' q'))).
  { rewrite Dv. subst ka. destruct k' as [d|]; [reflexivity|]. cbn [option_map or_else] in *. rewrite Fv in Fk. apply snoc_inj in Fk. rewrite Fk. reflexivity. }
  assert (DV : forall pre, or_else (option_map (mat_of pre (xa_vpos a)) v) (mat_of pre (xa_pos a) q) = mat_of pre (xa_vpos a) (or_else v q)).
  { intros pre. destruct v as [d|]; [reflexivity|]. cbn [option_map or_else] in *. rewrite Eq in Ev. apply app_inv_head, snoc_inj in Ev. rewrite Ev. reflexivity. }
  assert (DK : forall pre, or_else (option_map (mat_of pre (xa_kpos a)) k) (mat_of pre (xa_vpos a) (or_else v q)) = mat_of pre (xa_kpos a) (or_else k (or_else v q))).
  { intros pre. destruct k as [d|]; [reflexivity|]. cbn [option_map or_else] in *. rewrite Ev in Ek. apply app_inv_head, snoc_inj in Ek. rewrite Ek. reflexivity. }
  assert (Er : forall pre, run pre = layer_attn (xa_kind a) (attn_masks causal) (mat_of pre (xa_pos a) q) (Some (mat_of pre (xa_vpos a) (or_else v q))) (Some (mat_of pre (xa_kpos a) (or_else k (or_else v q))))).
  { intros pre. unfold run. rewrite layer_default, DV, DK. reflexivity. }
  assert (RB : run [b] <> None) by (rewrite Er; rewrite Er in HR; revert HR; apply layer_attn_total).
  set (V := or_else v' q') in *. set (K := or_else k' V) in *. set (xv := or_else v q) in *. set (xk := or_else k xv) in *. clearbody K V xk xv.
  assert (SAr : same_arrays c qa (da_arr (xa_kpos a) K) (da_arr (xa_vpos a) V)).
  { unfold same_arrays. destruct (a_fuse c); [exact I| |].
    - destruct SA as (Q1 & Q2). split.
      + subst qa. rewrite Q1. assert (X : xa_pos a ++ [a_cq c] = xa_kpos a ++ [a_ck c]) by (rewrite <- Fq, <- Fk, <- Q1; reflexivity). apply snoc_inj in X. rewrite X. reflexivity.
      + rewrite Q2. assert (X : xa_vpos a ++ [a_cv c] = xa_kpos a ++ [a_ck c]) by (rewrite <- Fv, <- Fk, <- Q2; reflexivity). apply snoc_inj in X. rewrite X. reflexivity.
    - rewrite SA. assert (X : xa_vpos a ++ [a_cv c] = xa_kpos a ++ [a_ck c]) by (rewrite <- Fv, <- Fk, <- SA; reflexivity). apply snoc_inj in X. rewrite X. reflexivity. }
  assert (G : attn_ready (xa_kind a) fresh (attn_masks causal) qa (da_arr (xa_kpos a) K) (da_arr (xa_vpos a) V) (mat_of [b] (xa_pos a) q) (mat_of [b] (xa_kpos a) xk) (mat_of [b] (xa_vpos a) xv)).
  { apply attn_ready_ok; [exact T|exact SAr|apply (mat_same n b); assumption|apply (mat_same n b); assumption|apply (mat_same n b); assumption|]. rewrite <- Er. exact RB. }
  destruct G as (sc & Esc & G). cbv zeta in Esc, G. fold c in G.
  assert (LB : lower_bounds c (fun n t s => v_l (lhs_of (as_tensor c sc) [n; t; s])) sc).
  { intros h t s Hh Ht Hs. destruct (Snd (as_tensor c sc) [h; t; s]) as (N & (Hstep & Hmax) & HN).
    - cbn [as_tensor shape]. repeat (constructor; [assumption|]). constructor.
    - destruct HN as (u & Hu & EQ). cbn [as_tensor at_] in EQ. rewrite EQ.
      assert (0 <= inject_Z (Z.of_nat u) * v_s (lhs_of (as_tensor c sc) [h; t; s])) by (apply Qmult_le_0_compat; [change 0 with (inject_Z 0); rewrite <- Zle_Qle; lia|apply Qlt_le_weak; exact Hstep]). cbn [as_tensor shape] in *. lra. }
  destruct (G _ LB) as (r & r' & E1 & E2 & S2). exists sc, r.
  split; [rewrite scores_default, Dk, Dv; exact Esc|]. split; [rewrite replay_default, Dk, Dv; exact E1|].
  assert (ER : R [b] = r') by (unfold R; rewrite Er, E2; reflexivity).
  destruct T as (Tp & Ts & _). fold c in Tp, Ts. destruct S2 as (So & Sw). split.
  - split; [apply (batch2 n (xa_pos a) (a_out c)); reflexivity|]. split; [reflexivity|]. cbn [sample attn_out shape app tl]. intros i Hi. fold c in Hi. cbn [sample attn_out at_ List.length firstn skipn]. rewrite ER.
    apply valid_snoc_inv in Hi. destruct Hi as (Hi & Hl). symmetry. apply So; [|exact Hl]. rewrite <- Tp. apply flat_lt, Hi.
  - split; [exists (a_heads c), (xa_pos a ++ xa_spos a); reflexivity|]. split; [reflexivity|]. cbn [sample attn_scores shape app tl]. intros i Hi. fold c in Hi. cbn [sample attn_scores at_ List.length firstn skipn]. rewrite ER.
    inversion Hi as [|h d i' s Hh Hi']; subst. cbn [hd tl]. apply valid_split in Hi'. destruct Hi' as (H1 & H2). symmetry. apply Sw; [exact Hh| |].
    + rewrite <- Tp. apply flat_lt, H1.
    + rewrite <- Ts. apply flat_lt, H2.
Qed.
