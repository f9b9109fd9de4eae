(** Consequences and failures for C63. *)
From Coq Require Import String.
From Verif Require Import Num M_Fixed L_Fixed M_State M_Wrapper M_Mapper S_Mapper L_Mapper M_Contr M_Ebops M_Pow2 M_Patch S_Patch M_Ops M_Mirror S_Mirror M_Trace S_Trace L_Trace L_Lift M_Table S_Table M_Softmax M_Attn S_Attn L_Attn M_Net S_Net M_NetX S_NetX L_Ops L_Net L_Net5 L_NetX7 L_NetX8 S_Ops.
Local Open Scope list_scope.

Lemma holds_both n b x (l l' : list da) : Forall2 (holds_x n b) x l -> Forall2 (holds_x n b) x l' -> Forall2 (fun z z' => same_tensor (da_val z) (da_val z')) l l'.
Proof.
  intros F. revert l'. induction F as [|y d x l Hd F IH]; intros l' F'; inversion F' as [|? d' ? l2 Hd' F2]; subst; constructor; [|apply IH, F2].
  exact (st_trans _ _ _ (st_sym _ _ (proj2 (proj1 Hd))) (proj2 (proj1 Hd'))).
Qed.
Lemma network_x_irrelevant env env' fuel m n b xs ds ds' ys : sound env -> sound env' -> well_formed fuel m -> every_op traceable_x fuel m -> evaluates keras_x fuel m xs ys -> (b < n)%nat ->
  Forall2 (holds_x n b) xs ds -> Forall2 (holds_x n b) xs ds' ->
  exists d d' zs zs', trace_x env fuel m ds = Some d /\ trace_x env' fuel m ds' = Some d' /\ assoc "final"%string d = Some zs /\ assoc "final"%string d' = Some zs' /\
    Forall2 (fun z z' => same_tensor (da_val z) (da_val z')) zs zs'.
Proof.
  intros H H' W L E Hb F F'. destruct (network_x_traced env fuel m n b xs ds ys H W L E Hb F) as (d & zs & E1 & E2 & G). destruct (network_x_traced env' fuel m n b xs ds' ys H' W L E Hb F') as (d' & zs' & E1' & E2' & G').
  exists d, d', zs, zs'. repeat (split; [assumption|]). exact (holds_both _ _ _ _ _ G G').
Qed.
Lemma one_layer_traced env n b o x v d w y : sound env -> (b < n)%nat -> traceable_x (mk_op (KLayer x) o [ATensor "x"%string] [] ["y"%string] ["x"%string]) x -> holds_x n b v w ->
  keras_x x [VArr v] [] = Some d -> assoc "final"%string d = Some [y] ->
  exists d' z, replay_x env x [VArr w] [] = Some d' /\ assoc "final"%string d' = Some [z] /\ holds_x n b y z.
Proof.
  intros HE Hb T Hw K A. destruct (layer_x_traced n b env HE _ x [("x"%string, w)] [VArr v] [] d [y] [VArr w] [] Hb T K A eq_refl) as (d' & fin & E & Ef & F).
  - constructor; [constructor; exact Hw|constructor].
  - constructor.
  - inversion F as [|? z ? zs Hz Fz]; subst. inversion Fz; subst. exists d', z. auto.
Qed.
Lemma list_einsum_fails env li lk lo oq l kw : replay_x env (XOp (OQEinsum li lk lo)) [VList l] kw = None /\ replay_x env (XQOp None (OQEinsum li lk lo) oq) [VList l] kw = None.
Proof.
  unfold replay_x. destruct (no_array_kwargs kw); [|split; reflexivity]. cbv zeta. cbn [map vmap op_args one_arg]. split.
  - destruct (no_kwargs _); [|reflexivity]. destruct (all_arr _) as [vs|]; [|reflexivity]. cbn [bind replay_op]. destruct vs as [|? [|? [|? ?]]]; reflexivity.
  - destruct (training_off _); [|reflexivity]. destruct (all_arr _) as [vs|]; [|reflexivity]. cbn [bind replay_op]. destruct vs as [|? [|? [|? ?]]]; reflexivity.
Qed.
Lemma table_no_iq_fails env t args kw : xt_iq t = None -> replay_x env (XTable t) args kw = None.
Proof.
  intros H. unfold replay_x. destruct (no_array_kwargs kw); [|reflexivity]. cbv zeta. destruct (training_off _); [|reflexivity]. destruct (one_arg _) as [[v|l]|]; cbn [bind]; try reflexivity.
  unfold replay_table. destruct (replay_patches _ _); [|reflexivity]. cbn [bind]. cbv zeta. rewrite H. reflexivity.
Qed.
Lemma table_activation_fails env t f args kw : xt_act t = AFn f -> replay_x env (XTable t) args kw = None.
Proof.
  intros H. unfold replay_x. destruct (no_array_kwargs kw); [|reflexivity]. cbv zeta. destruct (training_off _); [|reflexivity]. destruct (one_arg _) as [[v|l]|]; cbn [bind]; try reflexivity.
  destruct (replay_table _ _ _); [|reflexivity]. cbn [bind]. rewrite H. reflexivity.
Qed.
Lemma fused_fails env a q v k kw : a_fuse (attn_mha (xa_kind a)) <> FNone -> (exists c, xa_kind a = AMha c) -> ob_id (da_obj v) <> ob_id (da_obj k) -> replay_x env (XAttn a) [VArr q; VArr v; VArr k] kw = None.
Proof.
  intros F (c & Ec) N. rewrite Ec in F. cbn [attn_mha] in F. unfold replay_x. destruct (no_array_kwargs kw); [|reflexivity]. cbv zeta. unfold replay_attn_layer. cbn [all_arr bind attn_args].
  destruct (attn_kwargs kw) as [[causal ret]|]; [|reflexivity]. cbn [bind]. destruct (_ && _)%bool; [|reflexivity]. rewrite Ec. cbn [replay_scores attn_mha]. cbv zeta.
  destruct (core_scores c id_ten _ _ _) as [sc|]; [|reflexivity]. cbn [bind replay_attn]. unfold replay_mha. cbv zeta.
  rewrite call_refused; [reflexivity|]. unfold call_supported. cbn [option_map or_else da_arr r_id]. destruct (a_fuse c); [congruence| |]; intros X; [destruct X as (_ & X)|]; congruence.
Qed.
Lemma array_keyword_fails env x args k d kw : replay_x env x args ((k, VArr d) :: kw) = None.
Proof. reflexivity. Qed.
Lemma reduction_fails env mx axes kd args kw : replay_x env (XOp (OReduce mx axes kd)) args kw = None.
Proof.
  unfold replay_x. destruct (no_array_kwargs kw); [|reflexivity]. cbv zeta. destruct (no_kwargs _); [|reflexivity]. destruct (op_args _) as [l|]; [|reflexivity]. cbn [bind]. destruct l as [|[v|vs] [|]]; try reflexivity.
  cbn [replay_op]. unfold replay_reduction, np_reduce, first. cbn [shape newaxis]. rewrite drop_axes_all; [reflexivity|]. intros c Hc. apply in_seq. cbn [List.length] in Hc. lia.
Qed.
