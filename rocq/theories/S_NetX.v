(** Specification vocabulary for C63: traced arrays whose ranges contain their values, and which layers and calls are covered. *)
From Coq Require Import String.
From Verif Require Import Num M_Fixed M_State M_Wrapper M_Mapper S_Mapper M_Contr M_Ebops M_Pow2 M_Patch S_Patch M_Ops M_Mirror S_Mirror M_Trace S_Trace M_Table S_Table M_Softmax M_Attn S_Attn M_Net S_Net M_NetX S_Ops.
Local Open Scope list_scope.

(** every entry is a value of the variable that stands for it *)
Definition in_ranges (d : da) : Prop :=
  forall i, valid_index (shape (da_val d)) i -> exists N, var_ok (ob_lhs (da_obj d) i) N /\ var_value (ob_lhs (da_obj d) i) N (at_ (da_val d) i).
(** the tracing package computes ranges that contain the values (its own claim) *)
Definition sound (env : xlayer -> list (varg da) -> string -> nat -> tensor Q -> obj) : Prop := forall x args name k t, in_ranges (mk_da t (env x args name k t)).
(** the traced array [d] holds sample [b] of the batch [x] of [n] samples *)
Definition holds_x (n b : nat) (x : tensor Q) (d : da) : Prop := holds n b x (da_val d) /\ in_ranges d.

(** ** operations *)
Definition is_int (k : ikey) : bool := match k with IInt _ => true | _ => false end.
Definition traceable_op (o : xop) : Prop :=
  match o with
  | OAbs => True
  | OReduce _ _ _ => False                                                                                    (* cannot be traced: C63_reduction_refuted *)
  | OArith _ rx ry => rx = ry
  | OConcat axis r | ORepeat _ axis r => exists a, np_axis axis r = Some (S a)                       (* not the batch axis *)
  | OConcatLayer axis shs => (axis < 0)%Z /\ exists sh a, (forall s, In s shs -> s = sh) /\ np_axis axis (S (List.length sh)) = Some (S a)
  | OMoveaxis s d r => exists a e, np_axis s r = Some (S a) /\ np_axis d r = Some (S e)
  | OGetItem key r =>
      (* all samples are kept, and an axis besides *)
      exists ks, expand_keys r key = full_slice :: ks /\ (In INew ks \/ (List.length (filter is_int ks) < r - 1)%nat)
  | OMatmul r => (3 <= r)%nat
  | OEinsum li lk lo | OQEinsum li lk lo =>
      exists a li' lk' lo', li = a :: li' /\ lk = a :: lk' /\ lo = a :: lo' /\ ~ In a (li' ++ lk' ++ lo') /\ lo' <> []
  | OGlobalPool _ _ _ => True
  | OLeaky _ => True
  | OReLU _ maxv => forall m, maxv = Some m -> 0 <= m
  | OSoftmax s =>
      ~ In 0%nat (sx_axes s) /\ (forall q, sx_exp_iq s = Some q -> traceable_quant q) /\ traceable_quant (sx_exp_oq s) /\ traceable_quant (sx_inv_iq s) /\ traceable_quant (sx_inv_oq s) /\
      (forall x y, x == y -> sx_exp s x == sx_exp s y) /\ (forall x y, x == y -> sx_inv s x == sx_inv s y)
  end.
Definition takes_list (o : xop) : Prop := match o with OQEinsum _ _ _ => True | _ => False end.

(** ** lookup-table layers *)
Definition traceable_table (t : xtable) : Prop :=
  (exists q, xt_iq t = Some q /\ traceable_quant q) /\                                              (* an input quantizer *)
  traceable_quant (xt_toq t) /\ w_affine (q_w (xt_toq t)) = None /\
  (forall q, xt_oq t = Some q -> traceable_quant q) /\
  (forall bn, xt_bn t = Some bn -> bn_beta bn <> None) /\                                           (* center=True *)
  translates (xt_translate t) (xt_net t) /\
  match xt_act t with ALinear | ARelu => True | AFn _ => False end /\
  match xt_patch t with
  | None => True
  | Some (_, cs, ch) => (0 < ch)%nat /\ (Z.of_nat (nprod (map c_in cs ++ [ch])) <= 2 ^ 24)%Z
  end.
(** ranges that contain the values of every array *)
Definition sound_lhs (lhs_of : tensor Q -> index -> lhs) : Prop :=
  forall t i, valid_index (shape t) i -> exists N, var_ok (lhs_of t i) N /\ var_value (lhs_of t i) N (at_ t i).

(** ** attention layers *)
Definition attn_pre (k : attn_kind) : (nat -> nat -> nat -> Q) -> nat -> nat -> nat -> Q := match k with ASalt z => layer_pre z | _ => id_ten end.
Definition traceable_attn (a : xattn) : Prop :=
  let c := attn_mha (xa_kind a) in
  nprod (xa_pos a) = a_T c /\ nprod (xa_spos a) = a_S c /\
  build_ok c /\ attn_fits c /\ attn_functions c /\ fuse_supported c /\
  (* the stable softmax replaces masked scores by -1e9: no score may be below *)
  (a_stable c = true -> forall q k v n t s, (n < a_heads c)%nat -> (t < a_T c)%nat -> (s < a_S c)%nat -> -1000000000 <= layer_scores c (attn_pre (xa_kind a)) q k v n t s) /\
  match xa_kind a with
  | AMha _ => nprod (xa_vpos a) = a_S c /\ nprod (xa_kpos a) = a_S c
  | ALin _ lk lv len => a_fuse c = FNone /\ nprod (xa_vpos a) = len /\ nprod (xa_kpos a) = len /\ lin_fits len (a_S c) (a_ck c) lk /\ lin_fits len (a_S c) (a_cv c) lv
  | ASalt z => a_fuse c = FNone /\ nprod (xa_vpos a) = z_len_v z /\ nprod (xa_kpos a) = z_len_k z /\ (0 < a_heads c)%nat /\ (0 < a_S c)%nat /\ salt_fits z /\ (forall v, z_conv z = Some v -> small_image c)
  end.
(** fused projections need the same array for the inputs they fuse: the arguments given to the layer *)
Definition fused_call (a : xattn) (args : list arg) : Prop :=
  match a_fuse (attn_mha (xa_kind a)) with
  | FNone => True
  | FQkv => forall x y, In x args -> In y args -> x = y
  | FKv => forall q v k, args = [q; v; k] -> v = k
  end.

(** ** layers *)
Definition traceable_x (o : @opobj xlayer) (x : xlayer) : Prop :=
  match x with
  | XBase l => traceable_layer l
  | XNoOp => True
  | XOp p => traceable_op p /\ ~ takes_list p
  | XQOp iq p oq => (forall q, iq = Some q -> traceable_quants q) /\ traceable_op p /\ (takes_list p -> iq <> None) /\ (forall q, oq = Some q -> traceable_quant q)
  | XTable t => traceable_table t
  | XAttn a => traceable_attn a /\ fused_call a (o_args o)
  end.
(** every operation of a model and of its nested models *)
Fixpoint every_op (P : @opobj xlayer -> xlayer -> Prop) (fuel : nat) (m : model xlayer) : Prop :=
  match fuel with
  | 0%nat => True
  | S fuel' => forall o, In o (all_ops m) -> match o_kind o with KInput => True | KLayer l => P o l | KModel sub => every_op P fuel' sub end
  end.
