(** EBOPs: C24 (what is counted, sign, monotonicity, zero), C25 (parallelization factor). *)
From Verif Require Import Num M_Fixed M_State M_Mapper S_Mapper M_Contr M_Ebops S_Ebops L_Ebops L_Ebops2.

(** The EBOPs of QDense are, up to the reuse factor p/n, the sum over all multiplications of the
    product of the widths, plus one bias addition per output.  [dense_factor]/[dense_n_parallel]
    are spelled out in the C25 theorems. *)
Theorem C24_dense_counts_multiplications :
  forall sh units pf iq kq bq e, (0 < units)%nat -> dense_ebops sh units pf iq kq bq = Some e ->
  exists bi bk c, bits_ iq sh = Some bi /\ bits_ kq [last sh 0%nat; units] = Some bk /\ dense_bias_cost sh units bq c /\
    e == (cost (at_ bi) (at_ bk) (dense_mults sh units) + c) * dense_factor pf (dense_n_parallel sh) / nQ (dense_n_parallel sh).
Proof. exact dense_ebops_spec. Qed.
Print Assumptions C24_dense_counts_multiplications.

(** those are exactly the multiplications x[l, i] * kernel[i, j] *)
Theorem C24_dense_multiplications :
  forall sh units a b, In (a, b) (dense_mults sh units) <->
  exists l i j, valid_index (removelast sh) l /\ (i < last sh 0%nat)%nat /\ (j < units)%nat /\ a = l ++ [i] /\ b = [i; j].
Proof. exact in_dense_mults. Qed.
Print Assumptions C24_dense_multiplications.

Theorem C24_einsum_counts_multiplications :
  forall li lk lo sh ksh osh pf iq kq bq e, NoDup lo -> incl lo (li ++ lk) -> bias_fits osh bq ->
  einsum_dense_ebops li lk lo sh ksh osh pf iq kq bq = Some e ->
  exists bi bk c, bits_ iq sh = Some bi /\ bits_ kq ksh = Some bk /\ einsum_bias_cost osh bq c /\
    let dims := einsum_dims li sh lk ksh in
    let n := einsum_n_parallel li lk lo sh in
    e == (qsum (map (fun o => cost (at_ bi) (at_ bk) (out_mults dims li lk lo o)) (indices (map dims lo))) + c) * dense_factor pf n / nQ n.
Proof. exact einsum_dense_spec. Qed.
Print Assumptions C24_einsum_counts_multiplications.

(** ... and the layer's output really is the sum of these products *)
Theorem C24_einsum_forward_uses_multiplications :
  forall dims li lk lo x k o, einsum 0 Qplus Qmult dims li lk lo x k o == value x k (out_mults dims li lk lo o).
Proof. exact einsum_value. Qed.
Print Assumptions C24_einsum_forward_uses_multiplications.

Theorem C24_conv_counts_multiplications :
  forall pad cs G gi go pf iq kq bq e l, conv_mults_spec pad cs G gi go l ->
  conv_ebops pad cs G gi go pf iq kq bq = Some e ->
  exists bi bk c, bits_ iq (1%nat :: map c_in cs ++ [G * gi]%nat) = Some bi /\ bits_ kq (map c_k cs ++ [gi; G * go]%nat) = Some bk /\
    match bq with None => c == 0 | Some bq => exists bb, bits_ bq [G * go]%nat = Some bb /\ c == tmean bb * nQ (nprod (map c_in cs) * (G * go)) end /\
    e == cost (at_ bi) (at_ bk) (map snd l) * (conv_factor pf (conv_n_parallel pad cs) / nQ (conv_n_parallel pad cs)) + c.
Proof. exact conv_ebops_spec. Qed.
Print Assumptions C24_conv_counts_multiplications.
(** the specification of the multiplication list is satisfiable for every geometry *)
Theorem C24_conv_multiplications_exist :
  forall pad cs G gi go, exists l, conv_mults_spec pad cs G gi go l.
Proof. intros. exact (ex_intro _ _ (conv_list_spec pad cs G gi go)). Qed.
Print Assumptions C24_conv_multiplications_exist.

Theorem C24_nonnegative :
  (forall sh units pf iq kq bq e, (0 < units)%nat -> widths_ok iq -> widths_ok kq -> widths_ok_opt bq ->
     dense_ebops sh units pf iq kq bq = Some e -> 0 <= e) /\
  (forall li lk lo sh ksh osh pf iq kq bq e, NoDup lo -> incl lo (li ++ lk) -> bias_fits osh bq ->
     widths_ok iq -> widths_ok kq -> widths_ok_bias bq -> einsum_dense_ebops li lk lo sh ksh osh pf iq kq bq = Some e -> 0 <= e) /\
  (forall pad cs G gi go pf iq kq bq e, widths_ok iq -> widths_ok kq -> widths_ok_opt bq ->
     conv_ebops pad cs G gi go pf iq kq bq = Some e -> 0 <= e).
Proof. exact (conj dense_ebops_nonneg (conj einsum_dense_nonneg conv_ebops_nonneg)). Qed.
Print Assumptions C24_nonnegative.

Theorem C24_monotone :
  (forall sh units pf iq kq bq iq' kq' bq' e e', (0 < units)%nat -> widths_ok iq -> widths_ok kq ->
     wider iq iq' -> wider kq kq' -> wider_opt bq bq' ->
     dense_ebops sh units pf iq kq bq = Some e -> dense_ebops sh units pf iq' kq' bq' = Some e' -> e <= e') /\
  (forall li lk lo sh ksh osh pf iq kq bq iq' kq' bq' e e', NoDup lo -> incl lo (li ++ lk) -> bias_fits osh bq ->
     widths_ok iq -> widths_ok kq -> wider iq iq' -> wider kq kq' -> wider_bias bq bq' ->
     einsum_dense_ebops li lk lo sh ksh osh pf iq kq bq = Some e ->
     einsum_dense_ebops li lk lo sh ksh osh pf iq' kq' bq' = Some e' -> e <= e') /\
  (forall pad cs G gi go pf iq kq bq iq' kq' bq' e e', widths_ok iq -> widths_ok kq ->
     wider iq iq' -> wider kq kq' -> wider_opt bq bq' ->
     conv_ebops pad cs G gi go pf iq kq bq = Some e -> conv_ebops pad cs G gi go pf iq' kq' bq' = Some e' -> e <= e').
Proof. exact (conj dense_ebops_mono (conj einsum_dense_mono conv_ebops_mono)). Qed.
Print Assumptions C24_monotone.

Theorem C24_zero_iff_pruned :
  forall sh units pf iq kq e bi bk, (0 < units)%nat -> widths_ok iq -> widths_ok kq ->
  bits_ iq sh = Some bi -> bits_ kq [last sh 0%nat; units] = Some bk ->
  (0 < dense_n_parallel sh)%nat -> pf <> 0%Z ->
  dense_ebops sh units pf iq kq None = Some e ->
  (e == 0 <-> forall a b, In (a, b) (dense_mults sh units) -> at_ bi a == 0 \/ at_ bk b == 0).
Proof. exact dense_ebops_zero. Qed.
Print Assumptions C24_zero_iff_pruned.

(** the other layers: merging, summing, pooling, tables, batch normalization *)
Theorem C24_elementwise_nonnegative :
  (forall sh iqs e, Forall widths_ok iqs -> excl_max_ebops sh iqs = Some e -> 0 <= e) /\
  (forall axes sh iq e, widths_ok iq -> sum_ebops axes sh iq = Some e -> 0 <= e) /\
  (forall sh q0 q1 e, widths_ok q0 -> subtract_ebops sh q0 q1 = Some e -> 0 <= e) /\
  (forall sh iqs e, Forall widths_ok iqs -> multiply_ebops sh iqs = Some e -> 0 <= e) /\
  (forall sh osp pf iq e, widths_ok iq -> pool_ebops sh osp pf iq = Some e -> 0 <= e) /\
  (forall sh iq oq e, widths_ok oq -> lut_ebops sh iq oq = Some e -> 0 <= e) /\
  (forall sh axis iq kq bq e, widths_ok iq -> widths_ok kq -> widths_ok bq -> bn_ebops sh axis iq kq bq = Some e -> 0 <= e).
Proof.
  exact (conj excl_max_nonneg (conj sum_ebops_nonneg (conj subtract_nonneg (conj multiply_nonneg (conj pool_nonneg (conj lut_nonneg bn_nonneg)))))).
Qed.
Print Assumptions C24_elementwise_nonnegative.

Theorem C24_elementwise_monotone :
  (forall sh iqs iqs' e e', wider_list iqs iqs' -> excl_max_ebops sh iqs = Some e -> excl_max_ebops sh iqs' = Some e' -> e <= e') /\
  (forall axes sh iq iq' e e', wider iq iq' -> sum_ebops axes sh iq = Some e -> sum_ebops axes sh iq' = Some e' -> e <= e') /\
  (forall sh q0 q1 q0' q1' e e', wider q0 q0' -> wider q1 q1' ->
     subtract_ebops sh q0 q1 = Some e -> subtract_ebops sh q0' q1' = Some e' -> e <= e') /\
  (forall sh iqs iqs' e e', Forall widths_ok iqs -> wider_list iqs iqs' ->
     multiply_ebops sh iqs = Some e -> multiply_ebops sh iqs' = Some e' -> e <= e') /\
  (forall sh osp pf iq iq' e e', wider iq iq' -> pool_ebops sh osp pf iq = Some e -> pool_ebops sh osp pf iq' = Some e' -> e <= e') /\
  (forall sh iq oq iq' oq' e e', widths_ok oq -> wider iq iq' -> wider oq oq' ->
     lut_ebops sh iq oq = Some e -> lut_ebops sh iq' oq' = Some e' -> e <= e') /\
  (forall sh axis iq kq bq iq' kq' bq' e e', widths_ok iq -> widths_ok kq -> wider iq iq' -> wider kq kq' -> wider bq bq' ->
     bn_ebops sh axis iq kq bq = Some e -> bn_ebops sh axis iq' kq' bq' = Some e' -> e <= e').
Proof.
  exact (conj excl_max_mono (conj sum_ebops_mono (conj subtract_mono (conj multiply_mono (conj pool_mono (conj lut_mono bn_mono)))))).
Qed.
Print Assumptions C24_elementwise_monotone.

(** ** Non-vacuity and refutations *)
Definition ex_q (om : omode) (k : bool) (b : Z) (rank : nat) : qbits :=
  mk_qbits om (mk_tensor (repeat 1%nat rank) (fun _ => k)) (mk_tensor (repeat 1%nat rank) (fun _ => b)).
Example ex_dense : exists e, dense_ebops [1; 4; 3]%nat 2 (-1) (ex_q WRAP true 5 3) (ex_q SAT true 3 2) (Some (ex_q SAT false 2 1)) = Some e /\ e == 496.
Proof. eexists. split; [vm_compute; reflexivity|]. reflexivity. Qed.
Example ex_dense_spec : cost (fun _ => 5) (fun _ => 4) (dense_mults [1; 4; 3]%nat 2) == 480.
Proof. vm_compute. reflexivity. Qed.
Example ex_widths : widths_ok (ex_q WRAP true 5 3) /\ wider (ex_q WRAP true 5 3) (ex_q WRAP true 6 3).
Proof. split; [intros g; cbn; lia|]. split; [reflexivity|]. split; [reflexivity|]. split; [reflexivity|]. intros g. cbn. split; [auto|lia]. Qed.
(** 'abc,cd->abd' *)
Example ex_einsum : exists e, einsum_dense_ebops [0; 1; 2]%nat [2; 3]%nat [0; 1; 3]%nat [1; 4; 3]%nat [3; 2]%nat [1; 4; 2]%nat 2
     (ex_q WRAP true 5 3) (ex_q SAT true 3 2) (Some ([2]%nat, ex_q SAT false 2 1)) = Some e /\ e == 248.
Proof. eexists. split; [vm_compute; reflexivity|]. reflexivity. Qed.
(** one spatial axis of size 5, kernel 3, stride 2, SAME padding: 3 outputs; 7 of the 9 taps hit the input *)
Example ex_conv : exists e, conv_ebops SAME [mk_cdim 5 3 2 1] 1 2 2 (-1) (ex_q WRAP true 5 3) (ex_q SAT true 3 3) None = Some e /\ e == 560.
Proof. eexists. split; [vm_compute; reflexivity|]. reflexivity. Qed.

(** QConv counts one bias addition per INPUT position instead of one per output: with a 'valid'
    convolution the bias part is too large (conv.py 97-100 uses the input shape) *)
Theorem C24_conv_bias_count_refuted :
  ~ (forall pad cs G gi go pf iq kq bq e bi bk bb l, conv_mults_spec pad cs G gi go l ->
       bits_ iq (1%nat :: map c_in cs ++ [G * gi]%nat) = Some bi -> bits_ kq (map c_k cs ++ [gi; G * go]%nat) = Some bk ->
       bits_ bq [G * go]%nat = Some bb ->
       conv_ebops pad cs G gi go pf iq kq (Some bq) = Some e ->
       e == cost (at_ bi) (at_ bk) (map snd l) * (conv_factor pf (conv_n_parallel pad cs) / nQ (conv_n_parallel pad cs))
            + qsum (map (fun o => at_ bb [last o 0%nat]) (indices (conv_out_shape pad cs ++ [G * go]%nat)))).
Proof.
  intros H.
  specialize (H VALID [mk_cdim 4 2 1 1] 1%nat 1%nat 1%nat (-1)%Z (ex_q WRAP true 5 3) (ex_q SAT true 3 3) (ex_q SAT false 2 1) _ _ _ _ _
    (conv_list_spec _ _ _ _ _) eq_refl eq_refl eq_refl eq_refl).
  vm_compute in H. discriminate H.
Qed.
Print Assumptions C24_conv_bias_count_refuted.

(** ** C25 *)
Theorem C25_dense_factor_linear :
  forall sh units p iq kq bq full, (0 < dense_n_parallel sh)%nat -> (0 <= p)%Z ->
  dense_ebops sh units (-1) iq kq bq = Some full ->
  exists e, dense_ebops sh units p iq kq bq = Some e /\ e == inject_Z p / nQ (dense_n_parallel sh) * full.
Proof. exact dense_linear. Qed.
Print Assumptions C25_dense_factor_linear.

(** n is the number of leading positions, and with the same widths everywhere p instances cost p
    times one application *)
Theorem C25_dense_reuse_cost :
  forall sh units p iq kq e bi bk l0, (0 < units)%nat -> (0 < dense_n_parallel sh)%nat -> (0 <= p)%Z ->
  hd 0%nat sh = 1%nat -> (2 <= length sh)%nat ->
  bits_ iq sh = Some bi -> bits_ kq [last sh 0%nat; units] = Some bk ->
  valid_index (removelast sh) l0 ->
  (forall l i, valid_index (removelast sh) l -> (i < last sh 0%nat)%nat -> at_ bi (l ++ [i]) == at_ bi (l0 ++ [i])) ->
  dense_ebops sh units p iq kq None = Some e ->
  e == inject_Z p * cost (at_ bi) (at_ bk) (flat_map (fun j => map (fun i => (l0 ++ [i], [i; j])) (seq 0 (last sh 0%nat))) (seq 0 units)).
Proof. exact dense_reuse. Qed.
Print Assumptions C25_dense_reuse_cost.

Theorem C25_einsum_factor_linear :
  forall li lk lo sh ksh osh p iq kq bq full, (0 < einsum_n_parallel li lk lo sh)%nat -> (0 <= p)%Z ->
  einsum_dense_ebops li lk lo sh ksh osh (-1) iq kq bq = Some full ->
  exists e, einsum_dense_ebops li lk lo sh ksh osh p iq kq bq = Some e /\ e == inject_Z p / nQ (einsum_n_parallel li lk lo sh) * full.
Proof. exact einsum_linear. Qed.
Print Assumptions C25_einsum_factor_linear.

Theorem C25_conv_factor_linear :
  forall pad cs G gi go p iq kq full, (0 < conv_n_parallel pad cs)%nat -> (0 < p)%Z ->
  conv_ebops pad cs G gi go (-1) iq kq None = Some full ->
  exists e, conv_ebops pad cs G gi go p iq kq None = Some e /\ e == inject_Z p / nQ (conv_n_parallel pad cs) * full.
Proof. exact conv_linear_nobias. Qed.
Print Assumptions C25_conv_factor_linear.

(** with a bias the convolution's figure is not p/n of the unrolled one (conv.py 95-100: the bias
    part is not scaled) *)
Theorem C25_conv_bias_refuted :
  ~ (forall pad cs G gi go p iq kq bq full e, (0 < conv_n_parallel pad cs)%nat -> (0 < p)%Z ->
       conv_ebops pad cs G gi go (-1) iq kq (Some bq) = Some full -> conv_ebops pad cs G gi go p iq kq (Some bq) = Some e ->
       e == inject_Z p / nQ (conv_n_parallel pad cs) * full).
Proof.
  intros H.
  specialize (H VALID [mk_cdim 4 2 1 1] 1%nat 1%nat 1%nat 1%Z (ex_q WRAP true 5 3) (ex_q SAT true 3 3) (ex_q SAT false 2 1) _ _
    ltac:(vm_compute; lia) ltac:(lia) eq_refl eq_refl).
  vm_compute in H. discriminate H.
Qed.
Print Assumptions C25_conv_bias_refuted.

Example ex_C25 : dense_n_parallel [1; 4; 3]%nat = 4%nat /\ einsum_n_parallel [0; 1; 2]%nat [2; 3]%nat [0; 1; 3]%nat [1; 4; 3]%nat = 4%nat
  /\ conv_n_parallel VALID [mk_cdim 4 2 1 1] = 3%nat.
Proof. split; [reflexivity|]. split; reflexivity. Qed.

(** ** The axis along which an einsum layer is reused, and what one application costs *)
Theorem C25_einsum_reuse_cost :
  forall li lk lo sh ksh osh p iq kq e bi bk,
  NoDup li -> length li = length sh -> (0 < einsum_n_parallel li lk lo sh)%nat -> (0 <= p)%Z ->
  bits_ iq sh = Some bi -> bits_ kq ksh = Some bk ->
  (forall i i', length i = length li -> length i' = length li ->
     (forall d l, nth_error li d = Some l -> free_label li lk lo l = false -> nth d i 0%nat = nth d i' 0%nat) -> at_ bi i == at_ bi i') ->
  einsum_dense_ebops li lk lo sh ksh osh p iq kq None = Some e ->
  e == inject_Z p * cost (at_ bi) (at_ bk) (one_application li lk lo (einsum_dims li sh lk ksh)).
Proof. exact einsum_reuse. Qed.
Print Assumptions C25_einsum_reuse_cost.
(** 'abc,cd->abd' of shape (1,4,3)x(3,2), p = 2: twice the 6 multiplications of width 5*4 *)
Example ex_einsum_reuse : exists e, einsum_dense_ebops [0; 1; 2]%nat [2; 3]%nat [0; 1; 3]%nat [1; 4; 3]%nat [3; 2]%nat [1; 4; 2]%nat 2
     (ex_q WRAP true 5 3) (ex_q SAT true 3 2) None = Some e /\ e == 240 /\
     length (one_application [0; 1; 2]%nat [2; 3]%nat [0; 1; 3]%nat (einsum_dims [0; 1; 2]%nat [1; 4; 3]%nat [2; 3]%nat [3; 2]%nat)) = 6%nat.
Proof. eexists. split; [vm_compute; reflexivity|]. split; reflexivity. Qed.

(** ** Exact figures of the layers without a kernel: per output element, the sum of the operand
    widths without the smallest one (QAdd, QAveragePow2, QSum: times 0.65; QMaximum, QMinimum: times 1),
    the largest width (QSubtract), the product (QMultiply), one multiplication and one bias addition
    (QBatchNormalization) *)
Theorem C24_merge_figures :
  (forall sh iqs e (m : index -> Q), add_ebops sh iqs = Some e -> exists bs, all_bits iqs sh = Some bs /\
     ((forall i, In i (indices sh) -> is_min (m i) (map (fun b => at_ b i) bs)) ->
      e == (65 # 100) * qsum (map (fun i => qsum (map (fun b => at_ b i) bs) - m i) (indices sh)))) /\
  (forall sh iqs e (m : index -> Q), maximum_ebops sh iqs = Some e -> exists bs, all_bits iqs sh = Some bs /\
     ((forall i, In i (indices sh) -> is_min (m i) (map (fun b => at_ b i) bs)) ->
      e == qsum (map (fun i => qsum (map (fun b => at_ b i) bs) - m i) (indices sh)))) /\
  (forall sh q0 q1 e, subtract_ebops sh q0 q1 = Some e ->
     exists b0 b1, bits_ q0 sh = Some b0 /\ bits_ q1 sh = Some b1 /\
     forall m : index -> Q, (forall i, at_ b0 i <= m i /\ at_ b1 i <= m i /\ (m i == at_ b0 i \/ m i == at_ b1 i)) -> e == qsum (map m (indices sh))) /\
  (forall sh q0 q1 e, multiply_ebops sh [q0; q1] = Some e ->
     exists b0 b1, bits_ q0 sh = Some b0 /\ bits_ q1 sh = Some b1 /\ e == qsum (map (fun i => at_ b0 i * at_ b1 i) (indices sh))).
Proof. exact (conj add_figure (conj maximum_figure (conj subtract_figure multiply_figure))). Qed.
Print Assumptions C24_merge_figures.

Theorem C24_sum_figure :
  forall axes sh iq e (m : index -> Q), sum_ebops axes sh iq = Some e ->
  exists b, bits_ iq sh = Some b /\
  ((forall g, In g (indices (keep_shape_from 0 axes sh)) -> is_min (m g) (map (at_ b) (group_of axes sh g))) ->
   e == (65 # 100) * qsum (map (fun g => qsum (map (at_ b) (group_of axes sh g)) - m g) (indices (keep_shape_from 0 axes sh)))).
Proof. exact sum_figure. Qed.
Print Assumptions C24_sum_figure.

Theorem C24_batchnorm_figure :
  forall sh axis iq kq bq e, (axis < length sh)%nat -> (0 < nth axis sh 0)%nat -> bn_ebops sh axis iq kq bq = Some e ->
  exists bi bk bb, bits_ iq sh = Some bi /\ bits_ kq [nth axis sh 0%nat] = Some bk /\ bits_ bq [nth axis sh 0%nat] = Some bb /\
  e == qsum (map (fun i => at_ bi i * at_ bk [nth axis i 0%nat] + at_ bb [nth axis i 0%nat]) (indices sh)).
Proof. exact bn_figure. Qed.
Print Assumptions C24_batchnorm_figure.
Example ex_figures : (exists e, add_ebops [1; 2]%nat [ex_q WRAP true 5 2; ex_q WRAP true 3 2] = Some e /\ e == (65 # 100) * 10) /\
  (exists e, sum_ebops [1]%nat [1; 3]%nat (ex_q WRAP true 5 2) = Some e /\ e == (65 # 100) * 10) /\
  (exists e, bn_ebops [1; 2]%nat 1 (ex_q WRAP true 5 2) (ex_q SAT true 3 1) (ex_q SAT false 2 1) = Some e /\ e == 44).
Proof. split; [eexists; split; [vm_compute; reflexivity|reflexivity]|]. split; (eexists; split; [vm_compute; reflexivity|reflexivity]). Qed.

(** the geometry used in the specification of the convolution: an output position is valid when its
    whole window fits (VALID), or when its stride position lies in the input (SAME), where the missing
    elements are split evenly with the odd one to the right *)
Theorem C24_conv_geometry :
  forall c o, (0 < c_stride c)%nat -> (0 < c_k c)%nat -> (0 < c_in c)%nat ->
  (o < c_out VALID c <-> o * c_stride c + (c_k c - 1) * c_dil c < c_in c)%nat /\
  (o < c_out SAME c <-> o * c_stride c < c_in c)%nat /\
  c_left VALID c = 0%nat /\
  (let total := (c_out SAME c - 1) * c_stride c + (c_k c - 1) * c_dil c + 1 - c_in c in
   2 * c_left SAME c <= total <= 2 * c_left SAME c + 1)%nat.
Proof.
  intros c o Hs Hk Hi.
  exact (conj (c_out_valid c o Hs Hk) (conj (c_out_same c o Hs) (conj eq_refl (c_left_same c Hs Hi)))).
Qed.
Print Assumptions C24_conv_geometry.
