(** C64: the resource loss only ever shrinks the model. *)
From Verif Require Import Num M_Fixed M_State M_Mapper M_Contr M_Ebops M_Cebops M_Grad S_Grad L_Grad L_Grad2 L_Grad3 L_Grad4 L_Grad5 L_Ops.

(** The gradient computation reports the EBOPs of the layer, and fails exactly when the EBOPs computation fails. *)
Theorem C64_gradient_of_the_reported_ebops : forall p l qs, factor_ok l ->
  match ebops_with l (map to_qbits qs), d_ebops p l qs with
  | Some e, Some d => dv d == e
  | None, None => True
  | _, _ => False
  end.
Proof. exact d_ebops_reports. Qed.

(** For layers that multiply the widths of different quantizers, the gradient of the loss with respect to a width is
    exactly what one more bit for the elements of that width costs. *)
Theorem C64_gradient_is_the_price_of_one_bit : forall p l qs s n g q d, product_layer l ->
  nth_error qs s = Some q -> acts q n g -> d_ebops p l qs = Some d ->
  exists e e', ebops_with l (map to_qbits qs) = Some e /\ ebops_with l (add_bits_at 1 s g (map to_qbits qs)) = Some e' /\
    dg d (s, n, g) == e' - e.
Proof. exact marginal_price. Qed.

(** For every layer kind (sums, maxima, tables, softmax and recurrent layers included) the gradient lies between what the last bit of
    the width costs and what one more would cost. *)
Theorem C64_gradient_between_bit_prices : forall p l qs s n g q d, backend_ok p -> ln2_ok p -> factor_ok l -> Forall well_set qs ->
  nth_error qs s = Some q -> acts q n g -> d_ebops p l qs = Some d ->
  exists e, ebops_with l (map to_qbits qs) = Some e /\
    (exists e', ebops_with l (add_bits_at 1 s g (map to_qbits qs)) = Some e' /\ dg d (s, n, g) <= e' - e) /\
    ((0 < at_ (qb_b (to_qbits q)) g)%Z ->
     exists e', ebops_with l (add_bits_at (-1) s g (map to_qbits qs)) = Some e' /\ e - e' <= dg d (s, n, g)).
Proof. exact price_between. Qed.

(** The resource loss gives no gradient to a width that is zero because i + f is not positive. *)
Theorem C64_no_gradient_for_a_pruned_width : forall p l qs s n g q d, factor_ok l ->
  nth_error qs s = Some q -> pruned q g -> d_ebops p l qs = Some d -> dg d (s, n, g) == 0.
Proof. exact pruned_stuck. Qed.

(** A training history of calls on data and optimizer steps on the resource loss never fails on a layer whose EBOPs
    are defined. *)
Theorem C64_training_never_fails : forall p opt factor beta l qs es e, factor_ok l ->
  ebops_with l (map to_qbits qs) = Some e -> exists s', train p opt factor beta l (mk_tstate qs []) es = Some s'.
Proof. exact train_runs. Qed.

(** It never raises a trainable width, for every optimizer that does not move against non-negative gradients. *)
Theorem C64_trainable_widths_never_grow : forall p opt factor beta l qs es s' v w w',
  backend_ok p -> descending opt -> factor_ok l -> 0 <= factor -> 0 <= beta -> Forall well_set qs ->
  train p opt factor beta l (mk_tstate qs []) es = Some s' ->
  is_trainable qs v -> value_of qs v = Some w -> value_of (ts_qs s') v = Some w' -> w' <= w.
Proof. exact widths_shrink. Qed.

(** It never raises the EBOPs, unless the data does so through the integer widths of WRAP quantizers with separate i and f. *)
Theorem C64_ebops_never_grow : forall p opt factor beta l qs es s' e,
  backend_ok p -> descending opt -> factor_ok l -> 0 <= factor -> 0 <= beta -> Forall well_set qs -> Forall (data_free qs) es ->
  train p opt factor beta l (mk_tstate qs []) es = Some s' -> ebops_with l (map to_qbits qs) = Some e ->
  exists e', ebops_with l (map to_qbits (ts_qs s')) = Some e' /\ e' <= e.
Proof. exact ebops_shrink. Qed.

(** A width with a MonoL1 regularizer reaches the lower bound of its constraint: after N steps of size lr * l1 or more it has
    arrived, and it stays there. *)
Theorem C64_mono_l1_reaches_the_lower_bound : forall p lr factor beta l qs es s' k n g q w lo N,
  backend_ok p -> factor_ok l -> 0 <= lr -> 0 <= factor -> 0 <= beta -> Forall well_set qs ->
  train p (sgd lr) factor beta l (mk_tstate qs []) es = Some s' ->
  nth_error qs k = Some q -> trainable q n = true -> lower (tq_c q n) = Some lo -> value_of qs (k, n, g) = Some w ->
  w - inject_Z lo <= nQ N * (lr * tq_l1 q n) -> (N <= n_steps es)%nat ->
  exists w', value_of (ts_qs s') (k, n, g) = Some w' /\ w' == inject_Z lo.
Proof. exact l1_reaches. Qed.

(** Plain gradient descent, with or without momentum, is such an optimizer. *)
Theorem C64_gradient_descent_qualifies : forall lr, 0 <= lr -> descending (sgd lr) /\ forall m, 0 <= m -> descending (sgd_momentum lr m).
Proof. exact sgd_qualifies. Qed.

Print Assumptions C64_gradient_of_the_reported_ebops.
Print Assumptions C64_gradient_is_the_price_of_one_bit.
Print Assumptions C64_gradient_between_bit_prices.
Print Assumptions C64_no_gradient_for_a_pruned_width.
Print Assumptions C64_training_never_fails.
Print Assumptions C64_trainable_widths_never_grow.
Print Assumptions C64_ebops_never_grow.
Print Assumptions C64_mono_l1_reaches_the_lower_bound.
Print Assumptions C64_gradient_descent_qualifies.

(** ** Concrete cases *)
Definition t1 {A} (x : A) : tensor A := mk_tensor [1%nat] (fun _ => x).
Definition bp : par := mk_par (1 # 2) (7 # 10).
(** input: KIF SAT per-tensor, i = 2, f = 5/2, both within 0..8; kernel: KBI, b = 3 within 0..8, MonoL1(1/2) *)
Definition iq0 : tq := mk_tq SAT (mk_tensor [1; 1]%nat (fun _ => true)) (KIF (mk_tensor [1; 1]%nat (fun _ => 2)) (mk_tensor [1; 1]%nat (fun _ => 5 # 2)))
                         (fun _ => Some (CMinMax 0 8)) (fun _ => 0).
Definition kq0 : tq := mk_tq SAT_SYM (mk_tensor [1; 1]%nat (fun _ => true)) (KBI (mk_tensor [1; 1]%nat (fun _ => 3)) (mk_tensor [1; 1]%nat (fun _ => 0)))
                         (fun n => match n with WB => Some (CMinMax 0 8) | _ => None end) (fun n => match n with WB => 1 # 2 | _ => 0 end).
Definition ld : layer := LDense [1; 2]%nat 2 (-1).
Example ex_well_set : Forall well_set [iq0; kq0].
Proof.
  constructor; [|constructor; [|constructor]]; (split; [|split]).
  - intros n t g Hw Ht. destruct n; cbn in Hw; try discriminate; assert (E : t = t) by reflexivity; injection Hw as <-; vm_compute; reflexivity.
  - exact I.
  - intros n. apply Qle_refl.
  - intros n t g Hw Ht. destruct n; cbn in Hw; try discriminate; injection Hw as <-; [vm_compute; reflexivity|reflexivity].
  - split; [intros g; discriminate|]. intros w. cbn [tq_c kq0 apply_c]. unfold clip. apply Q.min_glb; [apply Q.le_max_r|discriminate].
  - intros n. destruct n; discriminate.
Qed.
(** 2 inputs of 5 bits (k = 1, i = 2, f = round(5/2) = 2), 4 weights of 3 bits: 60; one bit of the kernel width costs 20,
    one of i costs 12 *)
Example ex_price : ebops_with ld (map to_qbits [iq0; kq0]) = Some 60 /\
  (exists d, d_ebops bp ld [iq0; kq0] = Some d /\ dg d (0, WI, [0; 0])%nat == 12 /\ dg d (1, WB, [0; 0])%nat == 20) /\
  acts iq0 WI [0; 0]%nat /\ acts kq0 WB [0; 0]%nat.
Proof. split; [vm_compute; reflexivity|]. split; [eexists; split; [reflexivity|]; split; vm_compute; reflexivity|]. split; vm_compute; auto. Qed.
(** a sum of two inputs of 5 and 3 bits, 2 elements: 2 * (5 + 3 - 3) * 0.65; the larger width has a gradient, the smaller none;
    with 3 and 3 bits, ties are shared and the gradient 0.65 lies between the prices 0 and 1.3 *)
Example ex_add : ln2_ok bp /\ (exists d, d_ebops bp (LAdd [1; 2]%nat) [iq0; kq0] = Some d /\ dg d (0, WI, [0; 0])%nat == 13 # 10 /\ dg d (1, WB, [0; 0])%nat == 0) /\
  (exists d, d_ebops bp (LAdd [1; 2]%nat) [kq0; kq0] = Some d /\ dg d (1, WB, [0; 0])%nat == 65 # 100).
Proof. split; [split; discriminate|]. split; (eexists; split; [reflexivity|]); [split|]; vm_compute; reflexivity. Qed.
(** three steps of lr = 1, beta = 1/100: kernel width 3 -> 2.3 -> 1.6 -> 0.9, with a data call in between *)
Definition run : list event := [EStep; EData 1 (fun _ => 4); EStep; EStep].
Example ex_run : match train bp (sgd 1) 1 (1 # 100) ld (mk_tstate [iq0; kq0] []) run with
  | Some s => match value_of (ts_qs s) (1, WB, [0; 0])%nat, value_of (ts_qs s) (0, WF, [0; 0])%nat, ebops_with ld (map to_qbits (ts_qs s)) with
              | Some b, Some f, Some e => Qred b = (9 # 10) /\ Qred f = (111 # 50) /\ Qred e = 20
              | _, _, _ => False end
  | None => False end /\ Forall (data_free [iq0; kq0]) run /\ n_steps run = 3%nat.
Proof. split; [vm_compute; auto|]. split; [|reflexivity]. repeat (apply Forall_cons; [exact I|]). apply Forall_nil. Qed.
(** the MonoL1 penalty alone (beta = 0) takes the kernel width 3 to its lower bound 0 in 6 steps of 1/2 *)
Example ex_l1 : trainable kq0 WB = true /\ lower (tq_c kq0 WB) = Some 0%Z /\ 3 - inject_Z 0 <= nQ 6 * (1 * tq_l1 kq0 WB) /\
  match train bp (sgd 1) 1 0 ld (mk_tstate [iq0; kq0] []) (repeat EStep 6) with
  | Some s => match value_of (ts_qs s) (1, WB, [0; 0])%nat with Some b => b == 0 | None => False end | None => False end.
Proof. split; [reflexivity|]. split; [reflexivity|]. split; [discriminate|]. vm_compute. reflexivity. Qed.
(** a pruned input width (i = 2, f = -3): no gradient *)
Definition iq1 : tq := mk_tq SAT (mk_tensor [1; 1]%nat (fun _ => true)) (KIF (mk_tensor [1; 1]%nat (fun _ => 2)) (mk_tensor [1; 1]%nat (fun _ => (-3))))
                         (fun _ => Some (CMinMax (-8) 8)) (fun _ => 0).
Example ex_pruned : pruned iq1 [0; 0]%nat /\ exists d, d_ebops bp ld [iq1; kq0] = Some d /\ dg d (0, WI, [0; 0])%nat == 0 /\ dg d (1, WB, [0; 0])%nat == 4.
Proof. split; [vm_compute; discriminate|]. eexists. split; [reflexivity|]. split; vm_compute; reflexivity. Qed.

(** A pruned width would cost one bit more per element if i + f were raised enough, yet its gradient is zero: at a pruned width the
    gradient is not the price of one bit. *)
Theorem C64_price_at_a_pruned_width_refuted : ~ (forall p l qs s n g q d, product_layer l -> nth_error qs s = Some q -> pruned q g ->
  d_ebops p l qs = Some d -> exists e e', ebops_with l (map to_qbits qs) = Some e /\
    ebops_with l (add_bits_at 1 s g (map to_qbits qs)) = Some e' /\ dg d (s, n, g) == e' - e).
Proof.
  intros H. destruct (H bp ld [iq1; kq0] 0%nat WI [0; 0]%nat iq1 _ I eq_refl ltac:(vm_compute; discriminate) eq_refl) as (e & e' & E1 & E2 & E3).
  assert (F1 : e = 12) by (apply some_inj; rewrite <- E1; vm_compute; reflexivity).
  assert (F2 : e' = 24) by (apply some_inj; rewrite <- E2; vm_compute; reflexivity).
  subst e e'. vm_compute in E3. discriminate E3.
Qed.

(** The width of a KBI quantizer without a non-negativity constraint can pass below zero (here -1); then the resource loss
    raises other widths. *)
Definition kq2 : tq := mk_tq SAT_SYM (mk_tensor [1; 1]%nat (fun _ => true)) (KBI (mk_tensor [1; 1]%nat (fun _ => (-1))) (mk_tensor [1; 1]%nat (fun _ => 0)))
                         (fun _ => None) (fun _ => 0).
Theorem C64_unconstrained_width_refuted : ~ (forall p opt factor beta l qs es s' v w w',
  backend_ok p -> descending opt -> factor_ok l -> 0 <= factor -> 0 <= beta ->
  (forall q n t g, In q qs -> weight q n = Some t -> trainable q n = true -> apply_c (tq_c q n) (at_ t g) == at_ t g) ->
  train p opt factor beta l (mk_tstate qs []) es = Some s' ->
  is_trainable qs v -> value_of qs v = Some w -> value_of (ts_qs s') v = Some w' -> w' <= w).
Proof.
  intros H. refine (_ (H bp (sgd 1) 1 (1 # 10) ld [iq0; kq2] [EStep] _ (0, WI, [0; 0])%nat 2 _ _ _ I _ _ _ eq_refl _ eq_refl eq_refl)).
  - intros C. vm_compute in C. apply C. reflexivity.
  - repeat split; discriminate.
  - apply sgd_descending. discriminate.
  - discriminate.
  - discriminate.
  - intros q n t g [<-|[<-|[]]] Hw Ht; destruct n; cbn in Hw; try discriminate; injection Hw as <-; vm_compute; reflexivity.
  - exists iq0. split; reflexivity.
Qed.

Print Assumptions C64_price_at_a_pruned_width_refuted.
Print Assumptions C64_unconstrained_width_refuted.
