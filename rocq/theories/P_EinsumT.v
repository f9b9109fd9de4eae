(** C56: QEinsumDenseT is an einsum of small networks, and its hardware computes the same. *)
From Verif Require Import Num M_Fixed S_Fixed L_Fixed M_State M_Mapper S_Mapper L_Mapper M_Contr M_Ebops M_Patch L_Patch M_Ops M_Table S_Table L_Table M_EinsumT.
From Verif Require Import L_EinsumT L_EinsumT2 L_EinsumT3 L_EinsumT4 L_EinsumT5.

(** The layer can be built for every equation in which no letter repeats, the output letters occur in an operand and the kernel has no letter of
    its own to sum over, if the sizes of the axes that are summed or normalized are known *)
Theorem C56_builds :
  forall c dims ish, good_equation c -> length ish = length (t_li c) ->
    (forall a, (a < length ish)%nat -> ~ In (nth a (t_li c) 0%nat) (t_lo c) -> nth a ish None <> None) ->
    (t_bn c = true -> forall l, In l (norm_idxs c) -> In l (t_lw c) \/ In l (t_li c)) ->
    (t_bn c = true -> forall a, (a < length ish)%nat -> In (nth a (t_li c) 0%nat) (norm_idxs c) -> nth a ish None <> None) ->
    exists b, build_t c ish (map dims (t_lw c)) = Some b.
Proof. exact build_defined. Qed.
Print Assumptions C56_builds.

(** For every such equation, sizes, sub-networks (any number of hidden layers), quantizers and input: the call succeeds, the output has the sizes of the output
    letters, and each output is the activation of the sum, over the letters the output lacks, of the quantized (and normalized) networks of the
    kernel entries applied to the quantized inputs *)
Theorem C56_layer_is_table_einsum :
  forall L dims d_hl ish x, good_layer L dims d_hl ish -> (tl_bnorm L <> None -> norm_ordered (tl_conf L)) -> shape x = map dims (t_li (tl_conf L)) ->
    exists y, call_t L x = Some y /\ shape y = map dims (t_lo (tl_conf L)) /\ forall o, valid_index (shape y) o -> at_ y o == table_einsum L dims d_hl x o.
Proof. exact layer_ok. Qed.
Print Assumptions C56_layer_is_table_einsum.

(** With one linear weight per kernel entry, and no quantizers or normalization, it is the einsum of the equation *)
Theorem C56_ordinary_einsum :
  forall L dims d_hl ish x w, good_layer L dims d_hl ish -> tl_module L = [mk_edense w None (fun v => v)] -> tl_bnorm L = None ->
    (forall p v, tl_iq L p v == v) -> (forall p v, tl_toq L p v == v) -> (forall v, tl_act L v == v) -> shape x = map dims (t_li (tl_conf L)) ->
    exists y, call_t L x = Some y /\ shape y = map dims (t_lo (tl_conf L)) /\ forall o, valid_index (shape y) o ->
      at_ y o == einsum 0 Qplus Qmult dims (t_li (tl_conf L)) (t_lw (tl_conf L)) (t_lo (tl_conf L)) (at_ x) (fun k => at_ w (k ++ [0%nat])) o.
Proof.
  intros L dims d_hl ish x w G Em Eb Hi Ht Ha Hx. destruct (layer_ok L dims d_hl ish x G) as (y & Ey & Sy & Vy); [congruence|exact Hx|].
  exists y. split; [exact Ey|]. split; [exact Sy|]. intros o Vo. rewrite (Vy o Vo). exact (plain_einsum L dims d_hl x w o (gl_eq _ _ _ _ G) Em Eb Hi Ht Ha).
Qed.
Print Assumptions C56_ordinary_einsum.

(** The hardware: for every sample of a batch of any size, whatever the ranges of the variables behind the input quantizer, tracing the layer succeeds and gives the
    layer's output for that sample; if there are biases, the kernel's letters must be the last letters of the table input, in order *)
Theorem C56_traced :
  forall L dims d_hl ish act' quant vars codes xq x b y, batch_led (tl_conf L) -> good_layer L dims d_hl (None :: ish) -> bias_aligned (tl_conf L) ->
    (tl_bnorm L <> None -> norm_ordered (tl_conf L)) -> shape x = map dims (t_li (tl_conf L)) -> (b < hd 0%nat (shape x))%nat -> call_t L x = Some y ->
    traced_inputs L act' quant (1%nat :: tl (map dims (presum_idxs (tl_conf L)))) vars codes xq (one_sample b x) ->
    exists r, replay_t L act' quant (1%nat :: tl (map dims (presum_idxs (tl_conf L)))) vars xq = Some r /\ shape r = 1%nat :: tl (shape y) /\
      forall o, valid_index (tl (shape y)) o -> at_ r (0%nat :: o) == at_ y (b :: o).
Proof. exact traced_ok. Qed.
Print Assumptions C56_traced.

(** ** a concrete layer: 'bnc,nce->bne', 2 hidden ReLU units with biases, sizes b=2, n=1, c=2, e=2 *)
Definition t_conf := mk_tconf [0; 1; 2]%nat [1; 2; 3]%nat [0; 1; 3]%nat (Some [3%nat]) None false.
Definition t_dims (l : nat) : nat := nth l [2; 1; 2; 2]%nat 1%nat.
Definition t_ish := [None; Some 1%nat; Some 2%nat].
Definition t_b : tbuilt := match build_t t_conf t_ish [1; 2; 2]%nat with Some b => b | None => mk_tbuilt [] [] 0 [] [] [] 0 [] [] end.
Definition ramp (s : Q) (i : index) : Q := s * inject_Z (fold_left (fun a j => 2 * a + Z.of_nat j)%Z i 0%Z) - 1.
Definition t_mod : list edense :=
  [mk_edense (mk_tensor [1; 2; 2; 1; 2]%nat (ramp (1#4))) (Some (mk_tensor [1; 2; 2; 2]%nat (ramp (1#8)))) np_relu;
   mk_edense (mk_tensor [1; 2; 2; 2]%nat (ramp (1#2))) (Some (mk_tensor [1; 2; 2]%nat (ramp (1#16)))) (fun v => v)].
Definition t_L : tlayer := mk_tlayer t_conf t_b 4 5 t_mod None 1 (fun _ => base_call RND SAT false true 2 1) (fun _ => base_call RND SAT false true 4 2) np_relu.
Definition t_x : tensor Q := mk_tensor [2; 1; 2]%nat (ramp (1#3)).
Definition t_psh := [1; 1; 2; 2]%nat.
Definition t_vars : list lhs := repeat (format_lhs SAT true 2 1) 4.
Definition t_xq (p : nat) : Q := base_call RND SAT false true 2 1 (at_ (one_sample 1 t_x) (firstn 3 (unflat t_psh p))).
Lemma relu_proper : Proper (Qeq ==> Qeq) np_relu.
Proof. intros x y E. unfold np_relu. rewrite E. reflexivity. Qed.
Ltac nodup := repeat (constructor; [cbn; intuition discriminate|]); constructor.
Example C56_hypotheses_hold :
  batch_led t_conf /\ good_layer t_L t_dims 2 t_ish /\ bias_aligned t_conf /\ shape t_x = map t_dims (t_li t_conf) /\
  traced_inputs t_L (fun a => a) (fun _ => base_call RND SAT false true 4 2) t_psh t_vars (fun _ => Z.to_nat (code_hi 3 - code_lo SAT true 3)) t_xq (one_sample 1 t_x).
Proof.
  split; [exists 0%nat, [1%nat; 2%nat], [1%nat; 3%nat]; repeat split; cbn; intuition discriminate|].
  split.
  - split.
    + split; [nodup|]. split; [nodup|]. split; [nodup|]. split; [intros l; cbn; intuition|intros l; cbn; intuition].
    + constructor; [left; reflexivity|]. constructor; [right; reflexivity|]. constructor; [right; reflexivity|]. constructor.
    + reflexivity.
    + reflexivity.
    + cbn [module_fits t_L tl_module t_mod tl_conf]. repeat split; reflexivity.
    + exact I.
    + split; [exact relu_proper|]. split; [intros p; cbn [t_L tl_toq]; intros x y E; rewrite E; reflexivity|].
      intros l [<-|[<-|[]]]; [exact relu_proper|intros x y E; exact E].
  - split; [intros _; reflexivity|]. split; [reflexivity|]. split.
    + reflexivity.
    + intros p Hp. replace (nth p t_vars dflt_lhs) with (format_lhs SAT true 2 1) by (do 4 (destruct p as [|p]; [reflexivity|]); cbn in Hp; lia).
      split; [apply (format_var SAT true 2 1); reflexivity|]. apply (format_value RND SAT true 2 1). reflexivity.
    + intros idx V. unfold t_xq. rewrite unflat_flat by exact V. reflexivity.
    + intros idx u v V E. cbn [t_L tl_toq]. rewrite E. reflexivity.
    + intros l [<-|[<-|[]]] x y E; [apply relu_proper, E|exact E].
    + intros u v E. apply relu_proper, E.
Qed.
Definition value (t : option (tensor Q)) (i : index) : Q := match t with Some y => at_ y i | None => -(100) end.
Example C56_case :
  map (fun e => Qred (value (call_t t_L t_x) [1; 0; e]%nat)) [0; 1]%nat = map (fun e => Qred (value (replay_t t_L (fun a => a) (fun _ => base_call RND SAT false true 4 2) t_psh t_vars t_xq) [0; 0; e]%nat)) [0; 1]%nat /\
  0 < value (call_t t_L t_x) [1; 0; 1]%nat.
Proof. split; vm_compute; reflexivity. Qed.

(** ** what is not claimed fails *)
(** 'bc,ec->be' with a bias: the kernel's letters are e, c but the axes of the bias are c, e; the tracer indexes the bias with (e, c) *)
Definition r_conf := mk_tconf [0; 1]%nat [2; 1]%nat [0; 2]%nat (Some [2%nat]) None false.
Definition r_dims (l : nat) : nat := nth l [1; 2; 2]%nat 1%nat.
Definition r_b : tbuilt := match build_t r_conf [None; Some 2%nat] [2; 2]%nat with Some b => b | None => mk_tbuilt [] [] 0 [] [] [] 0 [] [] end.
Definition r_mod := [mk_edense (mk_tensor [2; 2; 1]%nat (fun _ => 0)) (Some (mk_tensor [2; 2]%nat (fun i => if index_eqb i [0; 1]%nat then 1 else 0))) (fun v => v)].
Definition r_L := mk_tlayer r_conf r_b 3 4 r_mod None 1 (fun _ v => v) (fun _ v => v) (fun v => v).
Definition r_x : tensor Q := mk_tensor [1; 2]%nat (fun _ => 0).
Theorem C56_bias_order_refuted :
  exists L dims d_hl ish act' quant vars codes xq x y r, batch_led (tl_conf L) /\ good_layer L dims d_hl (None :: ish) /\ tl_bnorm L = None /\ shape x = map dims (t_li (tl_conf L)) /\ (0 < hd 0%nat (shape x))%nat /\ traced_inputs L act' quant (1%nat :: tl (map dims (presum_idxs (tl_conf L)))) vars codes xq (one_sample 0 x) /\ call_t L x = Some y /\ replay_t L act' quant (1%nat :: tl (map dims (presum_idxs (tl_conf L)))) vars xq = Some r /\ ~ at_ r [0; 0]%nat == at_ y [0; 0]%nat.
Proof.
  exists r_L, r_dims, 1%nat, [Some 2%nat], (fun a => a), (fun _ v => v), (repeat (mk_lhs 0 0 1) 4), (fun _ => 0%nat), (fun _ => 0), r_x.
  destruct (call_t r_L r_x) as [y|] eqn:Ey; [|vm_compute in Ey; discriminate Ey]. exists y.
  destruct (replay_t r_L (fun a => a) (fun _ v => v) (1%nat :: tl (map r_dims (presum_idxs (tl_conf r_L)))) (repeat (mk_lhs 0 0 1) 4) (fun _ => 0)) as [r|] eqn:Er; [|vm_compute in Er; discriminate Er]. exists r.
  split; [exists 0%nat, [1%nat], [2%nat]; repeat split; cbn; intuition discriminate|]. split; [|split; [reflexivity|split; [reflexivity|split; [cbn; lia|split]]]].
  - split.
    + split; [nodup|]. split; [nodup|]. split; [nodup|]. split; [intros l; cbn; intuition|intros l; cbn; intuition].
    + constructor; [left; reflexivity|]. constructor; [right; reflexivity|]. constructor.
    + reflexivity.
    + reflexivity.
    + cbn [module_fits r_L tl_module r_mod tl_conf]. repeat split; reflexivity.
    + exact I.
    + split; [intros x z E; exact E|]. split; [intros p x z E; exact E|]. intros l [<-|[]]. intros x z E; exact E.
  - split.
    + reflexivity.
    + intros p Hp. replace (nth p (repeat (mk_lhs 0 0 1) 4) dflt_lhs) with (mk_lhs 0 0 1) by (do 4 (destruct p as [|p]; [reflexivity|]); cbn in Hp; lia).
      split; [split; reflexivity|]. exists 0%nat. split; [lia|reflexivity].
    + intros idx V. reflexivity.
    + intros idx u v V E. exact E.
    + intros l [<-|[]] u v E. exact E.
    + intros u v E. exact E.
  - split; [reflexivity|]. split; [reflexivity|].
    assert (A : Qred (value (call_t r_L r_x) [0; 0]%nat) = 0) by (vm_compute; reflexivity).
    assert (B : Qred (value (replay_t r_L (fun a => a) (fun _ v => v) (1%nat :: tl (map r_dims (presum_idxs (tl_conf r_L)))) (repeat (mk_lhs 0 0 1) 4) (fun _ => 0)) [0; 0]%nat) = 1) by (vm_compute; reflexivity).
    rewrite Ey in A. rewrite Er in B. cbn [value] in A, B. intros E. apply Qred_complete in E. rewrite A, B in E. discriminate E.
Qed.
Print Assumptions C56_bias_order_refuted.

(** 'bcd,cd->b' normalized over "dc": the statistics have the axes d, c, the layer reshapes them to the axes c, d *)
Definition n_conf := mk_tconf [0; 1; 2]%nat [1; 2]%nat [0%nat] None (Some [2; 1]%nat) true.
Definition n_dims (l : nat) : nat := nth l [1; 2; 2]%nat 1%nat.
Definition n_b : tbuilt := match build_t n_conf [None; Some 2%nat; Some 2%nat] [2; 2]%nat with Some b => b | None => mk_tbuilt [] [] 0 [] [] [] 0 [] [] end.
Definition n_bn := mk_tbn None None (mk_tensor [2; 2]%nat (fun _ => 0)) (mk_tensor [2; 2]%nat (fun i => if index_eqb i [0; 1]%nat then 1 else 0)).
Definition n_L := mk_tlayer n_conf n_b 3 4 [mk_edense (mk_tensor [2; 2; 1]%nat (fun _ => 1)) None (fun v => v)] (Some n_bn) 1 (fun _ v => v) (fun _ v => v) (fun v => v).
Definition n_x : tensor Q := mk_tensor [1; 2; 2]%nat (fun i => if index_eqb i [0; 0; 1]%nat then 1 else 0).
Theorem C56_norm_order_refuted :
  exists L dims d_hl ish x y, good_layer L dims d_hl ish /\ bias_aligned (tl_conf L) /\ shape x = map dims (t_li (tl_conf L)) /\ call_t L x = Some y /\ valid_index (shape y) [0%nat] /\ ~ at_ y [0%nat] == table_einsum L dims d_hl x [0%nat].
Proof.
  exists n_L, n_dims, 1%nat, [None; Some 2%nat; Some 2%nat], n_x. destruct (call_t n_L n_x) as [y|] eqn:Ey; [|vm_compute in Ey; discriminate Ey]. exists y. split; [|split; [intros E; discriminate E|split; [reflexivity|]]].
  - split.
    + split; [nodup|]. split; [nodup|]. split; [nodup|]. split; [intros l; cbn; intuition|intros l; cbn; intuition].
    + constructor; [left; reflexivity|]. constructor; [right; reflexivity|]. constructor; [right; reflexivity|]. constructor.
    + reflexivity.
    + reflexivity.
    + cbn [module_fits n_L tl_module tl_conf]. repeat split; reflexivity.
    + repeat split; reflexivity.
    + split; [intros x z E; exact E|]. split; [intros p x z E; exact E|]. intros l [<-|[]]. intros x z E; exact E.
  - split; [reflexivity|].
    assert (S : (match call_t n_L n_x with Some y => shape y | None => [] end) = [1%nat]) by (vm_compute; reflexivity).
    assert (A : Qred (value (call_t n_L n_x) [0%nat]) = 1) by (vm_compute; reflexivity).
    assert (B : Qred (table_einsum n_L n_dims 1 n_x [0%nat]) = 0) by (vm_compute; reflexivity).
    rewrite Ey in S, A. cbn [value] in A. rewrite S. split; [constructor; [lia|constructor]|]. intros E. apply Qred_complete in E. rewrite A, B in E. discriminate E.
Qed.
Print Assumptions C56_norm_order_refuted.
(** an ordinary batch-normalized layer meets the ordering condition *)
Example C56_ordered : norm_ordered (mk_tconf [0; 1; 2]%nat [1; 2; 3]%nat [0; 1; 3]%nat None None true) /\ norm_idxs (mk_tconf [0; 1; 2]%nat [1; 2; 3]%nat [0; 1; 3]%nat None None true) = [1; 3]%nat.
Proof. split; reflexivity. Qed.
