(** C68: as the bit-widths grow, quantized values, layers and networks converge to the unquantized ones. *)
From Coq Require Import String.
From Verif Require Import Num M_Fixed L_Fixed M_State L_State M_Wrapper M_Mapper S_Mapper L_Mapper M_Contr M_Mirror M_Softmax M_Net L_Net M_Calib M_Prog S_Prog S_Cost S_Limit L_Limit L_Limit5.
Local Open Scope list_scope.

(** a quantizer with at least [m] integer and [m] fractional bits is wrong by at most 2^-m on numbers up to 2^m - 2 *)
Theorem C68_error q m x y j : (0 <= m)%Z -> fine m q -> quant_call q x = Some y -> valid_index (shape x) j -> Qabs (at_ x j) + 2 <= pow2 m -> Qabs (at_ y j - at_ x j) <= pow2 (- m).
Proof. exact (fine_call m q x y j). Qed.
Print Assumptions C68_error.

(** a layer, on inputs that converge *)
Theorem C68_layer call tab X x Y y : widening tab -> smooth call -> tends_to X x -> plain (call (One x)) = Some y -> (forall n, eval (tab n) (call (One (X n))) = Some (Y n)) -> tends_to Y y.
Proof. exact (layer_limit call tab X x Y y). Qed.
Print Assumptions C68_layer.

(** a network: every value of the forward pass converges to the value of the network without quantizers *)
Theorem C68_network net ins tab vs vs0 : widening tab -> Forall (fun n => smooth (pn_call n)) net -> plain_net net ins = Some vs0 -> (forall n, exists st, pforward Infer net (mk_nstate (tab n) []) ins = Some (st, vs n)) ->
  forall j y, nth_error vs0 j = Some y -> exists Y, (forall n, nth_error (vs n) j = Some (Y n)) /\ tends_to Y y.
Proof. exact (network_limit net ins tab vs vs0). Qed.
Print Assumptions C68_network.

(** the inverse of QSoftmax meets the hypothesis of [soft_layer] *)
Theorem C68_inverse eps v : 0 < eps -> 0 <= v -> continuous_at (fun v => 1 / (v + eps)) v.
Proof. exact (continuous_inv eps v). Qed.
Print Assumptions C68_inverse.

(** ** a concrete case: QDense with relu (KBI weights), then a masked QSoftmax *)
Definition li_kif (sh : list nat) (i f : Z) : quant := mk_quant (mk_wrapper None None None) (mk_qconf TRN SAT true false None None) []
  (inl (mk_kift (mk_tensor sh (fun _ => true)) (mk_tensor sh (fun _ => inject_Z i)) (mk_tensor sh (fun _ => inject_Z f)))).
Definition li_kbi (sh : list nat) (b i : Z) : quant := mk_quant (mk_wrapper None None None) (mk_qconf RND SAT_SYM true true None None) []
  (inr (mk_kbit (mk_tensor sh (fun _ => true)) (mk_tensor sh (fun _ => inject_Z b)) (mk_tensor sh (fun _ => inject_Z i)))).
Definition li_tab (n : nat) (id : nat) : quant :=
  let z := Z.of_nat n in
  match id with 0%nat => li_kif [1;1]%nat (z + 2) z | 1%nat => li_kbi [2;1]%nat (2 * z) z | 2%nat => li_kbi [1]%nat (2 * z + 1) (z + 1) | 5%nat => li_kif [1;1]%nat (z + 2) z | _ => li_kif [1;1]%nat (z + 3) (z + 1) end.
Lemma kif_fine m sh i f : (m <= i)%Z -> (m <= f)%Z -> fine m (li_kif sh i f).
Proof. intros Hi Hf. split; [reflexivity|]. split; [reflexivity|]. cbn [li_kif q_s t_k t_i t_f shape at_]. split; [reflexivity|]. split; intros g _; rewrite round_even_Z; assumption. Qed.
Lemma kbi_fine m sh b i : (m <= i)%Z -> (m <= b - i)%Z -> fine m (li_kbi sh b i).
Proof. intros Hi Hf. split; [reflexivity|]. split; [reflexivity|]. cbn [li_kbi q_s u_k u_b u_i shape at_]. split; [reflexivity|]. split; [reflexivity|]. intros g _. rewrite !round_even_Z. split; assumption. Qed.
Lemma li_widening : widening li_tab.
Proof.
  intros k. exists (Z.to_nat k). intros n Hn id. assert (H : (k <= Z.of_nat n)%Z) by lia. unfold li_tab. cbv zeta.
  destruct id as [|[|[|[|[|[|id]]]]]]; first [apply kif_fine; lia|apply kbi_fine; lia].
Qed.
Definition li_w : tensor Q := mk_tensor [2;2]%nat (fun g => match g with [0;0]%nat => 1#3 | [0;_]%nat => -(2#7) | [_;0]%nat => 5#3 | _ => 1#9 end).
Definition li_b : tensor Q := mk_tensor [2]%nat (fun g => match g with [0]%nat => -(1#3) | _ => 1#5 end).
Definition li_exp (v : Q) : Q := relu (1 - v * (1#8)).
Definition li_soft : ssoft := mk_ssoft None [1%nat] true (Some (mk_tensor [1;2]%nat (fun _ => 1))) (Some 3%nat) li_exp 4 5 (fun v => 1 / (v + (1#1000))) 6 (Some 7%nat).
Definition li_net : list pnode :=
  [mk_pnode (layer_prog (layer_of 0 1 li_w (Some (2%nat, li_b)) TDense ARelu None)) (One 0%nat); mk_pnode (ssoft_prog li_soft) (One 1%nat)].
Definition li_x : tensor Q := mk_tensor [1;2]%nat (fun g => match g with [_;0]%nat => 1#7 | _ => 2#3 end).
Lemma li_smooth : Forall (fun n => smooth (pn_call n)) li_net.
Proof.
  constructor; [|constructor; [|constructor]].
  - apply smooth_op. exists TDense, ARelu. split; [reflexivity|]. split; [exact I|exact continuous_relu].
  - apply smooth_soft. split; [|split; [|split]].
    + apply (continuous_comp relu (fun v => 1 - v * (1#8)) continuous_relu). exact (continuous_comp (fun v => 1 - v) (fun v => v * (1#8)) continuous_one_minus (continuous_scale _)).
    + intros v. cbn [li_soft so_exp]. unfold li_exp, relu. apply Q.le_max_l || apply Q.le_max_r.
    + intros v Hv. apply C68_inverse; [reflexivity|exact Hv].
    + intros m Hm. injection Hm as <-. intros i _. discriminate.
Qed.
Lemma li_runs n : exists st vs, pforward Infer li_net (mk_nstate (li_tab n) []) [li_x] = Some (st, vs).
Proof.
  assert (G : forall o : option (nstate * list (tensor Q)), match o with Some _ => true | None => false end = true -> exists st vs, o = Some (st, vs)) by (intros [[st vs]|] H; [exists st, vs; reflexivity|discriminate]).
  apply G. vm_compute. reflexivity.
Qed.
Definition li_vs (n : nat) : list (tensor Q) := match pforward Infer li_net (mk_nstate (li_tab n) []) [li_x] with Some (_, vs) => vs | None => [] end.
Example C68_case : exists vs0, plain_net li_net [li_x] = Some vs0 /\ List.length vs0 = 3%nat /\
  forall j y, nth_error vs0 j = Some y -> exists Y, (forall n, nth_error (li_vs n) j = Some (Y n)) /\ tends_to Y y.
Proof.
  assert (H : exists vs0, plain_net li_net [li_x] = Some vs0 /\ List.length vs0 = 3%nat) by (destruct (plain_net li_net [li_x]) as [v|] eqn:E; [exists v; split; [reflexivity|]; assert (G : match plain_net li_net [li_x] with Some v => List.length v | None => 0%nat end = 3%nat) by (vm_compute; reflexivity); rewrite E in G; exact G|exfalso; assert (G : match plain_net li_net [li_x] with Some _ => true | None => false end = true) by (vm_compute; reflexivity); rewrite E in G; discriminate]). destruct H as (vs0 & H & L). exists vs0. split; [exact H|]. split; [exact L|].
  apply (C68_network li_net [li_x] li_tab li_vs vs0 li_widening li_smooth H). intros n. destruct (li_runs n) as (st & vs & E). exists st. unfold li_vs. rewrite E. reflexivity.
Qed.
Definition li_out (o : option (list (tensor Q))) : list Q := match o with Some [_; _; y] => map (fun i => Qred (at_ y i)) [[0;0];[0;1]]%nat | _ => [] end.
Example C68_values : (li_out (Some (li_vs 1)), li_out (Some (li_vs 8)), map (fun v => Qfloor (v * 100000)) (li_out (plain_net li_net [li_x]))) = ([1#2; 1#4], [265#512; 245#512], [51894; 48053]%Z).
Proof. vm_compute. reflexivity. Qed.

(** ** refuted: growing only the fractional bits (a saturating quantizer with two integer bits) *)
Theorem C68_integer_bits_refuted : exists (q : nat -> quant) x Y, (forall k, exists N, forall n, (N <= n)%nat -> exists s, q_s (q n) = inl s /\ forall g, valid_index (shape (t_f s)) g -> (k <= round_even (at_ (t_f s) g))%Z) /\
  (forall n, quant_call (q n) x = Some (Y n)) /\ ~ tends_to Y x.
Proof.
  exists (fun n => mk_quant (mk_wrapper None None None) (mk_qconf RND SAT true false None None) [] (inl (mk_kift (mk_tensor [1%nat] (fun _ => true)) (mk_tensor [1%nat] (fun _ => inject_Z 2)) (mk_tensor [1%nat] (fun _ => inject_Z (Z.of_nat n)))))),
    (mk_tensor [1%nat] (fun _ => 100)), (fun n => mk_tensor [1%nat] (fun _ => base_call RND SAT false true (round_even (inject_Z 2)) (round_even (inject_Z (Z.of_nat n))) 100)).
  split; [|split].
  - intros k. exists (Z.to_nat k). intros n Hn. eexists. split; [reflexivity|]. intros g _. cbn [t_f at_]. rewrite round_even_Z. lia.
  - intros n. reflexivity.
  - intros (_ & T). specialize (T [0%nat] ltac:(repeat constructor)). cbn [at_] in T. revert T. apply (not_tends _ _ 96); [reflexivity|]. intros n. rewrite !round_even_Z. pose proof (sat_le (Z.of_nat n) 100 ltac:(lia)) as L.
    rewrite Qabs_Qminus, Qabs_pos; lra.
Qed.
Print Assumptions C68_integer_bits_refuted.

(** refuted: a step function as activation *)
Theorem C68_step_refuted : exists (tab : nat -> nat -> quant) l x Y y, widening tab /\ plain (layer_prog l (One x)) = Some y /\ (forall n, eval (tab n) (layer_prog l (One x)) = Some (Y n)) /\ ~ tends_to Y y.
Proof.
  set (step := fun v : Q => if Qlt_le_dec v (1#3) then 0 else 1).
  exists (fun n _ => li_kif [1;1]%nat (Z.of_nat n + 2) (Z.of_nat n)), (mk_clayer (IqOne 0) [] (net_op (TOther CLut) (AFn step)) None), (mk_tensor [1;1]%nat (fun _ => 1#3)),
    (fun n => mk_tensor [1;1]%nat (fun _ => step (base_call TRN SAT false true (round_even (inject_Z (Z.of_nat n + 2))) (round_even (inject_Z (Z.of_nat n))) (1#3)))), (mk_tensor [1;1]%nat (fun _ => step (1#3))).
  split; [|split; [|split]].
  - intros k. exists (Z.to_nat k). intros n Hn _. apply kif_fine; lia.
  - reflexivity.
  - intros n. reflexivity.
  - intros (_ & T). specialize (T [0;0]%nat ltac:(repeat constructor)). cbn [at_] in T. revert T. apply (not_tends _ _ 1); [reflexivity|]. intros n. rewrite !round_even_Z. unfold step at 1.
    destruct (Qlt_le_dec _ _) as [_|L]; [discriminate|]. pose proof (third_below n). lra.
Qed.
Print Assumptions C68_step_refuted.
