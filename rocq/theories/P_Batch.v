(** C66: what a model predicts for a sample does not depend on the batch the sample is in. *)
From Coq Require Import String.
From Verif Require Import Num M_Fixed L_Fixed M_State M_Wrapper M_Mapper S_Mapper L_Mapper M_Contr M_Ebops M_Pow2 M_Patch S_Patch M_Ops L_Ops M_Mirror S_Mirror M_Trace S_Trace M_Table M_Softmax M_Net S_Net M_NetX S_NetX S_Ops.
From Verif Require Import M_Calib S_Calib M_Prog M_Rnn S_Rnn S_Prog M_ProgAttn S_ProgAttn S_Batch L_Batch L_Batch2.
Local Open Scope list_scope.

(** ** Keras models of the layers of C63: two evaluations, one batch each; a sample occurs in both, possibly at different places among different
    neighbours in batches of different sizes *)
Theorem C66_network :
  forall fuel m n b n' b' xs xs' ys ys', well_formed fuel m -> every_op traceable_x fuel m ->
    evaluates keras_x fuel m xs ys -> evaluates keras_x fuel m xs' ys' -> (b < n)%nat -> (b' < n')%nat ->
    Forall2 (same_sample n b n' b') xs xs' -> Forall2 (same_sample n b n' b') ys ys'.
Proof. exact network_batch. Qed.
Print Assumptions C66_network.
(** ** networks of programs (C65), in inference from the same quantizers: at every node, if each layer is samplewise on its arguments in the first batch *)
Theorem C66_program_network :
  forall net tab log log' n b n' b' ins ins' fin fin' vs vs',
    pforward Infer net (mk_nstate tab log) ins = Some (fin, vs) -> pforward Infer net (mk_nstate tab log') ins' = Some (fin', vs') ->
    Forall2 (same_sample n b n' b') ins ins' ->
    (forall nd x, In nd net -> args_of vs (pn_args nd) = Some x -> samplewise tab n b n' b' (pn_call nd) x) ->
    Forall2 (same_sample n b n' b') vs vs'.
Proof. intros net tab log log' n b n' b' ins ins' fin fin' vs vs' E E' S W. exact (net_batch tab n b n' b' net ins ins' (mk_nstate tab log) (mk_nstate tab log') fin fin' vs vs' (fun _ => eq_refl) (fun _ => eq_refl) S E E' W). Qed.
Print Assumptions C66_program_network.
(** the layers that are: the plain layers, with any numeric activation, with or without bias *)
Theorem C66_layer :
  forall tab iq ws t a oq n b n' b' x, (b < n)%nat -> (b' < n')%nat -> on_numbers (act_fn a) -> sample_layer tab iq ws t oq ->
    samplewise tab n b n' b' (layer_prog (mk_clayer iq ws (net_op t a) oq)) x.
Proof. exact layer_batch. Qed.
Print Assumptions C66_layer.
Theorem C66_quantizer :
  forall q n b n' b' x x' y y', shared_quant q -> same_sample n b n' b' x x' -> quant_call q x = Some y -> quant_call q x' = Some y' -> same_sample n b n' b' y y'.
Proof. exact quant_batch. Qed.
Print Assumptions C66_quantizer.
Theorem C66_simple_rnn :
  forall tab l f T B b B' b' x, on_numbers (sr_act l) -> rnn_built tab l f -> shape x = [B; T; f] -> (b < B)%nat -> (b' < B')%nat ->
    samplewise tab B b B' b' (srnn_prog l) (One x).
Proof. intros tab l f T B b B' b' x A R E Hb Hb' [x'|x'] y y' S; [|contradiction S]. exact (srnn_batch tab l f T B b B' b' x x' y y' A R E Hb Hb' S). Qed.
Print Assumptions C66_simple_rnn.
Theorem C66_gru :
  forall tab l f T B b B' b' x, on_numbers (sg_act l) -> on_numbers (sg_ract l) -> gru_built tab l f -> shape x = [B; T; f] -> (b < B)%nat -> (b' < B')%nat ->
    samplewise tab B b B' b' (sgru_prog l) (One x).
Proof. intros tab l f T B b B' b' x A A2 R E Hb Hb' [x'|x'] y y' S; [|contradiction S]. exact (sgru_batch tab l f T B b B' b' x x' y y' A A2 R E Hb Hb' S). Qed.
Print Assumptions C66_gru.
Theorem C66_spiking :
  forall tab l T B b B' b' x, snn_built tab l -> shape x = [B; S T; sn_units l] -> (b < B)%nat -> (b' < B')%nat ->
    samplewise tab B b B' b' (ssnn_prog l) (One x).
Proof. intros tab l T B b B' b' x R E Hb Hb' [x'|x'] y y' Ss; [|contradiction Ss]. exact (ssnn_batch tab l T B b B' b' x x' y y' R E Hb Hb' Ss). Qed.
Print Assumptions C66_spiking.
Theorem C66_attention :
  forall tab a z B b B' b' x q v k, on_numbers (ha_exp a) -> on_numbers (ha_inv a) -> attn_built tab a z -> qvk x = Some (q, v, k) -> sizes_of B z q v k ->
    (b < B)%nat -> (b' < B')%nat -> samplewise tab B b B' b' (smha_prog (attn_prog a)) x.
Proof. intros tab a z B b B' b' x q v k A A2 R E Z Hb Hb' x' y y' S. exact (attn_batch tab a z B b B' b' x x' q v k y y' A A2 R E Z Hb Hb' S). Qed.
Print Assumptions C66_attention.

(** ** refuted: a quantizer with widths of its own for each place in the batch (the batch axis is not homogeneous) *)
Definition rf_q : quant := mk_quant (mk_wrapper None None None) (mk_qconf RND SAT false false None None) []
  (inl (mk_kift (mk_tensor [2;1]%nat (fun _ => true)) (mk_tensor [2;1]%nat (fun _ => 1)) (mk_tensor [2;1]%nat (fun g => match g with 0%nat :: _ => 0 | _ => 2 end)))).
Theorem C66_batch_axis_widths_refuted :
  exists q x x' y y', same_sample 2 0 2 1 x x' /\ quant_call q x = Some y /\ quant_call q x' = Some y' /\ ~ same_sample 2 0 2 1 y y'.
Proof.
  set (x := mk_tensor [2;1]%nat (fun _ : index => 1 # 4)). assert (E : exists y, quant_call rf_q x = Some y /\ at_ y [0;0]%nat == 0 /\ at_ y [1;0]%nat == 1 # 4 /\ shape y = [2;1]%nat).
  { eexists. split; [reflexivity|]. split; [vm_compute; reflexivity|]. split; [vm_compute; reflexivity|reflexivity]. }
  destruct E as (y & E & V0 & V1 & Sh). exists rf_q, x, x, y, y. split; [|split; [exact E|split; [exact E|]]].
  - split; [exists 1%nat, []; reflexivity|]. split; [exists 1%nat, []; reflexivity|]. split; [reflexivity|]. intros i _. reflexivity.
  - intros (_ & _ & _ & H). specialize (H [0]%nat). cbn [sample at_ shape] in H. rewrite Sh, V0, V1 in H. assert (V : valid_index (tl [2;1]%nat) [0]%nat) by (repeat constructor). specialize (H V). discriminate H.
Qed.
Print Assumptions C66_batch_axis_widths_refuted.
(** refuted: a QSum over the batch axis *)
Theorem C66_batch_sum_refuted :
  exists c x x' y y', same_sample 2 0 2 0 x x' /\ core_call c (One x) = Some y /\ core_call c (One x') = Some y' /\ ~ same_sample 1 0 1 0 y y'.
Proof.
  exists (CSum 2 [0%nat] true 1), (mk_tensor [2;1]%nat (fun _ : index => 1)), (mk_tensor [2;1]%nat (fun g : index => match g with 0%nat :: _ => 1 | _ => 2 end)).
  eexists. eexists. split; [|split; [reflexivity|split; [reflexivity|]]].
  - split; [exists 1%nat, []; reflexivity|]. split; [exists 1%nat, []; reflexivity|]. split; [reflexivity|]. intros i _. reflexivity.
  - intros (_ & _ & _ & H). specialize (H [0]%nat). assert (V : valid_index [1]%nat [0]%nat) by (repeat constructor). specialize (H V). vm_compute in H. discriminate H.
Qed.
Print Assumptions C66_batch_sum_refuted.

(** ** a concrete case: QSimpleRNN (sequences) then a QDense with relu, a batch of three sequences and the second of them alone *)
Definition ba_kif (sh : list nat) : quant := mk_quant (mk_wrapper None None None) (mk_qconf RND WRAP true false None None) [0%nat]
  (inl (mk_kift (mk_tensor (1%nat :: sh) (fun _ => true)) (mk_tensor (1%nat :: sh) (fun _ => 4)) (mk_tensor (1%nat :: sh) (fun g => match g with [_; 0]%nat => 3 | _ => 2 end)))).
Definition ba_wq (sh : list nat) : quant := mk_quant (mk_wrapper None None None) (mk_qconf RND WRAP true true None None) []
  (inr (mk_kbit (mk_tensor sh (fun _ => true)) (mk_tensor sh (fun _ => 4)) (mk_tensor sh (fun _ => 1)))).
Definition ba_w (sh : list nat) (s : Q) : tensor Q := mk_tensor sh (fun g => s + inject_Z (Z.of_nat (hd 0%nat g)) - (1#2) * inject_Z (Z.of_nat (last g 0%nat))).
Definition ba_rnn : srnn := mk_srnn 2 0 (Some 1%nat) 2 (3%nat, ba_w [2;2]%nat (1#3)) (4%nat, ba_w [2;2]%nat (-(1))) (Some (5%nat, ba_w [2]%nat (1#4))) relu true true.
Definition ba_dense : list (option nat * tensor Q) := [(Some 7%nat, ba_w [2;2]%nat (1#2))].
Definition ba_net : list pnode := [mk_pnode (srnn_prog ba_rnn) (One 0%nat); mk_pnode (layer_prog (mk_clayer (IqOne 6%nat) ba_dense (net_op TDense ARelu) (Some 8%nat))) (One 1%nat)].
Definition ba_tab (id : nat) : quant :=
  match id with 3%nat | 4%nat | 7%nat => ba_wq [2;2]%nat | 5%nat => ba_wq [2]%nat | 6%nat | 8%nat => ba_kif [2;2]%nat | _ => ba_kif [2]%nat end.
Definition ba_f (b t j : nat) : Q := (1#3) * inject_Z (Z.of_nat (1 + b * b + 2 * t)) - (1#4) * inject_Z (Z.of_nat j).
Definition ba_x : tensor Q := mk_tensor [3;2;2]%nat (fun g => match g with [b; t; j]%nat => ba_f b t j | _ => 0 end).
Definition ba_x1 : tensor Q := mk_tensor [1;2;2]%nat (fun g => match g with [_; t; j]%nat => ba_f 1 t j | _ => 0 end).
Lemma ba_same : same_sample 3 1 1 0 ba_x ba_x1.
Proof. split; [exists 2%nat, [2]%nat; reflexivity|]. split; [exists 2%nat, [2]%nat; reflexivity|]. split; [reflexivity|]. intros i _. destruct i as [|t [|j [|? ?]]]; reflexivity. Qed.
Lemma ba_built : rnn_built ba_tab ba_rnn 2.
Proof.
  split; [repeat split|]. split; [intros i [= <-]; repeat split|]. split; [repeat split|]. split; [reflexivity|]. split; [reflexivity|]. intros id b [= <- <-]. reflexivity.
Qed.
Lemma ba_relu : on_numbers relu.
Proof. exact L_Net5.relu_ext. Qed.
Lemma ba_layer_ok : sample_layer ba_tab (IqOne 6%nat) ba_dense TDense (Some 8%nat).
Proof.
  split; [split; [reflexivity|]; split; [eexists; reflexivity|]; split; eexists; reflexivity|]. split; [intros id [= <-]; split; [reflexivity|]; split; [eexists; reflexivity|]; split; eexists; reflexivity|].
  intros qs c E C. unfold ba_dense in E. cbn [ask_ws] in E. destruct qs as [|k [|k2 [|k3 qs]]]; cbn [core_of] in C; try discriminate C; apply some_inj in C; subst c; cbn [per_sample]; intros t [=]; subst.
  exfalso. cbn in E. discriminate E.
Qed.
Example C66_values :
  match pforward Infer ba_net (mk_nstate ba_tab []) [ba_x], pforward Infer ba_net (mk_nstate ba_tab []) [ba_x1] with
  | Some (_, [_; h; y]), Some (_, [_; h1; y1]) =>
      (map (fun i => Qred (at_ h (1%nat :: i))) [[0;0];[0;1];[1;0];[1;1]]%nat, map (fun i => Qred (at_ y (1%nat :: i))) [[0;0];[0;1];[1;0];[1;1]]%nat,
       map (fun i => Qred (at_ y1 (0%nat :: i))) [[0;0];[0;1];[1;0];[1;1]]%nat)
  | _, _ => ([], [], [])
  end = ([17 # 8; 3 # 2; 0; 0], [7 # 2; 3 # 2; 0; 0], [7 # 2; 3 # 2; 0; 0]).
Proof. vm_compute. reflexivity. Qed.
Notation ba_run := (pforward Infer ba_net (mk_nstate ba_tab []) [ba_x]).
Notation ba_run1 := (pforward Infer ba_net (mk_nstate ba_tab []) [ba_x1]).
Definition ba_shapes : bool :=
  match ba_run, ba_run1 with
  | Some (_, vs), Some (_, vs') => (List.length vs =? 3)%nat && (List.length vs' =? 3)%nat && nat_list_eqb (shape (nth 0 vs ba_x1)) [3;2;2]%nat
  | _, _ => false
  end%bool.
Lemma ba_shapes_ok : ba_shapes = true.
Proof. vm_compute. reflexivity. Qed.
(** every hypothesis of C66_program_network holds there *)
Example C66_hypotheses : exists fin vs fin' vs', ba_run = Some (fin, vs) /\ ba_run1 = Some (fin', vs') /\ (List.length vs = 3)%nat /\
  Forall2 (same_sample 3 1 1 0) [ba_x] [ba_x1] /\
  (forall nd x, In nd ba_net -> args_of vs (pn_args nd) = Some x -> samplewise ba_tab 3 1 1 0 (pn_call nd) x) /\ Forall2 (same_sample 3 1 1 0) vs vs'.
Proof.
  pose proof ba_shapes_ok as K. unfold ba_shapes in K. destruct ba_run as [[fin vs]|] eqn:E; [|discriminate K]. destruct ba_run1 as [[fin' vs']|] eqn:E'; [|discriminate K].
  apply andb_prop in K as (K & Sh). apply andb_prop in K as (L & L'). apply Nat.eqb_eq in L. apply L_Net3.nat_list_eqb_eq in Sh.
  assert (S0 : Forall2 (same_sample 3 1 1 0) [ba_x] [ba_x1]) by (constructor; [exact ba_same|constructor]).
  assert (W : forall nd x, In nd ba_net -> args_of vs (pn_args nd) = Some x -> samplewise ba_tab 3 1 1 0 (pn_call nd) x).
  { clear E E' L'. intros nd x [<-|[<-|[]]]; cbn [pn_args pn_call].
    - destruct vs as [|v vs]; [discriminate L|]. cbn [nth] in Sh. intros A. cbn [args_of value nth_error bind] in A. apply some_inj in A. subst x. apply (C66_simple_rnn ba_tab ba_rnn 2 2); [exact ba_relu|exact ba_built|exact Sh|lia|lia].
    - intros _. apply C66_layer; [lia|lia|exact ba_relu|exact ba_layer_ok]. }
  exists fin, vs, fin', vs'. split; [reflexivity|]. split; [reflexivity|]. split; [exact L|]. split; [exact S0|]. split; [exact W|].
  exact (C66_program_network ba_net ba_tab [] [] 3 1 1 0 [ba_x] [ba_x1] fin fin' vs vs' E E' S0 W).
Qed.
