(** C59: after calibration of a whole network, inference on the calibration data is exact at every quantizer. *)
From Coq Require Import String.
From Verif Require Import Num M_Fixed L_Fixed M_State S_State M_Wrapper M_Mapper S_Mapper L_Mapper M_Contr M_Ebops M_Pow2 M_Patch M_Ops M_Mirror S_Mirror M_Trace S_Trace M_Net S_Net M_Causal M_Calib S_Ops S_Calib L_Calib L_Calib2 L_Calib3.
Local Open Scope list_scope.

(** trace_minmax on any batches, on a network with any branches and shared layers: inference on each of the batches with the calibrated
    quantizers succeeds, gives every value computed while tracing it (later batches changed the widths), and leaves the quantizers as they are *)
Theorem C59_calibrated :
  forall net reset tab batches st rec, Forall (fun n => by_value (y_op (d_layer n))) net ->
    trace_minmax net reset tab batches = Some (st, rec) ->
    (forall id, calibratable (tab id) (inputs_of id (n_log st))) ->
    Forall2 (fun b vs => exists st' vs', forward Infer net (mk_nstate (n_tab st) []) b = Some (st', vs') /\
      (forall id, n_tab st' id = n_tab st id) /\ Forall2 same_tensor vs vs') batches rec.
Proof. exact network_calibrated. Qed.
Print Assumptions C59_calibrated.
(** and in that inference every call of a KIF WRAP quantizer, however deep in the network, only rounds: no overflow *)
Theorem C59_no_overflow :
  forall net reset tab batches st rec, Forall (fun n => by_value (y_op (d_layer n))) net ->
    trace_minmax net reset tab batches = Some (st, rec) ->
    (forall id, calibratable (tab id) (inputs_of id (n_log st))) ->
    forall b st' vs, In b batches -> forward Infer net (mk_nstate (n_tab st) []) b = Some (st', vs) ->
    forall e s, In e (n_log st') -> kif_wrap (tab (e_q e)) s -> only_rounded (tab (e_q e)) s (e_in e) (e_out e).
Proof. exact no_overflow. Qed.
Print Assumptions C59_no_overflow.
(** a quantizer used for a weight only receives that weight in every call, which is what [kbi_constant] asks for *)
Theorem C59_weight_inputs :
  forall id w net reset tab batches st rec,
    (forall n, In n net -> ~ In id (data_ids (d_layer n)) /\ forall w', In (Some id, w') (y_ws (d_layer n)) -> w' = w) ->
    trace_minmax net reset tab batches = Some (st, rec) -> forall x, In x (inputs_of id (n_log st)) -> x = w.
Proof. exact weight_inputs. Qed.
Print Assumptions C59_weight_inputs.
(** the layers of C53 (dense, einsum, convolution, batch normalization, sums, merges, pooling, reshape, ...) depend on values only *)
Theorem C59_operations :
  forall t a, (forall p q, p == q -> act_fn a p == act_fn a q) -> by_value (net_op t a).
Proof. exact net_op_by_value. Qed.
Print Assumptions C59_operations.
(** inference of such a layer is the call of C53's layer with the quantizers' present widths *)
Theorem C59_inference_layer :
  forall tab iq ws t a oq st x st' y, (forall i, n_tab st i = tab i) ->
    layer_call Infer (mk_clayer iq ws (net_op t a) oq) st x = Some (st', y) ->
    (forall i, n_tab st' i = tab i) /\
    exists l, frozen_layer tab iq ws t a oq = Some l /\ keras_layer l [varg_of x] [] = Some [("final"%string, [y])].
Proof. exact infer_layer. Qed.
Print Assumptions C59_inference_layer.
(** end to end: calibrate, then trace the network to hardware: on every sample of every calibration batch the hardware gives exactly
    the outputs recorded during calibration *)
Theorem C59_hardware :
  forall net reset tab batches st rec, Forall (fun n => forall p q, p == q -> act_fn (x_a n) p == act_fn (x_a n) q) net ->
    trace_minmax (map node_of net) reset tab batches = Some (st, rec) ->
    (forall id, calibratable (tab id) (inputs_of id (n_log st))) ->
    (forall n l, In n net -> frozen (n_tab st) n = Some l -> traceable_layer l) ->
    forall ins vs outs ys k, In (ins, vs) (combine batches rec) -> (forall x, In x ins -> batch_in k x) ->
    map (value vs) outs = map Some ys ->
    exists ls, frozen_nodes (n_tab st) net = Some ls /\
      forall b, (b < k)%nat -> exists d zs, trace_net 1 (model_of (List.length ins) ls outs) (map (sample b) ins) = Some d /\
        assoc "final"%string d = Some zs /\ Forall2 (fun y z => same_tensor (sample b y) z) ys zs.
Proof. exact calibrated_hardware. Qed.
Print Assumptions C59_hardware.

(** ** a concrete network: x -> dense (shared) -> d; the same dense(d) -> e; add([x, e]) -> y, on two batches *)
Definition ex_kif (f : Q) : quant := mk_quant (mk_wrapper None None None) (mk_qconf RND WRAP true false None None) [0%nat]
  (inl (mk_kift (mk_tensor [1;2]%nat (fun _ => true)) (mk_tensor [1;2]%nat (fun _ => -(10))) (mk_tensor [1;2]%nat (fun g => match g with [_; 0]%nat => f | _ => f - 1 end)))).
Definition ex_wq (sh : list nat) : quant := mk_quant (mk_wrapper None None None) (mk_qconf RND WRAP true true None None) []
  (inr (mk_kbit (mk_tensor sh (fun _ => true)) (mk_tensor sh (fun _ => 4)) (mk_tensor sh (fun _ => 1)))).
Definition ex_k : tensor Q := mk_tensor [2;2]%nat (fun g => match g with [0; 0]%nat => 17#16 | [0; _]%nat => -(1#3) | [_; 0]%nat => -2 | _ => 3#2 end).
Definition ex_b : tensor Q := mk_tensor [2]%nat (fun g => match g with [0]%nat => 1#4 | _ => 1 end).
Definition ex_dense : inp nat -> tnode := mk_tnode (IqOne 0%nat) [(Some 1%nat, ex_k); (Some 2%nat, ex_b)] TDense ARelu None.
Definition ex_add : inp nat -> tnode := mk_tnode (IqMany [3;4]%nat) [] (TOther (CMerge MAdd)) ALinear (Some 5%nat).
Definition ex_net : list tnode := [ex_dense (One 0%nat); ex_dense (One 1%nat); ex_add (Many [0;2]%nat)].
Definition ex_tab (id : nat) : quant :=
  match id with 0%nat => ex_kif 3 | 1%nat => ex_wq [2;2]%nat | 2%nat => ex_wq [2]%nat | 3%nat => ex_kif 1 | 4%nat => ex_kif 2 | _ => ex_kif 2 end.
Definition ex_batches : list (list (tensor Q)) :=
  [[mk_tensor [2;2]%nat (fun g => match g with [0; 0]%nat => 7#16 | [0; _]%nat => 9#2 | [_; 0]%nat => -5 | _ => -(5#2) end)];
   [mk_tensor [1;2]%nat (fun g => match g with [_; 0]%nat => 23#3 | _ => -(41) end)]].
Notation ex_run := (trace_minmax (map node_of ex_net) true ex_tab ex_batches).
(** every data quantizer saw two axes, the last of length 2 *)
Definition ex_shapes_ok (st : nstate) : bool :=
  forallb (fun e => match e_q e with 1%nat | 2%nat => true | _ => match shape (e_in e) with [_; 2]%nat => true | _ => false end end) (n_log st).
Example C59_shapes : match ex_run with Some (st, rec) => (ex_shapes_ok st, List.length rec) | None => (false, 0%nat) end = (true, 2%nat).
Proof. vm_compute. reflexivity. Qed.
Lemma ex_kif_ok f xs : (forall x, In x xs -> exists n, shape x = [n; 2]%nat) -> calibratable (ex_kif f) xs.
Proof.
  intros S. right. left. eexists. split; [reflexivity|]. right. exists None, (Some [0%Z]), [None; Some 2%nat], [1%nat], [1;2]%nat. split; [split; reflexivity|]. split; [repeat split|].
  intros x Hx. destruct (S x Hx) as (n & ->). split; [repeat constructor|]. intros g i _ _ hi [=].
Qed.
Lemma ex_ops : Forall (fun n => by_value (y_op (d_layer n))) (map node_of ex_net).
Proof.
  apply Forall_forall. intros c Hc. apply in_map_iff in Hc as (n & <- & Hn). unfold node_of. cbn [d_layer y_op]. apply C59_operations. intros p q Hpq.
    destruct Hn as [<-|[<-|[<-|[]]]]; cbn [ex_dense ex_add x_a act_fn]; [| |exact Hpq]; now rewrite Hpq.
Qed.
Lemma ex_weight st rec id w : ex_run = Some (st, rec) -> (id = 1%nat /\ w = ex_k) \/ (id = 2%nat /\ w = ex_b) -> forall x, In x (inputs_of id (n_log st)) -> x = w.
Proof.
  intros E C. apply (C59_weight_inputs id w (map node_of ex_net) true ex_tab ex_batches st rec); [|exact E]. clear -C. intros n Hn.
  assert (A : (exists a, n = node_of (ex_dense a)) \/ n = node_of (ex_add (Many [0;2]%nat))) by (destruct Hn as [<-|[<-|[<-|[]]]]; [left; eexists; reflexivity|left; eexists; reflexivity|right; reflexivity]). clear Hn.
  destruct A as [(a & ->)| ->]; (split; [intros I; cbn [data_ids node_of ex_dense ex_add d_layer y_iq y_oq x_iq x_oq app In] in I; lia|]).
  - intros w' H. cbn [node_of ex_dense d_layer y_ws x_ws In] in H. destruct H as [H|[H|[]]]; injection H as <- <-; destruct C as [(C & ->)|(C & ->)]; solve [reflexivity|discriminate C].
  - intros w' [].
Qed.
Lemma ex_data st id : ex_shapes_ok st = true -> id <> 1%nat -> id <> 2%nat -> forall x, In x (inputs_of id (n_log st)) -> exists n, shape x = [n; 2]%nat.
Proof.
  intros Sh N1 N2 x Hx. unfold inputs_of in Hx. apply in_map_iff in Hx as (e & <- & He). apply filter_In in He as (He & Eq). apply Nat.eqb_eq in Eq. unfold ex_shapes_ok in Sh. rewrite forallb_forall in Sh. specialize (Sh e He). cbn beta in Sh. rewrite Eq in Sh.
  assert (S' : match shape (e_in e) with [_; 2]%nat => true | _ => false end = true) by (destruct id as [|[|[|id]]]; [exact Sh|destruct N1; reflexivity|destruct N2; reflexivity|exact Sh]).
  destruct (shape (e_in e)) as [|n [|[|[|[|m]]] [|? ?]]]; try discriminate S'. exists n. reflexivity.
Qed.
Lemma ex_calibratable st rec : ex_run = Some (st, rec) -> ex_shapes_ok st = true -> forall id, calibratable (ex_tab id) (inputs_of id (n_log st)).
Proof.
  intros E Sh id. pose proof (fun N1 N2 => ex_data st id Sh N1 N2) as D. pose proof (fun w => ex_weight st rec id w E) as W. clear E Sh. destruct id as [|[|[|[|[|id]]]]]; cbn [ex_tab].
  - apply ex_kif_ok. apply D; discriminate.
  - right. right. eexists _, ex_k. split; [reflexivity|]. split; [apply W; left; auto|]. left. split; reflexivity.
  - right. right. eexists _, ex_b. split; [reflexivity|]. split; [apply W; right; auto|]. left. split; reflexivity.
  - apply ex_kif_ok. apply D; discriminate.
  - apply ex_kif_ok. apply D; discriminate.
  - apply ex_kif_ok. apply D; discriminate.
Qed.
Example C59_hypotheses : exists st rec, trace_minmax (map node_of ex_net) true ex_tab ex_batches = Some (st, rec) /\ (List.length rec = 2)%nat /\
  Forall (fun n => by_value (y_op (d_layer n))) (map node_of ex_net) /\ (forall id, calibratable (ex_tab id) (inputs_of id (n_log st))).
Proof.
  pose proof C59_shapes as Sh. destruct ex_run as [[st rec]|] eqn:E; [|discriminate Sh]. injection Sh as Sh L.
  exists st, rec. split; [reflexivity|]. split; [exact L|]. split; [exact ex_ops|exact (ex_calibratable st rec E Sh)].
Qed.
(** the output on the first batch as recorded, and the widths of the shared quantizer, set by both batches and both uses *)
Example C59_values :
  match ex_run with
  | Some (st, (_ :: _ :: _ :: y :: _) :: _) =>
      (map (fun i => Qred (at_ y i)) [[0;0];[0;1];[1;0];[1;1]]%nat, match q_s (n_tab st 0%nat) with inl s => map (fun i => Qred (at_ (t_i s) i)) [[0;0];[0;1]]%nat | inr _ => [] end)
  | _ => ([], [])
  end = ([1 # 2; 35 # 2; -19 # 4; -1], [7; 6]).
Proof. vm_compute. reflexivity. Qed.
(** the calibrated layers can be traced, so C59_hardware applies *)
Definition int8_b (z : tensor Z) : bool := forallb (fun g => (-128 <=? at_ z g)%Z && (at_ z g <=? 127)%Z) (indices (shape z)).
Definition shape_b (a b : list nat) : bool := if list_eq_dec Nat.eq_dec a b then true else false.
Definition quant_b (q : quant) : bool :=
  match w_scaler (q_w q), c_weight (q_c q), q_s q with
  | None, false, inl s => shape_b (q_hom q) [0%nat] && shape_b (shape (t_k s)) [1;2]%nat && shape_b (shape (t_i s)) [1;2]%nat && shape_b (shape (t_f s)) [1;2]%nat &&
                          int8_b (tmap round_even (t_i s)) && int8_b (tmap round_even (t_f s))
  | _, _, _ => false
  end.
Definition layer_b (l : layer) : bool :=
  match l with
  | LQ (Some (QSingle q)) (CDense _ (Some b)) ARelu None => quant_b q && (List.length (shape b) <=? 1)%nat
  | LQ (Some (QMulti qs)) (CMerge _) ALinear (Some q) => forallb quant_b qs && quant_b q
  | _ => false
  end.
Lemma shape_b_eq a b : shape_b a b = true -> a = b.
Proof. unfold shape_b. destruct (list_eq_dec Nat.eq_dec a b); [auto|discriminate]. Qed.
Lemma int8_b_ok z : int8_b z = true -> int8_widths z.
Proof. unfold int8_b. rewrite forallb_forall. intros H g V. specialize (H g (proj2 (in_indices _ _) V)). apply andb_prop in H as (A & B). split; apply Z.leb_le; assumption. Qed.
Lemma quant_b_ok q : quant_b q = true -> traceable_quant q.
Proof.
  unfold quant_b. destruct (w_scaler (q_w q)) eqn:E1; [discriminate|]. destruct (c_weight (q_c q)) eqn:E2; [discriminate|]. destruct (q_s q) as [s|] eqn:E3; [|discriminate]. intros H.
  apply andb_prop in H as (H & H6). apply andb_prop in H as (H & H5). apply andb_prop in H as (H & H4). apply andb_prop in H as (H & H3). apply andb_prop in H as (H1 & H2).
  split; [exact E1|]. split; [exact E2|]. exists None, (Some [0%Z]), [Some 2%nat], [1%nat], [1;2]%nat. rewrite (shape_b_eq _ _ H1), E3. split; [split; reflexivity|].
  split; [split; [exact (shape_b_eq _ _ H2)|split; [exact (shape_b_eq _ _ H3)|exact (shape_b_eq _ _ H4)]]|]. split; apply int8_b_ok; assumption.
Qed.
Lemma layer_b_ok l : layer_b l = true -> traceable_layer l.
Proof.
  destruct l as [c a|iq c a oq]; [discriminate|]. intros H. cbn [layer_b] in H.
  destruct iq as [[q|qs]|]; destruct c as [ |? [b|]| | | | | | | | | | |]; try discriminate H; destruct a; try discriminate H; destruct oq as [q'|]; try discriminate H; apply andb_prop in H as (H1 & H2).
  - split; [intros q0 E; injection E as <-; exact (quant_b_ok q H1)|]. split; [exists b; split; [reflexivity|apply Nat.leb_le; exact H2]|]. split; [intros ? E; discriminate E|exact I].
  - split; [intros q0 E; injection E as <-; apply Forall_forall; intros q0 Hq; apply quant_b_ok; rewrite forallb_forall in H1; exact (H1 q0 Hq)|]. split; [exact I|]. split; [intros q0 E; injection E as <-; exact (quant_b_ok q' H2)|exact I].
Qed.
Example C59_traceable :
  match ex_run with Some (st, _) => forallb (fun n => match frozen (n_tab st) n with Some l => layer_b l | None => false end) ex_net | None => false end = true.
Proof. vm_compute. reflexivity. Qed.

(** ** a KBI quantizer of activations: calibration on more than one batch *)
Definition bad_kbi : quant := mk_quant (mk_wrapper None None None) (mk_qconf RND WRAP true false None None) [0;1]%nat
  (inr (mk_kbit (mk_tensor [1;1]%nat (fun _ => true)) (mk_tensor [1;1]%nat (fun _ => 2)) (mk_tensor [1;1]%nat (fun _ => 0)))).
Definition bad_kif : quant := mk_quant (mk_wrapper None None None) (mk_qconf RND WRAP true false None None) [0;1]%nat
  (inl (mk_kift (mk_tensor [1;1]%nat (fun _ => true)) (mk_tensor [1;1]%nat (fun _ => 0)) (mk_tensor [1;1]%nat (fun _ => 2)))).
Definition bad_tab (id : nat) : quant := match id with 0%nat => bad_kbi | _ => bad_kif end.
Definition bad_net : list cnode := [node_of (mk_tnode (IqOne 0%nat) [(None, mk_tensor [2;1]%nat (fun g => match g with [0; _]%nat => 1 | _ => -(1) end))] TDense ALinear (Some 1%nat) (One 0%nat))].
Definition bad_1 : tensor Q := mk_tensor [1;2]%nat (fun g => match g with [_; 0]%nat => 3#4 | _ => 1#4 end).
Definition bad_2 : tensor Q := mk_tensor [1;2]%nat (fun _ => 3).
(** the calibrated network does not reproduce its first calibration batch: the second batch widens the integer part of the KBI quantizer, so
    its fraction part shrinks, other values reach the output quantizer, which overflows: 1 becomes 0 where 1/2 was recorded *)
Theorem C59_kbi_data_refuted :
  exists st v1 v2 y st' vs y' x, trace_minmax bad_net true bad_tab [[bad_1]; [bad_2]] = Some (st, [v1; v2]) /\ value v1 1 = Some y /\
    forward Infer bad_net (mk_nstate (n_tab st) []) [bad_1] = Some (st', vs) /\ value vs 1 = Some y' /\
    at_ y [0;0]%nat == 1#2 /\ at_ y' [0;0]%nat == 0 /\ In (mk_event 1 x y') (n_log st') /\ at_ x [0;0]%nat == 1.
Proof.
  assert (H : match trace_minmax bad_net true bad_tab [[bad_1]; [bad_2]] with
    | Some (st, [v1; v2]) => match value v1 1, forward Infer bad_net (mk_nstate (n_tab st) []) [bad_1] with
        | Some y, Some (st', vs) => match value vs 1, n_log st' with
            | Some y', [_; e] => if ((e_q e =? 1)%nat && Qeq_bool (at_ y [0;0]%nat) (1#2) && Qeq_bool (at_ y' [0;0]%nat) 0 && Qeq_bool (at_ (e_in e) [0;0]%nat) 1)%bool then true else false
            | _, _ => false end
        | _, _ => false end
    | _ => false end = true) by (vm_compute; reflexivity).
  destruct (trace_minmax bad_net true bad_tab [[bad_1]; [bad_2]]) as [[st [|v1 [|v2 [|? ?]]]]|]; try discriminate H.
  destruct (value v1 1) as [y|] eqn:E1; [|discriminate H]. destruct (forward Infer bad_net (mk_nstate (n_tab st) []) [bad_1]) as [[st' vs]|] eqn:E2; [|discriminate H].
  destruct (value vs 1) as [y'|] eqn:E3; [|discriminate H]. destruct (n_log st') as [|e0 [|e [|? ?]]] eqn:E4; try discriminate H.
  assert (L : y' = e_out e).
  { clear H. unfold forward, bad_net in E2. cbn [run_nodes node_of d_args d_layer x_args args_of value nth_error bind] in E2. unfold layer_call in E2. cbn [y_iq x_iq y_ws x_ws y_op y_oq x_oq call_iq x_t x_a] in E2.
    destruct (call_q Infer (mk_nstate (n_tab st) []) 0 bad_1) as [[s1 z1]|]; [|discriminate E2]. cbn [bind call_ws] in E2. destruct (net_op TDense ALinear _ (One z1)) as [z|]; [|discriminate E2]. cbn [bind] in E2.
    unfold call_q in E2. destruct (quant_step Infer (n_tab s1 1%nat) z) as [[q' w]|]; [|discriminate E2]. cbn [bind app] in E2. injection E2 as <- <-. cbn [value nth_error] in E3. injection E3 as <-. cbn [n_log] in E4.
    destruct (n_log s1) as [|a [|b [|? ?]]]; cbn [app] in E4; try discriminate E4. injection E4 as _ <-. reflexivity. }
  destruct ((e_q e =? 1)%nat) eqn:B1; [|discriminate H]. destruct (Qeq_bool (at_ y [0;0]%nat) (1#2)) eqn:B2; [|discriminate H]. destruct (Qeq_bool (at_ y' [0;0]%nat) 0) eqn:B3; [|discriminate H]. destruct (Qeq_bool (at_ (e_in e) [0;0]%nat) 1) eqn:B4; [|discriminate H].
  exists st, v1, v2, y, st', vs, y', (e_in e). split; [reflexivity|]. split; [exact E1|]. split; [exact E2|]. split; [exact E3|]. split; [apply Qeq_bool_eq; exact B2|]. split; [apply Qeq_bool_eq; exact B3|].
  split; [|apply Qeq_bool_eq; exact B4]. rewrite E4. right. left. apply Nat.eqb_eq in B1. rewrite L, <- B1. destruct e; reflexivity.
Qed.
Print Assumptions C59_kbi_data_refuted.
