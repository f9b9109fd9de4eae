(** C53: a traced network computes, for each sample, exactly what the model computes on the batch. *)
From Coq Require Import String.
From Verif Require Import Num M_Fixed M_State M_Wrapper M_Mapper S_Mapper M_Contr M_Ebops M_Pow2 M_Patch S_Patch M_Ops M_Mirror S_Mirror M_Trace S_Trace M_Net S_Net L_Lift L_Net L_Net5 S_Ops.
Local Open Scope string_scope. Local Open Scope list_scope.

(** any functional model of these layers, with branches, shared layers and nested models, on any batch: tracing sample [b] succeeds
    and gives exactly entry [b] of each of the model's outputs *)
Theorem C53_network :
  forall fuel m n xs ys, well_formed fuel m -> all_layers traceable_layer fuel m -> evaluates keras_layer fuel m xs ys ->
    (forall x, In x xs -> batch_in n x) ->
    forall b, (b < n)%nat -> exists d zs, trace_net fuel m (map (sample b) xs) = Some d /\ assoc "final" d = Some zs /\
      Forall2 same_tensor (map (sample b) ys) zs /\ forall y, In y ys -> batch_in n y.
Proof. exact network_traced. Qed.
Print Assumptions C53_network.
(** one layer: with the traced inputs equal to sample [b] of the layer's inputs, so is the result *)
Theorem C53_layer :
  forall n b l x d y v, (b < n)%nat -> traceable_layer l -> keras_layer l [VArr x] [] = Some d -> assoc "final" d = Some [y] -> holds n b x v ->
    exists d' z, replay_layer l [VArr v] [] = Some d' /\ assoc "final" d' = Some [z] /\ holds n b y z.
Proof.
  intros n b l x d y v Hb T K A Hx. destruct (layer_traced n b l [VArr x] [] d [y] [VArr v] [] Hb T K A) as (d' & fin & E & Ef & F).
  - constructor; [constructor; exact Hx|constructor].
  - constructor.
  - inversion F as [|? z ? zs Hz Fz]; subst. inversion Fz; subst. exists d', z. auto.
Qed.
Print Assumptions C53_layer.
(** without a bias a dense or convolutional layer cannot be traced, whatever its input *)
Definition no_bias (c : core) : Prop := match c with CDense _ None | CEinsum _ _ _ _ None | CConv _ _ _ _ _ _ None => True | _ => False end.
Theorem C53_no_bias_refuted :
  forall c iq a oq args kw, no_bias c -> replay_layer (LQ iq c a oq) args kw = None /\ replay_layer (LPlain c a) args kw = None.
Proof. exact no_bias_fails. Qed.
Print Assumptions C53_no_bias_refuted.
(** nor can a layer with an activation other than relu and linear, unless it is a lookup table *)
Theorem C53_activation_refuted :
  forall c iq f oq args kw, c <> CLut -> replay_layer (LQ iq c (AFn f) oq) args kw = None.
Proof. exact activation_fails. Qed.
Print Assumptions C53_activation_refuted.
(** keras.layers.EinsumDense: its activation is ignored *)
Theorem C53_plain_activation_refuted :
  (forall c a args kw, c <> CLut -> replay_layer (LPlain c a) args kw = replay_layer (LPlain c ALinear) args kw) /\
  exists c x d y d' z, keras_layer (LPlain c ARelu) [VArr x] [] = Some d /\ assoc "final" d = Some [y] /\ batch_in 1 x /\
    replay_layer (LPlain c ARelu) [VArr (sample 0 x)] [] = Some d' /\ assoc "final" d' = Some [z] /\ shape z = shape (sample 0 y) /\ ~ at_ (sample 0 y) [0%nat] == at_ z [0%nat].
Proof.
  split; [exact plain_activation|].
  exists (CEinsum [0;1] [1;2] [0;2] (mk_tensor [1;1] (fun _ => -(1)%Q)) (Some (mk_tensor [1] (fun _ => 0%Q))))%nat, (mk_tensor [1;1]%nat (fun _ => 1)).
  do 4 eexists. split; [reflexivity|]. split; [reflexivity|]. split; [exists 1%nat, []; reflexivity|]. split; [reflexivity|]. split; [reflexivity|]. split; [reflexivity|]. vm_compute. discriminate.
Qed.
Print Assumptions C53_plain_activation_refuted.
(** QSum over all axes without keepdims: the traced result has an axis the model's result has not *)
Theorem C53_scalar_result_refuted :
  forall n b ndim axes scale oq x v d y d' z, (b < n)%nat -> holds n b x v -> (forall a, (0 < a < ndim)%nat -> In a axes) -> ~ In 0%nat axes -> oq = None ->
    keras_layer (LQ None (CSum ndim axes false scale) ALinear oq) [VArr x] [] = Some d -> assoc "final" d = Some [y] ->
    replay_layer (LQ None (CSum ndim axes false scale) ALinear oq) [VArr v] [] = Some d' -> assoc "final" d' = Some [z] ->
    shape (sample b y) = [] /\ shape z = [1%nat].
Proof. exact scalar_result. Qed.
Print Assumptions C53_scalar_result_refuted.

(** ** a concrete network *)
Definition ex_q : quant := mk_quant (mk_wrapper None None None) (mk_qconf RND WRAP true false None None) [0%nat]
  (inl (mk_kift (mk_tensor [1;2]%nat (fun _ => true)) (mk_tensor [1;2]%nat (fun g => match g with [_; 0]%nat => 3 | _ => 5#2 end)) (mk_tensor [1;2]%nat (fun g => match g with [_; 0]%nat => 2 | _ => 0 end)))).
Definition ex_k : tensor Q := mk_tensor [2;2]%nat (fun g => match g with [0; 0]%nat => 1 | [0; _]%nat => -(1#2) | [_; 0]%nat => -2 | _ => 3#2 end).
Definition ex_b : tensor Q := mk_tensor [2]%nat (fun g => match g with [0]%nat => 1#4 | _ => 1 end).
Definition ex_dense : layer := LQ (Some (QSingle ex_q)) (CDense ex_k (Some ex_b)) ARelu None.
Definition ex_add : layer := LQ (Some (QMulti [ex_q; ex_q])) (CMerge MAdd) ALinear (Some ex_q).
Definition ex_sum : layer := LQ None (CSum 2 [1%nat] true (1#2)) ALinear None.
Definition ex_x : tensor Q := mk_tensor [2;2]%nat (fun g => match g with [0; 0]%nat => 7#16 | [0; _]%nat => 9#2 | [_; 0]%nat => -5 | _ => -(5#2) end).
(** nested: s_in -> dense -> s_out;  x -> dense -> d; add([x, d]) -> e; nested(e) -> y; sum(e) -> z *)
Definition ex_nested : @model layer := mk_model ["s_in"]
  [(0%nat, [mk_op (KLayer ex_dense) "dense" [ATensor "s_in"] [("training", AConst 0%nat)] ["s_out"] ["s_in"]]); (1%nat, [mk_op KInput "inp" [] [] ["s_in"] []])] ["s_out"].
Definition ex_net : @model layer := mk_model ["x"]
  [(3%nat, [mk_op KInput "inp" [] [] ["x"] []]); (2%nat, [mk_op (KLayer ex_dense) "dense" [ATensor "x"] [] ["d"] ["x"]]);
   (1%nat, [mk_op (KLayer ex_add) "add" [AList [ATensor "x"; ATensor "d"]] [] ["e"] ["x"; "d"]]);
   (0%nat, [mk_op (KModel ex_nested) "sub" [ATensor "e"] [] ["y"] ["e"]; mk_op (KLayer ex_sum) "sum" [ATensor "e"] [] ["z"] ["e"]])] ["y"; "z"].
Definition result (o : option (list (string * list (tensor Q)))) : tensor Q := match o with Some [(_, [y])] => y | _ => ex_x end.
Definition ex_d := result (keras_layer ex_dense [VArr ex_x] []).
Definition ex_e := result (keras_layer ex_add [VList [VArr ex_x; VArr ex_d]] []).
Definition ex_y := result (keras_layer ex_dense [VArr ex_e] [("training", VConst 0%nat)]).
Definition ex_z := result (keras_layer ex_sum [VArr ex_e] []).
Lemma runs l args kw : match keras_layer l args kw with Some _ => true | None => false end = true -> keras_layer l args kw = Some [("final", [result (keras_layer l args kw)])].
Proof. unfold keras_layer. destruct (one_arg args); [|discriminate]. cbn [bind]. destruct (match l with LPlain _ _ => _ | LQ _ _ _ _ => _ end); [reflexivity|discriminate]. Qed.
Lemma ex_quant : traceable_quant ex_q.
Proof.
  split; [reflexivity|]. split; [reflexivity|]. exists None, (Some [0%Z]), [Some 2%nat], [1%nat], [1;2]%nat. split; [split; reflexivity|]. cbn [ex_q q_s]. split; [repeat split|].
  split; intros [|? [|[|?] [|? ?]]] _; cbn; vm_compute; split; discriminate.
Qed.
Example C53_layers_traceable : all_layers traceable_layer 2 ex_net.
Proof.
  assert (D : traceable_layer ex_dense).
  { split; [intros q [= <-]; exact ex_quant|]. split; [exists ex_b; split; [reflexivity|cbn; lia]|]. split; [discriminate|exact I]. }
  intros o Ho. cbn in Ho. destruct Ho as [<-|[<-|[<-|[<-|[<-|[]]]]]]; cbn [o_kind].
  - exact I.
  - exact D.
  - split; [intros q [= <-]; constructor; [exact ex_quant|constructor; [exact ex_quant|constructor]]|]. split; [exact I|]. split; [intros q [= <-]; exact ex_quant|exact I].
  - intros o Ho. cbn in Ho. destruct Ho as [<-|[<-|[]]]; cbn [o_kind]; [exact D|exact I].
  - split; [discriminate|]. split; [split; [intros [X|[]]; discriminate|split; [lia|left; reflexivity]]|]. split; [discriminate|exact I].
Qed.
Example C53_evaluates : evaluates keras_layer 2 ex_net [ex_x] [ex_y; ex_z].
Proof.
  exists (fun t => assoc t [("x", ex_x); ("d", ex_d); ("e", ex_e); ("y", ex_y); ("z", ex_z)]). split; [reflexivity|]. split; [reflexivity|]. intros o Ho Hi. cbn in Ho.
  destruct Ho as [<-|[<-|[<-|[<-|[<-|[]]]]]]; [discriminate Hi| | | |].
  - exists [VArr ex_x], [], [ex_d]. repeat (split; [reflexivity|]). eexists. split; [apply runs; vm_compute; reflexivity|reflexivity].
  - exists [VList [VArr ex_x; VArr ex_d]], [], [ex_e]. repeat (split; [reflexivity|]). eexists. split; [apply runs; vm_compute; reflexivity|reflexivity].
  - exists [VArr ex_e], [], [ex_y]. repeat (split; [reflexivity|]). exists (fun t => assoc t [("s_in", ex_e); ("s_out", ex_y)]). split; [reflexivity|]. split; [reflexivity|].
    intros o Ho Hi'. cbn in Ho. destruct Ho as [<-|[<-|[]]]; [|discriminate Hi'].
    exists [VArr ex_e], [("training", VConst 0%nat)], [ex_y]. repeat (split; [reflexivity|]). eexists. split; [apply runs; vm_compute; reflexivity|reflexivity].
  - exists [VArr ex_e], [], [ex_z]. repeat (split; [reflexivity|]). eexists. split; [apply runs; vm_compute; reflexivity|reflexivity].
Qed.
Ltac op_cases := match goal with H : op_at _ _ _ |- _ => destruct H as (os & H1 & H2); cbn in H1; repeat (destruct H1 as [H1|H1]; [injection H1 as <- <-; cbn in H2; repeat (destruct H2 as [H2|H2]; [subst; cbn|]); try contradiction|]); try contradiction end.
Lemma ex_nested_wf : well_formed 1 ex_nested.
Proof.
  split; [|split; [|split]].
  - cbn. repeat constructor; cbn; intuition discriminate.
  - exists 1%nat. intros d. cbn. lia.
  - intros t [<-|[]]. right. exists 0%nat. eexists. split; [eexists; split; [left; reflexivity|left; reflexivity]|]. split; [reflexivity|left; reflexivity].
  - intros d o Ho. op_cases.
    + split; [|split; [|split]].
      * intros t [<-|[]]. left. left. reflexivity.
      * intros a [<-|[]]. cbn. apply incl_refl.
      * intros ka [<-|[]]. intros t [].
      * discriminate.
    + split; [intros t []|split; [intros a []|split; [intros ka []|discriminate]]].
Qed.
Example C53_well_formed : well_formed 2 ex_net.
Proof.
  split; [|split; [|split]].
  - cbn. repeat constructor; cbn; intuition discriminate.
  - exists 3%nat. intros d. cbn. lia.
  - intros t [<-|[<-|[]]]; right; exists 0%nat; eexists; (split; [eexists; split; [right; right; right; left; reflexivity|]|]).
    + left. reflexivity.
    + split; [reflexivity|left; reflexivity].
    + right. left. reflexivity.
    + split; [reflexivity|left; reflexivity].
  - intros d o Ho. op_cases.
    + split; [intros t []|split; [intros a []|split; [intros ka []|discriminate]]].
    + split; [|split; [|split]].
      * intros t [<-|[]]. left. left. reflexivity.
      * intros a [<-|[]]. cbn. apply incl_refl.
      * intros ka [].
      * discriminate.
    + split; [|split; [|split]].
      * intros t [<-|[<-|[]]]; [left; left; reflexivity|right]. exists 2%nat. eexists. split; [lia|]. split; [eexists; split; [right; left; reflexivity|left; reflexivity]|]. split; [reflexivity|left; reflexivity].
      * intros a [<-|[]]. cbn. apply incl_refl.
      * intros ka [].
      * discriminate.
    + split; [|split; [|split]].
      * intros t [<-|[]]. right. exists 1%nat. eexists. split; [lia|]. split; [eexists; split; [right; right; left; reflexivity|left; reflexivity]|]. split; [reflexivity|left; reflexivity].
      * intros a [<-|[]]. cbn. apply incl_refl.
      * intros ka [].
      * intros sub [= <-]. split; [intros a [<-|[]]; eexists; reflexivity|exact ex_nested_wf].
    + split; [|split; [|split]].
      * intros t [<-|[]]. right. exists 1%nat. eexists. split; [lia|]. split; [eexists; split; [right; right; left; reflexivity|left; reflexivity]|]. split; [reflexivity|left; reflexivity].
      * intros a [<-|[]]. cbn. apply incl_refl.
      * intros ka [].
      * discriminate.
Qed.
(** the outputs of the model, and the trace of sample 0 *)
Example C53_values : map (fun i => Qred (at_ ex_y i)) [[0;0];[0;1];[1;0];[1;1]]%nat = [27 # 2; 0; 0; 2] /\ map (fun i => Qred (at_ ex_z i)) [[0;0];[1;0]]%nat = [17 # 8; -3].
Proof. split; vm_compute; reflexivity. Qed.
Example C53_traced :
  match trace_net 2 ex_net [sample 0 ex_x] with
  | Some d => (map fst d, match assoc "final" d with Some zs => map (fun z => (shape z, Qred (at_ z [0%nat]))) zs | None => [] end)
  | None => ([], [])
  end = (["/dense/post_iq"; "/dense/post_call"; "/dense/final"; "/add/post_iq"; "/add/post_call"; "/add/post_oq"; "/add/final";
          "/sub/dense/post_iq"; "/sub/dense/post_call"; "/sub/dense/final"; "/sub/final"; "/sum/post_call"; "/sum/final"; "final"],
         [([2%nat], 27 # 2); ([1%nat], 17 # 8)]).
Proof. vm_compute. reflexivity. Qed.
(** a sum over all axes *)
Example C53_scalar_case : exists d y d' z, keras_layer (LQ None (CSum 2 [1%nat] false 1) ALinear None) [VArr ex_x] [] = Some d /\ assoc "final" d = Some [y] /\
  replay_layer (LQ None (CSum 2 [1%nat] false 1) ALinear None) [VArr (sample 0 ex_x)] [] = Some d' /\ assoc "final" d' = Some [z] /\ at_ y [0%nat] == 79 # 16 /\ at_ z [0%nat] == 79 # 16.
Proof. do 4 eexists. split; [reflexivity|]. split; [reflexivity|]. split; [reflexivity|]. split; [reflexivity|]. split; vm_compute; reflexivity. Qed.
(** a convolution (3x3 image of 2 channels, groups 1), batch normalization, pooling, einsum and reshape that are traceable *)
Definition ex_cs : list cdim := [mk_cdim 3 2 1 1; mk_cdim 3 2 1 1].
Example C53_cores_traceable :
  traceable_core (CConv SAME ex_cs 1 2 3 (mk_tensor [2;2;2;3]%nat (fun _ => 1)) (Some (mk_tensor [3]%nat (fun _ => 1)))) /\
  traceable_core (CBatchNorm [1;1;1;2]%nat (mk_tensor [2]%nat (fun _ => 1)) (mk_tensor [2]%nat (fun _ => 1))) /\
  traceable_core (CMaxPool VALID ex_cs 2) /\ traceable_core (CAvgPool SAME ex_cs 2) /\
  traceable_core (CEinsum [0;1;2] [2;3] [0;1;3] (mk_tensor [2;3] (fun _ => 1%Q)) (Some (mk_tensor [3] (fun _ => 1%Q))))%nat /\ traceable_core (CReshape [3;6]%nat).
Proof.
  assert (P : pool_ok ex_cs) by (intros c [<-|[<-|[]]]; cbn; lia).
  split; [cbn; repeat (split; [lia|]); exists (mk_tensor [3]%nat (fun _ => 1)); split; [reflexivity|cbn; lia]|]. split; [exists 1%nat, [1;2]%nat; reflexivity|].
  split; [split; [reflexivity|split; [exact P|cbn; lia]]|]. split; [split; [exact P|cbn; lia]|]. split; [|discriminate].
  exists 0%nat, [1;2]%nat, [1;3]%nat. split; [reflexivity|]. split; [reflexivity|]. split; [cbn; lia|]. split; [discriminate|]. eexists. split; [reflexivity|cbn; lia].
Qed.
