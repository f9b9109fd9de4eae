(** C49: array operations of the traced hardware equal the Keras operations. *)
From Verif Require Import Num M_Fixed M_State M_Mapper S_Mapper L_Mapper M_Contr M_Ebops M_Pow2 M_Patch M_Ops S_Ops L_Ops.

(** [traced_right n y replay] (S_Ops): y is a batch of n samples and, for every sample b, the replay on
    that sample gives sample b of y. *)

(** QAdd, Add, QAveragePow2, QSubtract, QMultiply, QMaximum, QMinimum: any number of operands, with broadcasting and different ranks *)
Theorem C49_merge :
  forall op n xs y, (forall x, In x xs -> batch_of n x) -> keras_merge op xs = Some y ->
    traced_right n y (fun b => replay_merge op (map (sample b) xs)).
Proof. exact merge_traced. Qed.
Print Assumptions C49_merge.
(** +, -, *, /, maximum, minimum of two tensors of the same rank *)
Theorem C49_arithmetic :
  forall f n x y z, batch_of n x -> batch_of n y -> length (shape x) = length (shape y) -> np_binary f x y = Some z ->
    traced_right n z (fun b => replay_arith f (sample b x) (sample b y)).
Proof. exact arith_traced. Qed.
Print Assumptions C49_arithmetic.
(** QSum, QMeanPow2, and Sum, Max, Min ([f] any function of the reduced elements) over any axes but the batch *)
Theorem C49_sum :
  forall axes keepdims scale n x, batch_of n x -> memb 0 axes = false ->
    traced_right n (layer_qsum axes keepdims scale x) (fun b => replay_qsum axes keepdims scale (sample b x)).
Proof. exact qsum_traced. Qed.
Print Assumptions C49_sum.
Theorem C49_reduction :
  forall f axes keepdims n x, batch_of n x -> memb 0 axes = false ->
    traced_right n (np_reduce f axes keepdims x) (fun b => replay_reduction f axes keepdims (sample b x)).
Proof. exact reduce_traced. Qed.
Print Assumptions C49_reduction.
(** ops.concatenate, ops.repeat, ops.moveaxis over axes other than the batch, given positively or from the end *)
Theorem C49_concatenate :
  forall n axis xs y a, (forall x, In x xs -> batch_of n x) ->
    (forall x, hd_error xs = Some x -> np_axis axis (length (shape x)) = Some (S a)) ->
    keras_concatenate axis xs = Some y -> traced_right n y (fun b => replay_concatenate axis (map (sample b) xs)).
Proof. exact concatenate_traced. Qed.
Print Assumptions C49_concatenate.
Theorem C49_repeat :
  forall n k axis x y a, batch_of n x -> np_axis axis (length (shape x)) = Some (S a) ->
    np_repeat k axis x = Some y -> traced_right n y (fun b => replay_repeat k axis (sample b x)).
Proof. exact repeat_traced. Qed.
Print Assumptions C49_repeat.
Theorem C49_moveaxis :
  forall n s d s' d' x y, batch_of n x ->
    np_axis s (length (shape x)) = Some (S s') -> np_axis d (length (shape x)) = Some (S d') ->
    np_moveaxis s d x = Some y -> traced_right n y (fun b => replay_moveaxis s d (sample b x)).
Proof. exact moveaxis_traced. Qed.
Print Assumptions C49_moveaxis.
(** Reshape, Flatten *)
Theorem C49_reshape :
  forall n sh x y, batch_of n x -> keras_reshape sh x = Some y -> nprod sh = nprod (tl (shape x)) ->
    traced_right n y (fun b => replay_reshape sh (sample b x)).
Proof. exact reshape_traced. Qed.
Print Assumptions C49_reshape.
Theorem C49_flatten :
  forall n x y, batch_of n x -> keras_flatten x = Some y -> traced_right n y (fun b => replay_flatten (sample b x)).
Proof. exact flatten_traced. Qed.
Print Assumptions C49_flatten.
(** keras.layers.Concatenate: right for an axis counted from the end and inputs of one shape *)
Theorem C49_concatenate_layer :
  forall n sh axis a xs y, (axis < 0)%Z -> np_axis axis (S (length sh)) = Some (S a) -> (forall x, In x xs -> shape x = n :: sh) ->
    keras_concatenate axis xs = Some y -> traced_right n y (fun b => replay_concatenate_layer axis (map (sample b) xs)).
Proof. exact concatenate_layer_traced. Qed.
Print Assumptions C49_concatenate_layer.
(** with a positive axis it raises or joins another axis, whatever the inputs *)
Theorem C49_concatenate_positive_axis_refuted :
  forall n sh axis xs y z b, (0 < axis)%Z -> (forall x, In x xs -> shape x = n :: sh) -> (2 <= length xs)%nat -> Forall (fun d => 0 < d)%nat sh ->
    keras_concatenate axis xs = Some y -> replay_concatenate_layer axis (map (sample b) xs) = Some z -> shape z <> shape (sample b y).
Proof. exact concatenate_layer_wrong. Qed.
Print Assumptions C49_concatenate_positive_axis_refuted.
(** ops.transpose: every list of axes Keras accepts makes the replay raise *)
Theorem C49_transpose_refuted :
  forall n axes x y b, batch_of n x -> np_transpose axes x = Some y -> replay_transpose axes (sample b x) = None.
Proof. exact transpose_raises. Qed.
Print Assumptions C49_transpose_refuted.
(** RepeatVector: the replay gives back its input, without the new axis *)
Theorem C49_repeat_vector_refuted :
  forall n k x y b, batch_of n x -> (0 < k)%nat -> keras_repeat_vector k x = Some y ->
    exists z, replay_repeat_vector k (sample b x) = Some z /\ same_tensor z (sample b x) /\ shape z <> shape (sample b y).
Proof. exact repeat_vector_wrong. Qed.
Print Assumptions C49_repeat_vector_refuted.
(** Dot, QDot in the DAIS tracer: right for two inputs of rank 2; otherwise the result has one axis too many *)
Theorem C49_dot_dais :
  forall n a0 a1 x y z, batch_of n x -> keras_dot a0 a1 x y = Some z -> length (shape x) = 2%nat -> length (shape y) = 2%nat ->
    traced_right n z (fun b => replay_dot a0 a1 (sample b x) (sample b y)).
Proof. exact replay_dot_2d. Qed.
Print Assumptions C49_dot_dais.
Theorem C49_dot_dais_rank_refuted :
  forall a0 a1 x y z b c r, keras_dot a0 a1 x y = Some z -> (length (shape x) + length (shape y) <> 4)%nat ->
    replay_dot a0 a1 (sample b x) (sample c y) = Some r -> length (shape r) = S (length (shape (sample b z))).
Proof. exact replay_dot_rank. Qed.
Print Assumptions C49_dot_dais_rank_refuted.
(** QDot in the alkaid plugin, which keeps the batch axis: right unless both inputs have rank 2, when the last axis is missing *)
Theorem C49_dot_alkaid :
  forall a0 a1 x y z, keras_dot a0 a1 x y = Some z -> (length (shape x) + length (shape y) <> 4)%nat ->
    exists z', alkaid_dot a0 a1 x y = Some z' /\ same_tensor z z'.
Proof. exact alkaid_dot_right. Qed.
Print Assumptions C49_dot_alkaid.
Theorem C49_dot_alkaid_2d_refuted :
  forall a0 a1 x y z, keras_dot a0 a1 x y = Some z -> length (shape x) = 2%nat -> length (shape y) = 2%nat ->
    exists n z', alkaid_dot a0 a1 x y = Some z' /\ shape z = [n; 1%nat] /\ shape z' = [n].
Proof. exact alkaid_dot_2d. Qed.
Print Assumptions C49_dot_alkaid_2d_refuted.
(** arithmetic on operands of different ranks: Keras lines the batch of one up with an axis of the other, the replay does not *)
Definition ramp (sh : list nat) : tensor Q := mk_tensor sh (fun i => inject_Z (Z.of_nat (flat sh i))).
Theorem C49_arithmetic_ranks_refuted :
  exists x y z w, batch_of 2 x /\ batch_of 2 y /\ np_binary Qplus x y = Some z /\ replay_arith Qplus (sample 0 x) (sample 0 y) = Some w /\
    shape w = shape (sample 0 z) /\ ~ at_ w [1%nat; 0%nat] == at_ (sample 0 z) [1%nat; 0%nat].
Proof.
  exists (ramp [2; 2; 1]%nat), (ramp [2; 1]%nat). eexists. eexists. split; [eexists; reflexivity|]. split; [eexists; reflexivity|]. split; [reflexivity|]. split; [reflexivity|].
  split; [reflexivity|]. vm_compute. discriminate.
Qed.
Print Assumptions C49_arithmetic_ranks_refuted.

(** Non-vacuity: batches of two samples. *)
Definition values (t : option (tensor Q)) : option (list nat * list Z) :=
  match t with Some t => Some (shape t, map (fun i => Qnum (Qred (at_ t i))) (indices (shape t))) | None => None end.
Example C49_merge_case :
  values (keras_merge MAdd [ramp [2; 2; 3]; ramp [2; 3]; ramp [2; 2; 1]]%nat) =
    Some ([2; 2; 3]%nat, [0; 2; 4; 4; 6; 8; 11; 13; 15; 15; 17; 19]%Z) /\
  values (replay_merge MAdd (map (sample 1) [ramp [2; 2; 3]; ramp [2; 3]; ramp [2; 2; 1]]%nat)) =
    Some ([2; 3]%nat, [11; 13; 15; 15; 17; 19]%Z) /\
  values (keras_merge MSubtract [ramp [2; 3]; ramp [2; 3]; ramp [2; 3]]%nat) = None /\
  values (keras_merge MMinimum [ramp [2; 3]; ramp [2; 1]]%nat) = Some ([2; 3]%nat, [0; 0; 0; 1; 1; 1]%Z).
Proof. vm_compute. repeat split. Qed.
Example C49_sum_case :
  values (Some (layer_qsum [2%nat] false (1 # 4) (ramp [2; 2; 4]%nat))) = Some ([2; 2]%nat, [3; 11; 19; 27]%Z) /\
  values (replay_qsum [2%nat] false (1 # 2) (sample 1 (ramp [2; 2; 4]%nat))) = Some ([2]%nat, [19; 27]%Z) /\ memb 0 [2%nat] = false.
Proof. vm_compute. repeat split. Qed.
Example C49_axes_cases :
  values (keras_concatenate (-1) [ramp [2; 2]; ramp [2; 1]]%nat) = Some ([2; 3]%nat, [0; 1; 0; 2; 3; 1]%Z) /\
  values (replay_concatenate (-1) (map (sample 1) [ramp [2; 2]; ramp [2; 1]]%nat)) = Some ([3]%nat, [2; 3; 1]%Z) /\
  values (np_moveaxis 1 (-1) (ramp [2; 2; 3]%nat)) = Some ([2; 3; 2]%nat, [0; 3; 1; 4; 2; 5; 6; 9; 7; 10; 8; 11]%Z) /\
  values (replay_moveaxis 1 (-1) (sample 1 (ramp [2; 2; 3]%nat))) = Some ([3; 2]%nat, [6; 9; 7; 10; 8; 11]%Z) /\
  values (replay_repeat 2 1 (sample 1 (ramp [2; 2]%nat))) = Some ([4]%nat, [2; 2; 3; 3]%Z) /\
  values (keras_reshape [3; 2]%nat (ramp [2; 2; 3]%nat)) <> None /\ values (keras_flatten (ramp [2; 2; 3]%nat)) <> None.
Proof. vm_compute. repeat split; discriminate. Qed.
Example C49_concatenate_layer_cases :
  values (replay_concatenate_layer (-1) (map (sample 1) [ramp [2; 2]; ramp [2; 2]]%nat)) = Some ([4]%nat, [2; 3; 2; 3]%Z) /\
  (exists y, keras_concatenate 1 [ramp [2; 2; 3]; ramp [2; 2; 3]]%nat = Some y /\ shape y = [2; 4; 3]%nat) /\
  (exists z, replay_concatenate_layer 1 (map (sample 0) [ramp [2; 2; 3]; ramp [2; 2; 3]]%nat) = Some z /\ shape z = [2; 6]%nat).
Proof. split; [vm_compute; reflexivity|]. split; eexists; (split; [reflexivity|reflexivity]). Qed.
Example C49_other_cases :
  values (np_transpose [0; 2; 1]%Z (ramp [2; 2; 3]%nat)) <> None /\ values (keras_repeat_vector 3 (ramp [2; 2]%nat)) <> None /\
  values (keras_dot 1 1 (ramp [2; 2]%nat) (ramp [2; 2]%nat)) = Some ([2; 1]%nat, [1; 13]%Z) /\
  values (replay_dot 1 1 (sample 1 (ramp [2; 2]%nat)) (sample 1 (ramp [2; 2]%nat))) = Some ([1]%nat, [13]%Z) /\
  values (keras_dot 2 1 (ramp [2; 2; 3]%nat) (ramp [2; 3; 2]%nat)) = Some ([2; 2; 2]%nat, [10; 13; 28; 40; 172; 193; 244; 274]%Z) /\
  values (alkaid_dot 2 1 (ramp [2; 2; 3]%nat) (ramp [2; 3; 2]%nat)) = Some ([2; 2; 2]%nat, [10; 13; 28; 40; 172; 193; 244; 274]%Z) /\
  values (replay_dot 2 1 (sample 1 (ramp [2; 2; 3]%nat)) (sample 1 (ramp [2; 3; 2]%nat))) = Some ([2; 1; 2]%nat, [172; 193; 244; 274]%Z).
Proof. vm_compute. repeat split; discriminate. Qed.
