(** C47: one call of a layer records its EBOPs, adds one loss term and quantizes its output once. *)
From Verif Require Import Num M_Fixed M_Call S_Call L_Call L_Fixed.
From Coq Require Import List Bool Arith Lia.
Import ListNotations.
Local Open Scope nat_scope.

(** A class that defines its own [call] without calling super: whatever was instantiated before or after *)
Theorem C47_own_call :
  forall T k rest, mro T k = k :: rest -> forall V (core : V) oq ee eo e b t h,
    In k h -> own_call T k = true -> calls_super T k = false ->
    call_layer T (history T h) k core oq ee eo e b t = Some (expected (handled T k) core oq ee eo e b t).
Proof. intros T k rest Hm V core oq ee eo e b t h. exact (once_own T k rest Hm core oq ee eo e b t h). Qed.
Print Assumptions C47_own_call.
(** Any class, if none of its bases is ever instantiated *)
Theorem C47_bases_unused :
  forall T k rest, mro T k = k :: rest -> forall V (core : V) oq ee eo e b t h a,
    In k h -> (forall c, In c rest -> ~ In c h) -> provider T (mro T k) = Some a ->
    call_layer T (history T h) k core oq ee eo e b t = Some (expected (handled T k) core oq ee eo e b t).
Proof. intros T k rest Hm V core oq ee eo e b t h a. exact (once_alone T k rest Hm core oq ee eo e b t h a). Qed.
Print Assumptions C47_bases_unused.
(** A class that inherits [call], if none of its bases is instantiated before its own first instance *)
Theorem C47_instantiated_first :
  forall T k rest, mro T k = k :: rest -> forall V (core : V) oq ee eo e b t h1 h2 a,
    ~ In k h1 -> (forall c, In c rest -> ~ In c h1) -> provider T (mro T k) = Some a -> calls_super T a = false ->
    call_layer T (history T (h1 ++ k :: h2)) k core oq ee eo e b t = Some (expected (handled T k) core oq ee eo e b t).
Proof. intros T k rest Hm V core oq ee eo e b t h1 h2 a. exact (once_inherited T k rest Hm core oq ee eo e b t h1 h2 a). Qed.
Print Assumptions C47_instantiated_first.

(** For every history the output value and the recorded EBOPs are those of one application (the output
    quantizer being idempotent); the loss term is added at least once, possibly more often *)
Theorem C47_values_never_wrong :
  forall T k rest, mro T k = k :: rest -> forall V (core : V) oq ee eo e b t h a,
    In k h -> provider T (mro T k) = Some a -> (forall v, oq (oq v) = oq v) ->
    exists n, call_layer T (history T h) k core oq ee eo e b t = Some (expected_n (S n) (handled T k) core oq ee eo e b t).
Proof. intros T k rest Hm V core oq ee eo e b t h a. exact (any_history T k rest Hm core oq ee eo e b t h a). Qed.
Print Assumptions C47_values_never_wrong.

(** exactly how often, when [call] is inherited: twice if the base was instantiated first *)
Theorem C47_inherited_count :
  forall T k a rest, mro T k = k :: a :: rest -> forall V (core : V) oq ee eo e b t h,
    a <> k -> In k h -> own_call T k = false -> own_call T a = true -> calls_super T a = false ->
    (exists r, mro T a = a :: r) -> (forall v, oq (oq v) = oq v) ->
    call_layer T (history T h) k core oq ee eo e b t = Some (expected_n (if before a k h then 2 else 1) (handled T k) core oq ee eo e b t).
Proof. intros T k a rest Hm V core oq ee eo e b t h. exact (inherited_exact T k (a :: rest) Hm core oq ee eo e b t a rest h eq_refl). Qed.
Print Assumptions C47_inherited_count.
(** and when [call] invokes the base's: twice if the base was instantiated at any time *)
Theorem C47_super_count :
  forall T k a rest, mro T k = k :: a :: rest -> forall V (core : V) oq ee eo e b t h,
    a <> k -> In k h -> own_call T k = true -> calls_super T k = true -> own_call T a = true -> calls_super T a = false ->
    (exists r, mro T a = a :: r) -> (forall v, oq (oq v) = oq v) ->
    call_layer T (history T h) k core oq ee eo e b t = Some (expected_n (if existsb (Nat.eqb a) h then 2 else 1) (handled T k) core oq ee eo e b t).
Proof. intros T k a rest Hm V core oq ee eo e b t h. exact (super_exact T k (a :: rest) Hm core oq ee eo e b t a rest h eq_refl). Qed.
Print Assumptions C47_super_count.

(** ** The classes of the package *)
(** base classes that are not meant to be instantiated *)
Definition abstract_classes : list hgq_class := [QMerge; QConvTBase; QBaseConv].
Definition always_once : list hgq_class :=
  [QSum; QAdd; QMultiply; QDenseT; QMultiHeadAttention; QDense; QBatchNormDense; QEinsumDense; QEinsumDenseBatchnorm; QConv1D; QConv2D; QConv3D;
   QUnaryFunctionLUT; QAffinedUnaryFunctionLUT; QBatchNormalization; QSoftmax; QEinsumDenseT].
Theorem C47_package_classes :
  forall k h, In k always_once -> In k h -> (forall c, In c abstract_classes -> ~ In c h) ->
  forall V (core : V) oq ee eo e b t,
    call_layer hgq_table (history_of h) (num k) core oq ee eo e b t = Some (expected (oq_handled k) core oq ee eo e b t).
Proof. exact package_once. Qed.
Print Assumptions C47_package_classes.
(** QMeanPow2 after QSum, and the attention variants and table convolutions: the loss is doubled *)
Theorem C47_mean_after_sum :
  forall h, In QMeanPow2 h -> forall V (core : V) oq ee eo e b t, (forall v, oq (oq v) = oq v) ->
    call_layer hgq_table (history_of h) (num QMeanPow2) core oq ee eo e b t =
    Some (expected_n (if before (num QSum) (num QMeanPow2) (map num h) then 2 else 1) false core oq ee eo e b t).
Proof. exact mean_count. Qed.
Print Assumptions C47_mean_after_sum.
Theorem C47_linformer_with_attention :
  forall k h, In k [QLinformerAttention; QSALTAttention] -> In k h -> forall V (core : V) oq ee eo e b t, (forall v, oq (oq v) = oq v) ->
    call_layer hgq_table (history_of h) (num k) core oq ee eo e b t =
    Some (expected_n (if existsb (Nat.eqb (num QMultiHeadAttention)) (map num h) then 2 else 1) true core oq ee eo e b t).
Proof. exact linformer_count. Qed.
Print Assumptions C47_linformer_with_attention.
Theorem C47_table_convolution_with_dense_table :
  forall k h, In k [QConvT1D; QConvT2D] -> In k h -> ~ In QConvTBase h -> forall V (core : V) oq ee eo e b t, (forall v, oq (oq v) = oq v) ->
    call_layer hgq_table (history_of h) (num k) core oq ee eo e b t =
    Some (expected_n (if existsb (Nat.eqb (num QDenseT)) (map num h) then 2 else 1) false core oq ee eo e b t).
Proof. exact conv_table_count. Qed.
Print Assumptions C47_table_convolution_with_dense_table.
Theorem C47_average_after_add :
  forall h, In QAveragePow2 h -> ~ In QMerge h -> forall V (core : V) oq ee eo e b t, (forall v, oq (oq v) = oq v) ->
    call_layer hgq_table (history_of h) (num QAveragePow2) core oq ee eo e b t =
    Some (expected_n (if before (num QAdd) (num QAveragePow2) (map num h) then 2 else 1) false core oq ee eo e b t).
Proof. exact average_count. Qed.
Print Assumptions C47_average_after_add.
(** so the training objective depends on which layers were created earlier in the process *)
Theorem C47_independent_of_history_refuted :
  exists h h' k, In k h /\ In k h' /\ (forall c, In c h <-> In c h') /\
  forall V (core : V) oq ee eo e b, ee = true ->
    option_map losses (call_layer hgq_table (history_of h) (num k) core oq ee eo e b Training) <>
    option_map losses (call_layer hgq_table (history_of h') (num k) core oq ee eo e b Training).
Proof. exact order_dependent. Qed.
Print Assumptions C47_independent_of_history_refuted.

(** nothing is recorded outside training and tracing, or with EBOPs switched off, after any history *)
Theorem C47_inference_records_nothing :
  forall T w k V (core : V) oq ee eo e b t r,
    call_layer T w k core oq ee eo e b t = Some r -> t = NotTraining \/ ee = false -> ebops_var r = None /\ losses r = [].
Proof. exact inference_clean. Qed.
Print Assumptions C47_inference_records_nothing.

(** the output quantizer of C01-C06 is idempotent *)
Example C47_idempotent_quantizer :
  forall v : Z, (fun v => Z.min 7 (Z.max (-8) v)) ((fun v => Z.min 7 (Z.max (-8) v)) v) = (fun v => Z.min 7 (Z.max (-8) v)) v.
Proof. intros v. cbv beta. lia. Qed.
Example C47_doubled : option_map losses (call_layer hgq_table (history_of [QDenseT; QConvT1D]) (num QConvT1D) 0%Z (Z.min 7) true true (3 # 2) 2 Tracing) = Some [(3 # 2) * 2; (3 # 2) * 2]%Q.
Proof. reflexivity. Qed.
Example C47_single : option_map losses (call_layer hgq_table (history_of [QConvT1D; QDense]) (num QConvT1D) 0%Z (Z.min 7) true true (3 # 2) 2 Tracing) = Some [(3 # 2) * 2]%Q.
Proof. reflexivity. Qed.
