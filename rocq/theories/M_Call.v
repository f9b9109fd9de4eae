(** Model of the metaclass that wraps the [call] method of the quantized layers.

    Source: /repo/src/hgq/layers/core/base.py 35-116 (QLayerMeta), utils/minmax_trace.py 24-32
    (TrainingFlagWrapper). *)
From Verif Require Import Num.
From Coq Require Import List Bool Arith Lia.
Import ListNotations.

(** ** The training flag *)
(** what a layer receives as [training]: None/False, True, or TrainingFlagWrapper('tracing')
    (minmax_trace.py 24-32: its __bool__ is False, it == 'tracing') *)
Inductive flag := NotTraining | Training | Tracing.
Definition truthy (t : flag) : bool := match t with Training => true | _ => false end.
Definition equals_tracing (t : flag) : bool := match t with Tracing => true | _ => false end.
(** base.py 96: (training or training == 'tracing') *)
Definition active (t : flag) : bool := truthy t || equals_tracing t.

(** ** Classes and method resolution *)
Record class_table := mk_classes {
  mro : nat -> list nat;            (* method resolution order of a class, itself first; only classes of this package *)
  own_call : nat -> bool;           (* the class body defines [call] *)
  calls_super : nat -> bool;        (* that body invokes super().call *)
  handled : nat -> bool }.          (* __output_quantizer_handled__ seen from the class *)
(** a [call] attribute: the function of a class body, or [call] of line 89 around another one *)
Inductive impl := Orig (c : nat) | Wrap (i : impl).
(** attributes written by line 112 [cls.call = call], and QLayerMeta._wrapped_cls *)
Record world := mk_world { entry : nat -> option impl; wrapped : list nat }.
Definition fresh_world : world := mk_world (fun _ => None) [].
Definition in_class (T : class_table) (w : world) (c : nat) : option impl :=
  match entry w c with Some i => Some i | None => if own_call T c then Some (Orig c) else None end.
(** attribute lookup along an MRO *)
Fixpoint lookup (T : class_table) (w : world) (cs : list nat) : option impl :=
  match cs with [] => None | c :: cs' => match in_class T w c with Some i => Some i | None => lookup T w cs' end end.
(** QLayerMeta.__call__ 57-114: the first instantiation of a class replaces its [call]; classes without a [call]
    of this package are left alone (line 70) *)
Definition instantiate (T : class_table) (w : world) (c : nat) : world :=
  if existsb (Nat.eqb c) (wrapped w) then w
  else mk_world (match lookup T w (mro T c) with
                 | Some i => fun c' => if Nat.eqb c' c then Some (Wrap i) else entry w c'
                 | None => entry w
                 end) (c :: wrapped w).
(** a history of instantiations, oldest first *)
Definition history (T : class_table) (h : list nat) : world := fold_left (instantiate T) h fresh_world.

(** ** Running a call *)
Section Run.
  Context {V : Type} (T : class_table) (w : world).
  (** the layer: result of the computation proper, output quantizer, EBOPs times ebops_factor, beta *)
  Context (k : nat) (core : V) (oq : V -> V) (enable_ebops enable_oq : bool) (ebops beta : Q) (t : flag).
  Record outcome := mk_outcome { out : V; ebops_var : option Z; losses : list Q }.
  (** lines 95-110; the variable is uint32: the cast drops the fraction *)
  Definition wrapper (r : outcome) : outcome :=
    let r := if active t && enable_ebops then mk_outcome (out r) (Some (Qfloor ebops)) (losses r ++ [ebops * beta]%Q) else r in
    if negb enable_oq || handled T k then r else mk_outcome (oq (out r)) (ebops_var r) (losses r).
  Fixpoint after (c : nat) (cs : list nat) : list nat :=
    match cs with [] => [] | c' :: cs' => if Nat.eqb c' c then cs' else after c cs' end.
  (** [fuel] bounds the super() steps (the MRO is finite) *)
  Fixpoint run (fuel : nat) : impl -> outcome :=
    fix go i := match i with
                | Wrap i' => wrapper (go i')
                | Orig c =>
                    match fuel with
                    | 0%nat => mk_outcome core None []
                    | S fuel' => if calls_super T c then match lookup T w (after c (mro T k)) with
                                                          | Some j => run fuel' j
                                                          | None => mk_outcome core None []
                                                          end
                                 else mk_outcome core None []
                    end
                end.
  Definition call_layer : option outcome := option_map (run (length (mro T k))) (lookup T w (mro T k)).
End Run.
Arguments mk_outcome {V}. Arguments out {V}. Arguments ebops_var {V}. Arguments losses {V}.

(** ** The class hierarchy of /repo/src/hgq/layers, as far as it matters for [call] *)
Inductive hgq_class :=
| QSum | QMeanPow2                                                   (* ops/accum.py 10, 63 *)
| QMerge | QAdd | QAveragePow2 | QMultiply                           (* ops/merge.py 10, 28, 33, 53 *)
| QDenseT | QConvTBase | QConvT1D | QConvT2D                         (* table/dense.py 22, table/conv.py 23, 153, 195 *)
| QMultiHeadAttention | QMultiHeadAttentionT                         (* attn/mha.py 25, 540 *)
| QLinformerAttention | QLinformerAttentionT | QSALTAttention        (* attn/linformer.py 11, 183, attn/salt.py 13 *)
| QDense | QBatchNormDense                                           (* core/dense.py 12, 105 *)
| QEinsumDense | QEinsumDenseBatchnorm                               (* core/einsum_dense.py 23, einsum_dense_batchnorm.py 11 *)
| QBaseConv | QConv1D | QConv2D | QConv3D                            (* conv.py 12, 127, 175, 203 *)
| QUnaryFunctionLUT | QAffinedUnaryFunctionLUT                       (* layers/activation.py 18, 76 *)
| QBatchNormalization | QSoftmax | QEinsumDenseT.                    (* batch_normalization.py 11, softmax.py 13, table/dense.py 170 *)
Definition all_classes : list hgq_class :=
  [QSum; QMeanPow2; QMerge; QAdd; QAveragePow2; QMultiply; QDenseT; QConvTBase; QConvT1D; QConvT2D; QMultiHeadAttention; QMultiHeadAttentionT;
   QLinformerAttention; QLinformerAttentionT; QSALTAttention; QDense; QBatchNormDense; QEinsumDense; QEinsumDenseBatchnorm; QBaseConv; QConv1D;
   QConv2D; QConv3D; QUnaryFunctionLUT; QAffinedUnaryFunctionLUT; QBatchNormalization; QSoftmax; QEinsumDenseT].
(** position in [all_classes] *)
Definition num (c : hgq_class) : nat :=
  (match c with
   | QSum => 0 | QMeanPow2 => 1 | QMerge => 2 | QAdd => 3 | QAveragePow2 => 4
   | QMultiply => 5 | QDenseT => 6 | QConvTBase => 7 | QConvT1D => 8 | QConvT2D => 9
   | QMultiHeadAttention => 10 | QMultiHeadAttentionT => 11 | QLinformerAttention => 12 | QLinformerAttentionT => 13 | QSALTAttention => 14
   | QDense => 15 | QBatchNormDense => 16 | QEinsumDense => 17 | QEinsumDenseBatchnorm => 18 | QBaseConv => 19
   | QConv1D => 20 | QConv2D => 21 | QConv3D => 22 | QUnaryFunctionLUT => 23 | QAffinedUnaryFunctionLUT => 24
   | QBatchNormalization => 25 | QSoftmax => 26 | QEinsumDenseT => 27
   end)%nat.
Definition class_of (n : nat) : hgq_class := nth n all_classes QSum.
(** bases with a [call] of the package (other bases are Keras classes, or define no call) *)
Definition hgq_mro (c : hgq_class) : list hgq_class :=
  match c with
  | QMeanPow2 => [QMeanPow2; QSum]
  | QAdd => [QAdd; QMerge] | QAveragePow2 => [QAveragePow2; QAdd; QMerge] | QMultiply => [QMultiply; QMerge]
  | QConvTBase => [QConvTBase; QDenseT] | QConvT1D => [QConvT1D; QConvTBase; QDenseT] | QConvT2D => [QConvT2D; QConvTBase; QDenseT]
  | QMultiHeadAttentionT => [QMultiHeadAttentionT; QMultiHeadAttention]
  | QLinformerAttention => [QLinformerAttention; QMultiHeadAttention]
  | QLinformerAttentionT => [QLinformerAttentionT; QLinformerAttention; QMultiHeadAttentionT; QMultiHeadAttention]
  | QSALTAttention => [QSALTAttention; QMultiHeadAttention]
  | QBatchNormDense => [QBatchNormDense; QDense]
  | QEinsumDenseBatchnorm => [QEinsumDenseBatchnorm; QEinsumDense]
  | QConv1D => [QConv1D; QBaseConv] | QConv2D => [QConv2D; QBaseConv] | QConv3D => [QConv3D; QBaseConv]
  | QAffinedUnaryFunctionLUT => [QAffinedUnaryFunctionLUT; QUnaryFunctionLUT]
  | c => [c]
  end.
(** class bodies without [def call] *)
Definition inherits_call (c : hgq_class) : bool :=
  match c with QMeanPow2 | QAdd | QAveragePow2 | QMultiply | QConvT1D | QConvT2D | QMultiHeadAttentionT | QLinformerAttentionT | QConv2D | QConv3D => true | _ => false end.
(** table/conv.py 79, attn/linformer.py 144, attn/salt.py 176, conv.py 169 (the super().call of merge.py 14 and
    pooling.py 35 reaches a Keras class).  These bodies do all their work before calling super. *)
Definition invokes_super (c : hgq_class) : bool :=
  match c with QConvTBase | QLinformerAttention | QSALTAttention | QConv1D => true | _ => false end.
(** mha.py 26, linformer.py 12 *)
Definition oq_handled (c : hgq_class) : bool :=
  match c with QMultiHeadAttention | QMultiHeadAttentionT | QLinformerAttention | QLinformerAttentionT | QSALTAttention => true | _ => false end.
Definition hgq_table : class_table :=
  mk_classes (fun n => map num (hgq_mro (class_of n))) (fun n => negb (inherits_call (class_of n))) (fun n => invokes_super (class_of n)) (fun n => oq_handled (class_of n)).
Definition history_of (h : list hgq_class) : world := history hgq_table (map num h).
