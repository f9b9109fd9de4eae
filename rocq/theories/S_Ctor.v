(** Specification: what a user of the constructors relies on. *)
From Coq Require Import List Bool String.
From Verif Require Import M_Ctor M_CtorTab.
Import ListNotations.
Open Scope string_scope.
Local Open Scope list_scope.

(** the classes with a constructor of their own or inherited, that users create *)
Definition public : list string := [
  "QDense"; "QBatchNormDense"; "QEinsumDense"; "QEinsumDenseBatchnorm"; "QConv1D"; "QConv2D"; "QConv3D"; "QBatchNormalization";
  "QMultiHeadAttention"; "QMultiHeadAttentionT"; "QLinformerAttention"; "QLinformerAttentionT"; "QSALTAttention";
  "QUnaryFunctionLUT"; "QAffinedUnaryFunctionLUT"; "QSoftmax"; "QDenseT"; "QEinsumDenseT"; "QConvT1D"; "QConvT2D";
  "QAveragePooling1D"; "QAveragePooling2D"; "QAveragePooling3D"; "QMaxPooling1D"; "QMaxPooling2D"; "QMaxPooling3D";
  "QGlobalAveragePooling1D"; "QGlobalAveragePooling2D"; "QGlobalAveragePooling3D"; "QGlobalMaxPooling1D"; "QGlobalMaxPooling2D"; "QGlobalMaxPooling3D";
  "QSum"; "QMeanPow2"; "QDot"; "QEinsum"; "QAdd"; "QAveragePow2"; "QSubtract"; "QMultiply"; "QMaximum"; "QMinimum";
  "QSimpleRNNCell"; "QGRUCell"; "SpikingNeuralCell"; "LIFCell"; "QSimpleSNNCell"; "QLIFCell"; "EarlyStoppingWithEbopsThres" ].
(** the sequence layers, which also build a cell *)
Definition sequence_layers : list string := ["QSimpleRNN"; "QGRU"; "QSimpleSNN"; "QLIF"].

(** the value that the constructor of class [c] got for its parameter [n] *)
Definition got (o : list (string * kwargs)) (c n : string) : option val := match get c o with Some e => get n e | None => None end.

(** the default that counts: that of the first class of the resolution order that declares the parameter *)
Fixpoint declared (ch : list ctor) (n : string) : option (option val) :=
  match ch with [] => None | c :: ch => match get n (c_params c) with Some d => Some d | None => declared ch n end end.
(** the value of an argument: the user's, else the default *)
Definition argument (ch : list ctor) (kw : kwargs) (n : string) : option val :=
  match get n kw with Some v => Some v | None => match declared ch n with Some d => d | None => None end end.

(** arguments known under another name further down *)
Definition renamed (k : string) : list (string * string) := if mem k ["QConvT1D"; "QConvT2D"] then [("filters", "n_out")] else [].
(** arguments for which None is replaced by a default before the class that uses them sees it *)
Definition none_replaced (k : string) : list string :=
  if mem k ["QSoftmax"] then ["enable_ebops"]
  else if mem k ["QUnaryFunctionLUT"; "QAffinedUnaryFunctionLUT"] then ["oq_conf"]
  else if mem k ["QSimpleSNNCell"; "QLIFCell"] then ["enable_ebops"; "enable_iq"; "enable_oq"] else [].
(** [w] is what the user said when they said [v] *)
Definition as_given (k n : string) (v w : val) : Prop := w = v \/ (In n (none_replaced k) /\ v = vnone).

(** arguments that a constructor of the class replaces by a value of its own *)
Definition overridden (k : string) : list string := if mem k ["QMultiHeadAttentionT"; "QLinformerAttentionT"] then ["fuse"] else [].
(** the attention layers hand activity_regularizer to the layers inside them, the table convolutions set the
    attribute themselves: keras.Layer does not get it *)
Definition not_for_keras (k : string) : list string :=
  if mem k ["QMultiHeadAttention"; "QMultiHeadAttentionT"; "QLinformerAttention"; "QLinformerAttentionT"; "QSALTAttention"; "QConvT1D"; "QConvT2D"; "QSimpleRNN"]
  then ["activity_regularizer"] else [].

(** parameters of the bases that the layer sets itself; giving one of them is an error *)
Definition fixed (k : string) : list string :=
  if mem k ["QDense"; "QBatchNormDense"; "QEinsumDense"; "QEinsumDenseBatchnorm"] then ["lora_rank"]
  else if mem k ["QConv1D"; "QConv2D"; "QConv3D"] then ["rank"]
  else if mem k ["QConvT1D"; "QConvT2D"] then ["rank"; "n_out"]
  else if mem k ["QAveragePooling1D"; "QAveragePooling2D"; "QAveragePooling3D"; "QMaxPooling1D"; "QMaxPooling2D"; "QMaxPooling3D"] then ["pool_dimensions"; "pool_mode"]
  else if mem k ["QGlobalAveragePooling1D"; "QGlobalAveragePooling2D"; "QGlobalAveragePooling3D"; "QGlobalMaxPooling1D"; "QGlobalMaxPooling2D"; "QGlobalMaxPooling3D"] then ["pool_dimensions"]
  else if mem k sequence_layers then ["cell"] else [].
(** the assertion of a constructor, read as a condition on the arguments of the layer *)
Definition condition (a : string -> val) (c : check) : Prop :=
  match c with
  | MustBe x l => In (a x) l
  | MustNotBe x l => ~ In (a x) l
  | Truthy x => truthy (a x) = true
  | Falsy x => truthy (a x) = false
  | NotBoth x y => a x = vnone \/ a y = vnone
  end.
(** [gather_vars_to_kwargs] is used by some constructor of the class, on its **kwargs *)
Definition gathers (k : string) : bool := existsb (fun c => match c_gather c with Some _ => c_star c | None => false end) (chain k).
(** the calls Class(...) that are accepted *)
Definition acceptable (k : string) (kw : kwargs) : Prop :=
  (forall n, has n kw = true -> (declared (chain k) n <> None /\ ~ In n (fixed k)) \/ (gathers k = true /\ dunder n = true)) /\
  (forall n, declared (chain k) n = Some None -> ~ In n (fixed k) -> has n kw = true) /\
  (forall c ch, In c (chain k) -> In ch (c_checks c) -> condition (fun n => match argument (chain k) kw n with Some v => v | None => vnone end) ch).

(** ** patterns: the language they stand for *)
Fixpoint denotes (p : list token) (s : string) : Prop :=      (* some beginning of [s] is in the language *)
  match p with
  | [] => True
  | TLit a :: p => exists t, s = (a ++ t)%string /\ denotes p t
  | TAnyPlus :: p => exists u t, u <> EmptyString /\ s = (u ++ t)%string /\ denotes p t
  end.

(** ** layers inside layers *)
Definition attention_layers : list string := ["QMultiHeadAttention"; "QMultiHeadAttentionT"; "QLinformerAttention"; "QLinformerAttentionT"; "QSALTAttention"].
(** the argument of the attention layer that each argument of an inner layer of the class is meant to come from *)
Definition meant_for (inner_class : string) : list (string * string) :=
  if mem inner_class ["QEinsumDense"; "QConv2D"] then
    [("qkvo_iq_conf", "iq_conf"); ("qkvo_kq_conf", "kq_conf"); ("qkvo_bq_conf", "bq_conf"); ("qkvo_oq_conf", "oq_conf");
     ("kernel_initializer", "kernel_initializer"); ("bias_initializer", "bias_initializer"); ("kernel_regularizer", "kernel_regularizer");
     ("bias_regularizer", "bias_regularizer"); ("activity_regularizer", "activity_regularizer"); ("kernel_constraint", "kernel_constraint");
     ("bias_constraint", "bias_constraint"); ("parallelization_factor", "parallelization_factor")]
  else if String.eqb inner_class "QEinsumDenseT" then
    [("qkvo_iq_conf", "iq_conf"); ("qkvo_toq_conf", "toq_conf"); ("qkvo_oq_conf", "oq_conf"); ("n_hl", "n_hl"); ("d_hl", "d_hl");
     ("subnn_activation", "subnn_activation"); ("table_spec", "table_idxs"); ("batch_norm", "batch_norm"); ("bn_center", "bn_center");
     ("bn_scale", "bn_scale"); ("bn_momentum", "bn_momentum"); ("bn_epsilon", "bn_epsilon"); ("parallelization_factor", "parallelization_factor")]
  else if String.eqb inner_class "QSoftmax" then
    [("softmax_iq_conf", "iq_conf"); ("softmax_exp_iq_conf", "exp_iq_conf"); ("softmax_exp_oq_conf", "exp_oq_conf"); ("softmax_inv_iq_conf", "inv_iq_conf");
     ("softmax_inv_oq_conf", "inv_oq_conf"); ("softmax_oq_conf", "oq_conf"); ("stable_softmax", "stable");
     ("softmax_allow_heterogeneous_table", "allow_heterogeneous_table")]
  else [].
(** quantizer configurations: a falsy one counts as not given *)
Definition is_conf (n : string) : bool := mem n ["qkvo_iq_conf"; "qkvo_kq_conf"; "qkvo_bq_conf"; "qkvo_oq_conf"; "qkvo_toq_conf";
  "softmax_iq_conf"; "softmax_exp_iq_conf"; "softmax_exp_oq_conf"; "softmax_inv_iq_conf"; "softmax_inv_oq_conf"; "softmax_oq_conf"].

(** ** positional arguments *)
Definition positional (k : string) : list string := match chain k with c :: _ => map fst (c_params c) | [] => [] end.
(** quantized layers that replace a keras layer: the parameters of the keras class that can be given by position *)
Definition drop_in : list (string * list string) := [
  ("QDense", ["units"; "activation"; "use_bias"; "kernel_initializer"; "bias_initializer"; "kernel_regularizer"; "bias_regularizer"; "activity_regularizer"; "kernel_constraint"; "bias_constraint"]);
  ("QEinsumDense", ["equation"; "output_shape"; "activation"; "bias_axes"; "kernel_initializer"; "bias_initializer"; "kernel_regularizer"; "bias_regularizer"; "kernel_constraint"; "bias_constraint"]);
  ("QConv1D", ["filters"; "kernel_size"; "strides"; "padding"; "data_format"; "dilation_rate"; "groups"; "activation"; "use_bias"; "kernel_initializer"; "bias_initializer"; "kernel_regularizer"; "bias_regularizer"; "activity_regularizer"; "kernel_constraint"; "bias_constraint"]);
  ("QConv2D", ["filters"; "kernel_size"; "strides"; "padding"; "data_format"; "dilation_rate"; "groups"; "activation"; "use_bias"; "kernel_initializer"; "bias_initializer"; "kernel_regularizer"; "bias_regularizer"; "activity_regularizer"; "kernel_constraint"; "bias_constraint"]);
  ("QConv3D", ["filters"; "kernel_size"; "strides"; "padding"; "data_format"; "dilation_rate"; "groups"; "activation"; "use_bias"; "kernel_initializer"; "bias_initializer"; "kernel_regularizer"; "bias_regularizer"; "activity_regularizer"; "kernel_constraint"; "bias_constraint"]);
  ("QBatchNormalization", positional "BatchNormalization"); ("QSimpleRNNCell", positional "SimpleRNNCell"); ("QGRUCell", positional "GRUCell");
  ("QMultiHeadAttention", ["num_heads"; "key_dim"; "value_dim"; "dropout"; "use_bias"; "output_shape"; "attention_axes"]);
  ("QAveragePooling1D", positional "AveragePooling1D"); ("QAveragePooling2D", positional "AveragePooling2D"); ("QAveragePooling3D", positional "AveragePooling3D");
  ("QMaxPooling1D", positional "MaxPooling1D"); ("QMaxPooling2D", positional "MaxPooling2D"); ("QMaxPooling3D", positional "MaxPooling3D");
  ("QGlobalAveragePooling1D", positional "GlobalAveragePooling1D"); ("QGlobalAveragePooling2D", positional "GlobalAveragePooling2D"); ("QGlobalAveragePooling3D", positional "GlobalAveragePooling3D");
  ("QGlobalMaxPooling1D", positional "GlobalMaxPooling1D"); ("QGlobalMaxPooling2D", positional "GlobalMaxPooling2D"); ("QGlobalMaxPooling3D", positional "GlobalMaxPooling3D")].

(** ** arguments that every quantized layer takes *)
Definition quantized (k : string) : Prop := In k (public ++ sequence_layers) /\ ~ In k ["SpikingNeuralCell"; "LIFCell"; "EarlyStoppingWithEbopsThres"].
Definition standard_arguments (k : string) : list string :=
  ["enable_ebops"; "beta0"; "enable_oq"; "enable_iq"; "oq_conf"; "name"; "dtype"; "trainable"] ++ (if mem k sequence_layers then [] else ["ebops_factor"]) ++
  (if mem k ["QDense"; "QBatchNormDense"; "QEinsumDense"; "QEinsumDenseBatchnorm"; "QConv1D"; "QConv2D"; "QConv3D"; "QBatchNormalization"; "QSimpleRNNCell"; "QGRUCell"; "QSimpleRNN"; "QGRU"]
   then ["iq_conf"; "kq_conf"; "bq_conf"]
   else if mem k ["QAdd"; "QAveragePow2"; "QSubtract"; "QMultiply"; "QMaximum"; "QMinimum"; "QDot"; "QEinsum"] then ["iq_confs"]
   else if mem k attention_layers then ["qkvo_iq_conf"; "qkvo_oq_conf"; "softmax_oq_conf"; "softmax_exp_iq_conf"; "softmax_inv_iq_conf"]
   else ["iq_conf"]).
