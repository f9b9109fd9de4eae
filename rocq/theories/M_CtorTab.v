(** Constructors of the layers, generated from the signatures and bodies of the sources.

    Each entry cites its lines.  The keras constructors are those of keras 3.11, which pyproject.toml asks for;
    they are not in /repo and are trusted.  The check lists hold the assertions on flags and strings.  [c_uses] are
    the parameters that the body reads, other than to hand them over. *)
From Coq Require Import List Bool String.
From Verif Require Import M_Ctor.
Import ListNotations.
Open Scope string_scope.
Local Open Scope list_scope.

(** keras, not in /repo: Layer.__init__; other keywords raise ValueError *)
Definition i_Layer : ctor :=
  mk_ctor "Layer"
    [("activity_regularizer", Some (VLit "None")); ("trainable", Some (VLit "True")); ("dtype", Some (VLit "None")); ("autocast", Some (VLit "True"));
     ("name", Some (VLit "None")); ("input_dim", Some (VLit "None")); ("input_shape", Some (VLit "None"))]
    false
    []
    None
    [] []
    []
    None
    ["activity_regularizer"; "trainable"; "dtype"; "autocast"; "name"; "input_dim"; "input_shape"].
(** keras, not in /repo: Dense.__init__ *)
Definition i_Dense : ctor :=
  mk_ctor "Dense"
    [("units", None); ("activation", Some (VLit "None")); ("use_bias", Some (VLit "True")); ("kernel_initializer", Some (VLit "'glorot_uniform'"));
     ("bias_initializer", Some (VLit "'zeros'")); ("kernel_regularizer", Some (VLit "None")); ("bias_regularizer", Some (VLit "None"));
     ("activity_regularizer", Some (VLit "None")); ("kernel_constraint", Some (VLit "None")); ("bias_constraint", Some (VLit "None"));
     ("lora_rank", Some (VLit "None")); ("lora_alpha", Some (VLit "None"))]
    true
    []
    None
    [] []
    [("activity_regularizer", EVar "activity_regularizer")]
    None
    ["units"; "activation"; "use_bias"; "kernel_initializer"; "bias_initializer"; "kernel_regularizer"; "bias_regularizer"; "kernel_constraint";
     "bias_constraint"; "lora_rank"; "lora_alpha"].
(** keras, not in /repo: EinsumDense.__init__ *)
Definition i_EinsumDense : ctor :=
  mk_ctor "EinsumDense"
    [("equation", None); ("output_shape", None); ("activation", Some (VLit "None")); ("bias_axes", Some (VLit "None"));
     ("kernel_initializer", Some (VLit "'glorot_uniform'")); ("bias_initializer", Some (VLit "'zeros'")); ("kernel_regularizer", Some (VLit "None"));
     ("bias_regularizer", Some (VLit "None")); ("kernel_constraint", Some (VLit "None")); ("bias_constraint", Some (VLit "None"));
     ("lora_rank", Some (VLit "None")); ("lora_alpha", Some (VLit "None"))]
    true
    []
    None
    [] []
    []
    None
    ["equation"; "output_shape"; "activation"; "bias_axes"; "kernel_initializer"; "bias_initializer"; "kernel_regularizer"; "bias_regularizer";
     "kernel_constraint"; "bias_constraint"; "lora_rank"; "lora_alpha"].
(** keras, not in /repo: BaseConv.__init__ *)
Definition i_BaseConv : ctor :=
  mk_ctor "BaseConv"
    [("rank", None); ("filters", None); ("kernel_size", None); ("strides", Some (VLit "1")); ("padding", Some (VLit "'valid'"));
     ("data_format", Some (VLit "None")); ("dilation_rate", Some (VLit "1")); ("groups", Some (VLit "1")); ("activation", Some (VLit "None"));
     ("use_bias", Some (VLit "True")); ("kernel_initializer", Some (VLit "'glorot_uniform'")); ("bias_initializer", Some (VLit "'zeros'"));
     ("kernel_regularizer", Some (VLit "None")); ("bias_regularizer", Some (VLit "None")); ("activity_regularizer", Some (VLit "None"));
     ("kernel_constraint", Some (VLit "None")); ("bias_constraint", Some (VLit "None")); ("lora_rank", Some (VLit "None"));
     ("lora_alpha", Some (VLit "None"))]
    true
    []
    None
    [] []
    [("activity_regularizer", EVar "activity_regularizer")]
    None
    ["rank"; "filters"; "kernel_size"; "strides"; "padding"; "data_format"; "dilation_rate"; "groups"; "activation"; "use_bias"; "kernel_initializer";
     "bias_initializer"; "kernel_regularizer"; "bias_regularizer"; "kernel_constraint"; "bias_constraint"; "lora_rank"; "lora_alpha"].
(** keras, not in /repo: BatchNormalization.__init__ *)
Definition i_BatchNormalization : ctor :=
  mk_ctor "BatchNormalization"
    [("axis", Some (VLit "-1")); ("momentum", Some (VLit "0.99")); ("epsilon", Some (VLit "0.001")); ("center", Some (VLit "True"));
     ("scale", Some (VLit "True")); ("beta_initializer", Some (VLit "'zeros'")); ("gamma_initializer", Some (VLit "'ones'"));
     ("moving_mean_initializer", Some (VLit "'zeros'")); ("moving_variance_initializer", Some (VLit "'ones'")); ("beta_regularizer", Some (VLit "None"));
     ("gamma_regularizer", Some (VLit "None")); ("beta_constraint", Some (VLit "None")); ("gamma_constraint", Some (VLit "None"));
     ("synchronized", Some (VLit "False"))]
    true
    []
    None
    [] []
    []
    None
    ["axis"; "momentum"; "epsilon"; "center"; "scale"; "beta_initializer"; "gamma_initializer"; "moving_mean_initializer"; "moving_variance_initializer";
     "beta_regularizer"; "gamma_regularizer"; "beta_constraint"; "gamma_constraint"; "synchronized"].
(** keras, not in /repo: MultiHeadAttention.__init__ *)
Definition i_MultiHeadAttention : ctor :=
  mk_ctor "MultiHeadAttention"
    [("num_heads", None); ("key_dim", None); ("value_dim", Some (VLit "None")); ("dropout", Some (VLit "0.0")); ("use_bias", Some (VLit "True"));
     ("output_shape", Some (VLit "None")); ("attention_axes", Some (VLit "None")); ("flash_attention", Some (VLit "None"));
     ("kernel_initializer", Some (VLit "'glorot_uniform'")); ("bias_initializer", Some (VLit "'zeros'")); ("kernel_regularizer", Some (VLit "None"));
     ("bias_regularizer", Some (VLit "None")); ("activity_regularizer", Some (VLit "None")); ("kernel_constraint", Some (VLit "None"));
     ("bias_constraint", Some (VLit "None")); ("seed", Some (VLit "None"))]
    true
    []
    None
    [] []
    []
    None
    ["num_heads"; "key_dim"; "value_dim"; "dropout"; "use_bias"; "output_shape"; "attention_axes"; "flash_attention"; "kernel_initializer";
     "bias_initializer"; "kernel_regularizer"; "bias_regularizer"; "activity_regularizer"; "kernel_constraint"; "bias_constraint"; "seed"].
(** keras, not in /repo: Activation.__init__ *)
Definition i_Activation : ctor :=
  mk_ctor "Activation"
    [("activation", None)]
    true
    []
    None
    [] []
    []
    None
    ["activation"].
(** keras, not in /repo: SimpleRNNCell.__init__ *)
Definition i_SimpleRNNCell : ctor :=
  mk_ctor "SimpleRNNCell"
    [("units", None); ("activation", Some (VLit "'tanh'")); ("use_bias", Some (VLit "True")); ("kernel_initializer", Some (VLit "'glorot_uniform'"));
     ("recurrent_initializer", Some (VLit "'orthogonal'")); ("bias_initializer", Some (VLit "'zeros'")); ("kernel_regularizer", Some (VLit "None"));
     ("recurrent_regularizer", Some (VLit "None")); ("bias_regularizer", Some (VLit "None")); ("kernel_constraint", Some (VLit "None"));
     ("recurrent_constraint", Some (VLit "None")); ("bias_constraint", Some (VLit "None")); ("dropout", Some (VLit "0.0"));
     ("recurrent_dropout", Some (VLit "0.0")); ("seed", Some (VLit "None"))]
    true
    []
    None
    [] []
    []
    None
    ["units"; "activation"; "use_bias"; "kernel_initializer"; "recurrent_initializer"; "bias_initializer"; "kernel_regularizer"; "recurrent_regularizer";
     "bias_regularizer"; "kernel_constraint"; "recurrent_constraint"; "bias_constraint"; "dropout"; "recurrent_dropout"; "seed"].
(** keras, not in /repo: GRUCell.__init__ *)
Definition i_GRUCell : ctor :=
  mk_ctor "GRUCell"
    [("units", None); ("activation", Some (VLit "'tanh'")); ("recurrent_activation", Some (VLit "'sigmoid'")); ("use_bias", Some (VLit "True"));
     ("kernel_initializer", Some (VLit "'glorot_uniform'")); ("recurrent_initializer", Some (VLit "'orthogonal'"));
     ("bias_initializer", Some (VLit "'zeros'")); ("kernel_regularizer", Some (VLit "None")); ("recurrent_regularizer", Some (VLit "None"));
     ("bias_regularizer", Some (VLit "None")); ("kernel_constraint", Some (VLit "None")); ("recurrent_constraint", Some (VLit "None"));
     ("bias_constraint", Some (VLit "None")); ("dropout", Some (VLit "0.0")); ("recurrent_dropout", Some (VLit "0.0"));
     ("reset_after", Some (VLit "True")); ("seed", Some (VLit "None"))]
    true
    []
    None
    [] []
    []
    None
    ["units"; "activation"; "recurrent_activation"; "use_bias"; "kernel_initializer"; "recurrent_initializer"; "bias_initializer"; "kernel_regularizer";
     "recurrent_regularizer"; "bias_regularizer"; "kernel_constraint"; "recurrent_constraint"; "bias_constraint"; "dropout"; "recurrent_dropout";
     "reset_after"; "seed"].
(** keras, not in /repo: RNN.__init__ *)
Definition i_RNN : ctor :=
  mk_ctor "RNN"
    [("cell", None); ("return_sequences", Some (VLit "False")); ("return_state", Some (VLit "False")); ("go_backwards", Some (VLit "False"));
     ("stateful", Some (VLit "False")); ("unroll", Some (VLit "False")); ("zero_output_for_mask", Some (VLit "False"))]
    true
    []
    None
    [] []
    []
    None
    ["cell"; "return_sequences"; "return_state"; "go_backwards"; "stateful"; "unroll"; "zero_output_for_mask"].
(** keras, not in /repo: SimpleRNN.__init__, which makes a cell of its own *)
Definition i_SimpleRNN : ctor :=
  mk_ctor "SimpleRNN"
    [("units", None); ("activation", Some (VLit "'tanh'")); ("use_bias", Some (VLit "True")); ("kernel_initializer", Some (VLit "'glorot_uniform'"));
     ("recurrent_initializer", Some (VLit "'orthogonal'")); ("bias_initializer", Some (VLit "'zeros'")); ("kernel_regularizer", Some (VLit "None"));
     ("recurrent_regularizer", Some (VLit "None")); ("bias_regularizer", Some (VLit "None")); ("kernel_constraint", Some (VLit "None"));
     ("recurrent_constraint", Some (VLit "None")); ("bias_constraint", Some (VLit "None")); ("dropout", Some (VLit "0.0"));
     ("recurrent_dropout", Some (VLit "0.0")); ("return_sequences", Some (VLit "False")); ("return_state", Some (VLit "False"));
     ("go_backwards", Some (VLit "False")); ("stateful", Some (VLit "False")); ("unroll", Some (VLit "False")); ("seed", Some (VLit "None"))]
    true
    []
    None
    [] []
    [("cell", ELit (VLit "SimpleRNNCell(...)")); ("return_sequences", EVar "return_sequences"); ("return_state", EVar "return_state");
     ("go_backwards", EVar "go_backwards"); ("stateful", EVar "stateful"); ("unroll", EVar "unroll")]
    None
    ["units"; "activation"; "use_bias"; "kernel_initializer"; "recurrent_initializer"; "bias_initializer"; "kernel_regularizer"; "recurrent_regularizer";
     "bias_regularizer"; "kernel_constraint"; "recurrent_constraint"; "bias_constraint"; "dropout"; "recurrent_dropout"; "seed"].
(** keras, not in /repo: GRU.__init__, which makes a cell of its own *)
Definition i_GRU : ctor :=
  mk_ctor "GRU"
    [("units", None); ("activation", Some (VLit "'tanh'")); ("recurrent_activation", Some (VLit "'sigmoid'")); ("use_bias", Some (VLit "True"));
     ("kernel_initializer", Some (VLit "'glorot_uniform'")); ("recurrent_initializer", Some (VLit "'orthogonal'"));
     ("bias_initializer", Some (VLit "'zeros'")); ("kernel_regularizer", Some (VLit "None")); ("recurrent_regularizer", Some (VLit "None"));
     ("bias_regularizer", Some (VLit "None")); ("kernel_constraint", Some (VLit "None")); ("recurrent_constraint", Some (VLit "None"));
     ("bias_constraint", Some (VLit "None")); ("dropout", Some (VLit "0.0")); ("recurrent_dropout", Some (VLit "0.0"));
     ("return_sequences", Some (VLit "False")); ("return_state", Some (VLit "False")); ("go_backwards", Some (VLit "False"));
     ("stateful", Some (VLit "False")); ("unroll", Some (VLit "False")); ("reset_after", Some (VLit "True")); ("seed", Some (VLit "None"))]
    true
    []
    None
    [] []
    [("cell", ELit (VLit "GRUCell(...)")); ("return_sequences", EVar "return_sequences"); ("return_state", EVar "return_state");
     ("go_backwards", EVar "go_backwards"); ("stateful", EVar "stateful"); ("unroll", EVar "unroll")]
    None
    ["units"; "activation"; "recurrent_activation"; "use_bias"; "kernel_initializer"; "recurrent_initializer"; "bias_initializer"; "kernel_regularizer";
     "recurrent_regularizer"; "bias_regularizer"; "kernel_constraint"; "recurrent_constraint"; "bias_constraint"; "dropout"; "recurrent_dropout";
     "reset_after"; "seed"].
(** keras, not in /repo: Dot.__init__; the check is the assertion of QDot, layers/ops/merge.py 66, made after this constructor *)
Definition i_Dot : ctor :=
  mk_ctor "Dot"
    [("axes", None); ("normalize", Some (VLit "False"))]
    true
    [Falsy "normalize"]
    None
    [] []
    []
    None
    ["axes"; "normalize"].
(** keras, not in /repo: BasePooling.__init__ *)
Definition i_BasePooling : ctor :=
  mk_ctor "BasePooling"
    [("pool_size", None); ("strides", None); ("pool_dimensions", None); ("pool_mode", Some (VLit "'max'")); ("padding", Some (VLit "'valid'"));
     ("data_format", Some (VLit "None")); ("name", Some (VLit "None"))]
    true
    []
    None
    [] []
    [("name", EVar "name")]
    None
    ["pool_size"; "strides"; "pool_dimensions"; "pool_mode"; "padding"; "data_format"].
(** keras, not in /repo: BaseGlobalPooling.__init__ *)
Definition i_BaseGlobalPooling : ctor :=
  mk_ctor "BaseGlobalPooling"
    [("pool_dimensions", None); ("data_format", Some (VLit "None")); ("keepdims", Some (VLit "False"))]
    true
    []
    None
    [] []
    []
    None
    ["pool_dimensions"; "data_format"; "keepdims"].
(** keras, not in /repo: EarlyStopping.__init__ *)
Definition i_EarlyStopping : ctor :=
  mk_ctor "EarlyStopping"
    [("monitor", Some (VLit "'val_loss'")); ("min_delta", Some (VLit "0")); ("patience", Some (VLit "0")); ("verbose", Some (VLit "0"));
     ("mode", Some (VLit "'auto'")); ("baseline", Some (VLit "None")); ("restore_best_weights", Some (VLit "False")); ("start_from_epoch", Some (VLit "0"))]
    false
    []
    None
    [] []
    []
    None
    ["monitor"; "min_delta"; "patience"; "verbose"; "mode"; "baseline"; "restore_best_weights"; "start_from_epoch"].
(** keras, not in /repo: AveragePooling1D.__init__ *)
Definition i_AveragePooling1D : ctor :=
  mk_ctor "AveragePooling1D"
    [("pool_size", None); ("strides", Some (VLit "None")); ("padding", Some (VLit "'valid'")); ("data_format", Some (VLit "None"));
     ("name", Some (VLit "None"))]
    true
    []
    None
    [] []
    [("pool_size", EVar "pool_size"); ("strides", EVar "strides"); ("pool_dimensions", ELit (VLit "1")); ("pool_mode", ELit (VLit "'average'"));
     ("padding", EVar "padding"); ("data_format", EVar "data_format"); ("name", EVar "name")]
    None
    [].
(** keras, not in /repo: GlobalAveragePooling1D.__init__ *)
Definition i_GlobalAveragePooling1D : ctor :=
  mk_ctor "GlobalAveragePooling1D"
    [("data_format", Some (VLit "None")); ("keepdims", Some (VLit "False"))]
    true
    []
    None
    [] []
    [("pool_dimensions", ELit (VLit "1")); ("data_format", EVar "data_format"); ("keepdims", EVar "keepdims")]
    None
    [].
(** keras, not in /repo: MaxPooling1D.__init__ *)
Definition i_MaxPooling1D : ctor :=
  mk_ctor "MaxPooling1D"
    [("pool_size", Some (VLit "2")); ("strides", Some (VLit "None")); ("padding", Some (VLit "'valid'")); ("data_format", Some (VLit "None"));
     ("name", Some (VLit "None"))]
    true
    []
    None
    [] []
    [("pool_size", EVar "pool_size"); ("strides", EVar "strides"); ("pool_dimensions", ELit (VLit "1")); ("pool_mode", ELit (VLit "'max'"));
     ("padding", EVar "padding"); ("data_format", EVar "data_format"); ("name", EVar "name")]
    None
    [].
(** keras, not in /repo: GlobalMaxPooling1D.__init__ *)
Definition i_GlobalMaxPooling1D : ctor :=
  mk_ctor "GlobalMaxPooling1D"
    [("data_format", Some (VLit "None")); ("keepdims", Some (VLit "False"))]
    true
    []
    None
    [] []
    [("pool_dimensions", ELit (VLit "1")); ("data_format", EVar "data_format"); ("keepdims", EVar "keepdims")]
    None
    [].
(** keras, not in /repo: AveragePooling2D.__init__ *)
Definition i_AveragePooling2D : ctor :=
  mk_ctor "AveragePooling2D"
    [("pool_size", None); ("strides", Some (VLit "None")); ("padding", Some (VLit "'valid'")); ("data_format", Some (VLit "None"));
     ("name", Some (VLit "None"))]
    true
    []
    None
    [] []
    [("pool_size", EVar "pool_size"); ("strides", EVar "strides"); ("pool_dimensions", ELit (VLit "2")); ("pool_mode", ELit (VLit "'average'"));
     ("padding", EVar "padding"); ("data_format", EVar "data_format"); ("name", EVar "name")]
    None
    [].
(** keras, not in /repo: GlobalAveragePooling2D.__init__ *)
Definition i_GlobalAveragePooling2D : ctor :=
  mk_ctor "GlobalAveragePooling2D"
    [("data_format", Some (VLit "None")); ("keepdims", Some (VLit "False"))]
    true
    []
    None
    [] []
    [("pool_dimensions", ELit (VLit "2")); ("data_format", EVar "data_format"); ("keepdims", EVar "keepdims")]
    None
    [].
(** keras, not in /repo: MaxPooling2D.__init__ *)
Definition i_MaxPooling2D : ctor :=
  mk_ctor "MaxPooling2D"
    [("pool_size", Some (VLit "(2 2)")); ("strides", Some (VLit "None")); ("padding", Some (VLit "'valid'")); ("data_format", Some (VLit "None"));
     ("name", Some (VLit "None"))]
    true
    []
    None
    [] []
    [("pool_size", EVar "pool_size"); ("strides", EVar "strides"); ("pool_dimensions", ELit (VLit "2")); ("pool_mode", ELit (VLit "'max'"));
     ("padding", EVar "padding"); ("data_format", EVar "data_format"); ("name", EVar "name")]
    None
    [].
(** keras, not in /repo: GlobalMaxPooling2D.__init__ *)
Definition i_GlobalMaxPooling2D : ctor :=
  mk_ctor "GlobalMaxPooling2D"
    [("data_format", Some (VLit "None")); ("keepdims", Some (VLit "False"))]
    true
    []
    None
    [] []
    [("pool_dimensions", ELit (VLit "2")); ("data_format", EVar "data_format"); ("keepdims", EVar "keepdims")]
    None
    [].
(** keras, not in /repo: AveragePooling3D.__init__ *)
Definition i_AveragePooling3D : ctor :=
  mk_ctor "AveragePooling3D"
    [("pool_size", None); ("strides", Some (VLit "None")); ("padding", Some (VLit "'valid'")); ("data_format", Some (VLit "None"));
     ("name", Some (VLit "None"))]
    true
    []
    None
    [] []
    [("pool_size", EVar "pool_size"); ("strides", EVar "strides"); ("pool_dimensions", ELit (VLit "3")); ("pool_mode", ELit (VLit "'average'"));
     ("padding", EVar "padding"); ("data_format", EVar "data_format"); ("name", EVar "name")]
    None
    [].
(** keras, not in /repo: GlobalAveragePooling3D.__init__ *)
Definition i_GlobalAveragePooling3D : ctor :=
  mk_ctor "GlobalAveragePooling3D"
    [("data_format", Some (VLit "None")); ("keepdims", Some (VLit "False"))]
    true
    []
    None
    [] []
    [("pool_dimensions", ELit (VLit "3")); ("data_format", EVar "data_format"); ("keepdims", EVar "keepdims")]
    None
    [].
(** keras, not in /repo: MaxPooling3D.__init__ *)
Definition i_MaxPooling3D : ctor :=
  mk_ctor "MaxPooling3D"
    [("pool_size", Some (VLit "(2 2 2)")); ("strides", Some (VLit "None")); ("padding", Some (VLit "'valid'")); ("data_format", Some (VLit "None"));
     ("name", Some (VLit "None"))]
    true
    []
    None
    [] []
    [("pool_size", EVar "pool_size"); ("strides", EVar "strides"); ("pool_dimensions", ELit (VLit "3")); ("pool_mode", ELit (VLit "'max'"));
     ("padding", EVar "padding"); ("data_format", EVar "data_format"); ("name", EVar "name")]
    None
    [].
(** keras, not in /repo: GlobalMaxPooling3D.__init__ *)
Definition i_GlobalMaxPooling3D : ctor :=
  mk_ctor "GlobalMaxPooling3D"
    [("data_format", Some (VLit "None")); ("keepdims", Some (VLit "False"))]
    true
    []
    None
    [] []
    [("pool_dimensions", ELit (VLit "3")); ("data_format", EVar "data_format"); ("keepdims", EVar "keepdims")]
    None
    [].
(** /repo/src/hgq/layers/core/base.py 132-156 *)
Definition i_QLayerBase : ctor :=
  mk_ctor "QLayerBase"
    [("enable_ebops", Some (VLit "None")); ("beta0", Some (VLit "None")); ("enable_oq", Some (VLit "None")); ("enable_iq", Some (VLit "None"));
     ("oq_conf", Some (VLit "None")); ("ebops_factor", Some (VLit "1.0"))]
    true
    []
    None
    [] []
    []
    None
    ["enable_ebops"; "beta0"; "enable_oq"; "enable_iq"; "oq_conf"; "ebops_factor"].
(** /repo/src/hgq/layers/core/base.py 254-262 *)
Definition i_QLayerBaseSingleInput : ctor :=
  mk_ctor "QLayerBaseSingleInput"
    [("iq_conf", Some (VLit "None"))]
    true
    []
    None
    [] []
    []
    None
    ["iq_conf"].
(** /repo/src/hgq/layers/core/base.py 310-317 *)
Definition i_QLayerBaseMultiInputs : ctor :=
  mk_ctor "QLayerBaseMultiInputs"
    [("iq_confs", Some (VLit "None"))]
    true
    []
    None
    [] []
    []
    None
    ["iq_confs"].
(** /repo/src/hgq/layers/core/dense.py 13-38 *)
Definition i_QDense : ctor :=
  mk_ctor "QDense"
    [("units", None); ("activation", Some (VLit "None")); ("use_bias", Some (VLit "True")); ("kernel_initializer", Some (VLit "'glorot_uniform'"));
     ("bias_initializer", Some (VLit "'zeros'")); ("kernel_regularizer", Some (VLit "None")); ("bias_regularizer", Some (VLit "None"));
     ("activity_regularizer", Some (VLit "None")); ("kernel_constraint", Some (VLit "None")); ("bias_constraint", Some (VLit "None"));
     ("kq_conf", Some (VLit "None")); ("iq_conf", Some (VLit "None")); ("bq_conf", Some (VLit "None")); ("parallelization_factor", Some (VLit "-1"))]
    true
    []
    (Some [[TLit "self"]; [TLit "kq_conf"]; [TLit "bq_conf"]; [TLit "parallelization_factor"]])
    [] []
    [("lora_rank", ELit (VLit "None"))]
    None
    ["use_bias"; "kq_conf"; "bq_conf"; "parallelization_factor"].
(** /repo/src/hgq/layers/core/dense.py 106-158 *)
Definition i_QBatchNormDense : ctor :=
  mk_ctor "QBatchNormDense"
    [("units", None); ("activation", Some (VLit "None")); ("use_bias", Some (VLit "True")); ("kernel_initializer", Some (VLit "'glorot_uniform'"));
     ("bias_initializer", Some (VLit "'zeros'")); ("kernel_regularizer", Some (VLit "None")); ("bias_regularizer", Some (VLit "None"));
     ("activity_regularizer", Some (VLit "None")); ("kernel_constraint", Some (VLit "None")); ("bias_constraint", Some (VLit "None"));
     ("scale", Some (VLit "True")); ("momentum", Some (VLit "0.99")); ("epsilon", Some (VLit "0.001")); ("bn_gamma_initializer", Some (VLit "'ones'"));
     ("moving_mean_initializer", Some (VLit "'zeros'")); ("moving_variance_initializer", Some (VLit "'ones'"));
     ("bn_gamma_regularizer", Some (VLit "None")); ("bn_gamma_constraint", Some (VLit "None")); ("synchronized", Some (VLit "False"));
     ("kq_conf", Some (VLit "None")); ("iq_conf", Some (VLit "None")); ("bq_conf", Some (VLit "None"))]
    true
    [Truthy "use_bias"]
    None
    [] []
    [("units", EVar "units"); ("activation", EVar "activation"); ("use_bias", EVar "use_bias"); ("kernel_initializer", EVar "kernel_initializer");
     ("bias_initializer", EVar "bias_initializer"); ("kernel_regularizer", EVar "kernel_regularizer"); ("bias_regularizer", EVar "bias_regularizer");
     ("activity_regularizer", EVar "activity_regularizer"); ("kernel_constraint", EVar "kernel_constraint"); ("bias_constraint", EVar "bias_constraint");
     ("kq_conf", EVar "kq_conf"); ("iq_conf", EVar "iq_conf"); ("bq_conf", EVar "bq_conf")]
    None
    ["use_bias"; "scale"; "momentum"; "epsilon"; "bn_gamma_initializer"; "moving_mean_initializer"; "moving_variance_initializer"; "bn_gamma_regularizer";
     "bn_gamma_constraint"; "synchronized"].
(** /repo/src/hgq/layers/core/einsum_dense.py 24-49 *)
Definition i_QEinsumDense : ctor :=
  mk_ctor "QEinsumDense"
    [("equation", None); ("output_shape", None); ("activation", Some (VLit "None")); ("bias_axes", Some (VLit "None"));
     ("kernel_initializer", Some (VLit "'glorot_uniform'")); ("bias_initializer", Some (VLit "'zeros'")); ("kernel_regularizer", Some (VLit "None"));
     ("bias_regularizer", Some (VLit "None")); ("kernel_constraint", Some (VLit "None")); ("bias_constraint", Some (VLit "None"));
     ("kq_conf", Some (VLit "None")); ("iq_conf", Some (VLit "None")); ("bq_conf", Some (VLit "None")); ("parallelization_factor", Some (VLit "-1"))]
    true
    []
    (Some [[TLit "self"]; [TLit "kq_conf"]; [TLit "bq_conf"]; [TLit "parallelization_factor"]])
    [] []
    [("lora_rank", ELit (VLit "None"))]
    None
    ["bias_axes"; "kq_conf"; "bq_conf"; "parallelization_factor"].
(** /repo/src/hgq/layers/einsum_dense_batchnorm.py 12-79 *)
Definition i_QEinsumDenseBatchnorm : ctor :=
  mk_ctor "QEinsumDenseBatchnorm"
    [("equation", None); ("output_shape", None); ("activation", Some (VLit "None")); ("bias_axes", Some (VLit "None"));
     ("kernel_initializer", Some (VLit "'glorot_uniform'")); ("bias_initializer", Some (VLit "'zeros'")); ("kernel_regularizer", Some (VLit "None"));
     ("bias_regularizer", Some (VLit "None")); ("kernel_constraint", Some (VLit "None")); ("bias_constraint", Some (VLit "None"));
     ("kq_conf", Some (VLit "None")); ("iq_conf", Some (VLit "None")); ("bq_conf", Some (VLit "None")); ("normalize_axes", Some (VLit "None"));
     ("momentum", Some (VLit "0.99")); ("epsilon", Some (VLit "0.001")); ("center", Some (VLit "True")); ("scale", Some (VLit "True"));
     ("beta_initializer", Some (VLit "'zeros'")); ("gamma_initializer", Some (VLit "'ones'")); ("moving_mean_initializer", Some (VLit "'zeros'"));
     ("moving_variance_initializer", Some (VLit "'ones'")); ("beta_regularizer", Some (VLit "None")); ("gamma_regularizer", Some (VLit "None"));
     ("beta_constraint", Some (VLit "None")); ("gamma_constraint", Some (VLit "None")); ("synchronized", Some (VLit "False"))]
    true
    []
    None
    [] []
    [("equation", EVar "equation"); ("output_shape", EVar "output_shape"); ("activation", EVar "activation"); ("bias_axes", EVar "bias_axes");
     ("kernel_initializer", EVar "kernel_initializer"); ("bias_initializer", EVar "bias_initializer"); ("kernel_regularizer", EVar "kernel_regularizer");
     ("bias_regularizer", EVar "bias_regularizer"); ("kernel_constraint", EVar "kernel_constraint"); ("bias_constraint", EVar "bias_constraint");
     ("iq_conf", EVar "iq_conf"); ("kq_conf", EVar "kq_conf"); ("bq_conf", EVar "bq_conf")]
    None
    ["bias_axes"; "normalize_axes"; "momentum"; "epsilon"; "center"; "scale"; "beta_initializer"; "gamma_initializer"; "moving_mean_initializer";
     "moving_variance_initializer"; "beta_regularizer"; "gamma_regularizer"; "beta_constraint"; "gamma_constraint"; "synchronized"].
(** /repo/src/hgq/layers/conv.py 13-45 *)
Definition i_QBaseConv : ctor :=
  mk_ctor "QBaseConv"
    [("rank", None); ("filters", None); ("kernel_size", None); ("strides", Some (VLit "1")); ("padding", Some (VLit "'valid'"));
     ("data_format", Some (VLit "None")); ("dilation_rate", Some (VLit "1")); ("groups", Some (VLit "1")); ("activation", Some (VLit "None"));
     ("use_bias", Some (VLit "True")); ("kernel_initializer", Some (VLit "'glorot_uniform'")); ("bias_initializer", Some (VLit "'zeros'"));
     ("kernel_regularizer", Some (VLit "None")); ("bias_regularizer", Some (VLit "None")); ("activity_regularizer", Some (VLit "None"));
     ("kernel_constraint", Some (VLit "None")); ("bias_constraint", Some (VLit "None")); ("parallelization_factor", Some (VLit "-1"));
     ("kq_conf", Some (VLit "None")); ("iq_conf", Some (VLit "None")); ("bq_conf", Some (VLit "None"))]
    true
    []
    (Some [[TLit "self"]; [TLit "kq_conf"]; [TLit "bq_conf"]; [TLit "parallelization_factor"]])
    [] []
    []
    None
    ["use_bias"; "parallelization_factor"; "kq_conf"; "bq_conf"].
(** /repo/src/hgq/layers/conv.py 128-152 *)
Definition i_QConv1D : ctor :=
  mk_ctor "QConv1D"
    [("filters", None); ("kernel_size", None); ("strides", Some (VLit "1")); ("padding", Some (VLit "'valid'")); ("data_format", Some (VLit "None"));
     ("dilation_rate", Some (VLit "1")); ("groups", Some (VLit "1")); ("activation", Some (VLit "None")); ("use_bias", Some (VLit "True"));
     ("kernel_initializer", Some (VLit "'glorot_uniform'")); ("bias_initializer", Some (VLit "'zeros'")); ("kernel_regularizer", Some (VLit "None"));
     ("bias_regularizer", Some (VLit "None")); ("activity_regularizer", Some (VLit "None")); ("kernel_constraint", Some (VLit "None"));
     ("bias_constraint", Some (VLit "None")); ("kq_conf", Some (VLit "None")); ("iq_conf", Some (VLit "None")); ("bq_conf", Some (VLit "None"))]
    true
    []
    (Some [[TLit "self"]])
    [] []
    [("rank", ELit (VLit "1"))]
    None
    [].
(** /repo/src/hgq/layers/conv.py 176-200 *)
Definition i_QConv2D : ctor :=
  mk_ctor "QConv2D"
    [("filters", None); ("kernel_size", None); ("strides", Some (VLit "(1, 1)")); ("padding", Some (VLit "'valid'")); ("data_format", Some (VLit "None"));
     ("dilation_rate", Some (VLit "(1, 1)")); ("groups", Some (VLit "1")); ("activation", Some (VLit "None")); ("use_bias", Some (VLit "True"));
     ("kernel_initializer", Some (VLit "'glorot_uniform'")); ("bias_initializer", Some (VLit "'zeros'")); ("kernel_regularizer", Some (VLit "None"));
     ("bias_regularizer", Some (VLit "None")); ("activity_regularizer", Some (VLit "None")); ("kernel_constraint", Some (VLit "None"));
     ("bias_constraint", Some (VLit "None")); ("kq_conf", Some (VLit "None")); ("iq_conf", Some (VLit "None")); ("bq_conf", Some (VLit "None"))]
    true
    []
    (Some [[TLit "self"]])
    [] []
    [("rank", ELit (VLit "2"))]
    None
    [].
(** /repo/src/hgq/layers/conv.py 204-228 *)
Definition i_QConv3D : ctor :=
  mk_ctor "QConv3D"
    [("filters", None); ("kernel_size", None); ("strides", Some (VLit "(1, 1, 1)")); ("padding", Some (VLit "'valid'"));
     ("data_format", Some (VLit "None")); ("dilation_rate", Some (VLit "(1, 1, 1)")); ("groups", Some (VLit "1")); ("activation", Some (VLit "None"));
     ("use_bias", Some (VLit "True")); ("kernel_initializer", Some (VLit "'glorot_uniform'")); ("bias_initializer", Some (VLit "'zeros'"));
     ("kernel_regularizer", Some (VLit "None")); ("bias_regularizer", Some (VLit "None")); ("activity_regularizer", Some (VLit "None"));
     ("kernel_constraint", Some (VLit "None")); ("bias_constraint", Some (VLit "None")); ("kq_conf", Some (VLit "None")); ("iq_conf", Some (VLit "None"));
     ("bq_conf", Some (VLit "None"))]
    true
    []
    (Some [[TLit "self"]])
    [] []
    [("rank", ELit (VLit "3"))]
    None
    [].
(** /repo/src/hgq/layers/batch_normalization.py 36-63 *)
Definition i_QBatchNormalization : ctor :=
  mk_ctor "QBatchNormalization"
    [("axis", Some (VLit "-1")); ("momentum", Some (VLit "0.99")); ("epsilon", Some (VLit "0.001")); ("center", Some (VLit "True"));
     ("scale", Some (VLit "True")); ("beta_initializer", Some (VLit "'zeros'")); ("gamma_initializer", Some (VLit "'ones'"));
     ("moving_mean_initializer", Some (VLit "'zeros'")); ("moving_variance_initializer", Some (VLit "'ones'")); ("beta_regularizer", Some (VLit "None"));
     ("gamma_regularizer", Some (VLit "None")); ("beta_constraint", Some (VLit "None")); ("gamma_constraint", Some (VLit "None"));
     ("synchronized", Some (VLit "False")); ("kq_conf", Some (VLit "None")); ("iq_conf", Some (VLit "None")); ("bq_conf", Some (VLit "None"))]
    true
    []
    (Some [[TLit "self"]; [TLit "kq_conf"]; [TLit "bq_conf"]])
    [] []
    []
    None
    ["kq_conf"; "bq_conf"].
(** /repo/src/hgq/layers/attn/mha.py 28-79 *)
Definition i_QMultiHeadAttention : ctor :=
  mk_ctor "QMultiHeadAttention"
    [("num_heads", None); ("key_dim", None); ("value_dim", Some (VLit "None")); ("dropout", Some (VLit "0.0")); ("use_bias", Some (VLit "True"));
     ("output_shape", Some (VLit "None")); ("attention_axes", Some (VLit "None")); ("kernel_initializer", Some (VLit "'glorot_uniform'"));
     ("bias_initializer", Some (VLit "'zeros'")); ("kernel_regularizer", Some (VLit "None")); ("bias_regularizer", Some (VLit "None"));
     ("activity_regularizer", Some (VLit "None")); ("kernel_constraint", Some (VLit "None")); ("bias_constraint", Some (VLit "None"));
     ("seed", Some (VLit "None")); ("fuse", Some (VLit "'none'")); ("qkvo_iq_conf", Some (VLit "None")); ("qkvo_kq_conf", Some (VLit "None"));
     ("qkvo_bq_conf", Some (VLit "None")); ("qkvo_oq_conf", Some (VLit "None")); ("softmax_iq_conf", Some (VLit "None"));
     ("softmax_exp_iq_conf", Some (VLit "None")); ("softmax_exp_oq_conf", Some (VLit "None")); ("softmax_inv_iq_conf", Some (VLit "None"));
     ("softmax_inv_oq_conf", Some (VLit "None")); ("softmax_oq_conf", Some (VLit "None")); ("stable_softmax", Some (VLit "True"));
     ("softmax_allow_heterogeneous_table", Some (VLit "False")); ("parallelization_factor", Some (VLit "-1"))]
    true
    []
    (Some [[TLit "self"]; [TAnyPlus; TLit "q_conf"]])
    [] ["softmax_allow_heterogeneous_table"; "parallelization_factor"; "stable_softmax"; "fuse"]
    []
    None
    ["key_dim"; "fuse"; "qkvo_iq_conf"; "qkvo_kq_conf"; "qkvo_bq_conf"; "qkvo_oq_conf"; "softmax_iq_conf"; "softmax_exp_iq_conf"; "softmax_exp_oq_conf";
     "softmax_inv_iq_conf"; "softmax_inv_oq_conf"; "softmax_oq_conf"; "stable_softmax"; "softmax_allow_heterogeneous_table"; "parallelization_factor"].
(** /repo/src/hgq/layers/attn/mha.py 549-605 *)
Definition i_QMultiHeadAttentionT : ctor :=
  mk_ctor "QMultiHeadAttentionT"
    [("num_heads", None); ("key_dim", None); ("value_dim", Some (VLit "None")); ("dropout", Some (VLit "0.0")); ("use_bias", Some (VLit "True"));
     ("output_shape", Some (VLit "None")); ("attention_axes", Some (VLit "None")); ("kernel_initializer", Some (VLit "'glorot_uniform'"));
     ("bias_initializer", Some (VLit "'zeros'")); ("kernel_regularizer", Some (VLit "None")); ("bias_regularizer", Some (VLit "None"));
     ("activity_regularizer", Some (VLit "None")); ("kernel_constraint", Some (VLit "None")); ("bias_constraint", Some (VLit "None"));
     ("seed", Some (VLit "None")); ("qkvo_iq_conf", Some (VLit "None")); ("qkvo_toq_conf", Some (VLit "None")); ("qkvo_oq_conf", Some (VLit "None"));
     ("softmax_iq_conf", Some (VLit "None")); ("softmax_exp_iq_conf", Some (VLit "None")); ("softmax_exp_oq_conf", Some (VLit "None"));
     ("softmax_inv_iq_conf", Some (VLit "None")); ("softmax_inv_oq_conf", Some (VLit "None")); ("softmax_oq_conf", Some (VLit "None"));
     ("stable_softmax", Some (VLit "True")); ("softmax_allow_heterogeneous_table", Some (VLit "False")); ("parallelization_factor", Some (VLit "-1"));
     ("n_hl", Some (VLit "1")); ("d_hl", Some (VLit "8")); ("subnn_activation", Some (VLit "'tanh'")); ("table_spec", Some (VLit "(6, 5)"));
     ("batch_norm", Some (VLit "False")); ("bn_center", Some (VLit "True")); ("bn_scale", Some (VLit "True")); ("bn_momentum", Some (VLit "0.99"));
     ("bn_epsilon", Some (VLit "0.001"))]
    true
    []
    (Some [[TLit "self"]; [TLit "qkvo_toq_conf"]; [TLit "n_hl"]; [TLit "d_hl"]; [TLit "subnn_activation"]; [TLit "table_spec"]; [TLit "batch_norm"]; [TLit "bn_"; TAnyPlus]])
    [("fuse", VLit "'none'")] []
    []
    None
    ["qkvo_toq_conf"; "n_hl"; "d_hl"; "subnn_activation"; "table_spec"; "batch_norm"; "bn_center"; "bn_scale"; "bn_momentum"; "bn_epsilon"].
(** /repo/src/hgq/layers/attn/linformer.py 14-58 *)
Definition i_QLinformerAttention : ctor :=
  mk_ctor "QLinformerAttention"
    [("num_heads", None); ("lin_kv_proj_dim", None); ("key_dim", None); ("value_dim", Some (VLit "None")); ("dropout", Some (VLit "0.0"));
     ("use_bias", Some (VLit "True")); ("output_shape", Some (VLit "None")); ("attention_axes", Some (VLit "None"));
     ("kernel_initializer", Some (VLit "'glorot_uniform'")); ("bias_initializer", Some (VLit "'zeros'")); ("kernel_regularizer", Some (VLit "None"));
     ("bias_regularizer", Some (VLit "None")); ("activity_regularizer", Some (VLit "None")); ("kernel_constraint", Some (VLit "None"));
     ("bias_constraint", Some (VLit "None")); ("seed", Some (VLit "None")); ("fuse", Some (VLit "'none'")); ("qkvo_iq_conf", Some (VLit "None"));
     ("qkvo_kq_conf", Some (VLit "None")); ("qkvo_bq_conf", Some (VLit "None")); ("qkvo_oq_conf", Some (VLit "None"));
     ("softmax_iq_conf", Some (VLit "None")); ("softmax_exp_iq_conf", Some (VLit "None")); ("softmax_exp_oq_conf", Some (VLit "None"));
     ("softmax_inv_iq_conf", Some (VLit "None")); ("softmax_inv_oq_conf", Some (VLit "None")); ("softmax_oq_conf", Some (VLit "None"));
     ("stable_softmax", Some (VLit "True")); ("softmax_allow_heterogeneous_table", Some (VLit "False")); ("parallelization_factor", Some (VLit "-1"));
     ("share_kv_proj", Some (VLit "False")); ("lin_kv_proj_mode", Some (VLit "'dense'"))]
    true
    [MustBe "fuse" [VLit "'none'"]; MustBe "lin_kv_proj_mode" [VLit "'dense'"; VLit "'dense_t'"]]
    (Some [[TLit "self"]; [TLit "lin_kv_proj_dim"]; [TLit "share_kv_proj"]; [TLit "lin_kv_proj_mode"]])
    [] []
    []
    None
    ["lin_kv_proj_dim"; "fuse"; "share_kv_proj"; "lin_kv_proj_mode"].
(** /repo/src/hgq/layers/attn/linformer.py 186-231 *)
Definition i_QLinformerAttentionT : ctor :=
  mk_ctor "QLinformerAttentionT"
    [("num_heads", None); ("lin_kv_proj_dim", None); ("key_dim", None); ("value_dim", Some (VLit "None")); ("dropout", Some (VLit "0.0"));
     ("use_bias", Some (VLit "True")); ("output_shape", Some (VLit "None")); ("attention_axes", Some (VLit "None"));
     ("kernel_initializer", Some (VLit "'glorot_uniform'")); ("bias_initializer", Some (VLit "'zeros'")); ("kernel_regularizer", Some (VLit "None"));
     ("bias_regularizer", Some (VLit "None")); ("activity_regularizer", Some (VLit "None")); ("kernel_constraint", Some (VLit "None"));
     ("bias_constraint", Some (VLit "None")); ("seed", Some (VLit "None")); ("fuse", Some (VLit "'none'")); ("qkvo_iq_conf", Some (VLit "None"));
     ("qkvo_toq_conf", Some (VLit "None")); ("qkvo_oq_conf", Some (VLit "None")); ("softmax_iq_conf", Some (VLit "None"));
     ("softmax_exp_iq_conf", Some (VLit "None")); ("softmax_exp_oq_conf", Some (VLit "None")); ("softmax_inv_iq_conf", Some (VLit "None"));
     ("softmax_inv_oq_conf", Some (VLit "None")); ("softmax_oq_conf", Some (VLit "None")); ("stable_softmax", Some (VLit "True"));
     ("softmax_allow_heterogeneous_table", Some (VLit "False")); ("parallelization_factor", Some (VLit "-1")); ("share_kv_proj", Some (VLit "False"));
     ("lin_kv_proj_mode", Some (VLit "'dense_t'")); ("n_hl", Some (VLit "1")); ("d_hl", Some (VLit "8")); ("subnn_activation", Some (VLit "'tanh'"));
     ("table_spec", Some (VLit "(6, 5)")); ("batch_norm", Some (VLit "False")); ("bn_center", Some (VLit "True")); ("bn_scale", Some (VLit "True"));
     ("bn_momentum", Some (VLit "0.99")); ("bn_epsilon", Some (VLit "0.001"))]
    true
    []
    (Some [[TLit "self"]])
    [] []
    []
    None
    [].
(** /repo/src/hgq/layers/attn/salt.py 18-66 *)
Definition i_QSALTAttention : ctor :=
  mk_ctor "QSALTAttention"
    [("num_heads", None); ("lin_kv_proj_dim", None); ("key_dim", None); ("value_dim", Some (VLit "None")); ("dropout", Some (VLit "0.0"));
     ("use_bias", Some (VLit "True")); ("output_shape", Some (VLit "None")); ("attention_axes", Some (VLit "None"));
     ("kernel_initializer", Some (VLit "'glorot_uniform'")); ("bias_initializer", Some (VLit "'zeros'")); ("kernel_regularizer", Some (VLit "None"));
     ("bias_regularizer", Some (VLit "None")); ("activity_regularizer", Some (VLit "None")); ("kernel_constraint", Some (VLit "None"));
     ("bias_constraint", Some (VLit "None")); ("seed", Some (VLit "None")); ("fuse", Some (VLit "'none'")); ("qkvo_iq_conf", Some (VLit "None"));
     ("qkvo_kq_conf", Some (VLit "None")); ("qkvo_bq_conf", Some (VLit "None")); ("qkvo_oq_conf", Some (VLit "None"));
     ("softmax_iq_conf", Some (VLit "None")); ("softmax_exp_iq_conf", Some (VLit "None")); ("softmax_exp_oq_conf", Some (VLit "None"));
     ("softmax_inv_iq_conf", Some (VLit "None")); ("softmax_inv_oq_conf", Some (VLit "None")); ("softmax_oq_conf", Some (VLit "None"));
     ("stable_softmax", Some (VLit "True")); ("softmax_allow_heterogeneous_table", Some (VLit "False")); ("parallelization_factor", Some (VLit "-1"));
     ("share_kv_proj", Some (VLit "False")); ("cluster_k_proj", Some (VLit "False")); ("cluster_v_proj", Some (VLit "False"));
     ("conv_size", Some (VLit "3")); ("separate_conv", Some (VLit "False"))]
    true
    [MustBe "fuse" [VLit "'none'"]]
    (Some [[TLit "self"]; [TLit "lin_kv_proj_dim"]; [TLit "share_kv_proj"]; [TLit "conv_size"]; [TLit "cluster_k_proj"]; [TLit "cluster_v_proj"]; [TLit "separate_conv"]])
    [] []
    []
    None
    ["lin_kv_proj_dim"; "fuse"; "share_kv_proj"; "cluster_k_proj"; "cluster_v_proj"; "conv_size"; "separate_conv"].
(** /repo/src/hgq/layers/activation.py 19-56; iq_conf and oq_conf are changed in place, and the default of oq_conf is chosen even if enable_oq is false, when it is not used *)
Definition i_QUnaryFunctionLUT : ctor :=
  mk_ctor "QUnaryFunctionLUT"
    [("activation", None); ("iq_conf", Some (VLit "None")); ("oq_conf", Some (VLit "None")); ("enable_oq", Some (VLit "True"));
     ("enable_iq", Some (VLit "True")); ("allow_heterogeneous_input", Some (VLit "True")); ("allow_heterogeneous_table", Some (VLit "True"));
     ("override_oq_k0_to_0", Some (VLit "False"))]
    true
    [MustNotBe "activation" [VLit "'softmax'"; VLit "'log_softmax'"]]
    None
    [] []
    [("activation", EVar "activation"); ("iq_conf", EVar "iq_conf"); ("oq_conf", EOr "oq_conf" (VLit "QuantizerConfig('default', 'table')"));
     ("enable_oq", EVar "enable_oq"); ("enable_iq", EVar "enable_iq")]
    None
    ["activation"; "iq_conf"; "oq_conf"; "enable_oq"; "enable_iq"; "allow_heterogeneous_input"; "allow_heterogeneous_table"; "override_oq_k0_to_0"].
(** /repo/src/hgq/layers/activation.py 77-98 *)
Definition i_QAffinedUnaryFunctionLUT : ctor :=
  mk_ctor "QAffinedUnaryFunctionLUT"
    [("activation", None); ("iq_conf", Some (VLit "None")); ("oq_conf", Some (VLit "None")); ("enable_oq", Some (VLit "True"));
     ("enable_iq", Some (VLit "True")); ("allow_heterogeneous_input", Some (VLit "True")); ("allow_heterogeneous_table", Some (VLit "True"))]
    true
    []
    None
    [] []
    [("activation", EVar "activation"); ("iq_conf", EVar "iq_conf"); ("oq_conf", EVar "oq_conf"); ("enable_oq", EVar "enable_oq");
     ("enable_iq", EVar "enable_iq"); ("allow_heterogeneous_input", EVar "allow_heterogeneous_input");
     ("allow_heterogeneous_table", EVar "allow_heterogeneous_table")]
    None
    [].
(** /repo/src/hgq/layers/softmax.py 14-100; kwargs.pop(axes, None) is written as a parameter *)
Definition i_QSoftmax : ctor :=
  mk_ctor "QSoftmax"
    [("axis", Some (VLit "None")); ("iq_conf", Some (VLit "None")); ("stable", Some (VLit "True")); ("enable_iq", Some (VLit "False"));
     ("exp_iq_conf", Some (VLit "None")); ("exp_oq_conf", Some (VLit "None")); ("inv_iq_conf", Some (VLit "None")); ("inv_oq_conf", Some (VLit "None"));
     ("allow_heterogeneous_table", Some (VLit "False")); ("input_scaler", Some (VLit "1.0")); ("parallelization_factor", Some (VLit "-1"));
     ("enable_ebops", Some (VLit "None")); ("axes", Some (VLit "None"))]
    true
    [NotBoth "axis" "axes"]
    None
    [] []
    [("iq_conf", EVar "iq_conf"); ("enable_iq", EVar "enable_iq"); ("enable_ebops", EOr "enable_ebops" (VLit "global_config['enable_ebops']"))]
    None
    ["axis"; "stable"; "exp_iq_conf"; "exp_oq_conf"; "inv_iq_conf"; "inv_oq_conf"; "allow_heterogeneous_table"; "input_scaler"; "parallelization_factor";
     "axes"].
(** /repo/src/hgq/layers/table/dense.py 23-62 *)
Definition i_QDenseT : ctor :=
  mk_ctor "QDenseT"
    [("n_out", None); ("n_hl", Some (VLit "1")); ("d_hl", Some (VLit "8")); ("activation", Some (VLit "None"));
     ("subnn_activation", Some (VLit "'tanh'")); ("toq_conf", Some (VLit "None")); ("parallelization_factor", Some (VLit "-1"));
     ("use_bias", Some (VLit "True")); ("batch_norm", Some (VLit "False")); ("bn_center", Some (VLit "True")); ("bn_scale", Some (VLit "True"));
     ("bn_momentum", Some (VLit "0.99")); ("bn_epsilon", Some (VLit "0.001")); ("table_idxs", Some (VLit "(6, 5)"))]
    true
    []
    None
    [] []
    []
    None
    ["n_out"; "n_hl"; "d_hl"; "activation"; "subnn_activation"; "toq_conf"; "parallelization_factor"; "use_bias"; "batch_norm"; "bn_center"; "bn_scale";
     "bn_momentum"; "bn_epsilon"; "table_idxs"].
(** /repo/src/hgq/layers/table/dense.py 171-211 *)
Definition i_QEinsumDenseT : ctor :=
  mk_ctor "QEinsumDenseT"
    [("equation", None); ("output_shape", None); ("n_hl", Some (VLit "1")); ("d_hl", Some (VLit "8")); ("activation", Some (VLit "None"));
     ("subnn_activation", Some (VLit "'tanh'")); ("bias_axes", Some (VLit "None")); ("normalize_axes", Some (VLit "None"));
     ("toq_conf", Some (VLit "None")); ("parallelization_factor", Some (VLit "-1")); ("batch_norm", Some (VLit "False"));
     ("bn_center", Some (VLit "True")); ("bn_scale", Some (VLit "True")); ("bn_momentum", Some (VLit "0.99")); ("bn_epsilon", Some (VLit "0.001"));
     ("table_idxs", Some (VLit "(6, 5)"))]
    true
    []
    None
    [] []
    []
    None
    ["equation"; "output_shape"; "n_hl"; "d_hl"; "activation"; "subnn_activation"; "bias_axes"; "normalize_axes"; "toq_conf"; "parallelization_factor";
     "batch_norm"; "bn_center"; "bn_scale"; "bn_momentum"; "bn_epsilon"; "table_idxs"].
(** /repo/src/hgq/layers/table/conv.py 24-71 *)
Definition i_QConvTBase : ctor :=
  mk_ctor "QConvTBase"
    [("filters", None); ("kernel_size", None); ("rank", None); ("n_hl", Some (VLit "1")); ("d_hl", Some (VLit "8")); ("strides", Some (VLit "1"));
     ("padding", Some (VLit "'valid'")); ("data_format", Some (VLit "None")); ("dilation_rate", Some (VLit "1")); ("groups", Some (VLit "1"));
     ("activation", Some (VLit "None")); ("subnn_activation", Some (VLit "None")); ("use_bias", Some (VLit "True"));
     ("activity_regularizer", Some (VLit "None")); ("toq_conf", Some (VLit "None")); ("parallelization_factor", Some (VLit "-1"))]
    true
    [MustBe "groups" [VLit "1"]]
    None
    [] []
    [("n_out", EVar "filters"); ("n_hl", EVar "n_hl"); ("d_hl", EVar "d_hl"); ("activation", EVar "activation");
     ("subnn_activation", EVar "subnn_activation"); ("toq_conf", EVar "toq_conf"); ("parallelization_factor", EVar "parallelization_factor");
     ("use_bias", EVar "use_bias")]
    None
    ["kernel_size"; "rank"; "strides"; "padding"; "data_format"; "dilation_rate"; "groups"; "activity_regularizer"].
(** /repo/src/hgq/layers/table/conv.py 155-192 *)
Definition i_QConvT1D : ctor :=
  mk_ctor "QConvT1D"
    [("filters", None); ("kernel_size", None); ("n_hl", Some (VLit "1")); ("d_hl", Some (VLit "8")); ("strides", Some (VLit "1"));
     ("padding", Some (VLit "'valid'")); ("data_format", Some (VLit "None")); ("dilation_rate", Some (VLit "1")); ("groups", Some (VLit "1"));
     ("activation", Some (VLit "None")); ("subnn_activation", Some (VLit "None")); ("use_bias", Some (VLit "True"));
     ("activity_regularizer", Some (VLit "None")); ("toq_conf", Some (VLit "None")); ("parallelization_factor", Some (VLit "-1"))]
    true
    []
    None
    [] []
    [("filters", EVar "filters"); ("kernel_size", EVar "kernel_size"); ("rank", ELit (VLit "1")); ("n_hl", EVar "n_hl"); ("d_hl", EVar "d_hl");
     ("strides", EVar "strides"); ("padding", EVar "padding"); ("data_format", EVar "data_format"); ("dilation_rate", EVar "dilation_rate");
     ("groups", EVar "groups"); ("activation", EVar "activation"); ("subnn_activation", EVar "subnn_activation"); ("use_bias", EVar "use_bias");
     ("activity_regularizer", EVar "activity_regularizer"); ("toq_conf", EVar "toq_conf"); ("parallelization_factor", EVar "parallelization_factor")]
    None
    [].
(** /repo/src/hgq/layers/table/conv.py 197-234 *)
Definition i_QConvT2D : ctor :=
  mk_ctor "QConvT2D"
    [("filters", None); ("kernel_size", None); ("n_hl", Some (VLit "1")); ("d_hl", Some (VLit "8")); ("strides", Some (VLit "1"));
     ("padding", Some (VLit "'valid'")); ("data_format", Some (VLit "None")); ("dilation_rate", Some (VLit "1")); ("groups", Some (VLit "1"));
     ("activation", Some (VLit "None")); ("subnn_activation", Some (VLit "None")); ("use_bias", Some (VLit "True"));
     ("activity_regularizer", Some (VLit "None")); ("toq_conf", Some (VLit "None")); ("parallelization_factor", Some (VLit "-1"))]
    true
    []
    None
    [] []
    [("filters", EVar "filters"); ("kernel_size", EVar "kernel_size"); ("rank", ELit (VLit "2")); ("n_hl", EVar "n_hl"); ("d_hl", EVar "d_hl");
     ("strides", EVar "strides"); ("padding", EVar "padding"); ("data_format", EVar "data_format"); ("dilation_rate", EVar "dilation_rate");
     ("groups", EVar "groups"); ("activation", EVar "activation"); ("subnn_activation", EVar "subnn_activation"); ("use_bias", EVar "use_bias");
     ("activity_regularizer", EVar "activity_regularizer"); ("toq_conf", EVar "toq_conf"); ("parallelization_factor", EVar "parallelization_factor")]
    None
    [].
(** /repo/src/hgq/layers/pooling.py 24-26 *)
Definition i_QBasePooling : ctor :=
  mk_ctor "QBasePooling"
    [("parallelization_factor", Some (VLit "-1"))]
    true
    []
    None
    [] []
    []
    None
    ["parallelization_factor"].
(** /repo/src/hgq/layers/pooling.py 51-71 *)
Definition i_QAveragePooling1D : ctor :=
  mk_ctor "QAveragePooling1D"
    [("pool_size", None); ("strides", Some (VLit "None")); ("padding", Some (VLit "'valid'")); ("data_format", Some (VLit "None"));
     ("name", Some (VLit "None")); ("iq_conf", Some (VLit "None")); ("oq_conf", Some (VLit "None"))]
    true
    []
    None
    [] []
    [("pool_size", EVar "pool_size"); ("strides", EVar "strides"); ("padding", EVar "padding"); ("data_format", EVar "data_format");
     ("name", EVar "name"); ("iq_conf", EVar "iq_conf"); ("oq_conf", EVar "oq_conf")]
    None
    [].
(** /repo/src/hgq/layers/pooling.py 75-95 *)
Definition i_QAveragePooling2D : ctor :=
  mk_ctor "QAveragePooling2D"
    [("pool_size", None); ("strides", Some (VLit "None")); ("padding", Some (VLit "'valid'")); ("data_format", Some (VLit "None"));
     ("name", Some (VLit "None")); ("iq_conf", Some (VLit "None")); ("oq_conf", Some (VLit "None"))]
    true
    []
    None
    [] []
    [("pool_size", EVar "pool_size"); ("strides", EVar "strides"); ("padding", EVar "padding"); ("data_format", EVar "data_format");
     ("name", EVar "name"); ("iq_conf", EVar "iq_conf"); ("oq_conf", EVar "oq_conf")]
    None
    [].
(** /repo/src/hgq/layers/pooling.py 99-119 *)
Definition i_QAveragePooling3D : ctor :=
  mk_ctor "QAveragePooling3D"
    [("pool_size", None); ("strides", Some (VLit "None")); ("padding", Some (VLit "'valid'")); ("data_format", Some (VLit "None"));
     ("name", Some (VLit "None")); ("iq_conf", Some (VLit "None")); ("oq_conf", Some (VLit "None"))]
    true
    []
    None
    [] []
    [("pool_size", EVar "pool_size"); ("strides", EVar "strides"); ("padding", EVar "padding"); ("data_format", EVar "data_format");
     ("name", EVar "name"); ("iq_conf", EVar "iq_conf"); ("oq_conf", EVar "oq_conf")]
    None
    [].
(** /repo/src/hgq/layers/pooling.py 123-143 *)
Definition i_QMaxPooling1D : ctor :=
  mk_ctor "QMaxPooling1D"
    [("pool_size", None); ("strides", Some (VLit "None")); ("padding", Some (VLit "'valid'")); ("data_format", Some (VLit "None"));
     ("name", Some (VLit "None")); ("iq_conf", Some (VLit "None")); ("oq_conf", Some (VLit "None"))]
    true
    []
    None
    [] []
    [("pool_size", EVar "pool_size"); ("strides", EVar "strides"); ("padding", EVar "padding"); ("data_format", EVar "data_format");
     ("name", EVar "name"); ("iq_conf", EVar "iq_conf"); ("oq_conf", EVar "oq_conf")]
    None
    [].
(** /repo/src/hgq/layers/pooling.py 147-167 *)
Definition i_QMaxPooling2D : ctor :=
  mk_ctor "QMaxPooling2D"
    [("pool_size", None); ("strides", Some (VLit "None")); ("padding", Some (VLit "'valid'")); ("data_format", Some (VLit "None"));
     ("name", Some (VLit "None")); ("iq_conf", Some (VLit "None")); ("oq_conf", Some (VLit "None"))]
    true
    []
    None
    [] []
    [("pool_size", EVar "pool_size"); ("strides", EVar "strides"); ("padding", EVar "padding"); ("data_format", EVar "data_format");
     ("name", EVar "name"); ("iq_conf", EVar "iq_conf"); ("oq_conf", EVar "oq_conf")]
    None
    [].
(** /repo/src/hgq/layers/pooling.py 171-191 *)
Definition i_QMaxPooling3D : ctor :=
  mk_ctor "QMaxPooling3D"
    [("pool_size", None); ("strides", Some (VLit "None")); ("padding", Some (VLit "'valid'")); ("data_format", Some (VLit "None"));
     ("name", Some (VLit "None")); ("iq_conf", Some (VLit "None")); ("oq_conf", Some (VLit "None"))]
    true
    []
    None
    [] []
    [("pool_size", EVar "pool_size"); ("strides", EVar "strides"); ("padding", EVar "padding"); ("data_format", EVar "data_format");
     ("name", EVar "name"); ("iq_conf", EVar "iq_conf"); ("oq_conf", EVar "oq_conf")]
    None
    [].
(** /repo/src/hgq/layers/pooling.py 195-209 *)
Definition i_QGlobalAveragePooling1D : ctor :=
  mk_ctor "QGlobalAveragePooling1D"
    [("data_format", Some (VLit "None")); ("keepdims", Some (VLit "False")); ("iq_conf", Some (VLit "None")); ("oq_conf", Some (VLit "None"))]
    true
    []
    None
    [] []
    [("data_format", EVar "data_format"); ("keepdims", EVar "keepdims"); ("iq_conf", EVar "iq_conf"); ("oq_conf", EVar "oq_conf")]
    None
    [].
(** /repo/src/hgq/layers/pooling.py 213-227 *)
Definition i_QGlobalAveragePooling2D : ctor :=
  mk_ctor "QGlobalAveragePooling2D"
    [("data_format", Some (VLit "None")); ("keepdims", Some (VLit "False")); ("iq_conf", Some (VLit "None")); ("oq_conf", Some (VLit "None"))]
    true
    []
    None
    [] []
    [("data_format", EVar "data_format"); ("keepdims", EVar "keepdims"); ("iq_conf", EVar "iq_conf"); ("oq_conf", EVar "oq_conf")]
    None
    [].
(** /repo/src/hgq/layers/pooling.py 231-245 *)
Definition i_QGlobalAveragePooling3D : ctor :=
  mk_ctor "QGlobalAveragePooling3D"
    [("data_format", Some (VLit "None")); ("keepdims", Some (VLit "False")); ("iq_conf", Some (VLit "None")); ("oq_conf", Some (VLit "None"))]
    true
    []
    None
    [] []
    [("data_format", EVar "data_format"); ("keepdims", EVar "keepdims"); ("iq_conf", EVar "iq_conf"); ("oq_conf", EVar "oq_conf")]
    None
    [].
(** /repo/src/hgq/layers/pooling.py 249-263 *)
Definition i_QGlobalMaxPooling1D : ctor :=
  mk_ctor "QGlobalMaxPooling1D"
    [("data_format", Some (VLit "None")); ("keepdims", Some (VLit "False")); ("iq_conf", Some (VLit "None")); ("oq_conf", Some (VLit "None"))]
    true
    []
    None
    [] []
    [("data_format", EVar "data_format"); ("keepdims", EVar "keepdims"); ("iq_conf", EVar "iq_conf"); ("oq_conf", EVar "oq_conf")]
    None
    [].
(** /repo/src/hgq/layers/pooling.py 267-281 *)
Definition i_QGlobalMaxPooling2D : ctor :=
  mk_ctor "QGlobalMaxPooling2D"
    [("data_format", Some (VLit "None")); ("keepdims", Some (VLit "False")); ("iq_conf", Some (VLit "None")); ("oq_conf", Some (VLit "None"))]
    true
    []
    None
    [] []
    [("data_format", EVar "data_format"); ("keepdims", EVar "keepdims"); ("iq_conf", EVar "iq_conf"); ("oq_conf", EVar "oq_conf")]
    None
    [].
(** /repo/src/hgq/layers/pooling.py 285-299 *)
Definition i_QGlobalMaxPooling3D : ctor :=
  mk_ctor "QGlobalMaxPooling3D"
    [("data_format", Some (VLit "None")); ("keepdims", Some (VLit "False")); ("iq_conf", Some (VLit "None")); ("oq_conf", Some (VLit "None"))]
    true
    []
    None
    [] []
    [("data_format", EVar "data_format"); ("keepdims", EVar "keepdims"); ("iq_conf", EVar "iq_conf"); ("oq_conf", EVar "oq_conf")]
    None
    [].
(** /repo/src/hgq/layers/ops/accum.py 11-24 *)
Definition i_QSum : ctor :=
  mk_ctor "QSum"
    [("iq_conf", Some (VLit "None")); ("axes", Some (VLit "-1")); ("scale", Some (VLit "1.0")); ("keepdims", Some (VLit "False"))]
    true
    []
    None
    [] []
    [("iq_conf", EVar "iq_conf")]
    None
    ["axes"; "scale"; "keepdims"].
(** /repo/src/hgq/layers/ops/accum.py 64-71 *)
Definition i_QMeanPow2 : ctor :=
  mk_ctor "QMeanPow2"
    [("iq_conf", Some (VLit "None")); ("axes", Some (VLit "-1")); ("keepdims", Some (VLit "False"))]
    true
    []
    None
    [] []
    [("iq_conf", EVar "iq_conf"); ("axes", EVar "axes"); ("keepdims", EVar "keepdims")]
    None
    [].
(** /repo/src/hgq/layers/ops/merge.py 64-66 *)
Definition i_QDot : ctor :=
  mk_ctor "QDot"
    [("axes", Some (VLit "-1"))]
    true
    []
    None
    [] []
    [("axes", EVar "axes")]
    None
    [].
(** /repo/src/hgq/layers/ops/einsum.py 23-25 *)
Definition i_QEinsum : ctor :=
  mk_ctor "QEinsum"
    [("equation", None)]
    true
    []
    None
    [] []
    []
    None
    ["equation"].
(** /repo/src/hgq/layers/rnn/simple_rnn.py 154-220 *)
Definition i_QSimpleRNNCell : ctor :=
  mk_ctor "QSimpleRNNCell"
    [("units", None); ("activation", Some (VLit "'linear'")); ("use_bias", Some (VLit "True")); ("kernel_initializer", Some (VLit "'glorot_uniform'"));
     ("recurrent_initializer", Some (VLit "'orthogonal'")); ("bias_initializer", Some (VLit "'zeros'")); ("kernel_regularizer", Some (VLit "None"));
     ("recurrent_regularizer", Some (VLit "None")); ("bias_regularizer", Some (VLit "None")); ("kernel_constraint", Some (VLit "None"));
     ("recurrent_constraint", Some (VLit "None")); ("bias_constraint", Some (VLit "None")); ("dropout", Some (VLit "0.0"));
     ("recurrent_dropout", Some (VLit "0.0")); ("seed", Some (VLit "None")); ("enable_sq", Some (VLit "None")); ("iq_conf", Some (VLit "None"));
     ("sq_conf", Some (VLit "None")); ("kq_conf", Some (VLit "None")); ("rkq_conf", Some (VLit "None")); ("bq_conf", Some (VLit "None"));
     ("paq_conf", Some (VLit "None")); ("standalone", Some (VLit "True"))]
    true
    []
    None
    [] []
    [("units", EVar "units"); ("activation", EVar "activation"); ("use_bias", EVar "use_bias"); ("kernel_initializer", EVar "kernel_initializer");
     ("recurrent_initializer", EVar "recurrent_initializer"); ("bias_initializer", EVar "bias_initializer");
     ("kernel_regularizer", EVar "kernel_regularizer"); ("recurrent_regularizer", EVar "recurrent_regularizer");
     ("bias_regularizer", EVar "bias_regularizer"); ("kernel_constraint", EVar "kernel_constraint");
     ("recurrent_constraint", EVar "recurrent_constraint"); ("bias_constraint", EVar "bias_constraint"); ("dropout", EVar "dropout");
     ("recurrent_dropout", EVar "recurrent_dropout"); ("iq_conf", EVar "iq_conf"); ("seed", EVar "seed")]
    None
    ["use_bias"; "enable_sq"; "iq_conf"; "sq_conf"; "kq_conf"; "rkq_conf"; "bq_conf"; "paq_conf"; "standalone"].
(** /repo/src/hgq/layers/rnn/simple_rnn.py 518-601 *)
Definition i_QSimpleRNN : ctor :=
  mk_ctor "QSimpleRNN"
    [("units", None); ("activation", Some (VLit "'linear'")); ("use_bias", Some (VLit "True")); ("kernel_initializer", Some (VLit "'glorot_uniform'"));
     ("recurrent_initializer", Some (VLit "'orthogonal'")); ("bias_initializer", Some (VLit "'zeros'")); ("kernel_regularizer", Some (VLit "None"));
     ("recurrent_regularizer", Some (VLit "None")); ("bias_regularizer", Some (VLit "None")); ("activity_regularizer", Some (VLit "None"));
     ("kernel_constraint", Some (VLit "None")); ("recurrent_constraint", Some (VLit "None")); ("bias_constraint", Some (VLit "None"));
     ("dropout", Some (VLit "0.0")); ("recurrent_dropout", Some (VLit "0.0")); ("return_sequences", Some (VLit "False"));
     ("return_state", Some (VLit "False")); ("go_backwards", Some (VLit "False")); ("stateful", Some (VLit "False")); ("unroll", Some (VLit "None"));
     ("seed", Some (VLit "None")); ("iq_conf", Some (VLit "None")); ("sq_conf", Some (VLit "None")); ("kq_conf", Some (VLit "None"));
     ("rkq_conf", Some (VLit "None")); ("bq_conf", Some (VLit "None")); ("oq_conf", Some (VLit "None")); ("paq_conf", Some (VLit "None"));
     ("parallelization_factor", Some (VLit "-1")); ("enable_oq", Some (VLit "None")); ("enable_iq", Some (VLit "None"));
     ("enable_sq", Some (VLit "False")); ("enable_ebops", Some (VLit "None")); ("beta0", Some (VLit "None"))]
    true
    []
    None
    [] []
    [("cell", ELit (VLit "cell")); ("return_sequences", EVar "return_sequences"); ("return_state", EVar "return_state");
     ("go_backwards", EVar "go_backwards"); ("stateful", EVar "stateful"); ("unroll", EVar "unroll")]
    (Some "SimpleRNN")
    ["parallelization_factor"].
(** /repo/src/hgq/layers/rnn/gru.py 108-186 *)
Definition i_QGRUCell : ctor :=
  mk_ctor "QGRUCell"
    [("units", None); ("activation", Some (VLit "'linear'")); ("recurrent_activation", Some (VLit "'linear'")); ("use_bias", Some (VLit "True"));
     ("kernel_initializer", Some (VLit "'glorot_uniform'")); ("recurrent_initializer", Some (VLit "'orthogonal'"));
     ("bias_initializer", Some (VLit "'zeros'")); ("kernel_regularizer", Some (VLit "None")); ("recurrent_regularizer", Some (VLit "None"));
     ("bias_regularizer", Some (VLit "None")); ("kernel_constraint", Some (VLit "None")); ("recurrent_constraint", Some (VLit "None"));
     ("bias_constraint", Some (VLit "None")); ("dropout", Some (VLit "0.0")); ("recurrent_dropout", Some (VLit "0.0"));
     ("reset_after", Some (VLit "True")); ("seed", Some (VLit "None")); ("iq_conf", Some (VLit "None")); ("paq_conf", Some (VLit "None"));
     ("praq_conf", Some (VLit "None")); ("sq_conf", Some (VLit "None")); ("kq_conf", Some (VLit "None")); ("rkq_conf", Some (VLit "None"));
     ("bq_conf", Some (VLit "None")); ("oq_conf", Some (VLit "None")); ("rhq_conf", Some (VLit "None")); ("standalone", Some (VLit "True"));
     ("enable_ebops", Some (VLit "None")); ("enable_iq", Some (VLit "None")); ("enable_oq", Some (VLit "None"))]
    true
    []
    None
    [] []
    [("units", EVar "units"); ("activation", EVar "activation"); ("recurrent_activation", EVar "recurrent_activation"); ("use_bias", EVar "use_bias");
     ("kernel_initializer", EVar "kernel_initializer"); ("recurrent_initializer", EVar "recurrent_initializer");
     ("bias_initializer", EVar "bias_initializer"); ("kernel_regularizer", EVar "kernel_regularizer");
     ("recurrent_regularizer", EVar "recurrent_regularizer"); ("bias_regularizer", EVar "bias_regularizer");
     ("kernel_constraint", EVar "kernel_constraint"); ("recurrent_constraint", EVar "recurrent_constraint"); ("bias_constraint", EVar "bias_constraint");
     ("dropout", EVar "dropout"); ("recurrent_dropout", EVar "recurrent_dropout"); ("reset_after", EVar "reset_after"); ("seed", EVar "seed");
     ("oq_conf", EVar "oq_conf"); ("enable_oq", EVar "enable_oq"); ("enable_iq", EVar "enable_iq"); ("enable_ebops", EVar "enable_ebops")]
    None
    ["iq_conf"; "paq_conf"; "praq_conf"; "sq_conf"; "kq_conf"; "rkq_conf"; "bq_conf"; "rhq_conf"; "standalone"].
(** /repo/src/hgq/layers/rnn/gru.py 517-607 *)
Definition i_QGRU : ctor :=
  mk_ctor "QGRU"
    [("units", None); ("activation", Some (VLit "'linear'")); ("recurrent_activation", Some (VLit "'linear'")); ("use_bias", Some (VLit "True"));
     ("kernel_initializer", Some (VLit "'glorot_uniform'")); ("recurrent_initializer", Some (VLit "'orthogonal'"));
     ("bias_initializer", Some (VLit "'zeros'")); ("kernel_regularizer", Some (VLit "None")); ("recurrent_regularizer", Some (VLit "None"));
     ("bias_regularizer", Some (VLit "None")); ("activity_regularizer", Some (VLit "None")); ("kernel_constraint", Some (VLit "None"));
     ("recurrent_constraint", Some (VLit "None")); ("bias_constraint", Some (VLit "None")); ("dropout", Some (VLit "0.0"));
     ("recurrent_dropout", Some (VLit "0.0")); ("seed", Some (VLit "None")); ("return_sequences", Some (VLit "False"));
     ("return_state", Some (VLit "False")); ("go_backwards", Some (VLit "False")); ("stateful", Some (VLit "False")); ("unroll", Some (VLit "None"));
     ("reset_after", Some (VLit "True")); ("iq_conf", Some (VLit "None")); ("paq_conf", Some (VLit "None")); ("praq_conf", Some (VLit "None"));
     ("sq_conf", Some (VLit "None")); ("kq_conf", Some (VLit "None")); ("rkq_conf", Some (VLit "None")); ("bq_conf", Some (VLit "None"));
     ("oq_conf", Some (VLit "None")); ("rhq_conf", Some (VLit "None")); ("parallelization_factor", Some (VLit "1")); ("enable_oq", Some (VLit "None"));
     ("enable_iq", Some (VLit "None")); ("enable_ebops", Some (VLit "None")); ("beta0", Some (VLit "None"))]
    true
    []
    None
    [] []
    [("cell", ELit (VLit "cell")); ("return_sequences", EVar "return_sequences"); ("return_state", EVar "return_state");
     ("go_backwards", EVar "go_backwards"); ("stateful", EVar "stateful"); ("unroll", EVar "unroll"); ("activity_regularizer", EVar "activity_regularizer")]
    (Some "GRU")
    ["parallelization_factor"].
(** /repo/src/hgq/layers/snn/base.py 50-100 *)
Definition i_SpikingNeuralCell : ctor :=
  mk_ctor "SpikingNeuralCell"
    [("units", None); ("threshold", Some (VLit "1.0")); ("spike_grad", Some (VLit "None")); ("surrogate_disable", Some (VLit "False"));
     ("inhibition", Some (VLit "False")); ("learn_threshold", Some (VLit "False")); ("reset_mechanism", Some (VLit "'subtract'"));
     ("detach_reset", Some (VLit "True")); ("graded_spikes_factor", Some (VLit "1.0")); ("learn_graded_spikes_factor", Some (VLit "False"))]
    true
    [MustBe "reset_mechanism" [VLit "'subtract'"; VLit "'zero'"; VLit "'none'"]]
    None
    [] []
    []
    None
    ["units"; "threshold"; "spike_grad"; "surrogate_disable"; "inhibition"; "learn_threshold"; "reset_mechanism"; "detach_reset"; "graded_spikes_factor";
     "learn_graded_spikes_factor"].
(** /repo/src/hgq/layers/snn/base.py 190-222 *)
Definition i_LIFCell : ctor :=
  mk_ctor "LIFCell"
    [("units", None); ("beta", Some (VLit "1.0")); ("threshold", Some (VLit "1.0")); ("spike_grad", Some (VLit "None"));
     ("surrogate_disable", Some (VLit "False")); ("inhibition", Some (VLit "False")); ("learn_beta", Some (VLit "False"));
     ("learn_threshold", Some (VLit "False")); ("reset_mechanism", Some (VLit "'subtract'")); ("detach_reset", Some (VLit "True"));
     ("graded_spikes_factor", Some (VLit "1.0")); ("learn_graded_spikes_factor", Some (VLit "False"))]
    true
    []
    None
    [] []
    [("units", EVar "units"); ("threshold", EVar "threshold"); ("spike_grad", EVar "spike_grad"); ("surrogate_disable", EVar "surrogate_disable");
     ("inhibition", EVar "inhibition"); ("learn_threshold", EVar "learn_threshold"); ("reset_mechanism", EVar "reset_mechanism");
     ("detach_reset", EVar "detach_reset"); ("graded_spikes_factor", EVar "graded_spikes_factor");
     ("learn_graded_spikes_factor", EVar "learn_graded_spikes_factor")]
    None
    ["beta"; "learn_beta"].
(** /repo/src/hgq/layers/snn/base.py 266-319; global_config values are named, not looked up *)
Definition i_QSimpleSNNCell : ctor :=
  mk_ctor "QSimpleSNNCell"
    [("units", None); ("threshold", Some (VLit "1.0")); ("spike_grad", Some (VLit "None")); ("surrogate_disable", Some (VLit "False"));
     ("inhibition", Some (VLit "False")); ("learn_threshold", Some (VLit "False")); ("reset_mechanism", Some (VLit "'subtract'"));
     ("detach_reset", Some (VLit "True")); ("graded_spikes_factor", Some (VLit "1.0")); ("learn_graded_spikes_factor", Some (VLit "False"));
     ("iq_conf", Some (VLit "None")); ("sq_conf", Some (VLit "None")); ("oq_conf", Some (VLit "None"));
     ("graded_spikes_factor_q_conf", Some (VLit "None")); ("standalone", Some (VLit "True")); ("enable_ebops", Some (VLit "None"));
     ("enable_iq", Some (VLit "None")); ("enable_sq", Some (VLit "None")); ("enable_oq", Some (VLit "None")); ("beta0", Some (VLit "None"));
     ("ebops_factor", Some (VLit "1.0"))]
    true
    []
    None
    [] []
    [("units", EVar "units"); ("threshold", EVar "threshold"); ("spike_grad", EVar "spike_grad"); ("surrogate_disable", EVar "surrogate_disable");
     ("inhibition", EVar "inhibition"); ("learn_threshold", EVar "learn_threshold"); ("reset_mechanism", EVar "reset_mechanism");
     ("detach_reset", EVar "detach_reset"); ("graded_spikes_factor", EVar "graded_spikes_factor");
     ("learn_graded_spikes_factor", EVar "learn_graded_spikes_factor"); ("iq_conf", EVar "iq_conf"); ("oq_conf", EVar "oq_conf");
     ("enable_ebops", EOr "enable_ebops" (VLit "global_config['enable_ebops']")); ("enable_iq", EOr "enable_iq" (VLit "global_config['enable_iq']"));
     ("enable_oq", EOr "enable_oq" (VLit "global_config['enable_oq']")); ("beta0", EVar "beta0"); ("ebops_factor", EVar "ebops_factor")]
    None
    ["sq_conf"; "graded_spikes_factor_q_conf"; "standalone"; "enable_sq"].
(** /repo/src/hgq/layers/snn/base.py 439-495 *)
Definition i_QLIFCell : ctor :=
  mk_ctor "QLIFCell"
    [("units", None); ("beta", Some (VLit "0.5")); ("threshold", Some (VLit "1.0")); ("spike_grad", Some (VLit "None"));
     ("surrogate_disable", Some (VLit "False")); ("inhibition", Some (VLit "False")); ("learn_beta", Some (VLit "False"));
     ("learn_threshold", Some (VLit "False")); ("reset_mechanism", Some (VLit "'subtract'")); ("detach_reset", Some (VLit "True"));
     ("graded_spikes_factor", Some (VLit "1.0")); ("learn_graded_spikes_factor", Some (VLit "False")); ("iq_conf", Some (VLit "None"));
     ("sq_conf", Some (VLit "None")); ("oq_conf", Some (VLit "None")); ("beta_q_conf", Some (VLit "None"));
     ("graded_spikes_factor_q_conf", Some (VLit "None")); ("standalone", Some (VLit "True")); ("enable_ebops", Some (VLit "None"));
     ("enable_iq", Some (VLit "None")); ("enable_sq", Some (VLit "None")); ("enable_oq", Some (VLit "None")); ("beta0", Some (VLit "None"));
     ("ebops_factor", Some (VLit "1.0"))]
    true
    []
    None
    [] []
    [("units", EVar "units"); ("threshold", EVar "threshold"); ("spike_grad", EVar "spike_grad"); ("surrogate_disable", EVar "surrogate_disable");
     ("inhibition", EVar "inhibition"); ("learn_threshold", EVar "learn_threshold"); ("reset_mechanism", EVar "reset_mechanism");
     ("detach_reset", EVar "detach_reset"); ("graded_spikes_factor", EVar "graded_spikes_factor");
     ("learn_graded_spikes_factor", EVar "learn_graded_spikes_factor"); ("iq_conf", EVar "iq_conf"); ("sq_conf", EVar "sq_conf");
     ("oq_conf", EVar "oq_conf"); ("graded_spikes_factor_q_conf", EVar "graded_spikes_factor_q_conf"); ("standalone", EVar "standalone");
     ("enable_ebops", EVar "enable_ebops"); ("enable_iq", EVar "enable_iq"); ("enable_sq", EVar "enable_sq"); ("enable_oq", EVar "enable_oq");
     ("beta0", EVar "beta0"); ("ebops_factor", EVar "ebops_factor")]
    None
    ["beta"; "learn_beta"; "beta_q_conf"].
(** /repo/src/hgq/layers/snn/base.py 611-676 *)
Definition i_QSimpleSNN : ctor :=
  mk_ctor "QSimpleSNN"
    [("units", None); ("threshold", Some (VLit "1.0")); ("spike_grad", Some (VLit "None")); ("surrogate_disable", Some (VLit "False"));
     ("inhibition", Some (VLit "False")); ("learn_threshold", Some (VLit "False")); ("reset_mechanism", Some (VLit "'subtract'"));
     ("detach_reset", Some (VLit "True")); ("graded_spikes_factor", Some (VLit "1.0")); ("learn_graded_spikes_factor", Some (VLit "False"));
     ("return_sequences", Some (VLit "False")); ("return_state", Some (VLit "False")); ("go_backwards", Some (VLit "False"));
     ("stateful", Some (VLit "False")); ("unroll", Some (VLit "False")); ("iq_conf", Some (VLit "None")); ("sq_conf", Some (VLit "None"));
     ("oq_conf", Some (VLit "None")); ("graded_spikes_factor_q_conf", Some (VLit "None")); ("parallelization_factor", Some (VLit "-1"));
     ("enable_oq", Some (VLit "None")); ("enable_iq", Some (VLit "None")); ("enable_sq", Some (VLit "None")); ("enable_ebops", Some (VLit "None"));
     ("beta0", Some (VLit "None"))]
    true
    []
    None
    [] []
    [("cell", ELit (VLit "cell")); ("return_sequences", EVar "return_sequences"); ("return_state", EVar "return_state");
     ("go_backwards", EVar "go_backwards"); ("stateful", EVar "stateful"); ("unroll", EVar "unroll")]
    None
    ["parallelization_factor"].
(** /repo/src/hgq/layers/snn/base.py 682-753 *)
Definition i_QLIF : ctor :=
  mk_ctor "QLIF"
    [("units", None); ("beta", Some (VLit "0.5")); ("threshold", Some (VLit "1.0")); ("spike_grad", Some (VLit "None"));
     ("surrogate_disable", Some (VLit "False")); ("inhibition", Some (VLit "False")); ("learn_beta", Some (VLit "False"));
     ("learn_threshold", Some (VLit "False")); ("reset_mechanism", Some (VLit "'subtract'")); ("detach_reset", Some (VLit "True"));
     ("graded_spikes_factor", Some (VLit "1.0")); ("learn_graded_spikes_factor", Some (VLit "False")); ("return_sequences", Some (VLit "False"));
     ("return_state", Some (VLit "False")); ("go_backwards", Some (VLit "False")); ("stateful", Some (VLit "False")); ("unroll", Some (VLit "False"));
     ("iq_conf", Some (VLit "None")); ("sq_conf", Some (VLit "None")); ("oq_conf", Some (VLit "None")); ("beta_q_conf", Some (VLit "None"));
     ("graded_spikes_factor_q_conf", Some (VLit "None")); ("parallelization_factor", Some (VLit "-1")); ("enable_oq", Some (VLit "None"));
     ("enable_iq", Some (VLit "None")); ("enable_sq", Some (VLit "None")); ("enable_ebops", Some (VLit "None")); ("beta0", Some (VLit "None"))]
    true
    []
    None
    [] []
    [("cell", ELit (VLit "cell")); ("return_sequences", EVar "return_sequences"); ("return_state", EVar "return_state");
     ("go_backwards", EVar "go_backwards"); ("stateful", EVar "stateful"); ("unroll", EVar "unroll")]
    None
    ["parallelization_factor"].
(** /repo/src/hgq/utils/sugar/early_stopping_ebops.py 65-79 *)
Definition i_EarlyStoppingWithEbopsThres : ctor :=
  mk_ctor "EarlyStoppingWithEbopsThres"
    [("ebops_threshold", None); ("monitor", Some (VLit "'val_loss'")); ("min_delta", Some (VLit "0")); ("patience", Some (VLit "0"));
     ("verbose", Some (VLit "0")); ("mode", Some (VLit "'auto'")); ("baseline", Some (VLit "None")); ("restore_best_weights", Some (VLit "False"));
     ("start_from_epoch", Some (VLit "0"))]
    false
    []
    (Some [[TLit "self"]; [TLit "ebops_threshold"]])
    [] []
    []
    None
    ["ebops_threshold"].

(** the classes with their bases: class statements at the lines given; keras classes from keras *)
Definition classes : list cls := [
  mk_cls "Layer" [] (Some i_Layer);
  mk_cls "Dense" ["Layer"] (Some i_Dense);
  mk_cls "EinsumDense" ["Layer"] (Some i_EinsumDense);
  mk_cls "BaseConv" ["Layer"] (Some i_BaseConv);
  mk_cls "BatchNormalization" ["Layer"] (Some i_BatchNormalization);
  mk_cls "MultiHeadAttention" ["Layer"] (Some i_MultiHeadAttention);
  mk_cls "Activation" ["Layer"] (Some i_Activation);
  mk_cls "SimpleRNNCell" ["Layer"; "DropoutRNNCell"] (Some i_SimpleRNNCell);
  mk_cls "GRUCell" ["Layer"; "DropoutRNNCell"] (Some i_GRUCell);
  mk_cls "RNN" ["Layer"] (Some i_RNN);
  mk_cls "SimpleRNN" ["RNN"] (Some i_SimpleRNN);
  mk_cls "GRU" ["RNN"] (Some i_GRU);
  mk_cls "Dot" ["Merge"] (Some i_Dot);
  mk_cls "BasePooling" ["Layer"] (Some i_BasePooling);
  mk_cls "BaseGlobalPooling" ["Layer"] (Some i_BaseGlobalPooling);
  mk_cls "EarlyStopping" [] (Some i_EarlyStopping);
  mk_cls "AveragePooling1D" ["BasePooling"] (Some i_AveragePooling1D);
  mk_cls "GlobalAveragePooling1D" ["BaseGlobalPooling"] (Some i_GlobalAveragePooling1D);
  mk_cls "MaxPooling1D" ["BasePooling"] (Some i_MaxPooling1D);
  mk_cls "GlobalMaxPooling1D" ["BaseGlobalPooling"] (Some i_GlobalMaxPooling1D);
  mk_cls "AveragePooling2D" ["BasePooling"] (Some i_AveragePooling2D);
  mk_cls "GlobalAveragePooling2D" ["BaseGlobalPooling"] (Some i_GlobalAveragePooling2D);
  mk_cls "MaxPooling2D" ["BasePooling"] (Some i_MaxPooling2D);
  mk_cls "GlobalMaxPooling2D" ["BaseGlobalPooling"] (Some i_GlobalMaxPooling2D);
  mk_cls "AveragePooling3D" ["BasePooling"] (Some i_AveragePooling3D);
  mk_cls "GlobalAveragePooling3D" ["BaseGlobalPooling"] (Some i_GlobalAveragePooling3D);
  mk_cls "MaxPooling3D" ["BasePooling"] (Some i_MaxPooling3D);
  mk_cls "GlobalMaxPooling3D" ["BaseGlobalPooling"] (Some i_GlobalMaxPooling3D);
  mk_cls "DropoutRNNCell" [] None;
  mk_cls "Merge" ["Layer"] None;
  mk_cls "Add" ["Merge"] None;
  mk_cls "Average" ["Merge"] None;
  mk_cls "Subtract" ["Merge"] None;
  mk_cls "Multiply" ["Merge"] None;
  mk_cls "Maximum" ["Merge"] None;
  mk_cls "Minimum" ["Merge"] None;
  mk_cls "QLayerBase" ["Layer"] (Some i_QLayerBase) (* layers/core/base.py 119 *);
  mk_cls "QLayerBaseSingleInput" ["QLayerBase"] (Some i_QLayerBaseSingleInput) (* layers/core/base.py 253 *);
  mk_cls "QLayerBaseMultiInputs" ["QLayerBase"] (Some i_QLayerBaseMultiInputs) (* layers/core/base.py 309 *);
  mk_cls "QDense" ["QLayerBaseSingleInput"; "Dense"] (Some i_QDense) (* layers/core/dense.py 12 *);
  mk_cls "QBatchNormDense" ["QDense"] (Some i_QBatchNormDense) (* layers/core/dense.py 105 *);
  mk_cls "QEinsumDense" ["QLayerBaseSingleInput"; "EinsumDense"] (Some i_QEinsumDense) (* layers/core/einsum_dense.py 23 *);
  mk_cls "QEinsumDenseBatchnorm" ["QEinsumDense"] (Some i_QEinsumDenseBatchnorm) (* layers/einsum_dense_batchnorm.py 11 *);
  mk_cls "QBaseConv" ["QLayerBaseSingleInput"; "BaseConv"] (Some i_QBaseConv) (* layers/conv.py 12 *);
  mk_cls "QConv1D" ["QBaseConv"] (Some i_QConv1D) (* layers/conv.py 127 *);
  mk_cls "QConv2D" ["QBaseConv"] (Some i_QConv2D) (* layers/conv.py 175 *);
  mk_cls "QConv3D" ["QBaseConv"] (Some i_QConv3D) (* layers/conv.py 203 *);
  mk_cls "QBatchNormalization" ["QLayerBaseSingleInput"; "BatchNormalization"] (Some i_QBatchNormalization) (* layers/batch_normalization.py 11 *);
  mk_cls "QMultiHeadAttention" ["MultiHeadAttention"; "QLayerBase"] (Some i_QMultiHeadAttention) (* layers/attn/mha.py 25 *);
  mk_cls "QMultiHeadAttentionT" ["QMultiHeadAttention"] (Some i_QMultiHeadAttentionT) (* layers/attn/mha.py 541 *);
  mk_cls "QLinformerAttention" ["QMultiHeadAttention"] (Some i_QLinformerAttention) (* layers/attn/linformer.py 11 *);
  mk_cls "QLinformerAttentionT" ["QLinformerAttention"; "QMultiHeadAttentionT"] (Some i_QLinformerAttentionT) (* layers/attn/linformer.py 183 *);
  mk_cls "QSALTAttention" ["QMultiHeadAttention"] (Some i_QSALTAttention) (* layers/attn/salt.py 13 *);
  mk_cls "QUnaryFunctionLUT" ["Activation"; "QLayerBaseSingleInput"] (Some i_QUnaryFunctionLUT) (* layers/activation.py 18 *);
  mk_cls "QAffinedUnaryFunctionLUT" ["QUnaryFunctionLUT"] (Some i_QAffinedUnaryFunctionLUT) (* layers/activation.py 76 *);
  mk_cls "QSoftmax" ["QLayerBaseSingleInput"] (Some i_QSoftmax) (* layers/softmax.py 13 *);
  mk_cls "QDenseT" ["QLayerBaseSingleInput"] (Some i_QDenseT) (* layers/table/dense.py 22 *);
  mk_cls "QEinsumDenseT" ["QLayerBaseSingleInput"] (Some i_QEinsumDenseT) (* layers/table/dense.py 170 *);
  mk_cls "QConvTBase" ["QDenseT"] (Some i_QConvTBase) (* layers/table/conv.py 23 *);
  mk_cls "QConvT1D" ["QConvTBase"] (Some i_QConvT1D) (* layers/table/conv.py 154 *);
  mk_cls "QConvT2D" ["QConvTBase"] (Some i_QConvT2D) (* layers/table/conv.py 196 *);
  mk_cls "QBasePooling" ["QLayerBaseSingleInput"] (Some i_QBasePooling) (* layers/pooling.py 23 *);
  mk_cls "QAveragePooling1D" ["QBasePooling"; "AveragePooling1D"] (Some i_QAveragePooling1D) (* layers/pooling.py 50 *);
  mk_cls "QAveragePooling2D" ["QBasePooling"; "AveragePooling2D"] (Some i_QAveragePooling2D) (* layers/pooling.py 74 *);
  mk_cls "QAveragePooling3D" ["QBasePooling"; "AveragePooling3D"] (Some i_QAveragePooling3D) (* layers/pooling.py 98 *);
  mk_cls "QMaxPooling1D" ["QBasePooling"; "MaxPooling1D"] (Some i_QMaxPooling1D) (* layers/pooling.py 122 *);
  mk_cls "QMaxPooling2D" ["QBasePooling"; "MaxPooling2D"] (Some i_QMaxPooling2D) (* layers/pooling.py 146 *);
  mk_cls "QMaxPooling3D" ["QBasePooling"; "MaxPooling3D"] (Some i_QMaxPooling3D) (* layers/pooling.py 170 *);
  mk_cls "QGlobalAveragePooling1D" ["QBasePooling"; "GlobalAveragePooling1D"] (Some i_QGlobalAveragePooling1D) (* layers/pooling.py 194 *);
  mk_cls "QGlobalAveragePooling2D" ["QBasePooling"; "GlobalAveragePooling2D"] (Some i_QGlobalAveragePooling2D) (* layers/pooling.py 212 *);
  mk_cls "QGlobalAveragePooling3D" ["QBasePooling"; "GlobalAveragePooling3D"] (Some i_QGlobalAveragePooling3D) (* layers/pooling.py 230 *);
  mk_cls "QGlobalMaxPooling1D" ["QBasePooling"; "GlobalMaxPooling1D"] (Some i_QGlobalMaxPooling1D) (* layers/pooling.py 248 *);
  mk_cls "QGlobalMaxPooling2D" ["QBasePooling"; "GlobalMaxPooling2D"] (Some i_QGlobalMaxPooling2D) (* layers/pooling.py 266 *);
  mk_cls "QGlobalMaxPooling3D" ["QBasePooling"; "GlobalMaxPooling3D"] (Some i_QGlobalMaxPooling3D) (* layers/pooling.py 284 *);
  mk_cls "QSum" ["QLayerBaseSingleInput"] (Some i_QSum) (* layers/ops/accum.py 10 *);
  mk_cls "QMeanPow2" ["QSum"] (Some i_QMeanPow2) (* layers/ops/accum.py 63 *);
  mk_cls "QDot" ["QMerge"; "Dot"] (Some i_QDot) (* layers/ops/merge.py 63 *);
  mk_cls "QEinsum" ["QLayerBaseMultiInputs"] (Some i_QEinsum) (* layers/ops/einsum.py 22 *);
  mk_cls "QSimpleRNNCell" ["QLayerBaseSingleInput"; "SimpleRNNCell"] (Some i_QSimpleRNNCell) (* layers/rnn/simple_rnn.py 17 *);
  mk_cls "QSimpleRNN" ["QRNN"; "SimpleRNN"] (Some i_QSimpleRNN) (* layers/rnn/simple_rnn.py 403 *);
  mk_cls "QGRUCell" ["QLayerBase"; "GRUCell"] (Some i_QGRUCell) (* layers/rnn/gru.py 14 *);
  mk_cls "QGRU" ["QRNN"; "GRU"] (Some i_QGRU) (* layers/rnn/gru.py 390 *);
  mk_cls "SpikingNeuralCell" ["Layer"] (Some i_SpikingNeuralCell) (* layers/snn/base.py 45 *);
  mk_cls "LIFCell" ["SpikingNeuralCell"] (Some i_LIFCell) (* layers/snn/base.py 187 *);
  mk_cls "QSimpleSNNCell" ["QLayerBaseSingleInput"; "SpikingNeuralCell"] (Some i_QSimpleSNNCell) (* layers/snn/base.py 257 *);
  mk_cls "QLIFCell" ["QSimpleSNNCell"] (Some i_QLIFCell) (* layers/snn/base.py 436 *);
  mk_cls "QSimpleSNN" ["_QSNN"] (Some i_QSimpleSNN) (* layers/snn/base.py 608 *);
  mk_cls "QLIF" ["_QSNN"] (Some i_QLIF) (* layers/snn/base.py 679 *);
  mk_cls "EarlyStoppingWithEbopsThres" ["EarlyStopping"] (Some i_EarlyStoppingWithEbopsThres) (* utils/sugar/early_stopping_ebops.py 9 *);
  mk_cls "QMerge" ["QLayerBaseMultiInputs"; "Merge"] None (* layers/ops/merge.py 10 *);
  mk_cls "QAdd" ["QMerge"; "Add"] None (* layers/ops/merge.py 28 *);
  mk_cls "QAveragePow2" ["QAdd"; "Average"] None (* layers/ops/merge.py 33 *);
  mk_cls "QSubtract" ["QMerge"; "Subtract"] None (* layers/ops/merge.py 45 *);
  mk_cls "QMultiply" ["QMerge"; "Multiply"] None (* layers/ops/merge.py 53 *);
  mk_cls "QMaximum" ["QMerge"; "Maximum"] None (* layers/ops/merge.py 77 *);
  mk_cls "QMinimum" ["QMerge"; "Minimum"] None (* layers/ops/merge.py 82 *);
  mk_cls "QRNN" ["RNN"] None (* layers/rnn/simple_rnn.py 307 *);
  mk_cls "_QSNN" ["QRNN"] None (* layers/snn/base.py 549 *)].

(** the constructors that [Class(...)] runs *)
Definition chain (k : string) : list ctor := chain_in classes k.
(** a call of the class with keywords kw: what each constructor received, or an exception *)
Definition construct (k : string) (kw : kwargs) : option (list (string * kwargs)) :=
  match chain k with [] => None | _ => run (chain k) kw end.

(** ** layers that build their cell: the cell's class and arguments *)
(** /repo/src/hgq/layers/rnn/simple_rnn.py 518-601 *)
Definition cell_QSimpleRNN : string * list (string * expr) :=
  ("QSimpleRNNCell",
    [("units", EVar "units"); ("activation", EVar "activation"); ("use_bias", EVar "use_bias"); ("kernel_initializer", EVar "kernel_initializer");
     ("recurrent_initializer", EVar "recurrent_initializer"); ("bias_initializer", EVar "bias_initializer");
     ("kernel_regularizer", EVar "kernel_regularizer"); ("recurrent_regularizer", EVar "recurrent_regularizer");
     ("bias_regularizer", EVar "bias_regularizer"); ("activity_regularizer", EVar "activity_regularizer");
     ("kernel_constraint", EVar "kernel_constraint"); ("recurrent_constraint", EVar "recurrent_constraint"); ("bias_constraint", EVar "bias_constraint");
     ("dropout", EVar "dropout"); ("recurrent_dropout", EVar "recurrent_dropout"); ("seed", EVar "seed"); ("dtype", EGet "dtype" (VLit "None"));
     ("trainable", EGet "trainable" (VLit "True")); ("name", ELit (VLit "'simple_rnn_cell'")); ("iq_conf", EVar "iq_conf"); ("sq_conf", EVar "sq_conf");
     ("kq_conf", EVar "kq_conf"); ("rkq_conf", EVar "rkq_conf"); ("bq_conf", EVar "bq_conf"); ("oq_conf", EVar "oq_conf");
     ("enable_sq", EVar "enable_sq"); ("paq_conf", EVar "paq_conf"); ("standalone", ELit (VLit "False")); ("enable_oq", EVar "enable_oq");
     ("enable_iq", EVar "enable_iq"); ("enable_ebops", EVar "enable_ebops"); ("beta0", EVar "beta0")]).
(** /repo/src/hgq/layers/rnn/gru.py 517-607 *)
Definition cell_QGRU : string * list (string * expr) :=
  ("QGRUCell",
    [("units", EVar "units"); ("activation", EVar "activation"); ("recurrent_activation", EVar "recurrent_activation"); ("use_bias", EVar "use_bias");
     ("kernel_initializer", EVar "kernel_initializer"); ("recurrent_initializer", EVar "recurrent_initializer");
     ("bias_initializer", EVar "bias_initializer"); ("kernel_regularizer", EVar "kernel_regularizer");
     ("recurrent_regularizer", EVar "recurrent_regularizer"); ("bias_regularizer", EVar "bias_regularizer");
     ("kernel_constraint", EVar "kernel_constraint"); ("recurrent_constraint", EVar "recurrent_constraint"); ("bias_constraint", EVar "bias_constraint");
     ("dropout", EVar "dropout"); ("recurrent_dropout", EVar "recurrent_dropout"); ("reset_after", EVar "reset_after");
     ("dtype", EGet "dtype" (VLit "None")); ("trainable", EGet "trainable" (VLit "True")); ("name", ELit (VLit "'qgru_cell'")); ("seed", EVar "seed");
     ("standalone", ELit (VLit "False")); ("iq_conf", EVar "iq_conf"); ("paq_conf", EVar "paq_conf"); ("praq_conf", EVar "praq_conf");
     ("sq_conf", EVar "sq_conf"); ("kq_conf", EVar "kq_conf"); ("rkq_conf", EVar "rkq_conf"); ("bq_conf", EVar "bq_conf"); ("oq_conf", EVar "oq_conf");
     ("rhq_conf", EVar "rhq_conf"); ("enable_iq", EVar "enable_iq"); ("enable_oq", EVar "enable_oq"); ("enable_ebops", EVar "enable_ebops");
     ("beta0", EVar "beta0")]).
(** /repo/src/hgq/layers/snn/base.py 611-676 *)
Definition cell_QSimpleSNN : string * list (string * expr) :=
  ("QSimpleSNNCell",
    [("units", EVar "units"); ("threshold", EVar "threshold"); ("spike_grad", EVar "spike_grad"); ("surrogate_disable", EVar "surrogate_disable");
     ("inhibition", EVar "inhibition"); ("learn_threshold", EVar "learn_threshold"); ("reset_mechanism", EVar "reset_mechanism");
     ("detach_reset", EVar "detach_reset"); ("graded_spikes_factor", EVar "graded_spikes_factor");
     ("learn_graded_spikes_factor", EVar "learn_graded_spikes_factor"); ("dtype", EGet "dtype" (VLit "None"));
     ("trainable", EGet "trainable" (VLit "True")); ("name", ELit (VLit "'q_spiking_neural_cell'")); ("iq_conf", EVar "iq_conf");
     ("sq_conf", EVar "sq_conf"); ("oq_conf", EVar "oq_conf"); ("graded_spikes_factor_q_conf", EVar "graded_spikes_factor_q_conf");
     ("standalone", ELit (VLit "False")); ("enable_oq", EVar "enable_oq"); ("enable_iq", EVar "enable_iq"); ("enable_sq", EVar "enable_sq");
     ("enable_ebops", EVar "enable_ebops"); ("beta0", EVar "beta0")]).
(** /repo/src/hgq/layers/snn/base.py 682-753 *)
Definition cell_QLIF : string * list (string * expr) :=
  ("QLIFCell",
    [("units", EVar "units"); ("beta", EVar "beta"); ("threshold", EVar "threshold"); ("spike_grad", EVar "spike_grad");
     ("surrogate_disable", EVar "surrogate_disable"); ("inhibition", EVar "inhibition"); ("learn_beta", EVar "learn_beta");
     ("learn_threshold", EVar "learn_threshold"); ("reset_mechanism", EVar "reset_mechanism"); ("detach_reset", EVar "detach_reset");
     ("graded_spikes_factor", EVar "graded_spikes_factor"); ("learn_graded_spikes_factor", EVar "learn_graded_spikes_factor");
     ("dtype", EGet "dtype" (VLit "None")); ("trainable", EGet "trainable" (VLit "True")); ("name", ELit (VLit "'q_lif_cell'"));
     ("iq_conf", EVar "iq_conf"); ("sq_conf", EVar "sq_conf"); ("oq_conf", EVar "oq_conf"); ("beta_q_conf", EVar "beta_q_conf");
     ("graded_spikes_factor_q_conf", EVar "graded_spikes_factor_q_conf"); ("standalone", ELit (VLit "False")); ("enable_oq", EVar "enable_oq");
     ("enable_iq", EVar "enable_iq"); ("enable_sq", EVar "enable_sq"); ("enable_ebops", EVar "enable_ebops"); ("beta0", EVar "beta0")]).
Definition cell_of (k : string) : option (string * list (string * expr)) :=
  if String.eqb k "QSimpleRNN" then Some cell_QSimpleRNN else if String.eqb k "QGRU" then Some cell_QGRU
  else if String.eqb k "QSimpleSNN" then Some cell_QSimpleSNN else if String.eqb k "QLIF" then Some cell_QLIF else None.
(** the cell's constructors run before super().__init__, with the local variables of the layer's constructor *)
Definition construct_cell (k : string) (kw : kwargs) : option (list (string * kwargs)) :=
  match cell_of k, chain k with
  | Some (cell, args), c :: _ =>
      match bind_params (c_params c) kw with
      | Some env => construct cell (map (fun p => (fst p, eval env (leftover (c_params c) kw) (snd p))) args)
      | None => None
      end
  | _, _ => None
  end.
