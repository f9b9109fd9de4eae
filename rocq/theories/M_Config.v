(** Model of saving and reloading configurations.

    Source: /repo/src/hgq/quantizer/config.py 437-534 (QuantizerConfig), 641-716 (HardTanhConfig,
    HardSigmoidConfig), quantizer/quantizer.py 20-70 (Quantizer), layers/core/base.py 132-352 and the
    constructors and get_config methods of the layers (cited at each entry of [class_of]).

    Simplifications: the serializers of keras ([serialize_keras_object], [deserialize_keras_object]) are
    taken to rebuild each serializable object from its own get_config through its from_config, and numbers,
    strings, tuples, constraints, regularizers and initializers to survive unchanged; [q_type] and [place]
    are taken lower case (config.py 464-465); dictionaries are association lists without repeated keys.  The attributes
    are those at the time of saving: what [build] or a constructor normalizes (axes, strides,
    parallelization_factor; k0, axes and modes of the table configurations of QSoftmax and QUnaryFunctionLUT,
    activation.py 38-51, softmax.py 60-81) is the same when done twice and is not repeated here. *)
From Verif Require Import Num.
From Coq Require Import List Bool String.
Import ListNotations.
Open Scope string_scope.
Local Open Scope list_scope.

(** ** Quantizer configurations *)
(** values of a parameter; [CObj] stands for constraint, regularizer, initializer and mapper objects *)
Inductive cval := CNone | CBool (b : bool) | CNum (q : Q) | CStr (s : string) | CAxes (l : list Z) | CObj (s : string).
Notation kwargs := (list (string * cval)).
Fixpoint get {A} (k : string) (d : list (string * A)) : option A :=
  match d with [] => None | (k', v) :: d' => if String.eqb k k' then Some v else get k d' end.
Definition has {A} (k : string) (d : list (string * A)) : bool := match get k d with Some _ => true | None => false end.
Definition remove {A} (k : string) (d : list (string * A)) : list (string * A) := filter (fun p => negb (String.eqb k (fst p))) d.
(** d[k] = v *)
Definition put {A} (k : string) (v : A) (d : list (string * A)) : list (string * A) := remove k d ++ [(k, v)].

Inductive conf_class := Plain | HardTanh | HardSigmoid.
Record conf := mk_conf {
  c_class : conf_class; q_type : string; place : string;
  scaler : option Q; qnoise : option Q; affine : option (Q * Q);
  params : kwargs }.                          (* self.config *)

(** the process-wide defaults (config.py 20-25, 207-222), which scopes may change *)
Record env := mk_env { dconf : string -> string -> option kwargs; dqt : string -> option string }.

(** arguments of a configuration class: outer [None] = not given *)
Record args := mk_args {
  a_q_type : option string; a_place : option string; a_scaler : option (option Q);
  a_affine : option (option (Q * Q)); a_qnoise : option (option Q); a_symmetric : option bool; a_kw : kwargs }.
Definition given {A} (o : option (option A)) : option A := match o with Some x => x | None => None end.

Definition is_set (o : option cval) : bool := match o with Some CNone | None => false | Some _ => true end.
(** config.py 491-498: setting one of the axes clears the other *)
Definition fix_axes (kw : kwargs) : kwargs :=
  let kw := if is_set (get "homogeneous_axis" kw) then put "heterogeneous_axis" CNone kw else kw in
  if is_set (get "heterogeneous_axis" kw) then put "homogeneous_axis" CNone kw else kw.
Definition nonzero (o : option Q) : bool := match o with Some q => negb (Qeq_bool q 0) | None => true end.
Definition in_unit (o : option Q) : bool := match o with Some q => Qle_bool 0 q && Qle_bool q 1 | None => true end.

(** QuantizerConfig.__init__, config.py 437-508; [None]: an exception *)
Definition plain_init (E : env) (cls : conf_class) (qt pl : string) (sc : option Q) (af : option (Q * Q)) (qn : option Q) (kw : kwargs)
  : option conf :=
  match (if String.eqb qt "default" then dqt E pl else Some qt) with
  | None => None
  | Some qt =>
      if negb (nonzero sc && nonzero (option_map fst af) && in_unit qn) then None
      else if String.eqb qt "dummy" then Some (mk_conf cls qt pl sc qn af [])
      else match dconf E qt pl with
           | None => None
           | Some d =>
               if is_set (get "homogeneous_axis" kw) && is_set (get "heterogeneous_axis" kw) then None
               else let kw := fix_axes kw in
                    if forallb (fun p => has (fst p) d) kw
                    then Some (mk_conf cls qt pl sc qn af (map (fun p => (fst p, match get (fst p) kw with Some v => v | None => snd p end)) d))
                    else None
           end
  end.
Definition or_default (o : option string) (d : string) : string := match o with Some s => s | None => d end.
(** keyword arguments of a call must be distinct: a fixed one given again is a TypeError *)
Definition with_fixed (fixed kw : kwargs) : option kwargs :=
  if existsb (fun p => has (fst p) kw) fixed then None else Some (fixed ++ kw).
Definition present {A} (o : option A) : bool := match o with Some _ => true | None => false end.

(** HardTanhConfig.__init__ 645-669: 'overflow_node' is what the source says *)
Definition hard_tanh_init (E : env) (a : args) : option conf :=
  if present (a_affine a) || existsb (fun k => has k (a_kw a)) ["k0"; "ic"; "overflow_node"] then None
  else let kw := remove "i0" (a_kw a) in
       let mode := if (match a_symmetric a with Some b => b | None => false end) then "SAT_SYM" else "SAT" in
       match with_fixed [("k0", CNum 1); ("ic", CObj "Constant(0)"); ("i0", CNum 0); ("overflow_mode", CStr mode)] kw with
       | Some kw => plain_init E HardTanh (or_default (a_q_type a) "kif") (or_default (a_place a) "datalane") (given (a_scaler a)) None (given (a_qnoise a)) kw
       | None => None
       end.
(** HardSigmoidConfig.__init__ 687-707 *)
Definition hard_sigmoid_init (E : env) (a : args) : option conf :=
  if present (a_affine a) || present (a_symmetric a) || existsb (fun k => has k (a_kw a)) ["k0"; "ic"; "overflow_mode"] then None
  else let kw := remove "i0" (a_kw a) in
       match with_fixed [("k0", CNum 1); ("ic", CObj "Constant(1)"); ("i0", CNum 1); ("overflow_mode", CStr "SAT")] kw with
       | Some kw => plain_init E HardSigmoid (or_default (a_q_type a) "kif") (or_default (a_place a) "datalane") (given (a_scaler a)) (Some (1#4, 1#2)) (given (a_qnoise a)) kw
       | None => None
       end.
Definition conf_init (E : env) (cls : conf_class) (a : args) : option conf :=
  match cls with
  | Plain => if present (a_symmetric a) then None
             else plain_init E Plain (or_default (a_q_type a) "default") (or_default (a_place a) "datalane") (given (a_scaler a)) (given (a_affine a)) (given (a_qnoise a)) (a_kw a)
  | HardTanh => hard_tanh_init E a
  | HardSigmoid => hard_sigmoid_init E a
  end.

(** [del conf[k]] raises KeyError when the key is absent *)
Fixpoint del_all (ks : list string) (kw : kwargs) : option kwargs :=
  match ks with [] => Some kw | k :: ks => if has k kw then del_all ks (remove k kw) else None end.
(** get_config: 522-530, 671-678, 709-716 *)
Definition conf_save (c : conf) : option args :=
  match c_class c with
  | Plain => Some (mk_args (Some (q_type c)) (Some (place c)) (Some (scaler c)) (Some (affine c)) (Some (qnoise c)) None (params c))
  | HardTanh | HardSigmoid =>
      match del_all ["ic"; "k0"; "i0"; "overflow_mode"] (params c) with
      | Some kw => Some (mk_args (Some (q_type c)) (Some (place c)) (Some (scaler c)) None (Some (qnoise c)) None kw)
      | None => None
      end
  end.
(** from_config(get_config()), 532-534, in a process with the defaults [E] *)
Definition conf_reload (E : env) (c : conf) : option conf :=
  match conf_save c with Some a => conf_init E (c_class c) a | None => None end.

(** the defaults the package starts with, config.py 20-25 and 75-222; numbers whose value no statement depends on
    are kept as in the source, [float('inf')] as an object *)
Definition kbi_defaults (overflow bc decay : cval) (ho he : cval) (is_weight : bool) : kwargs :=
  [("k0", CBool true); ("b0", CNum 8); ("i0", CNum 2); ("round_mode", CStr "RND"); ("overflow_mode", overflow); ("bc", bc); ("ic", CNone);
   ("br", CObj "MonoL1(1e-8)"); ("ir", CNone); ("i_decay_speed", decay); ("homogeneous_axis", ho); ("heterogeneous_axis", he);
   ("bw_mapper", CNone); ("trainable", CBool true); ("is_weight", CBool is_weight)].
Definition kif_defaults (overflow decay : cval) (ho he : cval) (is_weight : bool) : kwargs :=
  [("k0", CBool true); ("i0", CNum 2); ("f0", CNum 6); ("round_mode", CStr "RND"); ("overflow_mode", overflow); ("ic", CObj "MinMax(-23,23)");
   ("ir", CObj "MonoL1(1e-8)"); ("fc", CObj "MinMax(-24,24)"); ("fr", CObj "MonoL1(1e-8)"); ("i_decay_speed", decay);
   ("homogeneous_axis", ho); ("heterogeneous_axis", he); ("bw_mapper", CNone); ("trainable", CBool true); ("is_weight", CBool is_weight)].
Definition float_defaults (ho he : cval) (is_weight : bool) : kwargs :=
  [("m0", CNum 2); ("e0", CNum 4); ("e00", CNum 0); ("mc", CObj "MinMax(-1,8)"); ("ec", CObj "MinMax(0,4)"); ("e0c", CObj "MinMax(-16,16)");
   ("mr", CObj "MonoL1(1e-8)"); ("er", CObj "MonoL1(1e-8)"); ("e0r", CNone); ("homogeneous_axis", ho); ("heterogeneous_axis", he);
   ("bw_mapper", CNone); ("trainable", CBool true); ("is_weight", CBool is_weight)].
Definition inf : cval := CObj "inf".
Definition shipped_table : list ((string * string) * kwargs) :=
  [(("kbi", "weight"), kbi_defaults (CStr "SAT_SYM") (CObj "MinMax(0,23)") inf (CAxes []) CNone true);
   (("kbi", "bias"), kbi_defaults (CStr "WRAP") (CObj "MinMax(0,24)") (CNum (1#100)) (CAxes []) CNone false);
   (("kbi", "table"), kbi_defaults (CStr "SAT_SYM") (CObj "MinMax(0,23)") inf CNone (CAxes []) false);
   (("kbi", "datalane"), kbi_defaults (CStr "WRAP") (CObj "MinMax(0,24)") (CNum (1#100)) (CAxes [0]%Z) CNone false);
   (("kif", "weight"), kif_defaults (CStr "SAT_SYM") inf (CAxes []) CNone true);
   (("kif", "bias"), kif_defaults (CStr "WRAP") (CNum (1#100)) (CAxes []) CNone false);
   (("kif", "table"), kif_defaults (CStr "SAT_SYM") inf CNone (CAxes []) false);
   (("kif", "datalane"), kif_defaults (CStr "WRAP") (CNum (1#100)) (CAxes [0]%Z) CNone false);
   (("float", "weight"), float_defaults (CAxes []) CNone true);
   (("float", "bias"), float_defaults (CAxes []) (CAxes []) false);
   (("float", "table"), float_defaults CNone (CAxes []) false);
   (("float", "datalane"), float_defaults CNone (CAxes []) false)].
Fixpoint lookup2 (qt pl : string) (t : list ((string * string) * kwargs)) : option kwargs :=
  match t with
  | [] => None
  | ((a, b), d) :: t' => if String.eqb qt a && String.eqb pl b then Some d else lookup2 qt pl t'
  end.
Definition shipped : env :=
  mk_env (fun qt pl => lookup2 qt pl shipped_table)
         (fun pl => get pl [("weight", "kbi"); ("datalane", "kif"); ("bias", "kbi"); ("table", "kbi")]).

(** ** Layers *)
(** attribute values of a layer *)
Inductive lval := LVal (v : cval) | LConf (c : conf) | LConfs (l : list conf).
Definition lnone : lval := LVal CNone.
Definition truthy (v : lval) : bool :=
  match v with
  | LVal CNone | LVal (CBool false) => false
  | LVal (CNum q) => negb (Qeq_bool q 0)
  | LVal (CStr "") => false | LVal (CAxes []) => false | LConfs [] => false
  | _ => true
  end.
Definition is_none (v : lval) : bool := match v with LVal CNone => true | _ => false end.

(** How a constructor treats one of its parameters. *)
Inductive field :=
| Required (n : string)                              (* no default *)
| Setting (n : string) (d : cval)                    (* stored as given *)
| Global (n : string)                                (* None: the value in global_config *)
| Fallback (n other : string)                        (* None: the value of another parameter *)
| Ebops (with_iq of_cell : bool)                     (* enable_ebops; None: global_config['enable_ebops'] ([and enable_iq], base.py 148-149);
                                                        of a cell: the property is also False unless standalone *)
| Conf (n : string) (cls : conf_class) (pl : string) (guard : option string).
                                                     (* [conf or cls(place=pl)], kept if the guard parameter is true *)
Definition field_name (f : field) : string :=
  match f with
  | Required n | Setting n _ | Global n | Fallback n _ | Conf n _ _ _ => n
  | Ebops _ _ => "enable_ebops"
  end.
(** a class: its parameters in order of processing, and whether get_config emits each *)
Notation class := (list (field * bool)).
Notation layer := (list (string * lval)).

(** global_config (config/layer.py 15-21) *)
Record genv := mk_genv { quantizers : env; globals : string -> cval }.
Definition attr (x : layer) (n : string) : lval := match get n x with Some v => v | None => lnone end.
Definition as_bool (v : lval) : lval := LVal (CBool (truthy v)).

(** the value a constructor gives to a field, from the argument ([None]: not given) and the attributes set before *)
Definition field_value (E : genv) (f : field) (arg : option lval) (x : layer) : option lval :=
  let v := match arg with Some v => v | None => lnone end in
  match f with
  | Required _ => arg
  | Setting _ d => Some (match arg with Some v => v | None => LVal d end)
  | Global n => Some (if is_none v then LVal (globals E n) else v)
  | Fallback _ o => Some (if is_none v then attr x o else v)
  | Ebops iq cell =>
      let v := if is_none v then (if iq then LVal (CBool (truthy (LVal (globals E "enable_ebops")) && truthy (attr x "enable_iq")))
                                  else LVal (globals E "enable_ebops")) else v in
      Some (if cell && negb (truthy (attr x "standalone")) then LVal (CBool false) else v)
  | Conf _ cls pl g =>
      if (match g with Some p => truthy (attr x p) | None => true end)
      then if truthy v then Some v
           else option_map LConf (conf_init (quantizers E) cls (mk_args None (Some pl) None None None None []))
      else Some lnone
  end.
Fixpoint run_init (E : genv) (c : class) (kw x : layer) : option layer :=
  match c with
  | [] => Some x
  | (f, _) :: c' =>
      match field_value E f (get (field_name f) kw) x with
      | Some v => run_init E c' kw (x ++ [(field_name f, v)])
      | None => None
      end
  end.
(** the constructor; an unknown keyword is a TypeError *)
Definition layer_init (E : genv) (c : class) (kw : layer) : option layer :=
  if forallb (fun p => existsb (fun q => String.eqb (fst p) (field_name (fst q))) c) kw then run_init E c kw [] else None.
(** get_config *)
Definition layer_save (c : class) (x : layer) : layer :=
  map (fun q => (field_name (fst q), attr x (field_name (fst q)))) (filter snd c).
(** deserialization rebuilds the nested configurations first *)
Fixpoint all_some {A} (l : list (option A)) : option (list A) :=
  match l with
  | [] => Some []
  | Some a :: l' => option_map (cons a) (all_some l')
  | None :: _ => None
  end.
Definition reload_value (E : env) (v : lval) : option lval :=
  match v with
  | LVal v => Some (LVal v)
  | LConf c => option_map LConf (conf_reload E c)
  | LConfs l => option_map LConfs (all_some (map (conf_reload E) l))
  end.
Definition reload_kwargs (E : env) (kw : layer) : option layer :=
  all_some (map (fun p => option_map (pair (fst p)) (reload_value E (snd p))) kw).
(** from_config(get_config()) *)
Definition layer_reload (E : genv) (c : class) (x : layer) : option layer :=
  match reload_kwargs (quantizers E) (layer_save c x) with Some kw => layer_init E c kw | None => None end.

(** ** The classes of the package *)
Definition sv (n : string) (d : cval) : field * bool := (Setting n d, true).
Definition cf (n pl : string) : field * bool := (Conf n Plain pl None, true).
(** QLayerBase.__init__, layers/core/base.py 132-156, get_config 219-231; [keras] bundles the parameters of the keras base class *)
Definition base_with (iq oq : field) : class :=
  [(Required "keras", true); (Global "beta0", true); (iq, true); (oq, true); (Ebops true false, true); sv "ebops_factor" (CNum 1);
   (Conf "oq_conf" Plain "datalane" (Some "enable_oq"), true)].
Definition base : class := base_with (Global "enable_iq") (Global "enable_oq").
(** QLayerBaseSingleInput, layers/core/base.py 253-278 *)
Definition iqf : field * bool := (Conf "iq_conf" Plain "datalane" (Some "enable_iq"), true).
Definition single : class := base ++ [iqf].
(** QLayerBaseMultiInputs, layers/core/base.py 309-352; iq_confs defaults to one configuration, kept if enable_iq *)
Definition multi : class := base ++ [(Conf "iq_confs" Plain "datalane" (Some "enable_iq"), true)].
(** kq_conf, bq_conf (kept if the layer has a bias) and parallelization_factor: core/dense.py 33-39, 82-90;
    conv.py 39-45, 104-112; einsum_dense.py 45-51, 95-103 *)
Definition kernel_confs (bias : string) : class :=
  [cf "kq_conf" "weight"; (Conf "bq_conf" Plain "bias" (Some bias), true); sv "parallelization_factor" (CNum (-1))].

Inductive layer_class :=
| QDense | QBatchNormDense | QConv | QEinsumDense | QEinsumDenseBatchnorm | QBatchNormalization
| QSum | QMeanPow2 | QMerge | QEinsum | QPooling | QUnaryFunctionLUT | QSoftmax
| QDenseT | QEinsumDenseT | QConvT | QMultiHeadAttention | QMultiHeadAttentionT | QLinformerAttention | QSALTAttention
| QSimpleRNNCell | QSimpleRNN | QGRUCell | QGRU | QSimpleSNNCell | QLIFCell | QSimpleSNN | QLIF.

Definition dense : class := single ++ [sv "use_bias" (CBool true)] ++ kernel_confs "use_bias".
Definition einsum_dense : class := single ++ [sv "bias_axes" CNone] ++ kernel_confs "bias_axes".
(** batch-norm settings of QBatchNormDense (core/dense.py 140-148, 231-248) and of QEinsumDenseBatchnorm
    (einsum_dense_batchnorm.py 58-79, which defines no get_config) *)
Definition bn_settings (emitted : bool) : class :=
  map (fun p => (Setting (fst p) (snd p), emitted))
    [("scale", CBool true); ("momentum", CNum (99#100)); ("epsilon", CNum (1#1000)); ("gamma_initializer", CStr "ones");
     ("moving_mean_initializer", CStr "zeros"); ("moving_variance_initializer", CStr "ones"); ("gamma_regularizer", CNone);
     ("gamma_constraint", CNone); ("synchronized", CBool false)].
(** table settings: table/dense.py 23-62, 149-167; 171-211, 409-429 *)
Definition table_settings : class :=
  [sv "n_hl" (CNum 1); sv "d_hl" (CNum 8); sv "activation" CNone; sv "subnn_activation" (CStr "tanh"); cf "toq_conf" "table";
   sv "parallelization_factor" (CNum (-1)); sv "batch_norm" (CBool false); sv "bn_center" (CBool true); sv "bn_scale" (CBool true);
   sv "bn_momentum" (CNum (99#100)); sv "bn_epsilon" (CNum (1#1000)); sv "table_idxs" (CAxes [6; 5]%Z)].
(** attn/mha.py 63-79, 358-378 *)
Definition softmax_confs : class :=
  [cf "softmax_iq_conf" "datalane"; cf "softmax_exp_iq_conf" "datalane"; cf "softmax_exp_oq_conf" "table"; cf "softmax_inv_iq_conf" "datalane";
   cf "softmax_inv_oq_conf" "table"; cf "softmax_oq_conf" "datalane"; sv "softmax_allow_heterogeneous_table" (CBool false);
   sv "parallelization_factor" (CNum (-1)); sv "stable_softmax" (CBool true)].
Definition mha : class :=
  base ++ [cf "qkvo_iq_conf" "datalane"; cf "qkvo_kq_conf" "weight"; cf "qkvo_bq_conf" "bias"; cf "qkvo_oq_conf" "datalane"] ++ softmax_confs ++ [sv "fuse" (CStr "none")].
(** snn/base.py 50-100, 158-176: the settings of a spiking cell *)
Definition spiking_settings : class :=
  [(Required "units", true); sv "threshold" (CNum 1); sv "spike_grad" CNone; sv "surrogate_disable" (CBool false); sv "inhibition" (CBool false);
   sv "learn_threshold" (CBool false); sv "reset_mechanism" (CStr "subtract"); sv "detach_reset" (CBool true); sv "graded_spikes_factor" (CNum 1);
   sv "learn_graded_spikes_factor" (CBool false)].
(** parameters shared by a cell and the sequence layer around it: snn/base.py 293-319, 423-433; 537-583 *)
Definition snn_confs (ebops : field) : class :=
  [(ebops, true); (Conf "oq_conf" Plain "datalane" (Some "enable_oq"), true); iqf; cf "graded_spikes_factor_q_conf" "weight"; (Global "enable_sq", true);
   (Conf "sq_conf" Plain "datalane" (Some "enable_sq"), true)].
Definition snn_head : class := [(Required "keras", true); (Global "beta0", true); (Global "enable_iq", true); (Global "enable_oq", true)].
Definition snn_cell : class :=
  snn_head ++ [sv "ebops_factor" (CNum 1)] ++ spiking_settings ++ [sv "standalone" (CBool true)] ++ snn_confs (Ebops false true).
Definition snn_layer : class := snn_head ++ spiking_settings ++ snn_confs (Ebops false false) ++ [sv "parallelization_factor" (CNum (-1))].
Definition lif_confs : class := [cf "beta_q_conf" "weight"; sv "beta" (CNum (1#2)); sv "learn_beta" (CBool false)].

Definition class_of (k : layer_class) : class :=
  match k with
  | QDense | QConv => dense                                       (* core/dense.py, conv.py *)
  | QBatchNormDense => dense ++ bn_settings true                  (* core/dense.py 103-248 *)
  | QEinsumDense => einsum_dense                                  (* core/einsum_dense.py 25-103 *)
  | QEinsumDenseBatchnorm =>                                      (* einsum_dense_batchnorm.py 12-79: [normalize_axes or bias_axes] *)
      einsum_dense ++ bn_settings false ++ [(Setting "center" (CBool true), false); (Fallback "normalize_axes" "bias_axes", false)]
  | QBatchNormalization => single ++ [cf "kq_conf" "weight"; cf "bq_conf" "bias"]   (* batch_normalization.py 57-63, 190-198 *)
  | QSum => single ++ [sv "axes" (CAxes [-1]%Z); sv "scale" (CNum 1); sv "keepdims" (CBool false)]  (* ops/accum.py 10-60 *)
  | QMeanPow2 => single ++ [sv "axes" (CAxes [-1]%Z); sv "keepdims" (CBool false)]  (* ops/accum.py 63-81 *)
  | QMerge => multi                                               (* ops/merge.py 10-15 *)
  | QEinsum => multi ++ [(Required "equation", true)]             (* ops/einsum.py 9-69 *)
  | QPooling => single ++ [(Setting "parallelization_factor" (CNum (-1)), false)]   (* pooling.py 23-26: no get_config *)
  | QUnaryFunctionLUT =>                                          (* layers/activation.py 18-73 *)
      base_with (Setting "enable_iq" (CBool true)) (Setting "enable_oq" (CBool true)) ++
      [iqf; sv "allow_heterogeneous_input" (CBool true); sv "allow_heterogeneous_table" (CBool true)]
  | QSoftmax =>                                                   (* softmax.py 13-107, 163-178 *)
      [(Required "keras", true); (Global "beta0", true); sv "enable_iq" (CBool false); (Global "enable_oq", true); (Ebops false false, true); sv "ebops_factor" (CNum 1);
       (Conf "oq_conf" Plain "datalane" (Some "enable_oq"), true); iqf; sv "axes" (CAxes [-1]%Z); sv "stable" (CBool true); cf "exp_oq_conf" "table";
       (Conf "exp_iq_conf" Plain "datalane" (Some "stable"), true); cf "inv_oq_conf" "table"; cf "inv_iq_conf" "datalane";
       sv "allow_heterogeneous_table" (CBool false); sv "input_scaler" (CNum 1); sv "parallelization_factor" (CNum (-1))]
  | QDenseT => single ++ [(Required "n_out", true); sv "use_bias" (CBool true)] ++ table_settings
  | QEinsumDenseT => single ++ [(Required "equation", true); (Required "output_shape", true); sv "bias_axes" CNone; sv "normalize_axes" CNone] ++ table_settings
  | QConvT =>                                                     (* table/conv.py 24-71, 138-150 *)
      single ++ [(Required "filters", true); sv "use_bias" (CBool true); (Required "kernel_size", true); sv "strides" (CNum 1); sv "padding" (CStr "valid");
                 sv "data_format" (CStr "channels_last"); sv "dilation_rate" (CNum 1); sv "groups" (CNum 1)] ++ table_settings
  | QMultiHeadAttention => mha
  | QMultiHeadAttentionT =>                                       (* attn/mha.py 520-592, 732-751 *)
      base ++ [cf "qkvo_iq_conf" "datalane"; cf "qkvo_oq_conf" "datalane"; cf "qkvo_toq_conf" "table"] ++ softmax_confs ++
      [sv "n_hl" (CNum 1); sv "d_hl" (CNum 8); sv "subnn_activation" (CStr "tanh"); sv "table_spec" (CAxes [6; 5]%Z); sv "batch_norm" (CBool false);
       sv "bn_center" (CBool true); sv "bn_scale" (CBool true); sv "bn_momentum" (CNum (99#100)); sv "bn_epsilon" (CNum (1#1000))]
  | QLinformerAttention => mha ++ [(Required "lin_kv_proj_dim", true); sv "share_kv_proj" (CBool false); sv "lin_kv_proj_mode" (CStr "dense")]  (* attn/linformer.py 50-57, 172-180 *)
  | QSALTAttention => mha ++ [(Required "lin_kv_proj_dim", true); sv "share_kv_proj" (CBool false); sv "conv_size" (CNum 3); sv "cluster_k_proj" (CBool false);
                              sv "cluster_v_proj" (CBool false); sv "separate_conv" (CBool false)]                         (* attn/salt.py 55-66, 206-214 *)
  | QSimpleRNNCell =>                                             (* rnn/simple_rnn.py 154-220, 261-272 *)
      [(Required "keras", true); (Global "beta0", true); (Global "enable_iq", true); (Global "enable_oq", true); sv "standalone" (CBool true); (Ebops true true, true);
       sv "ebops_factor" (CNum 1); (Conf "oq_conf" Plain "datalane" (Some "enable_oq"), true); iqf; sv "use_bias" (CBool true); (Fallback "enable_sq" "standalone", true);
       (Conf "sq_conf" Plain "datalane" (Some "enable_sq"), true); cf "kq_conf" "weight"; cf "rkq_conf" "weight"; (Conf "bq_conf" Plain "bias" (Some "use_bias"), true);
       (Conf "paq_conf" HardTanh "datalane" None, true)]
  | QSimpleRNN =>                                                 (* rnn/simple_rnn.py 518-601, 346-354, 608-619: enable_sq is not emitted *)
      [(Required "keras", true); (Global "beta0", true); (Global "enable_iq", true); (Global "enable_oq", true); (Ebops true false, true);
       (Conf "oq_conf" Plain "datalane" (Some "enable_oq"), true); iqf; sv "use_bias" (CBool true); (Setting "enable_sq" (CBool false), false);
       (Conf "sq_conf" Plain "datalane" (Some "enable_sq"), true); cf "kq_conf" "weight"; cf "rkq_conf" "weight"; (Conf "bq_conf" Plain "bias" (Some "use_bias"), true);
       (Conf "paq_conf" HardTanh "datalane" None, true); sv "parallelization_factor" (CNum (-1))]
  | QGRUCell =>                                                   (* rnn/gru.py 108-186, 334-346: rhq_conf and standalone are not emitted *)
      [(Required "keras", true); (Global "beta0", true); (Global "enable_iq", true); (Global "enable_oq", true); (Setting "standalone" (CBool true), false); (Ebops true true, true);
       sv "ebops_factor" (CNum 1); (Conf "oq_conf" Plain "datalane" (Some "enable_oq"), true); iqf; sv "use_bias" (CBool true); cf "sq_conf" "datalane"; cf "kq_conf" "weight";
       cf "rkq_conf" "weight"; (Conf "bq_conf" Plain "bias" (Some "use_bias"), true); (Conf "paq_conf" HardTanh "datalane" None, true);
       (Conf "praq_conf" HardSigmoid "datalane" None, true); (Conf "rhq_conf" Plain "datalane" None, false)]
  | QGRU =>                                                       (* rnn/gru.py 517-607, 609-623 *)
      [(Required "keras", true); (Global "beta0", true); (Global "enable_iq", true); (Global "enable_oq", true); (Ebops true false, true);
       (Conf "oq_conf" Plain "datalane" (Some "enable_oq"), true); iqf; sv "use_bias" (CBool true); cf "sq_conf" "datalane"; cf "kq_conf" "weight";
       cf "rkq_conf" "weight"; (Conf "bq_conf" Plain "bias" (Some "use_bias"), true); (Conf "paq_conf" HardTanh "datalane" None, true);
       (Conf "praq_conf" HardSigmoid "datalane" None, true); cf "rhq_conf" "datalane"; sv "parallelization_factor" (CNum 1)]
  | QSimpleSNNCell => snn_cell
  | QLIFCell => snn_cell ++ lif_confs
  | QSimpleSNN => snn_layer
  | QLIF => snn_layer ++ lif_confs
  end.
