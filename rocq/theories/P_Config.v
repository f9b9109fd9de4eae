(** C40: from_config(get_config()) rebuilds quantizer configurations and layers. *)
From Coq Require Import List Bool String.
From Verif Require Import Num M_Config S_Config L_Config.
Import ListNotations.
Open Scope string_scope.
Local Open Scope list_scope.

(** A configuration saved in a process with the defaults E and reloaded in one with the defaults E' (other
    values, same parameters) is the same, exactly when it does not set both axes and is not a HardTanhConfig
    made symmetric nor a hard configuration of type 'dummy' *)
Theorem C40_config :
  forall E E' cls a c, proper E -> same_parameters E E' -> conf_init E cls a = Some c ->
    (survives E' c <->
     not_both_axes (params c) /\
     match cls with Plain => True | HardSigmoid => q_type c <> "dummy" | HardTanh => q_type c <> "dummy" /\ a_symmetric a <> Some true end).
Proof. exact conf_reload_iff. Qed.
Print Assumptions C40_config.
(** with the package's own defaults the first condition only excludes some 'float' configurations of biases *)
Theorem C40_shipped_config :
  forall E' a c, same_parameters shipped E' -> conf_init shipped Plain a = Some c ->
    ~ (q_type c = "float" /\ place c = "bias") -> survives E' c.
Proof.
  intros E' a c S H N. apply (conf_reload_iff shipped E' Plain a c shipped_proper S H). split; [|exact I].
  apply (conf_axes shipped Plain a c shipped_proper H). intros d D. apply (shipped_axes _ _ _ D). exact N.
Qed.
Print Assumptions C40_shipped_config.

(** A layer of any class, given configurations that survive: the reloaded layer has the same settings exactly
    when the settings its get_config leaves out have the values the constructor would choose *)
Theorem C40_layer :
  forall E E' k kw x, proper (quantizers E) -> same_parameters (quantizers E) (quantizers E') -> good_defaults (quantizers E) ->
    (forall n, globals E n <> CNone) -> layer_init E (class_of k) kw = Some x ->
    (forall n v c, In (n, v) kw -> In c (confs_in v) -> survives (quantizers E') c) ->
    (layer_reload E' (class_of k) x = Some x <->
     forall f, In f (left_out (class_of k)) -> field_value E' f None x = Some (attr x (field_name f))).
Proof. exact layer_iff. Qed.
Print Assumptions C40_layer.
(** For all classes but QEinsumDenseBatchnorm, the pooling layers, QSimpleRNN and QGRUCell nothing is left out *)
Theorem C40_complete_layer :
  forall E E' k kw x, incomplete k = false -> proper (quantizers E) -> same_parameters (quantizers E) (quantizers E') -> good_defaults (quantizers E) ->
    (forall n, globals E n <> CNone) -> layer_init E (class_of k) kw = Some x ->
    (forall n v c, In (n, v) kw -> In c (confs_in v) -> survives (quantizers E') c) ->
    layer_reload E' (class_of k) x = Some x.
Proof.
  intros E E' k kw x C P S G Gl H K. apply (layer_iff E E' k kw x P S G Gl H K). rewrite (complete_class k C). intros f [].
Qed.
Print Assumptions C40_complete_layer.
Theorem C40_package_defaults : proper shipped /\ good_defaults shipped.
Proof. exact (conj shipped_proper shipped_good). Qed.
Print Assumptions C40_package_defaults.

(** ** where it fails *)
Definition nothing : args := mk_args None None None None None None [].
(** HardTanhConfig(symmetric=True) reloads as the asymmetric one *)
Theorem C40_symmetric_hard_tanh_refuted :
  exists c c', conf_init shipped HardTanh (mk_args None None None None None (Some true) []) = Some c /\
    conf_reload shipped c = Some c' /\ get "overflow_mode" (params c) = Some (CStr "SAT_SYM") /\ get "overflow_mode" (params c') = Some (CStr "SAT").
Proof. eexists. eexists. vm_compute. repeat split; reflexivity. Qed.
Print Assumptions C40_symmetric_hard_tanh_refuted.
(** QuantizerConfig('float', 'bias') has both axes set and cannot be reloaded *)
Theorem C40_float_bias_refuted :
  exists c, conf_init shipped Plain (mk_args (Some "float") (Some "bias") None None None None []) = Some c /\ conf_reload shipped c = None.
Proof. eexists. vm_compute. split; reflexivity. Qed.
Print Assumptions C40_float_bias_refuted.
(** HardTanhConfig('dummy').get_config() raises *)
Theorem C40_hard_dummy_refuted :
  exists c, conf_init shipped HardTanh (mk_args (Some "dummy") None None None None None []) = Some c /\ conf_save c = None.
Proof. eexists. vm_compute. split; reflexivity. Qed.
Print Assumptions C40_hard_dummy_refuted.

Definition start : genv :=
  mk_genv shipped (fun n => match get n [("beta0", CNum (1#100000)); ("enable_ebops", CBool true); ("enable_oq", CBool false); ("enable_iq", CBool true);
                                         ("enable_sq", CBool true)] with Some v => v | None => CBool true end).
Definition keras (s : string) : string * lval := ("keras", LVal (CObj s)).
Definition qc (a : args) : lval := match conf_init shipped Plain a with Some c => LConf c | None => lnone end.
Definition two_bits : lval := qc (mk_args (Some "kif") (Some "datalane") None None None None [("i0", CNum 1); ("f0", CNum 1)]).
(** QSimpleRNN(enable_sq=True, sq_conf=q): both are gone, QPooling(parallelization_factor=2), QGRUCell(rhq_conf=q),
    QEinsumDenseBatchnorm(center=False) *)
Definition changed (k : layer_class) (kw : layer) (n : string) : Prop :=
  exists x x', layer_init start (class_of k) kw = Some x /\ layer_reload start (class_of k) x = Some x' /\ attr x' n <> attr x n.
Theorem C40_left_out_refuted :
  changed QSimpleRNN [keras "units=3"; ("enable_sq", LVal (CBool true)); ("sq_conf", two_bits)] "sq_conf" /\
  changed QPooling [keras "pool=2"; ("parallelization_factor", LVal (CNum 2))] "parallelization_factor" /\
  changed QGRUCell [keras "units=3"; ("rhq_conf", two_bits)] "rhq_conf" /\
  changed QEinsumDenseBatchnorm [keras "ab,bc->ac"; ("bias_axes", LVal (CStr "c")); ("center", LVal (CBool false))] "center".
Proof. repeat split; eexists; eexists; (split; [vm_compute; reflexivity|split; [vm_compute; reflexivity|vm_compute; discriminate]]). Qed.
Print Assumptions C40_left_out_refuted.

(** ** the hypotheses are met *)
Example C40_same_parameters_met : same_parameters shipped shipped.
Proof. intros qt pl. reflexivity. Qed.
(** a process in which the weight quantizers have other defaults *)
Definition elsewhere : env :=
  mk_env (fun qt pl => option_map (map (fun p => if String.eqb (fst p) "i0" then (fst p, CNum 7) else p)) (dconf shipped qt pl)) (fun _ => Some "kbi").
Example C40_elsewhere : same_parameters shipped elsewhere.
Proof.
  intros qt pl. unfold elsewhere. cbn [dconf]. destruct (dconf shipped qt pl) as [d|]; [|reflexivity]. cbn [option_map]. f_equal.
  unfold keys. rewrite map_map. apply map_ext. intros p. destruct (String.eqb (fst p) "i0"); reflexivity.
Qed.
Example C40_config_met : exists c, conf_init shipped Plain (mk_args None (Some "weight") None None None None [("i0", CNum 5); ("heterogeneous_axis", CAxes [1]%Z)]) = Some c /\
  get "i0" (params c) = Some (CNum 5) /\ get "homogeneous_axis" (params c) = Some CNone /\ survives elsewhere c.
Proof. eexists. vm_compute. repeat split; reflexivity. Qed.
Example C40_layer_met : exists x, layer_init start (class_of QDense) [keras "units=4"; ("iq_conf", two_bits); ("use_bias", LVal (CBool false))] = Some x /\
  attr x "bq_conf" = lnone /\ attr x "iq_conf" = two_bits /\ layer_reload (mk_genv elsewhere (fun _ => CBool false)) (class_of QDense) x = Some x.
Proof. eexists. split; [vm_compute; reflexivity|]. split; [vm_compute; reflexivity|]. split; vm_compute; reflexivity. Qed.
Example C40_start_met : forall n, globals start n <> CNone.
Proof.
  intros n. unfold start. cbn [globals get].
  repeat (match goal with |- context [String.eqb n ?s] => destruct (String.eqb n s) end; try discriminate).
Qed.
Example C40_gru_met : exists x, layer_init start (class_of QGRUCell) [keras "units=3"] = Some x /\ layer_reload start (class_of QGRUCell) x = Some x.
Proof. eexists. split; vm_compute; reflexivity. Qed.
