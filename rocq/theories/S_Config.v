(** Specification vocabulary for reloading configurations. *)
From Coq Require Import List Bool String.
From Verif Require Import Num M_Config.
Import ListNotations.
Open Scope string_scope.
Local Open Scope list_scope.

Definition keys {A} (d : list (string * A)) : list string := map fst d.
(** the defaults of the package, with whatever values scopes gave them: each has both axes, not both set *)
Record proper (E : env) : Prop := mk_proper {
  no_default_type : forall pl, dconf E "default" pl = None;
  distinct_keys : forall qt pl d, dconf E qt pl = Some d -> NoDup (keys d);
  both_axes : forall qt pl d, dconf E qt pl = Some d -> In "homogeneous_axis" (keys d) /\ In "heterogeneous_axis" (keys d);
  no_overflow_node : forall qt pl d, dconf E qt pl = Some d -> ~ In "overflow_node" (keys d) }.
(** another process: other default values, the same parameters *)
Definition same_parameters (E E' : env) : Prop :=
  forall qt pl, option_map keys (dconf E' qt pl) = option_map keys (dconf E qt pl).
Definition not_both_axes (d : list (string * cval)) : Prop :=
  is_set (get "homogeneous_axis" d) = false \/ is_set (get "heterogeneous_axis" d) = false.

(** a configuration that survives saving and reloading under the defaults [E] *)
Definition survives (E : env) (c : conf) : Prop := conf_reload E c = Some c.
Definition confs_in (v : lval) : list conf := match v with LConf c => [c] | LConfs l => l | LVal _ => [] end.
(** parameters that get_config leaves out *)
Definition left_out (c : list (field * bool)) : list field := map fst (filter (fun q => negb (snd q)) c).
(** the configurations a layer creates for itself do not set both axes *)
Definition good_defaults (E : env) : Prop :=
  (forall pl qt d, dqt E pl = Some qt -> dconf E qt pl = Some d -> not_both_axes d) /\
  (forall d, dconf E "kif" "datalane" = Some d -> not_both_axes d).
(** the classes whose get_config leaves something out *)
Definition incomplete (k : layer_class) : bool :=
  match k with QEinsumDenseBatchnorm | QPooling | QSimpleRNN | QGRUCell => true | _ => false end.
