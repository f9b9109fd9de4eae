(** C41, C42, C48: the QKeras compatibility package. *)
From Coq Require Import NArith List Bool String.
From Verif Require Import Num M_Fixed M_Config S_Config M_QKeras S_QKeras L_QKeras.
Import ListNotations.
Open Scope string_scope.
Local Open Scope list_scope.

(** * C41: quantized_bits configurations *)
(** The advertised max and min bound the values of the quantizer that the configuration describes (times the
    scaler), and without a scaler both are reached *)
Theorem C41_range :
  forall a q, qb_init a = Ok q -> is_int (b0 q) = true -> is_int (i0 q) = true ->
    ((forall n, qscaler q <> VInf n) -> forall x, scaler_of q * qb_min q <= configured q x <= scaler_of q * qb_max q) /\
    (qscaler q = VNone -> (exists x, configured q x == qb_max q) /\ (exists x, configured q x == qb_min q)).
Proof.
  intros a q H B I. split; [intros F x; exact (range_bounds a q x H B I F)|intros S; exact (range_attained a q H B I S)].
Qed.
Print Assumptions C41_range.
(** Calling a configuration made without qnoise_factor, its default, raises TypeError *)
Theorem C41_call_without_noise_refuted :
  forall q x, is_int (b0 q) = true -> is_int (i0 q) = true -> noise q = VNone -> qb_call q x = Raise TypeError.
Proof. exact call_no_noise. Qed.
Print Assumptions C41_call_without_noise_refuted.
(** With qnoise_factor=1 the call saturates to [bits] integer bits and keeps [integer] fractional bits *)
Theorem C41_call_value :
  forall q x, is_int (b0 q) = true -> is_int (i0 q) = true -> noise q = VFloat 1 -> qscaler q = VNone ->
    qb_call q x = Ok (stateless RND_CONV (q_omode q) false (truth (k0 q)) (int_val (b0 q)) (int_val (i0 q)) x).
Proof. exact call_value. Qed.
Print Assumptions C41_call_value.
(** so no configuration agrees with the quantizer it configures on all inputs *)
Theorem C41_call_agrees_refuted :
  forall a q, qb_init a = Ok q -> is_int (b0 q) = true -> is_int (i0 q) = true -> (forall n, qscaler q <> VInf n) -> noise q = VFloat 1 ->
    exists x y, qb_call q x = Ok y /\ ~ y == configured q x.
Proof. exact call_wrong. Qed.
Print Assumptions C41_call_agrees_refuted.
(** get_config and from_config rebuild the configuration exactly when the widths are ints, keep_negative is a
    bool and use_variables was not set against alpha *)
Theorem C41_config :
  forall a q, qb_init a = Ok q ->
    ((exists c, qb_config q = Ok c /\ qb_init c = Ok q) <->
     is_int (b0 q) = true /\ is_int (i0 q) = true /\ (exists k, k0 q = VBool k) /\ vars q = trainable q).
Proof. exact config_round_trip. Qed.
Print Assumptions C41_config.
(** quantized_relu documents (bits, integer, alpha, ...) but the third positional argument is [symmetric] and
    a fourth is refused; alpha is None, not 1.0, by default *)
Theorem C41_relu_arguments_refuted :
  forall b i s, (exists a, relu_args [b; i; s] [] = Ok a /\ q_symmetric a = s /\ q_alpha a = VNone /\ q_keep a = VBool false) /\
    forall r l, relu_args (b :: i :: s :: r :: l) [] = Raise TypeError.
Proof.
  intros b i s. split.
  - eexists. split; [vm_compute; reflexivity|]. repeat split; reflexivity.
  - intros r l. unfold relu_args, bind_args. cbn [app].
    match goal with |- (if ?c then _ else _) = _ => replace c with true; [reflexivity|] end.
    symmetry. apply orb_true_intro. right. reflexivity.
Qed.
Print Assumptions C41_relu_arguments_refuted.

Definition arguments (b i : Z) (kn : bool) (alpha nf : pyval) : qargs :=
  mk_qargs (VInt b) (VInt i) (VInt 0) (VBool kn) alpha (VBool false) VNone nf VNone (VBool true) VNone min0 VNone minmax12 VNone.
Example C41_met : exists q, qb_init (arguments 8 2 true VNone (VFloat 1)) = Ok q /\ is_int (b0 q) = true /\ is_int (i0 q) = true /\ qscaler q = VNone /\ noise q = VFloat 1 /\
  qb_max q == 255#64 /\ qb_min q == -4 /\ configured q 100 == 255#64 /\ (exists y, qb_call q 100 = Ok y /\ y == 100) /\ qb_config q <> Raise AssertionError.
Proof. eexists. split; [reflexivity|]. split; [reflexivity|]. split; [reflexivity|]. split; [reflexivity|]. split; [reflexivity|]. split; [reflexivity|]. split; [reflexivity|].
  split; [vm_compute; reflexivity|]. split; [eexists; split; [reflexivity|vm_compute; reflexivity]|]. vm_compute. discriminate. Qed.
Example C41_scaled_met : exists q, qb_init (arguments 4 0 false (VFloat (3#1)) VNone) = Ok q /\ scaler_of q == 3 /\ noise q = VNone /\ configured q 1 == 3 * (5#16).
Proof. eexists. split; [reflexivity|]. split; [reflexivity|]. split; [reflexivity|]. vm_compute. reflexivity. Qed.
(** quantized_bits(4, 0, keep_negative=1): the reloaded keep_negative is True; use_variables=True is lost *)
Example C41_config_keep : exists q c q', qb_init (mk_qargs (VInt 4) (VInt 0) (VInt 0) (VInt 1) VNone (VBool false) VNone VNone VNone (VBool true) (VBool true) min0 VNone minmax12 VNone) = Ok q /\
  qb_config q = Ok c /\ qb_init c = Ok q' /\ k0 q = VInt 1 /\ k0 q' = VBool true /\ vars q = true /\ vars q' = false.
Proof. do 3 eexists. vm_compute. repeat split; reflexivity. Qed.

(** * C42: argument strings *)
(** What is accepted: comma separated positional, then keyword arguments, white space around each; the result
    is the list of positional values and the dictionary of the keyword values *)
Theorem C42_accepted :
  forall od oi tf s a k, parse od oi tf s = Ok (a, k) ->
    exists ps ks, Forall good_positional ps /\ Forall good_keyword ks /\ map write_positional ps ++ map write_keyword ks <> [] /\
      s = write ps ks /\ Forall2 (denotes od oi tf) (map p_text ps) a /\ holds_keywords od oi tf ks k.
Proof. exact parse_sound. Qed.
Print Assumptions C42_accepted.
Theorem C42_accepts :
  forall od oi tf ps ks a, Forall good_positional ps -> Forall good_keyword ks -> map write_positional ps ++ map write_keyword ks <> [] ->
    Forall2 (denotes od oi tf) (map p_text ps) a -> (forall k t, last_value k (map pair_of ks) = Some t -> exists v, denotes od oi tf t v) ->
    exists k, parse od oi tf (write ps ks) = Ok (a, k) /\ holds_keywords od oi tf ks k.
Proof. exact parse_complete. Qed.
Print Assumptions C42_accepts.
(** the value of one argument, and what has none *)
Theorem C42_value :
  forall od oi tf s, (forall v, str_value od oi tf s = Ok v <-> denotes od oi tf s v) /\
    ((forall v, ~ denotes od oi tf s v) <-> str_value od oi tf s = Raise ValueError).
Proof. intros od oi tf s. split; [intros v; apply value_iff|apply value_error]. Qed.
Print Assumptions C42_value.
(** an empty argument is a SyntaxError, a positional argument after a keyword one an AssertionError, a text
    that is no value a ValueError *)
Theorem C42_rejections :
  forall od oi tf ps ks, Forall good_positional ps -> Forall good_keyword ks ->
    (forall bad rest, blank bad -> Forall (fun s => ~ In comma s) rest ->
       parse od oi tf (join ((map write_positional ps ++ map write_keyword ks) ++ bad :: rest)) = Raise SyntaxError) /\
    (forall p rest, ks <> [] -> good_positional p -> Forall (fun s => ~ In comma s) rest ->
       parse od oi tf (join ((map write_positional ps ++ map write_keyword ks) ++ write_positional p :: rest)) = Raise AssertionError) /\
    (forall t, map write_positional ps ++ map write_keyword ks <> [] ->
       (In t (map p_text ps) \/ exists k, last_value k (map pair_of ks) = Some t) -> (forall v, ~ denotes od oi tf t v) ->
       parse od oi tf (write ps ks) = Raise ValueError).
Proof.
  intros od oi tf ps ks P K. split; [|split].
  - intros bad rest B R. exact (reject_empty od oi tf ps ks bad rest P K B R).
  - intros p rest Nn G R. exact (reject_order od oi tf ps ks p rest P K Nn G R).
  - intros t Nn I D. exact (reject_value od oi tf ps ks t P K Nn I D).
Qed.
Print Assumptions C42_rejections.
(** A printed configuration is read back as what it tells, for values whose printed form reads as the value *)
Theorem C42_string_round_trip :
  forall od oi tf show a q, qb_init a = Ok q -> trainable q = false ->
    readable od oi tf show (b0 q) -> readable od oi tf show (i0 q) -> readable od oi tf show (k0 q) ->
    readable od oi tf show (VBool (sym q)) -> readable od oi tf show (VBool (stoch q)) -> readable od oi tf show (printed_alpha q) ->
    from_string od oi tf (qb_str show q) = Ok (told q).
Proof. exact string_round_trip. Qed.
Print Assumptions C42_string_round_trip.
(** A printed configuration with alpha='trainable_po2' is not read back: the name is printed without quotes *)
Theorem C42_trainable_string_refuted :
  forall od oi tf show a q, qb_init a = Ok q -> trainable q = true ->
    readable od oi tf show (b0 q) -> readable od oi tf show (i0 q) -> readable od oi tf show (k0 q) -> readable od oi tf show (VBool (sym q)) ->
    show po2 = txt "trainable_po2" -> tf (txt "trainable_po2") = None -> word (show (VBool (stoch q))) ->
    from_string od oi tf (qb_str show q) = Raise ValueError.
Proof. exact string_trainable. Qed.
Print Assumptions C42_trainable_string_refuted.
(** A printed configuration with negative integer bits is read back with a float, and then neither can be
    called nor saved *)
Theorem C42_negative_string_refuted :
  forall od oi tf show a q x, qb_init a = Ok q -> trainable q = false -> readable od oi tf show (b0 q) ->
    word (show (i0 q)) -> denotes od oi tf (show (i0 q)) (VFloat x) ->
    readable od oi tf show (k0 q) -> readable od oi tf show (VBool (sym q)) -> readable od oi tf show (VBool (stoch q)) -> readable od oi tf show (printed_alpha q) ->
    exists q', from_string od oi tf (qb_str show q) = Ok q' /\ i0 q' = VFloat x /\ qb_config q' = Raise AssertionError /\ forall y, qb_call q' y = Raise AssertionError.
Proof. exact string_negative. Qed.
Print Assumptions C42_negative_string_refuted.
(** 'quantized_relu(...)' is never read *)
Theorem C42_relu_string_refuted : forall od oi tf s, from_string od oi tf (txt "quantized_relu(" ++ s) = Raise ValueError.
Proof. exact other_name. Qed.
Print Assumptions C42_relu_string_refuted.

Definition no_digit (c : N) : bool := false.
Definition no_int (s : text) : option Z := None.
Definition some_floats (s : text) : option pyval :=
  if text_eqb s (txt "1.0") then Some (VFloat 1) else if text_eqb s (txt "-2") then Some (VFloat (-2)) else None.
Definition shown (v : pyval) : text :=
  match v with
  | VBool true => txt "True" | VBool false => txt "False" | VInt (Zneg 2) => txt "-2" | VInt z => digits (N.to_uint (Z.to_N z)) | VFloat _ => txt "1.0" | VStr s => s | _ => txt "None"
  end.
Example C42_parse_met :
  parse no_digit no_int some_floats (txt " 8 , None, symmetric = True,alpha='a b' ,bits=3, symmetric=0")
  = Ok ([VInt 8; VNone], [(txt "symmetric", VInt 0); (txt "alpha", VStr (txt "a b")); (txt "bits", VInt 3)]).
Proof. vm_compute. reflexivity. Qed.
Example C42_written_met : good_positional (mk_positional (txt " ") (txt "8") (txt " ")) /\ good_keyword (mk_keyword [] (txt "alpha") (txt " ") [] (txt "1.0") []) /\
  write [mk_positional (txt " ") (txt "8") (txt " ")] [mk_keyword [] (txt "alpha") (txt " ") [] (txt "1.0") []] = txt " 8 ,alpha =1.0" /\
  parse no_digit no_int some_floats (txt " 8 ,alpha =1.0") = Ok ([VInt 8], [(txt "alpha", VFloat 1)]).
Proof.
  assert (W : forall s, existsb (fun c => N.eqb c comma || N.eqb c equals || space c) (txt s) = false -> txt s <> [] -> word (txt s)) by (intros s; apply key_word).
  split; [|split; [|split; reflexivity]].
  - split; [constructor; [reflexivity|constructor]|split; [apply W; [reflexivity|discriminate]|constructor; [reflexivity|constructor]]].
  - split; [constructor|]. split; [apply W; [reflexivity|discriminate]|]. split; [constructor; [reflexivity|constructor]|].
    split; [constructor|]. split; [apply W; [reflexivity|discriminate]|constructor].
Qed.
Example C42_rejections_met :
  parse no_digit no_int some_floats (txt "8,,1") = Raise SyntaxError /\ parse no_digit no_int some_floats (txt "bits=8,1") = Raise AssertionError /\
  parse no_digit no_int some_floats (txt "bits=trainable_po2") = Raise ValueError /\ parse no_digit no_int some_floats [] = Raise SyntaxError.
Proof. vm_compute. repeat split; reflexivity. Qed.
Example C42_round_trip_met : exists q, qb_init (arguments 8 2 true VNone VNone) = Ok q /\ trainable q = false /\ readable no_digit no_int some_floats shown (b0 q) /\
  readable no_digit no_int some_floats shown (k0 q) /\ readable no_digit no_int some_floats shown (printed_alpha q) /\
  from_string no_digit no_int some_floats (qb_str shown q) = Ok (told q).
Proof.
  assert (R : forall v, existsb (fun c => N.eqb c comma || N.eqb c equals || space c) (shown v) = false -> shown v <> [] ->
    str_value no_digit no_int some_floats (shown v) = Ok v -> readable no_digit no_int some_floats shown v).
  { intros v A B C. split; [|apply value_iff; exact C]. split; [exact B|].
    assert (X : forall c, In c (shown v) -> (N.eqb c comma || N.eqb c equals || space c) = false).
    { intros c I. destruct (N.eqb c comma || N.eqb c equals || space c) eqn:Q; [|reflexivity].
      assert (existsb (fun c => N.eqb c comma || N.eqb c equals || space c) (shown v) = true) by (apply existsb_exists; exists c; split; assumption). congruence. }
    split; [intros I; specialize (X _ I); discriminate|]. split; [intros I; specialize (X _ I); discriminate|].
    split; intros c r Er; (assert (I : In c (shown v)) by (rewrite Er; first [left; reflexivity|apply in_or_app; right; left; reflexivity]));
      specialize (X c I); apply orb_false_iff in X; exact (proj2 X). }
  eexists. split; [reflexivity|]. split; [reflexivity|].
  split; [apply R; [reflexivity|discriminate|reflexivity]|]. split; [apply R; [reflexivity|discriminate|reflexivity]|].
  split; [apply R; [reflexivity|discriminate|reflexivity]|]. vm_compute. reflexivity.
Qed.
Example C42_trainable_met : exists q, qb_init (arguments 8 2 true po2 VNone) = Ok q /\ trainable q = true /\ from_string no_digit no_int some_floats (qb_str shown q) = Raise ValueError.
Proof. eexists. vm_compute. repeat split; reflexivity. Qed.
Example C42_negative_met : exists q q', qb_init (arguments 8 (-2) true VNone VNone) = Ok q /\ from_string no_digit no_int some_floats (qb_str shown q) = Ok q' /\ i0 q' = VFloat (-2).
Proof. do 2 eexists. vm_compute. repeat split; reflexivity. Qed.

(** * C48: layers under their QKeras names *)
(** A parameter given under two names is refused *)
Theorem C48_double : forall E k kw, NoDup (keys kw) -> ~ no_double kw -> qkeras_layer E k kw = None.
Proof. exact layer_double. Qed.
Print Assumptions C48_double.
(** EBOPs are off, and the output is quantized exactly when an output quantizer is given *)
Theorem C48_flags :
  forall E k kw x, NoDup (keys kw) -> In k wrapped -> qkeras_layer E k kw = Some x ->
    attr x "enable_ebops" = LVal (CBool false) /\
    exists b : bool, attr x "enable_oq" = LVal (CBool b) /\ (b = true <-> exists v, gives kw "oq_conf" v /\ v <> lnone).
Proof. intros E k kw x N W H. destruct (layer_flags E k kw x N W H) as [A [_ B]]. exact (conj A B). Qed.
Print Assumptions C48_flags.
(** Every quantizer parameter whose guard (use_bias, ...) is on has the configuration given under any of its
    names, and one that leaves its input alone if none is given *)
Theorem C48_quantizers :
  forall E k kw x, NoDup (keys kw) -> In k wrapped -> qkeras_layer E k kw = Some x ->
    forall n pl g b, In (Conf n Plain pl g, b) (class_of k) ->
    (exists q, g = Some q /\ truthy (attr x q) = false /\ attr x n = lnone) \/
    ((forall q, g = Some q -> truthy (attr x q) = true) /\
     ((exists v, gives kw n v /\ truthy v = true /\ attr x n = v) \/ ((forall v, gives kw n v -> truthy v = false) /\ attr x n = dummy_conf pl))).
Proof. intros E k kw x N W H n pl g b. exact (layer_conf E k kw x N W H n pl g b). Qed.
Print Assumptions C48_quantizers.
(** but an input quantizer that is given is never used *)
Theorem C48_input_quantizer_refuted :
  forall E k kw x, NoDup (keys kw) -> In k wrapped -> qkeras_layer E k kw = Some x ->
    attr x "enable_iq" = LVal (CBool false) /\
    forall pl b, In (Conf "iq_conf" Plain pl (Some "enable_iq"), b) (class_of k) -> attr x "iq_conf" = lnone.
Proof.
  intros E k kw x N W H. destruct (layer_flags E k kw x N W H) as [_ [A _]]. split; [exact A|].
  intros pl b. exact (layer_input E k kw x N W H pl b).
Qed.
Print Assumptions C48_input_quantizer_refuted.

Definition process : genv := mk_genv shipped (fun n => CBool true).
Definition some_conf (pl : string) : lval :=
  match conf_init shipped Plain (mk_args (Some "kbi") (Some pl) None None None None [("b0", CNum 4); ("i0", CNum 1)]) with Some c => LConf c | None => lnone end.
Definition qdense_kw : layer :=
  [("keras", LVal (CObj "units=4")); ("kernel_quantizer", some_conf "weight"); ("oq", some_conf "datalane"); ("input_quantizer", some_conf "datalane")].
Example C48_met : exists x, qkeras_layer process QDense qdense_kw = Some x /\ NoDup (keys qdense_kw) /\ In QDense wrapped /\
  attr x "kq_conf" = some_conf "weight" /\ attr x "bq_conf" = dummy_conf "bias" /\ attr x "oq_conf" = some_conf "datalane" /\ attr x "iq_conf" = lnone.
Proof.
  eexists. split; [vm_compute; reflexivity|]. split; [|split; [left; reflexivity|vm_compute; repeat split; reflexivity]].
  unfold qdense_kw, keys. cbn [map fst]. repeat (constructor; [cbn; intros Z; repeat (destruct Z as [Z|Z]; [discriminate|]); exact Z|]). constructor.
Qed.
Example C48_double_met : ~ no_double [("kq", lnone); ("kernel_quantizer", lnone)] /\ qkeras_layer process QDense [("kq", lnone); ("kernel_quantizer", lnone)] = None.
Proof.
  split; [|vm_compute; reflexivity]. intros D. assert ("kq" = "kernel_quantizer"); [|discriminate].
  apply (D "kq_conf"); [right|right|vm_compute; discriminate|vm_compute; discriminate].
  - exists "kernel_quantizer", "kq". split; [left; reflexivity|right; reflexivity].
  - exists "kernel_quantizer", "kq". split; [left; reflexivity|left; reflexivity].
Qed.
