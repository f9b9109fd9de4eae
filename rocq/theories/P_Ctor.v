(** C62: arguments given to a constructor reach the class that uses them. *)
From Coq Require Import List Bool String.
From Verif Require Import M_Ctor M_CtorTab M_CtorSub S_Ctor L_Ctor L_Ctor2 L_Ctor3.
Import ListNotations.
Open Scope string_scope.
Local Open Scope list_scope.

(** every argument of an accepted call is stored, unchanged, by the class of the resolution order that uses it *)
Theorem C62_argument_arrives : forall k kw o n v, In k public -> construct k kw = Some o -> get n kw = Some v -> dunder n = false -> ~ In n (overridden k) ->
  exists c t w, In c (chain k) /\ In t (c_uses c) /\ (t = n \/ In (n, t) (renamed k)) /\ got o (c_name c) t = Some w /\ as_given k n v w.
Proof. exact argument_arrives. Qed.
(** every parameter that some class of the resolution order uses has the user's value, else the default that the most
    derived class declares *)
Theorem C62_parameter_value : forall k kw o c n, In k (public ++ sequence_layers) -> construct k kw = Some o -> In c (chain k) -> In n (c_uses c) ->
  ~ In n (fixed k) -> ~ In n (overridden k) -> ~ (c_name c = "Layer" /\ In n (not_for_keras k)) ->
  exists v w, argument (chain k) kw n = Some v /\ got o (c_name c) n = Some w /\ as_given k n v w.
Proof. exact parameter_value. Qed.
(** exactly the calls with declared names, all required ones, and arguments that meet the checks are accepted *)
Theorem C62_accepted_calls : forall k kw, In k (public ++ sequence_layers) -> (construct k kw <> None <-> acceptable k kw).
Proof. exact accepted_calls. Qed.
(** an argument of a sequence layer is used by the layer or, with the same name, by its cell *)
Theorem C62_sequence_argument_arrives : forall k cell args kw o oc n v, In k sequence_layers -> cell_of k = Some (cell, args) ->
  construct k kw = Some o -> construct_cell k kw = Some oc -> get n kw = Some v -> dunder n = false ->
  (exists c t w, In c (chain k) /\ In t (c_uses c) /\ (t = n \/ In (n, t) (renamed k)) /\ got o (c_name c) t = Some w /\ as_given k n v w) \/
  (exists c w, In c (chain cell) /\ In n (c_uses c) /\ got oc (c_name c) n = Some w /\ as_given cell n v w).
Proof. exact sequence_argument_arrives. Qed.
(** the projections and the softmax inside an attention layer can always be constructed *)
Theorem C62_inner_accepted : forall k dt s kw o, In k attention_layers -> In s (inners k dt) -> construct k kw = Some o -> construct_inner o s <> None.
Proof. exact inner_accepted. Qed.
(** ... and get the arguments that are meant for them *)
Theorem C62_inner_gets : forall k dt s kw o oi n p v, In k attention_layers -> In s (inners k dt) -> construct k kw = Some o -> construct_inner o s = Some oi ->
  In (n, p) (meant_for (in_class s)) -> get n kw = Some v -> (is_conf n = true -> truthy v = true) ->
  exists c, In c (chain (in_class s)) /\ In p (c_uses c) /\ got oi (c_name c) p = Some v.
Proof. exact inner_gets. Qed.
(** patterns of gather_vars_to_kwargs skip exactly the names with a beginning in the pattern's language *)
Theorem C62_patterns : forall p s, matches p s = true <-> denotes p s.
Proof. exact matches_spec. Qed.
(** positional arguments are the keywords of the constructor's signature *)
Theorem C62_positional : forall k c ch pos kw kw' i n v, In k (public ++ sequence_layers) -> chain k = c :: ch -> by_position c pos kw = Some kw' ->
  nth_error (positional k) i = Some n -> nth_error pos i = Some v -> get n kw' = Some v.
Proof. exact positional_ok. Qed.
(** ... in the order of the keras layer that is replaced *)
Theorem C62_drop_in : forall q names, In (q, names) drop_in -> forall i n, nth_error names i = Some n -> nth_error (positional q) i = Some n.
Proof. exact drop_in_position. Qed.

(** every quantized layer takes the arguments of a quantized layer (so such a call is accepted, by C62_accepted_calls) *)
Theorem C62_standard_arguments : forall k n, quantized k -> In n (standard_arguments k) ->
  declared (chain k) n <> None /\ ~ In n (fixed k) /\ ~ In n (overridden k).
Proof. exact standard_arguments_taken. Qed.

(** ** what does not hold *)
(** the table attention layers replace the user's [fuse] *)
Theorem C62_fuse_kept_refuted : ~ (forall kw o v, construct "QMultiHeadAttentionT" kw = Some o -> get "fuse" kw = Some v -> got o "QMultiHeadAttention" "fuse" = Some v).
Proof.
  intros H. specialize (H [("num_heads", VObj 1); ("key_dim", VObj 2); ("fuse", VLit "'qkv'")] _ (VLit "'qkv'") eq_refl eq_refl). vm_compute in H. discriminate H.
Qed.
(** a misspelt keyword is not always an error: one with two underscores on both sides is dropped *)
Theorem C62_unknown_keyword_rejected_refuted : ~ (forall k kw n, In k public -> has n kw = true -> declared (chain k) n = None -> construct k kw = None).
Proof.
  intros H. specialize (H "QDense" [("units", VObj 1); ("__foo__", VObj 2)] "__foo__"). cut (construct "QDense" [("units", VObj 1); ("__foo__", VObj 2)] = None).
  - vm_compute. discriminate.
  - apply H; [apply mem_in|..]; vm_compute; reflexivity.
Qed.
(** the inner softmax gets [softmax_iq_conf], but its input quantizer is always off *)
Theorem C62_softmax_input_quantizer_off : forall k dt kw o oi, In k attention_layers -> In softmax (inners k dt) -> construct k kw = Some o -> construct_inner o softmax = Some oi ->
  got oi "QLayerBase" "enable_iq" = Some (VLit "False").
Proof. exact softmax_input_quantizer_off. Qed.
(** the table attention accepts a kernel initializer and a kernel quantizer that no inner layer ever sees *)
Theorem C62_accepted_means_used_inside_refuted : ~ (forall n v kw o, In n ["kernel_initializer"; "qkvo_kq_conf"] -> construct "QMultiHeadAttentionT" kw = Some o -> get n kw = Some v ->
  exists s p, In s (inners "QMultiHeadAttentionT" true) /\ get p (inner_kwargs o s) = Some v).
Proof.
  intros H. destruct (H "qkvo_kq_conf" (VObj 7) w_call w_out (or_intror (or_introl eq_refl)) w_ok eq_refl) as (s & p & I & G). exact (w_unused s p I G).
Qed.

(** ** concrete calls *)
(** QDense(8, kq_conf=c, enable_iq=True, name='d') *)
Definition call1 : kwargs := [("units", VObj 8); ("kq_conf", VObj 1); ("enable_iq", VLit "True"); ("name", VLit "'d'")].
Example dense_accepted : match construct "QDense" call1 with
  | Some o => got o "QDense" "kq_conf" = Some (VObj 1) /\ got o "Dense" "units" = Some (VObj 8) /\ got o "QLayerBase" "enable_iq" = Some (VLit "True") /\
              got o "Layer" "name" = Some (VLit "'d'") /\ got o "Dense" "use_bias" = Some (VLit "True")
  | None => False end.
Proof. vm_compute. tauto. Qed.
Example dense_chain : map c_name (chain "QDense") = ["QDense"; "QLayerBaseSingleInput"; "QLayerBase"; "Dense"; "Layer"].
Proof. vm_compute. reflexivity. Qed.
Example dense_missing : construct "QDense" [("kq_conf", VObj 1)] = None /\ construct "QDense" [("units", VObj 1); ("kq_config", VObj 1)] = None /\
  construct "QDense" [("units", VObj 1); ("lora_rank", VObj 1)] = None.
Proof. vm_compute. tauto. Qed.
(** QGRU(4, rkq_conf=c, dtype=t, go_backwards=True) *)
Example gru : match construct_cell "QGRU" [("units", VObj 4); ("rkq_conf", VObj 1); ("dtype", VObj 2); ("go_backwards", VLit "True")],
                    construct "QGRU" [("units", VObj 4); ("rkq_conf", VObj 1); ("dtype", VObj 2); ("go_backwards", VLit "True")] with
  | Some oc, Some o => got oc "QGRUCell" "rkq_conf" = Some (VObj 1) /\ got oc "Layer" "dtype" = Some (VObj 2) /\ got o "RNN" "go_backwards" = Some (VLit "True")
  | _, _ => False end.
Proof. vm_compute. tauto. Qed.
(** QLinformerAttentionT(2, 4, 8, qkvo_toq_conf=c, softmax_oq_conf=d) *)
Example linformer : match construct "QLinformerAttentionT" [("num_heads", VObj 2); ("lin_kv_proj_dim", VObj 4); ("key_dim", VObj 8); ("qkvo_toq_conf", VObj 1); ("softmax_oq_conf", VObj 3)] with
  | Some o => map (fun s => match construct_inner o s with Some oi => (in_attr s, got oi "QEinsumDenseT" "toq_conf", got oi "QLayerBase" "oq_conf") | None => ("", None, None) end) (inners "QLinformerAttentionT" true)
  | None => [] end =
  [("_lin_k_proj", Some (VObj 1), Some (VLit "QuantizerConfig(place='datalane')")); ("_lin_v_proj", Some (VObj 1), Some (VLit "QuantizerConfig(place='datalane')"));
   ("_query_dense", Some (VObj 1), Some (VLit "QuantizerConfig(place='datalane')")); ("_key_dense", Some (VObj 1), Some (VLit "QuantizerConfig(place='datalane')"));
   ("_value_dense", Some (VObj 1), Some (VLit "QuantizerConfig(place='datalane')")); ("_output_dense", Some (VObj 1), Some (VLit "QuantizerConfig(place='datalane')"));
   ("_softmax", None, Some (VObj 3))].
Proof. vm_compute. reflexivity. Qed.
Example positional_dense : match chain "QDense" with c :: _ => by_position c [VObj 8; VLit "'relu'"] [("name", VObj 1)] | [] => None end =
  Some [("units", VObj 8); ("activation", VLit "'relu'"); ("name", VObj 1)].
Proof. vm_compute. reflexivity. Qed.
Example pattern : map (fun s => skipped [[TLit "self"]; [TAnyPlus; TLit "q_conf"]] s) ["self"; "kq_conf"; "qkvo_kq_conf"; "q_conf"; "units"] = [true; true; true; false; false].
Proof. vm_compute. reflexivity. Qed.

Print Assumptions C62_argument_arrives.
Print Assumptions C62_parameter_value.
Print Assumptions C62_accepted_calls.
Print Assumptions C62_sequence_argument_arrives.
Print Assumptions C62_inner_accepted.
Print Assumptions C62_inner_gets.
Print Assumptions C62_patterns.
Print Assumptions C62_positional.
Print Assumptions C62_drop_in.
Print Assumptions C62_softmax_input_quantizer_off.
Print Assumptions C62_fuse_kept_refuted.
Print Assumptions C62_unknown_keyword_rejected_refuted.
Print Assumptions C62_accepted_means_used_inside_refuted.
Print Assumptions C62_standard_arguments.
