(** Properties C15 and C16: configuration scopes. *)
From Verif Require Import Num M_Scope S_Scope L_Scope M_Mapper.

(** C15: leaving restores.  [run] returns the defaults after the program, whether or not an
    exception propagates out of it. *)
Theorem C15_scopes_restore :
  (* not claimed: re-entering an active object, which is refuted below *)
  forall scopes p e h e' h' r, well_nested [] p -> all_idle h ->
    run scopes p e h = (e', h', r) -> same_defaults e' e /\ all_idle h'.
Proof.
  intros scopes p e h e' h' r Hw Hi H.
  destruct (run_balanced scopes p [] e h e' h' r Hw (fun n _ => Hi n) H) as [A B].
  exact (conj A (fun n => B n (fun F => F))).
Qed.
Print Assumptions C15_scopes_restore.
(** the configurations affected by one scope are restored whatever happens in the body to other
    scopes, override() included *)
Theorem C15_affected_restored_any_body :
  forall scopes n p e h e' h' r, not_mentioned n p -> all_idle h ->
    run scopes (PWith n p) e h = (e', h', r) ->
    (forall qt pl k, covers (scopes n) qt pl = true -> confs e' qt pl k = confs e qt pl k) /\
    (sc_dqt (scopes n) <> None -> forall pl, dqt e' pl = dqt e pl).
Proof.
  intros scopes n p e h e' h' r Hn Hi H.
  refine (with_restores scopes n p e h e' h' r Hn _ H).
  intros m qt pl d Hm k. rewrite (proj1 (Hi m)) in Hm. discriminate.
Qed.
Print Assumptions C15_affected_restored_any_body.
(** inside: the innermost scope that gives the key wins, other defaults are untouched *)
Theorem C15_inside_nested_scopes :
  forall ss, (forall s, In s ss -> distinct_keys (sc_kw s)) -> forall e qt pl k,
    confs (enter_all ss e) qt pl k = expected ss qt pl k (confs e qt pl k).
Proof. exact enter_all_spec. Qed.
Print Assumptions C15_inside_nested_scopes.
Theorem C15_inside_default_type :
  forall ss e pl, dqt (enter_all ss e) pl =
    fold_left (fun o s => match sc_dqt s with Some q => if mem pl (sc_pl s) then Some q else o | None => o end) ss (dqt e pl).
Proof. exact enter_all_dqt. Qed.
Print Assumptions C15_inside_default_type.
(** a configuration built inside scopes: explicit arguments win over scopes, scopes over defaults *)
Theorem C15_construction_precedence :
  forall ss e qt pl kw d, (forall s, In s ss -> distinct_keys (sc_kw s)) -> qt <> "default" ->
    quantizer_config (enter_all ss e) qt pl kw = Some d ->
    forall k, k <> "homogeneous_axis" -> k <> "heterogeneous_axis" ->
      d k = match get k kw with Some v => Some v | None => expected ss qt pl k (confs e qt pl k) end.
Proof. exact quantizer_config_spec. Qed.
Print Assumptions C15_construction_precedence.
Theorem C15_construction_axes_exclusive :
  forall e qt pl kw d, qt <> "default" ->
    (get "homogeneous_axis" kw = None /\ get "heterogeneous_axis" kw = None \/
     is_some_val (get "homogeneous_axis" kw) || is_some_val (get "heterogeneous_axis" kw) = true) ->
    is_some_val (confs e qt pl "homogeneous_axis") = negb (is_some_val (confs e qt pl "heterogeneous_axis")) ->
    quantizer_config e qt pl kw = Some d ->
    is_some_val (d "homogeneous_axis") = negb (is_some_val (d "heterogeneous_axis")).
Proof. exact quantizer_config_axes. Qed.
Print Assumptions C15_construction_axes_exclusive.
(** any two of i0, f0, b0 given to a scope determine the third by i0 + f0 = b0 *)
Theorem C15_scope_completes_widths :
  forall kw, let n o := match o with Some _ => 1%nat | None => 0%nat end in
    (n (num_of (get "i0" kw)) + n (num_of (get "f0" kw)) + n (num_of (get "b0" kw)) = 2)%nat ->
    exists i f b, num_of (get "i0" (complete_ifb kw)) = Some i /\ num_of (get "f0" (complete_ifb kw)) = Some f /\
      num_of (get "b0" (complete_ifb kw)) = Some b /\ i + f == b.
Proof. exact complete_ifb_total. Qed.
Print Assumptions C15_scope_completes_widths.

Definition ex_env : env := mk_env (fun _ _ k => if String.eqb k "i0" then Some (VNum 2) else None) (fun _ => Some "kbi").
Definition ex_scope (v : Q) : scope := mk_scope ["kif"; "kbi"] ["weight"] [("i0", VNum v); ("f0", VNum 3)] (Some "kif").
Definition idle_heap : heap := fun _ => fresh_obj.
(** re-entering an active scope object: its own saved copy is overwritten *)
Theorem C15_reentry_refuted :
  exists scopes p e h e' h' r, all_idle h /\ run scopes p e h = (e', h', r) /\ ~ same_defaults e' e.
Proof.
  exists (fun _ => ex_scope 5), (PWith 0 (PWith 0 PSkip)), ex_env, idle_heap. do 3 eexists.
  split; [intros n; split; reflexivity|]. split; [reflexivity|].
  intros [H _]. specialize (H "kif" "weight" "i0"). vm_compute in H. discriminate.
Qed.
Print Assumptions C15_reentry_refuted.
Example C15_case :
  well_nested [] (PCatch (PWith 0 (PSeq (PWith 1 PSkip) (PWith 1 PRaise)))) /\ all_idle idle_heap /\
  confs (enter_all [ex_scope 5; ex_scope 6] ex_env) "kif" "weight" "i0" = Some (VNum 6) /\
  confs (enter_all [ex_scope 5; ex_scope 6] ex_env) "kif" "weight" "f0" = None /\
  confs (enter_all [ex_scope 5] ex_env) "kif" "bias" "i0" = Some (VNum 2) /\
  distinct_keys (sc_kw (ex_scope 5)).
Proof.
  repeat split; try reflexivity.
  - intros [].
  - intros [[=]|[]].
  - intros [[=]|[]].
  - repeat constructor; cbn; intuition discriminate.
Qed.
Example C15_case_body : not_mentioned 0 (PSeq (POverride 1) (PWith 2 PRaise)) /\ covers (ex_scope 5) "kif" "weight" = true.
Proof. repeat split; discriminate. Qed.
Example C15_case_construct : exists d, quantizer_config (enter_all [ex_scope 5] ex_env) "kif" "weight" [("i0", VNum 9)] = Some d /\ d "i0" = Some (VNum 9).
Proof. eexists. split; reflexivity. Qed.

(** C16 *)
Theorem C16_layer_scopes_restore :
  forall over, (forall n, distinct_keys (over n)) ->
    forall p g h g' h' r, well_nested [] p -> lrun over p g h = (g', h', r) ->
      (forall k, g' k = g k) /\ r = raises p.
Proof. intros over Hd p g h g' h' r. exact (lrun_balanced over p Hd [] g h g' h' r). Qed.
Print Assumptions C16_layer_scopes_restore.
Theorem C16_inside_layer_scope :
  forall kw, distinct_keys kw -> forall g k,
    snd (l_enter kw g) k = match get k kw with Some v => Some v | None => g k end.
Proof. exact set_all_spec. Qed.
Print Assumptions C16_inside_layer_scope.
Theorem C16_layer_reentry_refuted :
  exists over p g h g' h' r, (forall n, distinct_keys (over n)) /\ lrun over p g h = (g', h', r) /\ exists k, g' k <> g k.
Proof.
  exists (fun _ => [("beta0", VNum 1)]), (PWith 0 (PWith 0 PSkip)), (fun k => if String.eqb k "beta0" then Some (VNum 0) else None), (fun _ => mk_lobj None).
  do 3 eexists. split; [repeat constructor; intros []|]. split; [reflexivity|]. exists "beta0". vm_compute. discriminate.
Qed.
Print Assumptions C16_layer_reentry_refuted.
Example C16_case : well_nested [] (PWith 0 (PSeq (PWith 1 PSkip) PRaise)) /\
  exists g' h' r, lrun (fun n => [("new_key", VNum (inject_Z (Z.of_nat n)))]) (PWith 0 (PSeq (PWith 1 PSkip) PRaise)) (fun _ => None) (fun _ => mk_lobj None) = (g', h', r) /\ g' "new_key" = None /\ r = true.
Proof. split; [repeat split; intros H; cbn in H; intuition discriminate|]. do 3 eexists. split; [reflexivity|]. split; reflexivity. Qed.

(** the stored default for float bias quantizers gives both axis arguments, so the mapper
    rejects it for every input rank: quantizers of this place cannot be created by default *)
Theorem C13_float_bias_default_refuted :
  get "homogeneous_axis" float_bias_axes = Some (VAxes []) /\ get "heterogeneous_axis" float_bias_axes = Some (VAxes []) /\
  forall n, resolve_axes (Some []) (Some []) n = None.
Proof. repeat split. Qed.
Print Assumptions C13_float_bias_default_refuted.
