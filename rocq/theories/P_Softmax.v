(** C36: masking in QSoftmax and its replay; C37: the key bias. *)
From Coq Require Import Reals.
From Verif Require Import Num M_Fixed M_State M_Mapper M_Ebops M_Softmax S_Softmax L_Softmax L_SoftmaxR.
Open Scope Q_scope.

Theorem C36_masked_output_is_zero :
  forall s m x ps p, m p = false -> sm_call s (Some m) x ps p == 0.
Proof. exact masked_zero. Qed.
Print Assumptions C36_masked_output_is_zero.

(** whatever stands at masked positions, stable or not, any tables, any input quantizer *)
Theorem C36_independent_of_masked_values :
  forall s m x x' ps, sm_functions s -> (forall q, In q ps -> m q = true -> x q == x' q) ->
  forall p, In p ps -> sm_call s (Some m) x ps p == sm_call s (Some m) x' ps p.
Proof. exact independent. Qed.
Print Assumptions C36_independent_of_masked_values.

(** masking equals deleting the masked positions *)
Theorem C36_same_as_deleting_masked_positions :
  forall s m x ps p, sm_functions s -> In p ps -> m p = true -> (sm_stable s = true -> above_mask s m x ps) ->
  sm_call s (Some m) x ps p == sm_call s None x (filter m ps) p.
Proof. exact restricts. Qed.
Print Assumptions C36_same_as_deleting_masked_positions.

Theorem C36_unmasked_is_softmax :
  forall s x ps p, sm_functions s -> In p ps -> sm_stable s = true ->
  stable_softmax (sm_exp s) (sm_inv s) (fun q => sm_iq s q (x q)) ps p (sm_call s None x ps p).
Proof. exact unmasked_formula. Qed.
Print Assumptions C36_unmasked_is_softmax.

(** stable mode: the exponential table is never asked for a negative argument (no overflow), and it
    is asked for 0 at least once *)
Theorem C36_stable_arguments :
  forall s mask x ps, sm_stable s = true -> ps <> [] ->
  (forall p, In p ps -> 0 <= sm_exp_input s mask x ps p) /\ exists p, In p ps /\ sm_exp_input s mask x ps p == 0.
Proof. exact exponents. Qed.
Print Assumptions C36_stable_arguments.

(** the hardware replay replaces -1e9 by a value one below the smallest possible input of the whole layer; same
    results, as long as every input is at least the lower end of some traced range *)
Theorem C36_replay_equals_layer :
  forall s lhs0 mask x ps p, sm_functions s -> In p ps ->
  (forall q, In q ps -> exists l, In l lhs0 /\ l <= sm_iq s q (x q)) ->
  (forall m, mask = Some m -> sm_stable s = true -> above_mask s m x ps) ->
  replay_softmax s lhs0 mask x ps p == sm_call s mask x ps p.
Proof. exact replay_equal. Qed.
Print Assumptions C36_replay_equals_layer.

(** What does not hold: the constant 1e9 goes through the exp table's input quantizer, so calibration
    on a batch with one masked position drives its integer width to 30 (or to the constraint's upper
    end), whatever the scores are. *)
Theorem C36_calibration_ignores_masked_refuted :
  forall c st s m x ps p q st' out,
  is_wrap (c_om c) = true -> c_trainable c = true -> sm_stable s = true ->
  In p ps -> m p = true -> In q ps -> m q = false -> -400000000 <= sm_iq s p (x p) ->
  exp_calibration c st s (Some m) x ps = Some (st', out) ->
  (c_ic c = None -> (30 <= kif_iz st')%Z) /\ (forall lo hi, c_ic c = Some (CMinMax lo hi) -> (Z.min 30 hi <= kif_iz st')%Z).
Proof. exact calibration_masked. Qed.
Print Assumptions C36_calibration_ignores_masked_refuted.

(** ** C37 *)
(** the exact softmax, over the reals *)
Theorem C37_exact_softmax_key_bias :
  forall scale m dk query key bias ps p, In p ps ->
  softmaxR scale m (scoresR dk query key bias) ps p = softmaxR scale m (scoresR dk query key (fun _ => 0%R)) ps p.
Proof. exact key_bias_exact. Qed.
Print Assumptions C37_exact_softmax_key_bias.
Theorem C37_exact_softmax_sums_to_one :
  forall scale m x ps p, In p ps -> m p = true -> rsum (map (softmaxR scale m x ps) ps) = 1%R.
Proof. exact softmaxR_sums_to_one. Qed.
Print Assumptions C37_exact_softmax_sums_to_one.

(** the quantized layer in stable mode without input quantizer (QMultiHeadAttention's configuration):
    exact, for every pair of tables *)
Theorem C37_quantized_weights :
  forall s mask dk query key bias ps p, sm_functions s -> sm_stable s = true -> (forall q v, sm_iq s q v == v) -> In p ps ->
  (forall m, mask = Some m -> above_mask s m (scores dk query key bias) ps /\ above_mask s m (scores dk query key (fun _ => 0)) ps) ->
  sm_call s mask (scores dk query key bias) ps p == sm_call s mask (scores dk query key (fun _ => 0)) ps p.
Proof. exact weights_bias. Qed.
Print Assumptions C37_quantized_weights.
Theorem C37_quantized_attention :
  forall s mask dk query key bias value ps d, sm_functions s -> sm_stable s = true -> (forall q v, sm_iq s q v == v) ->
  (forall m, mask = Some m -> above_mask s m (scores dk query key bias) ps /\ above_mask s m (scores dk query key (fun _ => 0)) ps) ->
  attention s mask dk query key bias value ps d == attention s mask dk query key (fun _ => 0) value ps d.
Proof. exact attention_bias. Qed.
Print Assumptions C37_quantized_attention.

(** stable=False: for every saturating table and every input with two different weights, some common
    shift of the scores changes the weights *)
Theorem C37_unstable_softmax_refuted :
  forall s x ps x0 top, sm_functions s -> sm_stable s = false -> (forall q v, sm_iq s q v == v) ->
  (forall q v, x0 <= v -> sm_exp s q v == top) ->
  (exists p q, In p ps /\ In q ps /\ ~ sm_call s None x ps p == sm_call s None x ps q) ->
  exists c p, In p ps /\ ~ sm_call s None (fun q => x q + c) ps p == sm_call s None x ps p.
Proof. exact unstable_not_shift_invariant. Qed.
Print Assumptions C37_unstable_softmax_refuted.

(** ** concrete cases *)
(** a table with 4-bit outputs: 1, 1/2, 1/4, ... for arguments 0, 1, 2, ... *)
Definition ex_exp (v : Q) : Q := if Qle_bool v (1 # 2) then 1 else if Qle_bool v (3 # 2) then 1 # 2 else if Qle_bool v (5 # 2) then 1 # 4 else 0.
Definition ex_inv (v : Q) : Q := if Qle_bool v 1 then 1 else if Qle_bool v (3 # 2) then 3 # 4 else 1 # 2.
Definition ex_sm : softmax := mk_softmax true (fun _ v => v) (fun _ => ex_exp) ex_inv.
Definition ex_x (p : nat) : Q := match p with 0%nat => 3 | 1%nat => 4 | 2%nat => 100 | _ => 2 end.
Definition ex_m (p : nat) : bool := negb (Nat.eqb p 2).
Lemma qle_bool_comp x y b : x == y -> Qle_bool x b = Qle_bool y b.
Proof. intros H. rewrite H. reflexivity. Qed.
Example ex_sm_functions : sm_functions ex_sm.
Proof.
  split; [|split]; cbn [sm_iq sm_exp sm_inv ex_sm]; intros; [assumption| |].
  - unfold ex_exp. rewrite !(qle_bool_comp _ _ _ H). reflexivity.
  - unfold ex_inv. rewrite !(qle_bool_comp _ _ _ H). reflexivity.
Qed.
Example ex_above : above_mask ex_sm ex_m ex_x [0; 1; 2; 3]%nat.
Proof. intros q [<-|[<-|[<-|[<-|[]]]]] _; unfold Qle; cbn; lia. Qed.
Example ex_C36 : map (fun p => Qred (sm_call ex_sm (Some ex_m) ex_x [0; 1; 2; 3]%nat p)) [0; 1; 2; 3]%nat = [1 # 4; 1 # 2; 0; 1 # 8] /\
  map (fun p => Qred (replay_softmax ex_sm [- (8); 0] (Some ex_m) ex_x [0; 1; 2; 3]%nat p)) [0; 1; 2; 3]%nat = [1 # 4; 1 # 2; 0; 1 # 8].
Proof. split; vm_compute; reflexivity. Qed.
(** calibration: widths 2 without the masked position, 30 with it *)
Definition ex_conf : qconf := mk_qconf RND WRAP true false None None.
Example ex_C36_cal : (exists st out, exp_calibration ex_conf (mk_kif false 0 2) ex_sm (Some ex_m) ex_x [0; 1; 2; 3]%nat = Some (st, out) /\ kif_iz st = 30%Z) /\
  (exists st out, exp_calibration ex_conf (mk_kif false 0 2) ex_sm None ex_x [0; 1; 3]%nat = Some (st, out) /\ kif_iz st = 2%Z).
Proof. split; eexists; eexists; (split; [vm_compute; reflexivity|]); vm_compute; reflexivity. Qed.
(** an unstable softmax with a saturating table *)
Definition ex_sat (v : Q) : Q := if Qle_bool 2 v then 2 else if Qle_bool 1 v then 1 else 1 # 2.
Definition ex_un : softmax := mk_softmax false (fun _ v => v) (fun _ => ex_sat) ex_inv.
Example ex_C37 : (forall q v, 2 <= v -> sm_exp ex_un q v == 2) /\ ~ sm_call ex_un None (fun p => nQ p) [0; 1; 2]%nat 0 == sm_call ex_un None (fun p => nQ p) [0; 1; 2]%nat 2.
Proof. split; [|intros H; vm_compute in H; discriminate H]. intros q v H. cbn [sm_exp ex_un]. unfold ex_sat. rewrite (proj2 (Qle_bool_iff 2 v) H). reflexivity. Qed.
