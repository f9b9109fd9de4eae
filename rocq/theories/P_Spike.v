(** C57: what spiking layers compute over a sequence of any length. *)
From Verif Require Import Num M_Fixed S_Fixed L_Fixed M_State M_Mapper M_Ebops M_Cebops M_Rnn S_Rnn L_Rnn M_Spike S_Spike L_Spike.

(** Every output of every step is either the (quantized) graded spike or the (quantized) zero: any inputs, states, leaks, thresholds, resets *)
Theorem C57_outputs_are_spikes :
  forall c backwards xs s y j, In y (fst (keras_rnn (snn_call c) backwards xs s)) -> (j < s_units c)%nat ->
    y j == opt_q layer_q (s_oq c) (fun _ => 0) j \/ y j == opt_q layer_q (s_oq c) (s_factor c) j.
Proof. exact output_binary. Qed.
Print Assumptions C57_outputs_are_spikes.

(** With the subtracting reset nothing is lost: the final membrane is the discounted initial membrane plus the discounted inputs minus the threshold times the
    discounted spikes (spike = output / graded factor); without leak the discount is 1, so the spike count times the threshold is what came in minus what is left *)
Theorem C57_conservation :
  forall c xs s j, s_reset c = RSubtract -> s_sq c = None -> s_oq c = None -> (j < s_units c)%nat ->
    s_factor c j * membrane c xs s j ==
    s_factor c j * (power (leak c j) (length xs) * s j + discounted (leak c j) (received c xs j)) - s_threshold c j * discounted (leak c j) (map (fun y => y j) (outputs c xs s)).
Proof. exact conservation. Qed.
Print Assumptions C57_conservation.

(** With a leak of at most b < 1, bounded inputs and thresholds that are not negative the membrane stays bounded, however long the sequence *)
Theorem C57_leaky_membrane_bounded :
  forall c xs lo hi b j, (j < s_units c)%nat -> s_sq c = None -> 0 <= s_threshold c j -> 0 <= leak c j <= b -> b < 1 -> lo <= 0 <= hi -> (forall v, In v (received c xs j) -> lo <= v <= hi) ->
    forall s, lo / (1 - b) <= s j <= hi / (1 - b) -> lo / (1 - b) <= membrane c xs s j <= hi / (1 - b).
Proof. exact bounded_leaky. Qed.
Print Assumptions C57_leaky_membrane_bounded.
(** without leak (or with one up to 1) it grows at most linearly *)
Theorem C57_membrane_linear :
  forall c xs lo hi j, (j < s_units c)%nat -> s_sq c = None -> 0 <= s_threshold c j -> 0 <= leak c j <= 1 -> lo <= 0 <= hi -> (forall v, In v (received c xs j) -> lo <= v <= hi) ->
    forall s n, nQ n * lo <= s j <= nQ n * hi -> nQ (n + length xs) * lo <= membrane c xs s j <= nQ (n + length xs) * hi.
Proof. exact bounded_sum. Qed.
Print Assumptions C57_membrane_linear.
(** with the zeroing reset the membrane never stays above the threshold *)
Theorem C57_zero_reset :
  forall c xs s x j, (j < s_units c)%nat -> s_reset c = RZero -> s_inhibition c = false -> s_sq c = None -> 0 <= s_threshold c j -> membrane c (xs ++ [x]) s j <= s_threshold c j.
Proof. exact zero_reset. Qed.
Print Assumptions C57_zero_reset.

(** The membrane width that EBOPs are computed with is enough: for a QSimpleSNN built for T steps, started at zero, with a saturating input quantizer and thresholds on its grid, the membrane
    is, at each of the T steps, before and after the reset, an integer of that many bits times 2^-f *)
Theorem C57_membrane_width :
  forall c q qb n T xs s x j t tb,
    (j < s_units c)%nat -> s_iq c = Some q -> q_aff q = None -> (0 < kz (q_k q j) + q_i q j + q_f q j)%Z -> s_beta c = None -> s_sq c = None -> good_threshold c q j -> q_om q = SAT ->
    s j == 0 -> (length xs < T)%nat -> accumulator_bits [1%nat; n] None qb T = Some t -> bits_ qb [1%nat; n] = Some tb -> at_ tb [0%nat; j] == inject_Z (q_bits (q_om q) (q_k q j) (kif_b (q_i q j) (q_f q j))) ->
    exists w, at_ t [0%nat; j] == inject_Z w /\
      (exists m, has_code (q_f q j) (charged c xs s x j) m /\ fits (q_k q j) w m) /\ (exists m, has_code (q_f q j) (membrane c xs s j) m /\ fits (q_k q j) w m).
Proof. exact membrane_fits. Qed.
Print Assumptions C57_membrane_width.

(** Feeding a sequence in pieces and carrying the state gives the outputs and the state of the whole sequence (any cell, layer and hardware) *)
Theorem C57_chunks :
  forall (S X Y : Type) (dx : X) (step : X -> S -> Y * S) xs ys s,
    let first := keras_rnn step false xs s in let second := keras_rnn step false ys (snd first) in
    keras_rnn step false (xs ++ ys) s = (fst first ++ fst second, snd second) /\ replay_rnn dx step false (xs ++ ys) s = (fst first ++ fst second, snd second).
Proof. intros S X Y dx step xs ys s first second. split; [|rewrite replay_is_keras]; exact (scan_app step xs ys s). Qed.
Print Assumptions C57_chunks.

(** The leak of a LIF cell: in [0, 1] after any training (from the start if it was given so), and so is its quantized value, if the quantizer saturates or has room for 1 *)
Theorem C57_leak_range :
  forall rm om k i f beta0 us, 0 <= beta0 <= 1 \/ us <> [] -> (0 <= f)%Z -> om <> WRAP \/ representable om k i f 1 ->
    0 <= lif_beta beta0 us <= 1 /\ 0 <= qlif_beta rm om k i f beta0 us <= 1.
Proof. intros rm om k i f beta0 us H Hf Ho. split; [exact (beta_life beta0 us H)|]. apply beta_quantized; [exact Hf|exact Ho|exact (beta_life beta0 us H)]. Qed.
Print Assumptions C57_leak_range.

(** ** concrete cases *)
Definition sp_q := mk_vquant RND SAT (fun _ => true) (fun _ => 1%Z) (fun _ => 1%Z) None.
Definition sp_c (beta : option (nat -> Q)) (th : Q) (r : reset_mech) := mk_snn 2 (Some sp_q) None None beta (fun _ => th) (fun _ => 2) false r (Some (fun x => x * (1#10))).
Definition sp_xs : list (nat -> Q) := [fun j => 3#4; fun j => 1; fun j => inject_Z (Z.of_nat j); fun _ => -(1#2)].
Definition sp_bits := mk_qbits SAT (mk_tensor [1; 1]%nat (fun _ => true)) (mk_tensor [1; 1]%nat (fun _ => 2%Z)).
Example C57_hypotheses_hold :
  good_threshold (sp_c None 1 RSubtract) sp_q 1 /\ (0 < kz true + 1 + 1)%Z /\ (exists tb, bits_ sp_bits [1; 2]%nat = Some tb /\ at_ tb [0; 1]%nat == inject_Z (q_bits SAT true (kif_b 1 1))) /\
  (exists t, accumulator_bits [1; 2]%nat None sp_bits 5 = Some t /\ at_ t [0; 1]%nat == 6) /\
  (forall v, In v (received (sp_c (Some (fun _ => 1#2)) 1 RZero) sp_xs 1) -> -2 <= v <= 2) /\ 0 <= leak (sp_c (Some (fun _ => 1#2)) 1 RZero) 1 <= 1#2.
Proof.
  split; [split; [discriminate|intros _; exists 2%Z; vm_compute; reflexivity]|]. split; [reflexivity|].
  split; [eexists; split; [reflexivity|vm_compute; reflexivity]|]. split; [eexists; split; [reflexivity|vm_compute; reflexivity]|].
  split; [|vm_compute; split; discriminate]. intros v [<-|[<-|[<-|[<-|[]]]]]; vm_compute; split; discriminate.
Qed.
Example C57_case :
  map (fun y => Qred (y 1%nat)) (outputs (sp_c None 1 RSubtract) sp_xs (fun _ => 0)) = [0; 2; 2; 0] /\ Qred (membrane (sp_c None 1 RSubtract) sp_xs (fun _ => 0) 1%nat) = (1#2) /\
  map (fun v => Qred v) (received (sp_c None 1 RSubtract) sp_xs 1) = [1; 1; 1; -1#2] /\
  Qred (membrane (sp_c (Some (fun _ => 1#2)) 1 RZero) sp_xs (fun _ => 0) 1%nat) = 0.
Proof. repeat split; vm_compute; reflexivity. Qed.
Example C57_leak_case : lif_beta (3#2) [] == 3#2 /\ lif_beta (3#2) [7#5] == 1 /\ qlif_beta RND WRAP true 0 3 1 [] == -1.
Proof. repeat split; vm_compute; reflexivity. Qed.

(** ** what is not claimed fails *)
(** With a leak the counted width is too small: the membrane leaves the grid of the inputs (QLIF, inputs of format (1, 1, 1), leak 1/2) *)
Theorem C57_leaky_width_refuted :
  exists c q xs s j, (j < s_units c)%nat /\ s_iq c = Some q /\ q_aff q = None /\ q_om q = SAT /\ (0 < kz (q_k q j) + q_i q j + q_f q j)%Z /\ s_sq c = None /\ 0 <= leak c j <= 1 /\ good_threshold c q j /\ s j == 0 /\
    ~ exists m, has_code (q_f q j) (membrane c xs s j) m.
Proof.
  exists (sp_c (Some (fun _ => 1#2)) 1 RSubtract), sp_q, [fun _ => 1#2; fun _ => 0], (fun _ => 0), 0%nat.
  split; [cbn; lia|]. do 5 (split; [reflexivity|]). split; [vm_compute; split; discriminate|]. split; [split; [discriminate|intros _; exists 2%Z; vm_compute; reflexivity]|]. split; [reflexivity|].
  intros (m & H). unfold has_code in H. assert (E : membrane (sp_c (Some (fun _ => 1#2)) 1 RSubtract) [fun _ => 1#2; fun _ => 0] (fun _ => 0) 0%nat == 1#4) by (vm_compute; reflexivity).
  rewrite E in H. change (pow2 (- q_f sp_q 0)) with (1#2) in H. unfold Qeq in H. cbn in H. lia.
Qed.
Print Assumptions C57_leaky_width_refuted.
(** and with a negative threshold, which is accepted, the membrane outgrows it: with inputs 0 and threshold -1 a subtracting neuron charges itself *)
Theorem C57_negative_threshold_refuted :
  forall B, exists c xs j, (j < s_units c)%nat /\ s_beta c = None /\ s_sq c = None /\ s_reset c = RSubtract /\ (forall v, In v (received c xs j) -> v == 0) /\ B <= membrane c xs (fun _ => 0) j.
Proof.
  intros B. exists (sp_c None (-(1)) RSubtract). set (c := sp_c None (-(1)) RSubtract). exists (repeat (fun _ => 0) (Z.to_nat (Qceiling B))), 0%nat.
  split; [cbn; lia|]. do 3 (split; [reflexivity|]). split.
  - intros v H. apply in_map_iff in H. destruct H as (x & <- & Hx). apply repeat_spec in Hx. subst x. vm_compute. reflexivity.
  - assert (G : forall n s, 0 <= s 0%nat -> s 0%nat + nQ n <= membrane c (repeat (fun _ => 0) n) s 0%nat).
    { unfold membrane, keras_rnn. induction n as [|n IH]; intros s S; cbn [repeat scan snd]; [change (nQ 0) with 0; lra|].
      rewrite call_parts. match goal with |- context [scan _ _ ?t] => specialize (IH t); set (s1 := t) in * end. destruct (scan (snn_call c) (repeat (fun _ => 0) n) s1) as [ys s2]. cbn [snd] in *.
      assert (M : mem_of c (fun _ => 0) s 0%nat == s 0%nat) by (rewrite mem_leak; assert (Z : opt_q layer_q (s_iq c) (fun _ => 0) 0%nat == 0) by (vm_compute; reflexivity); rewrite Z; unfold leak; cbn [c sp_c s_beta]; ring).
      assert (S1 : s1 0%nat == s 0%nat + 1).
      { unfold s1. cbn [c sp_c s_sq opt_q]. fold (sp_c None (-(1)) RSubtract). fold c. unfold snn_reset. cbn [c sp_c s_reset s_threshold]. fold (sp_c None (-(1)) RSubtract). fold c.
        destruct (spike_threshold c (mem_of c (fun _ => 0) s) 0%nat eq_refl) as [F _]. rewrite (F ltac:(rewrite M; cbn [c sp_c s_threshold]; lra)), M. ring. }
      assert (N : nQ (Datatypes.S n) == nQ n + 1) by (unfold nQ; rewrite Nat2Z.inj_succ, <- Z.add_1_r, inject_Z_plus; reflexivity).
      rewrite S1 in IH. specialize (IH ltac:(lra)). lra. }
    specialize (G (Z.to_nat (Qceiling B)) (fun _ => 0) ltac:(cbn; lra)). cbv beta in G.
    assert (B <= nQ (Z.to_nat (Qceiling B))); [|lra].
    apply Qle_trans with (inject_Z (Qceiling B)); [apply Qle_ceiling|]. unfold nQ. rewrite <- Zle_Qle. lia.
Qed.
Print Assumptions C57_negative_threshold_refuted.
