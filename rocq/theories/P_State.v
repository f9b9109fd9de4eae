(** Properties C07-C12: calibration ([trace_minmax]) and training calls of the WRAP quantizers.
    [kif_trace c reset s batches = Some (s', outs)]: calibrating a quantizer in state [s] over
    the non-empty [batches] leaves it in state [s'] and returned [outs] while tracing. *)
From Verif Require Import Num M_Fixed M_State S_Fixed S_State L_Fixed L_State.

(** C07 *)
Theorem C07_kif_calibration_safe :
  forall c reset s batches s' outs, wrap_trainable c ->
    Forall (Forall (kif_reachable c (kif_fz s))) batches ->
    kif_trace c reset s batches = Some (s', outs) ->
    kif_fz s' = kif_fz s /\
    outs = map (map (round_f (c_rm c) (kif_fz s))) batches /\
    forall xs, In xs batches ->
      exists out, kif_call c Infer s' xs = Some (s', out) /\
        Forall2 Qeq out (map (round_f (c_rm c) (kif_fz s)) xs).
Proof. exact kif_calibrated'. Qed.
Print Assumptions C07_kif_calibration_safe.
Theorem C07_kif_calibrated_format_fits :
  forall c reset s batches s' outs, wrap_trainable c ->
    Forall (Forall (kif_reachable c (kif_fz s))) batches ->
    kif_trace c reset s batches = Some (s', outs) ->
    forall x, In x (concat batches) ->
      fits_width (c_rm c) (kif_iz s') (kif_fz s') x /\ (round_f (c_rm c) (kif_fz s') x < 0 -> kif_k s' = true).
Proof. exact kif_calibrated_fits. Qed.
Print Assumptions C07_kif_calibrated_format_fits.

(** the default datalane configuration: MinMax(-23, 23), decay 0.01 *)
Definition conf_kif : qconf := mk_qconf RND WRAP true false (Some (CMinMax (-23) 23)) (Some (1#100)).
Definition conf_kbi : qconf := mk_qconf RND WRAP true false None (Some (1#100)).
Example C07_case :
  wrap_trainable conf_kif /\
  Forall (Forall (kif_reachable conf_kif 3)) [[1#3; -9#2]; [27#4]] /\
  exists s' outs, kif_trace conf_kif true (mk_kif true 9 (28#10)) [[1#3; -9#2]; [27#4]] = Some (s', outs) /\
    kif_iz s' = 3%Z /\ kif_k s' = true.
Proof.
  split; [split; reflexivity|]. split.
  - repeat constructor; intros hi E; injection E as <-; vm_compute; discriminate.
  - eexists. eexists. split; [vm_compute; reflexivity|]. split; vm_compute; reflexivity.
Qed.

(** C08 *)
Theorem C08_kbi_calibration_safe :
  forall c reset s batches s' outs, wrap_trainable c ->
    (0 < kbi_bz s <= 22)%Z ->
    Forall (Forall (kbi_reachable c (kbi_bz s))) batches ->
    kbi_trace c reset s batches = Some (s', outs) ->
    kbi_bz s' = kbi_bz s /\
    forall xs, In xs batches ->
      exists out, kbi_call c Infer s' xs = Some (s', out) /\
        Forall2 Qeq out (map (round_f (c_rm c) (kbi_fz s')) xs).
Proof. exact kbi_calibrated'. Qed.
Print Assumptions C08_kbi_calibration_safe.
(** a group pruned to zero bits stays all-zero and unsigned *)
Theorem C08_kbi_pruned_group_stays_zero :
  forall c s batches s' outs, wrap_trainable c -> c_weight c = false -> c_ic c = None ->
    (kbi_bz s <= 0)%Z -> batches <> [] ->
    kbi_trace c true s batches = Some (s', outs) ->
    kbi_k s' = false /\
    forall xs, exists out, kbi_call c Infer s' xs = Some (s', out) /\ Forall (fun y => y == 0) out.
Proof. exact kbi_pruned. Qed.
Print Assumptions C08_kbi_pruned_group_stays_zero.
(** 22 bits is the most: from 24 bits on every quantizer without constraint overflows on the sample 2^20 it was
    calibrated with, and one with 23 bits on 2^30 - 64 *)
Theorem C08_kbi_wide_refuted :
  (forall c s, wrap_trainable c -> c_weight c = false -> c_ic c = None -> (24 <= kbi_bz s)%Z ->
     exists s' outs out, kbi_trace c true s [[1048576]] = Some (s', outs) /\ kbi_call c Infer s' [1048576] = Some (s', out) /\ ~ Forall2 Qeq out (map (round_f (c_rm c) (kbi_fz s')) [1048576])) /\
  (exists c s x s' outs out, wrap_trainable c /\ c_ic c = None /\ kbi_bz s = 23%Z /\ kbi_trace c true s [[x]] = Some (s', outs) /\ kbi_call c Infer s' [x] = Some (s', out) /\
     ~ Forall2 Qeq out (map (round_f (c_rm c) (kbi_fz s')) [x])).
Proof.
  split; [exact kbi_wide_overflows|].
  exists conf_kbi, (mk_kbi true 23 2), 1073741760. do 3 eexists.
  split; [split; reflexivity|]. split; [reflexivity|]. split; [reflexivity|].
  split; [vm_compute; reflexivity|]. split; [vm_compute; reflexivity|].
  intros H. vm_compute in H. inversion H as [|? ? ? ? A _]. vm_compute in A. discriminate.
Qed.
Print Assumptions C08_kbi_wide_refuted.
Example C08_case :
  wrap_trainable conf_kbi /\ (0 < kbi_bz (mk_kbi false (61#10) 0) <= 22)%Z /\
  Forall (Forall (kbi_reachable conf_kbi 6)) [[1#3; -9#2]; [27#4]] /\
  exists s' outs, kbi_trace conf_kbi true (mk_kbi false (61#10) 0) [[1#3; -9#2]; [27#4]] = Some (s', outs) /\
    kbi_iz s' = 3%Z /\ kbi_k s' = true.
Proof.
  split; [split; reflexivity|]. split; [vm_compute; split; [reflexivity|discriminate]|]. split.
  - repeat constructor; intros hi E; discriminate.
  - eexists. eexists. split; [vm_compute; reflexivity|]. split; vm_compute; reflexivity.
Qed.
Example C08_case_pruned : exists s' outs, kbi_trace conf_kbi true (mk_kbi true (3#10) 0) [[-9#2]] = Some (s', outs).
Proof. eexists. eexists. vm_compute. reflexivity. Qed.

(** C09 *)
Theorem C09_kif_order_independent :
  forall c reset s bs1 bs2 s1 s2 o1 o2, wrap_trainable c -> same_samples bs1 bs2 ->
    kif_trace c reset s bs1 = Some (s1, o1) -> kif_trace c reset s bs2 = Some (s2, o2) -> s1 = s2.
Proof. exact kif_order_independent_perm. Qed.
Print Assumptions C09_kif_order_independent.
Theorem C09_kbi_width_order_independent :
  forall c reset s bs1 bs2 s1 s2 o1 o2, wrap_trainable c -> same_samples bs1 bs2 ->
    kbi_trace c reset s bs1 = Some (s1, o1) -> kbi_trace c reset s bs2 = Some (s2, o2) ->
    kbi_iz s1 = kbi_iz s2 /\ kbi_bz s1 = kbi_bz s2.
Proof. exact kbi_width_order_independent. Qed.
Print Assumptions C09_kbi_width_order_independent.
(** the KBI sign flag depends on the order *)
Theorem C09_kbi_sign_order_refuted :
  exists c s x y s1 s2 o1 o2, wrap_trainable c /\
    kbi_trace c true s [[x]; [y]] = Some (s1, o1) /\ kbi_trace c true s [[y]; [x]] = Some (s2, o2) /\
    kbi_k s1 = true /\ kbi_k s2 = false.
Proof.
  exists conf_kbi, (mk_kbi true 3 0), (-1#10), 7. do 4 eexists.
  split; [split; reflexivity|]. split; [vm_compute; reflexivity|]. split; [vm_compute; reflexivity|].
  split; vm_compute; reflexivity.
Qed.
Print Assumptions C09_kbi_sign_order_refuted.
Example C09_case : same_samples [[1#3; -9#2]; [27#4]] [[27#4]; [-9#2]; [1#3; 1#3]] /\
  exists s1 o1 s2 o2, kif_trace conf_kif true (mk_kif true 1 3) [[1#3; -9#2]; [27#4]] = Some (s1, o1) /\
    kif_trace conf_kif true (mk_kif true 1 3) [[27#4]; [-9#2]; [1#3; 1#3]] = Some (s2, o2).
Proof.
  split; [intros x; cbn [concat app In]; tauto|].
  do 4 eexists. split; vm_compute; reflexivity.
Qed.

(** C10: no smaller width allowed by the constraint would do *)
Theorem C10_kif_width_minimal :
  forall c s batches s' outs J, wrap_trainable c ->
    (kif_fz s < 1000000000)%Z -> batches <> [] ->
    kif_trace c true s batches = Some (s', outs) ->
    apply_cz (c_ic c) J = J -> (J < kif_iz s')%Z ->
    exists x, In x (concat batches) /\ ~ fits_width (c_rm c) J (kif_fz s) x.
Proof. exact kif_reset_minimal. Qed.
Print Assumptions C10_kif_width_minimal.
Theorem C10_kif_tracing_monotone :
  forall c s batches s' outs, wrap_trainable c -> kif_trace c false s batches = Some (s', outs) ->
    kif_f s' = kif_f s /\ (kif_iz s <= kif_iz s')%Z /\ (kif_k s = true -> kif_k s' = true).
Proof.
  intros c s batches s' outs Hc H. destruct (kif_run_trace_inv _ _ _ _ _ Hc H) as (A & B & C & _).
  exact (conj A (conj B C)).
Qed.
Print Assumptions C10_kif_tracing_monotone.
Theorem C10_kbi_tracing_monotone :
  forall c s batches s' outs, wrap_trainable c -> apply_cz (c_ic c) (kbi_iz s) = kbi_iz s ->
    kbi_trace c false s batches = Some (s', outs) ->
    kbi_b s' = kbi_b s /\ (kbi_iz s <= kbi_iz s')%Z /\ (kbi_k s = true -> kbi_k s' = true).
Proof. exact kbi_run_trace_mono. Qed.
Print Assumptions C10_kbi_tracing_monotone.
Example C10_case : apply_cz (c_ic conf_kif) 2 = 2%Z /\
  exists s' outs, kif_trace conf_kif true (mk_kif true 1 3) [[1#3; -9#2]] = Some (s', outs) /\ kif_iz s' = 3%Z.
Proof. split; [reflexivity|]. do 2 eexists. split; vm_compute; reflexivity. Qed.
Example C10_case_kbi : apply_cz (c_ic conf_kbi) (kbi_iz (mk_kbi true 5 1)) = kbi_iz (mk_kbi true 5 1) /\
  exists s' outs, kbi_trace conf_kbi false (mk_kbi true 5 1) [[1#3; -9#2]] = Some (s', outs) /\ kbi_iz s' = 3%Z.
Proof. split; [reflexivity|]. do 2 eexists. split; vm_compute; reflexivity. Qed.

(** C11 *)
Theorem C11_kbi_constraint_invariant :
  forall c h, wrap_trainable c -> well_formed (c_ic c) ->
    forall s s' outs, kbi_run c s h = Some (s', outs) ->
      satisfies (c_ic c) (kbi_i s) \/ (exists m xs, In (m, xs) h /\ m <> Infer) ->
      satisfies (c_ic c) (kbi_i s').
Proof. exact kbi_run_constraint. Qed.
Print Assumptions C11_kbi_constraint_invariant.
(** KIF: inference and tracing keep the constraint, and a reset trace establishes it *)
Theorem C11_kif_inference_and_tracing :
  forall c, wrap_trainable c -> well_formed (c_ic c) ->
    (forall h s s' outs, Forall (fun p => fst p <> Train) h -> kif_run c s h = Some (s', outs) ->
       satisfies (c_ic c) (kif_i s) -> satisfies (c_ic c) (kif_i s')) /\
    (forall s batches s' outs, above_reset (c_ic c) -> batches <> [] ->
       kif_trace c true s batches = Some (s', outs) -> satisfies (c_ic c) (kif_i s')).
Proof.
  intros c Hc W. split; [intros h s s' outs F; exact (kif_run_keeps c h Hc W F s s' outs)|].
  intros s batches s' outs A N. exact (kif_trace_constraint c s batches s' outs Hc W A N).
Qed.
Print Assumptions C11_kif_inference_and_tracing.
(** KIF: one training call leaves the interval, although the start was inside *)
Theorem C11_kif_training_refuted :
  exists c s xs s' out, wrap_trainable c /\ well_formed (c_ic c) /\ satisfies (c_ic c) (kif_i s) /\
    kif_call c Train s xs = Some (s', out) /\ ~ satisfies (c_ic c) (kif_i s').
Proof.
  exists (mk_qconf RND WRAP true false (Some (CMinMax (-2) 2)) None), (mk_kif true 1 3), [100]. do 2 eexists.
  split; [split; reflexivity|]. split; [vm_compute; discriminate|].
  split; [split; vm_compute; discriminate|]. split; [vm_compute; reflexivity|].
  intros [_ H]. vm_compute in H. apply H. reflexivity.
Qed.
Print Assumptions C11_kif_training_refuted.
Example C11_case :
  let c := mk_qconf RND WRAP true false (Some (CMinMax (-2) 2)) (Some (1#100)) in
  well_formed (c_ic c) /\ exists s' outs, kbi_run c (mk_kbi true 5 1) [(Train, [100; -3]); (Infer, [7]); (Trace, [1#9])] = Some (s', outs) /\ kbi_i s' == 2.
Proof. split; [vm_compute; discriminate|]. do 2 eexists. split; vm_compute; reflexivity. Qed.

(** C12 *)
Theorem C12_kif_train_then_infer :
  forall c s xs s' out, wrap_trainable c -> kif_k s = true ->
    kif_call c Train s xs = Some (s', out) ->
    exists out', kif_call c Infer s' xs = Some (s', out') /\ Forall2 Qeq out' out.
Proof. exact kif_train_infer. Qed.
Print Assumptions C12_kif_train_then_infer.
Theorem C12_kbi_train_then_infer :
  forall c s xs s' out, wrap_trainable c -> kbi_k s = true -> (0 < kbi_bz s <= 22)%Z ->
    Forall (kbi_reachable c (kbi_bz s)) xs ->
    kbi_call c Train s xs = Some (s', out) ->
    exists out', kbi_call c Infer s' xs = Some (s', out') /\ Forall2 Qeq out' out.
Proof. exact kbi_train_infer'. Qed.
Print Assumptions C12_kbi_train_then_infer.
Example C12_case : exists s' out, kif_call conf_kif Train (mk_kif true (7#3) (28#10)) [100; -1#7] = Some (s', out).
Proof. do 2 eexists. vm_compute. reflexivity. Qed.
Example C12_case_kbi : Forall (kbi_reachable conf_kbi 6) [100; -1#7] /\
  exists s' out, kbi_call conf_kbi Train (mk_kbi true 6 (7#3)) [100; -1#7] = Some (s', out).
Proof. split; [repeat constructor; intros hi E; discriminate|]. do 2 eexists. vm_compute. reflexivity. Qed.
Example C11_case_kif :
  let c := mk_qconf RND WRAP true false (Some (CMinMax (-2) 2)) (Some (1#100)) in
  above_reset (c_ic c) /\ exists s' outs, kif_trace c true (mk_kif true 5 1) [[100]; [1#9]] = Some (s', outs) /\ kif_i s' == 2.
Proof. split; [vm_compute; discriminate|]. do 2 eexists. split; vm_compute; reflexivity. Qed.
Example C09_case_constrained : exists s1 o1 s2 o2,
  kbi_trace (mk_qconf RND WRAP true false (Some (CMinMax (-2) 2)) None) false (mk_kbi true 5 7) [[100]; [1#9]] = Some (s1, o1) /\
  kbi_trace (mk_qconf RND WRAP true false (Some (CMinMax (-2) 2)) None) false (mk_kbi true 5 7) [[1#9; 100]] = Some (s2, o2) /\ kbi_iz s1 = 2%Z.
Proof. do 4 eexists. split; [vm_compute; reflexivity|]. split; vm_compute; reflexivity. Qed.
