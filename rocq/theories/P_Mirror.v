(** C28: traced quantizers behave like the layer's quantizers; C44: traced ReLU family. *)
From Verif Require Import Num M_Fixed S_Fixed L_Fixed M_State M_Wrapper L_Wrapper M_Mapper S_Mapper L_Mapper M_Mirror L_Mirror.

(** the hardware quantizer on codes is the arithmetic quantizer of the layer, for every format,
    rounding and overflow mode *)
Theorem C28_code_quantizer_is_arithmetic_quantizer :
  forall rm om k i f x, hw_quantize rm om k i f x == base_call rm om false k i f x.
Proof. exact hw_quantize_eq. Qed.
Print Assumptions C28_code_quantizer_is_arithmetic_quantizer.

(** KIF quantizer layer without scaler, on every batch and every sample of it: mirroring the sample
    gives the layer's inference output of that sample, affine map included *)
Theorem C28_traced_kif_quantizer :
  forall w c het_arg hom_arg built het hom wsh s x y,
    w_scaler w = None -> c_weight c = false ->
    built_for het_arg hom_arg (None :: built) het hom wsh -> kif_built wsh s -> shape_matches (None :: built) (shape x) ->
    int8_widths (tmap round_even (t_i s)) -> int8_widths (tmap round_even (t_f s)) ->
    quantizer_infer w (kif_infer c hom s) x = Some y ->
    shape y = shape x /\
    forall b, exists r, mirror_with w c (kif_widths s) (sample b x) = Some r /\ shape r = tl (shape x) /\
      forall j, valid_index (tl (shape x)) j -> at_ r j == at_ y (b :: j).
Proof. exact mirror_kif. Qed.
Print Assumptions C28_traced_kif_quantizer.
Theorem C28_traced_kbi_quantizer :
  forall w c het_arg hom_arg built het hom wsh s x y,
    w_scaler w = None -> c_weight c = false ->
    built_for het_arg hom_arg (None :: built) het hom wsh -> kbi_built wsh s -> shape_matches (None :: built) (shape x) ->
    int8_widths (tmap round_even (u_i s)) -> int8_widths (tmap2 Z.sub (tmap round_even (u_b s)) (tmap round_even (u_i s))) ->
    quantizer_infer w (kbi_infer c hom s) x = Some y ->
    shape y = shape x /\
    forall b, exists r, mirror_with w c (kbi_widths s) (sample b x) = Some r /\ shape r = tl (shape x) /\
      forall j, valid_index (tl (shape x)) j -> at_ r j == at_ y (b :: j).
Proof. exact mirror_kbi. Qed.
Print Assumptions C28_traced_kbi_quantizer.
(** not claimed: quantizers with a scaler, and widths outside int8.  There the claim fails: the traced
    value is the layer's value divided by the scaler, *)
Theorem C28_scaler_is_not_undone_refuted :
  forall w c k i f x y w' n sh s,
    w_scaler w = Some s -> ~ s == 0 -> w_affine w = None ->
    shape k = 1%nat :: w' -> shape i = 1%nat :: w' -> shape f = 1%nat :: w' -> shape x = n :: sh ->
    int8_widths i -> int8_widths f ->
    quantizer_infer w (base_tcall c false k i f) x = Some y ->
    forall b, exists r, mirror_quantizer w c k i f (sample b x) = Some r /\ forall j, valid_index sh j -> at_ r j * s == at_ y (b :: j).
Proof. exact mirror_scaler. Qed.
Print Assumptions C28_scaler_is_not_undone_refuted.
Definition ex_conf : qconf := mk_qconf RND SAT true false None None.
Definition one {A} (v : A) : tensor A := mk_tensor [1%nat; 1%nat] (fun _ => v).
(** and a width of 200 fractional bits becomes -56 *)
Theorem C28_int8_widths_refuted :
  exists k i f x y r, quantizer_infer (mk_wrapper None None None) (base_tcall ex_conf false k i f) x = Some y /\
    mirror_quantizer (mk_wrapper None None None) ex_conf k i f (sample 0 x) = Some r /\
    ~ at_ r [0%nat] == at_ y [0%nat; 0%nat].
Proof.
  exists (one true), (one 2%Z), (one 200%Z), (mk_tensor [1%nat; 1%nat] (fun _ => 3#4)). eexists. eexists.
  split; [reflexivity|]. split; [reflexivity|]. vm_compute. discriminate.
Qed.
Print Assumptions C28_int8_widths_refuted.

(** per-channel widths (2 channels) on a batch of two samples, with an affine map *)
Definition ex_w := mk_wrapper None (Some (3, 1#2)) None.
Definition ex_s : kif_tstate :=
  mk_kift (mk_tensor [1;2]%nat (fun _ => true)) (mk_tensor [1;2]%nat (fun g => match g with [_; 0]%nat => 1 | _ => 5#2 end))
          (mk_tensor [1;2]%nat (fun g => match g with [_; 0]%nat => 2 | _ => 0 end)).
Definition ex_x : tensor Q := mk_tensor [2;2]%nat (fun g => match g with [0; 0]%nat => 7#16 | [0; _]%nat => 9#2 | [_; 0]%nat => -5 | _ => -(5#2) end).
Definition ex_wconf : qconf := mk_qconf RND WRAP true false None None.
Example C28_hypotheses_hold :
  built_for None (Some [0%Z]) [None; Some 2%nat] [1%nat] [0%nat] [1;2]%nat /\ kif_built [1;2]%nat ex_s /\
  shape_matches [None; Some 2%nat] (shape ex_x) /\
  int8_widths (tmap round_even (t_i ex_s)) /\ int8_widths (tmap round_even (t_f ex_s)) /\
  c_weight ex_wconf = false /\ w_scaler ex_w = None /\
  exists y, quantizer_infer ex_w (kif_infer ex_wconf [0%nat] ex_s) ex_x = Some y /\ at_ y [0;0]%nat == 2 /\ at_ y [0;1]%nat == - (17#2) /\ at_ y [1;0]%nat == - (5#2) /\ at_ y [1;1]%nat == - (11#2).
Proof.
  split; [split; reflexivity|]. split; [repeat split|]. split; [repeat constructor|].
  split; [intros [|? [|[|?] [|? ?]]] _; cbn; vm_compute; split; discriminate|].
  split; [intros [|? [|[|?] [|? ?]]] _; cbn; vm_compute; split; discriminate|].
  split; [reflexivity|]. split; [reflexivity|]. eexists. split; [reflexivity|]. repeat split; vm_compute; reflexivity.
Qed.
Example C28_traced_case :
  exists r, mirror_with ex_w ex_wconf (kif_widths ex_s) (sample 0 ex_x) = Some r /\ at_ r [0%nat] == 2 /\ at_ r [1%nat] == - (17#2).
Proof. eexists. split; [reflexivity|]. split; vm_compute; reflexivity. Qed.

(** the layers ReLU(threshold, negative_slope, max_value) and their hardware, on every value [x] of the
    incoming variable with [f] fractional bits, when the threshold lies on the grid (or at most half
    a step above a grid point) *)
Theorem C44_traced_relu :
  forall low f threshold slope max_value x n m r,
    x == inject_Z n * pow2 (- f) -> threshold == (inject_Z m + r) * pow2 (- f) -> 0 <= r <= 1#2 ->
    0 <= threshold -> (forall v, max_value = Some v -> 0 <= v) -> low <= x ->
    replay_relu low f threshold slope max_value x == keras_relu threshold slope max_value x.
Proof. exact relu_replay. Qed.
Print Assumptions C44_traced_relu.
(** not claimed: thresholds in the upper half of a grid cell.  There the first value above the threshold
    is treated as below it *)
Theorem C44_threshold_off_grid_refuted :
  forall f m r low, 1#2 < r -> r < 1 -> (0 <= m)%Z -> low <= 0 ->
    let threshold := (inject_Z m + r) * pow2 (- f) in let x := inject_Z (m + 1) * pow2 (- f) in
    keras_relu threshold 0 None x == x /\ replay_relu low f threshold 0 None x == 0 /\ 0 < x.
Proof. exact relu_replay_wrong. Qed.
Print Assumptions C44_threshold_off_grid_refuted.
Theorem C44_traced_leaky_relu :
  forall low f slope x, low <= x -> replay_relu low f 0 slope None x == (if qlt_b x 0 then slope * x else x).
Proof. exact leaky_replay. Qed.
Print Assumptions C44_traced_leaky_relu.
Theorem C44_traced_prelu :
  forall low f alpha x, low <= x -> replay_relu low f 0 alpha None x == keras_prelu alpha x.
Proof. exact prelu_replay. Qed.
Print Assumptions C44_traced_prelu.
(** threshold 3/4, slope 1/8, cap 2 on a grid of quarters: one value in each of the three pieces *)
Example C44_case :
  replay_relu (-4) 2 (3#4) (1#8) (Some 2) (-(5#4)) == - (1#4) /\ replay_relu (-4) 2 (3#4) (1#8) (Some 2) 1 == 1 /\
  replay_relu (-4) 2 (3#4) (1#8) (Some 2) 3 == 2 /\ replay_relu (-4) 2 (3#4) (1#8) (Some 2) (3#4) == 0 /\
  (3#4) == (inject_Z 3 + 0) * pow2 (- 2) /\ -(5#4) == inject_Z (-5) * pow2 (- 2).
Proof. repeat split; vm_compute; reflexivity. Qed.
