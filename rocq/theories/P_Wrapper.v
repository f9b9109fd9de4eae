(** Property C14: scaler, affine map and noise factor of the Quantizer layer.
    [scale_of w] is the scaler (1 if none), [affine_a w], [affine_b w] the affine map (1, 0 if none). *)
From Verif Require Import Num M_Fixed S_Fixed L_Fixed M_Wrapper L_Wrapper.

Theorem C14_inference_formula :
  forall w q x, wrapper_ok w -> respectful q ->
    wrapper_call w q false x == affine_a w * (scale_of w * q (x / scale_of w)) + affine_b w.
Proof. exact wrapper_infer. Qed.
Print Assumptions C14_inference_formula.
Theorem C14_noise_one_is_full_quantization :
  forall w q x, wrapper_ok w -> respectful q -> w_noise w = Some 1 ->
    wrapper_call w q true x == affine_a w * (scale_of w * q (x / scale_of w)) + affine_b w.
Proof. exact wrapper_noise_one. Qed.
Print Assumptions C14_noise_one_is_full_quantization.
(** without a scaler the noise factor interpolates; factor 0 leaves the input *)
Theorem C14_noise_interpolates :
  forall w q x n, wrapper_ok w -> w_noise w = Some n -> w_scaler w = None ->
    wrapper_call w q true x == affine_a w * ((1 - n) * x + n * q x) + affine_b w.
Proof. exact wrapper_noise_interp. Qed.
Print Assumptions C14_noise_interpolates.
(** with a scaler, factor 0 returns x/s instead of x *)
Theorem C14_noise_zero_with_scaler_refuted :
  exists w q x, wrapper_ok w /\ w_noise w = Some 0 /\ w_affine w = None /\ ~ wrapper_call w q true x == x.
Proof.
  exists (mk_wrapper (Some 2) None (Some 0)), (base_call RND SAT false true 2 3), 1.
  split; [|split; [reflexivity|split; [reflexivity|vm_compute; discriminate]]].
  split; [|split].
  - intros s E. injection E as <-. discriminate.
  - discriminate.
  - intros n E. injection E as <-. split; vm_compute; discriminate.
Qed.
Print Assumptions C14_noise_zero_with_scaler_refuted.
(** the scaled quantizer is still idempotent and its error is scaled by |s| *)
Theorem C14_scaled_idempotent :
  forall w rm om k i f x, wrapper_ok w -> w_affine w = None ->
    let q := base_call rm om false k i f in
    wrapper_call w q false (wrapper_call w q false x) == wrapper_call w q false x.
Proof. exact wrapper_idempotent. Qed.
Print Assumptions C14_scaled_idempotent.
Theorem C14_scaled_error :
  forall w rm om k i f x, wrapper_ok w -> w_affine w = None -> (0 < kz k + i + f)%Z ->
    q_min om k i f <= round_f rm f (x / scale_of w) <= q_max i f ->
    Qabs (wrapper_call w (base_call rm om false k i f) false x - x) <= Qabs (scale_of w) * step_bound rm f.
Proof. exact wrapper_error. Qed.
Print Assumptions C14_scaled_error.
Example C14_case :
  let w := mk_wrapper (Some 3) (Some (1#4, 1#2)) (Some (1#3)) in
  wrapper_ok w /\ wrapper_call w (base_call RND SAT false true 2 1) false 5 == 13#8 /\
  q_min SAT true 2 1 <= round_f RND 1 (5 / scale_of w) <= q_max 2 1.
Proof.
  cbv zeta. split; [|split; [vm_compute; reflexivity|split; vm_compute; discriminate]].
  split; [|split].
  - intros s E. injection E as <-. discriminate.
  - intros a b E. injection E as <- _. discriminate.
  - intros n E. injection E as <-. split; vm_compute; discriminate.
Qed.
