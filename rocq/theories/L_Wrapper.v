From Verif Require Import Num M_Fixed S_Fixed L_Fixed M_Wrapper.
From Verif Require Export S_Wrapper.


Lemma wrapper_infer w q x : wrapper_ok w -> respectful q ->
  wrapper_call w q false x == affine_a w * (scale_of w * q (x / scale_of w)) + affine_b w.
Proof.
  intros Hw Hq. unfold wrapper_call, affine_a, affine_b, scale_of.
  assert (E1 : q x == q (x / 1)) by (apply Hq; field).
  destruct (w_scaler w) as [s|], (w_affine w) as [[a b]|], (w_noise w) as [n|]; try rewrite <- E1; ring.
Qed.

Lemma wrapper_noise_one w q x : wrapper_ok w -> respectful q -> w_noise w = Some 1 ->
  wrapper_call w q true x == affine_a w * (scale_of w * q (x / scale_of w)) + affine_b w.
Proof.
  intros Hw Hq Hn. unfold wrapper_call, affine_a, affine_b, scale_of. rewrite Hn.
  assert (E1 : q x == q (x / 1)) by (apply Hq; field).
  destruct (w_scaler w) as [s|], (w_affine w) as [[a b]|]; try rewrite <- E1; ring.
Qed.

Lemma wrapper_noise_interp w q x n : wrapper_ok w -> w_noise w = Some n -> w_scaler w = None ->
  wrapper_call w q true x == affine_a w * ((1 - n) * x + n * q x) + affine_b w.
Proof.
  intros Hw Hn Hs. unfold wrapper_call, affine_a, affine_b. rewrite Hn, Hs. destruct (w_affine w) as [[a b]|]; ring.
Qed.

Lemma wrapper_idempotent w rm om k i f x : wrapper_ok w -> w_affine w = None ->
  let q := base_call rm om false k i f in
  wrapper_call w q false (wrapper_call w q false x) == wrapper_call w q false x.
Proof.
  intros Hw Ha q. assert (Hq : respectful q) by (intros a b E; unfold q; apply base_call_Proper, E).
  rewrite !(wrapper_infer w q) by assumption. unfold affine_a, affine_b. rewrite Ha.
  assert (Hs : ~ scale_of w == 0) by (unfold scale_of; destruct (w_scaler w) eqn:E; [apply (proj1 Hw); exact E|discriminate]).
  set (y := q (x / scale_of w)).
  assert (E : q ((1 * (scale_of w * y) + 0) / scale_of w) == y).
  { rewrite (Hq _ y) by (field; exact Hs). unfold y, q. apply inference_idempotent. }
  rewrite E. reflexivity.
Qed.


Lemma round_f_bound rm f x : Qabs (round_f rm f x - x) <= step_bound rm f.
Proof.
  destruct (round_f_rounds rm f x) as (n & _ & H). pose proof (pow2_pos (- f)) as P.
  assert (E2 : pow2 (- f) / 2 == pow2 (- f) * (1#2)) by field.
  apply Qabs_Qle_condition. unfold step_bound. destruct rm.
  - split; lra.
  - rewrite E2 in H. split; lra.
  - destruct H as [H _]. rewrite E2 in H. apply Qabs_Qle_condition in H. split; lra.
Qed.

Lemma wrapper_error w rm om k i f x : wrapper_ok w -> w_affine w = None -> (0 < kz k + i + f)%Z ->
  q_min om k i f <= round_f rm f (x / scale_of w) <= q_max i f ->
  Qabs (wrapper_call w (base_call rm om false k i f) false x - x) <= Qabs (scale_of w) * step_bound rm f.
Proof.
  intros Hw Ha Hk Hr. set (q := base_call rm om false k i f).
  assert (Hq : respectful q) by (intros a b E; unfold q; apply base_call_Proper, E).
  rewrite (wrapper_infer w q) by assumption. unfold affine_a, affine_b. rewrite Ha.
  assert (Hs : ~ scale_of w == 0) by (unfold scale_of; destruct (w_scaler w) eqn:E; [apply (proj1 Hw); exact E|discriminate]).
  assert (Eq : q (x / scale_of w) == round_f rm f (x / scale_of w)) by (apply inference_in_range; assumption).
  rewrite Eq. pose proof (round_f_bound rm f (x / scale_of w)) as B.
  set (r := round_f rm f (x / scale_of w)) in *.
  setoid_replace (1 * (scale_of w * r) + 0 - x) with (scale_of w * (r - x / scale_of w)) by (field; exact Hs).
  rewrite Qabs_Qmult. rewrite !(Qmult_comm (Qabs (scale_of w))). apply Qmult_le_compat_r; [exact B|apply Qabs_nonneg].
Qed.
