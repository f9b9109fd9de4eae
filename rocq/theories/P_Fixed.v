(** Properties C01-C06: the fixed-point quantizer in inference.
    [base_call rm om false k i f x] is the inference call on the element [x]. *)
From Verif Require Import Num M_Fixed S_Fixed L_Fixed.

(** C01: the output is an integer multiple of 2^-f inside the advertised [min, max];
    with no bits left it is 0. *)
Theorem C01_output_representable :
  forall rm om k i f x,
    ((0 < kz k + i + f)%Z ->
       representable om k i f (base_call rm om false k i f x) /\
       q_min om k i f <= base_call rm om false k i f x <= q_max i f) /\
    ((kz k + i + f <= 0)%Z -> base_call rm om false k i f x == 0).
Proof.
  intros rm om k i f x. split; intros H.
  - exact (conj (inference_representable rm om k i f x H) (inference_between rm om k i f x H)).
  - rewrite (base_call_npos rm om k i f x H). reflexivity.
Qed.
Print Assumptions C01_output_representable.
Example C01_case : base_call RND SAT false true 2 3 (-27#10) == -22#8 /\ (0 < kz true + 2 + 3)%Z.
Proof. split; vm_compute; reflexivity. Qed.
Example C01_case_wrap : base_call TRN WRAP false true 1 2 (29#10) == -5#4.
Proof. vm_compute; reflexivity. Qed.
Example C01_case_nobits : base_call RND SAT false false (-2) 2 (1#10) == 0 /\ (kz false + -2 + 2 <= 0)%Z.
Proof. split; vm_compute; [reflexivity|discriminate]. Qed.

(** C02: idempotent (even under another rounding mode), and the unchanged values are exactly
    the representable ones. *)
Theorem C02_idempotent :
  forall rm rm' om k i f x,
    base_call rm' om false k i f (base_call rm om false k i f x) == base_call rm om false k i f x.
Proof. exact inference_idempotent. Qed.
Print Assumptions C02_idempotent.

Theorem C02_fixpoints_are_representable :
  forall rm om k i f y, (0 < kz k + i + f)%Z ->
    (base_call rm om false k i f y == y <-> representable om k i f y).
Proof. exact inference_fixpoints. Qed.
Print Assumptions C02_fixpoints_are_representable.
Example C02_case : representable SAT_SYM true 2 1 (-7#2).
Proof. exists (-7)%Z. split; [vm_compute; reflexivity|vm_compute; split; discriminate]. Qed.

(** C03: [round_f] is the rounding to the grid, with its error bound and tie rule, and the
    inference call performs exactly this rounding whenever it stays in [min, max]. *)
Theorem C03_rounding_error :
  forall rm om k i f x, (0 < kz k + i + f)%Z ->
    q_min om k i f <= round_f rm f x <= q_max i f ->
    base_call rm om false k i f x == round_f rm f x /\ rounds_to rm f x (round_f rm f x).
Proof.
  intros rm om k i f x H R.
  exact (conj (inference_in_range rm om k i f x H R) (round_f_rounds rm f x)).
Qed.
Print Assumptions C03_rounding_error.
Theorem C03_rounding_determined :
  forall rm f x r, rounds_to rm f x r -> r == round_f rm f x.
Proof. exact rounds_to_unique. Qed.
Print Assumptions C03_rounding_determined.
Example C03_case_tie : q_min SAT true 2 0 <= round_f RND_CONV 0 (5#2) <= q_max 2 0 /\ round_f RND_CONV 0 (5#2) == 2 /\ round_f RND 0 (5#2) == 3.
Proof. repeat split; vm_compute; try reflexivity; discriminate. Qed.

(** C04: saturation. *)
Theorem C04_saturation :
  forall rm om k i f x, om <> WRAP -> (0 < kz k + i + f)%Z ->
    (q_max i f <= round_f rm f x -> base_call rm om false k i f x == q_max i f) /\
    (round_f rm f x <= q_min om k i f -> base_call rm om false k i f x == q_min om k i f) /\
    (forall z, representable om k i f z ->
       Qabs (round_f rm f x - base_call rm om false k i f x) <= Qabs (round_f rm f x - z)).
Proof.
  intros rm om k i f x Ho H.
  exact (conj (inference_sat_high rm om k i f x Ho H)
        (conj (inference_sat_low rm om k i f x Ho H)
              (fun z => inference_sat_nearest rm om k i f x z Ho H))).
Qed.
Print Assumptions C04_saturation.

Theorem C04_monotone :
  forall rm om k i f x y, om <> WRAP -> x <= y ->
    base_call rm om false k i f x <= base_call rm om false k i f y.
Proof. exact inference_mono. Qed.
Print Assumptions C04_monotone.
Example C04_case : base_call RND SAT false true 2 1 (100#1) == 7#2 /\ base_call RND SAT_SYM false true 2 1 (-100#1) == -7#2 /\ base_call RND SAT false true 2 1 (-100#1) == -4.
Proof. repeat split; vm_compute; reflexivity. Qed.

(** C05: WRAP returns the unique representable value congruent to the rounded input modulo
    2^(i+k). *)
Theorem C05_wrap :
  forall rm k i f x, (0 < kz k + i + f)%Z ->
    representable WRAP k i f (base_call rm WRAP false k i f x) /\
    (exists z, base_call rm WRAP false k i f x == round_f rm f x + inject_Z z * pow2 (i + kz k)) /\
    (forall y z, representable WRAP k i f y -> y == round_f rm f x + inject_Z z * pow2 (i + kz k) ->
       y == base_call rm WRAP false k i f x).
Proof.
  intros rm k i f x H.
  destruct (inference_wrap rm k i f x H) as [z0 Hz0].
  refine (conj (inference_representable rm WRAP k i f x H) (conj (ex_intro _ z0 Hz0) _)).
  intros y z Hy Ey.
  exact (wrap_unique k i f (round_f rm f x) y _ z z0 H Hy (inference_representable rm WRAP k i f x H) Ey Hz0).
Qed.
Print Assumptions C05_wrap.

Theorem C05_wrap_identity_in_range :
  forall rm k i f x, (0 < kz k + i + f)%Z ->
    (base_call rm WRAP false k i f x == round_f rm f x <->
     q_min WRAP k i f <= round_f rm f x <= q_max i f).
Proof.
  intros rm k i f x H. split.
  - intros E. rewrite <- E. exact (inference_between rm WRAP k i f x H).
  - exact (inference_in_range rm WRAP k i f x H).
Qed.
Print Assumptions C05_wrap_identity_in_range.
Example C05_case : base_call RND WRAP false true 3 1 (1001#10) == 4 /\ round_f RND 1 (1001#10) == 4 + 6 * pow2 4.
Proof. split; vm_compute; reflexivity. Qed.

(** C06: advertised bit counts. *)
Theorem C06_bit_counts :
  (* not claimed: WRAP with k=1 and b=0, see C06_wrap_zero_bits_refuted *)
  forall rm om k i f x, (0 < kz k + i + f)%Z -> (om = WRAP -> k = true -> 0 < i + f)%Z ->
    exists n, has_code f (base_call rm om false k i f x) n /\ fits k (q_fbits om k (kif_b i f)) n.
Proof. exact inference_fits. Qed.
Print Assumptions C06_bit_counts.

(** [bits] counts the sign bit only for SAT; otherwise it is the number of magnitude bits. *)
Theorem C06_bits_property :
  forall rm om k i f x, (0 < kz k + i + f)%Z ->
    exists n, has_code f (base_call rm om false k i f x) n /\
      (om = SAT -> fits k (q_bits om k (kif_b i f)) n) /\
      (om <> SAT -> if k then - 2 ^ q_bits om k (kif_b i f) <= n < 2 ^ q_bits om k (kif_b i f)
                    else 0 <= n < 2 ^ q_bits om k (kif_b i f))%Z.
Proof. exact inference_bits. Qed.
Print Assumptions C06_bits_property.

Theorem C06_range_size_and_ends :
  forall rm om k i f, (0 < kz k + i + f)%Z ->
    q_max i f - q_min om k i f == inject_Z (2 ^ (kz k + i + f) - (if symmetric om && k then 1 else 0) - 1) * q_epsilon f /\
    base_call rm om false k i f (q_max i f) == q_max i f /\
    base_call rm om false k i f (q_min om k i f) == q_min om k i f.
Proof.
  intros rm om k i f H. exact (conj (code_count om k i f H) (minmax_attained rm om k i f H)).
Qed.
Print Assumptions C06_range_size_and_ends.

(** With a sign bit and no magnitude bits a WRAP quantizer advertises 0 bits but still
    produces two different values. *)
Theorem C06_wrap_zero_bits_refuted :
  exists rm k i f x y,
    q_fbits WRAP k (kif_b i f) = 0%Z /\
    ~ base_call rm WRAP false k i f x == base_call rm WRAP false k i f y.
Proof.
  exists RND, true, 0%Z, 0%Z, 1, 0. split; [reflexivity|]. vm_compute. discriminate.
Qed.
Print Assumptions C06_wrap_zero_bits_refuted.
Example C06_case : q_fbits WRAP true (kif_b 2 3) = 6%Z /\ (0 < kz true + 2 + 3)%Z /\ q_fbits SAT_SYM true (kif_b 2 3) = 6%Z.
Proof. repeat split; vm_compute; reflexivity. Qed.
