(** C38: binary32 evaluation of a quantized dot product; C32: the surrogate spike in binary32. *)
From Coq Require Import Reals List Permutation Qreals.
From Flocq Require Import Core.
From Verif Require Import Num M_Fixed M_Ebops M_Float S_Float L_Fixed L_Float.
From Coq Require Import Lra Lia.
Import ListNotations.
Local Open Scope R_scope.

(** If every product and the bias lie on the grid 2^e (e at least -149) and the formats' largest magnitudes sum to
    at most 2^24 grid steps, then for all operands every summation tree, with or without fused multiply-adds,
    evaluates in binary32 to the exact rational sum, and (for e at most 103) never overflows. *)
Theorem C38_any_order_exact :
  forall n qx qw qb x w b e,
    (-149 <= e)%Z ->
    (forall i, (i < n)%nat -> (e <= - (f_f (qx i) + f_f (qw i)))%Z) ->
    (forall q, qb = Some q -> (e <= - f_f q)%Z) ->
    largest n qx qw qb <= bpow radix2 (24 + e) ->
    forall t, Permutation (terms t) (map Q2R (exact_terms n qx qw qb x w b)) ->
      fl_eval t = Q2R (qsum (exact_terms n qx qw qb x w b)) /\ ((e <= 103)%Z -> no_overflow t).
Proof. exact dense_exact. Qed.
Print Assumptions C38_any_order_exact.
(** hence two backends that add in different orders return the same float *)
Theorem C38_backends_agree :
  forall n qx qw qb x w b e,
    (-149 <= e)%Z ->
    (forall i, (i < n)%nat -> (e <= - (f_f (qx i) + f_f (qw i)))%Z) ->
    (forall q, qb = Some q -> (e <= - f_f q)%Z) ->
    largest n qx qw qb <= bpow radix2 (24 + e) ->
    forall t u, Permutation (terms t) (map Q2R (exact_terms n qx qw qb x w b)) ->
      Permutation (terms u) (map Q2R (exact_terms n qx qw qb x w b)) -> fl_eval t = fl_eval u.
Proof.
  intros n qx qw qb x w b e He Hf Hb Hl t u Pt Pu.
  rewrite (proj1 (dense_exact n qx qw qb x w b e He Hf Hb Hl t Pt)). symmetry. apply (dense_exact n qx qw qb x w b e He Hf Hb Hl u Pu).
Qed.
Print Assumptions C38_backends_agree.
(** the operands themselves are binary32 numbers when their formats have at most 24 bits *)
Theorem C38_operands_are_floats :
  forall q x, (-149 <= - f_f q)%Z -> (f_i q + f_f q <= 24)%Z -> b32 (Q2R (quantize q x)) = Q2R (quantize q x).
Proof. exact quantized_float. Qed.
Print Assumptions C38_operands_are_floats.
(** the bound cannot be dropped: two orders of 2^24 + 1 + 1 differ *)
Theorem C38_without_bound_refuted :
  exists t u, Permutation (terms t) (terms u) /\ Forall (on_grid 0) (terms t) /\ fl_eval t <> fl_eval u.
Proof. exact order_matters. Qed.
Print Assumptions C38_without_bound_refuted.

(** the spike function returns exactly 0 or 1 in binary32, whatever the rounding of the arc tangent term
    ([a] stands for arctan(pi/2 alpha x)/pi, between -1/2 and 1/2 up to rounding) *)
Theorem C32_spike_in_float32 :
  forall a, (0 <= a <= 3 / 2 -> fl_spike 1 (fl_soft a) = 1) /\ fl_spike 0 (fl_soft a) = 0.
Proof. exact spike_exact. Qed.
Print Assumptions C32_spike_in_float32.

(** 1000 inputs of 8 bits (sign, 1 integer, 6 fractional) and weights of 6 bits (sign, 0, 5) with a bias *)
Example C38_nontrivial :
  let qx := fun _ : nat => mk_qfmt RND SAT true 1 6 in let qw := fun _ : nat => mk_qfmt RND SAT_SYM true 0 5 in
  let qb := Some (mk_qfmt TRN WRAP true 4 8) in
  (-149 <= -11)%Z /\ (forall i, (i < 1000)%nat -> (-11 <= - (f_f (qx i) + f_f (qw i)))%Z) /\ (forall q, qb = Some q -> (-11 <= - f_f q)%Z) /\
  largest 1000 qx qw qb <= bpow radix2 (24 + -11).
Proof.
  cbv zeta. split; [lia|]. split; [intros; cbn; lia|]. split; [intros q E; injection E as <-; cbn; lia|].
  unfold largest. cbn [f_i]. rewrite rsum_const, seq_length. replace (IZR (Z.of_nat 1000)) with 1000 by reflexivity.
  change (bpow radix2 (1 + 0)) with 2. change (bpow radix2 4) with 16. change (bpow radix2 (24 + -11)) with 8192. lra.
Qed.
