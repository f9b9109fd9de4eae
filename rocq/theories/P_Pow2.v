(** C35: averaging by a power of two. *)
From Coq Require Import Reals.
From Verif Require Import Num M_Fixed M_State M_Mapper S_Mapper M_Ebops M_Pow2 L_Pow2 L_Pow2R.
Open Scope Q_scope.

(** the exponent is the integer nearest to log2(1/n) (strictly nearest, so no tie rule is involved) *)
Theorem C35_exponent_is_rounded_log2 :
  forall n, (0 < n)%Z -> (Rabs (IZR (- round_log2 n) - ln (1 / IZR n) / ln 2) < 1 / 2)%R.
Proof. exact round_log2_nearest. Qed.
Print Assumptions C35_exponent_is_rounded_log2.

(** the scale is within a factor sqrt(2) of 1/n *)
Theorem C35_scale_within_sqrt2 :
  forall n, (0 < n)%Z -> let r := pow2_scale n * inject_Z n in 1 # 2 < r * r /\ r * r < 2.
Proof. exact pow2_scale_near. Qed.
Print Assumptions C35_scale_within_sqrt2.

(** and is exactly 1/n if and only if n is a power of two *)
Theorem C35_scale_exact_iff_power_of_two :
  forall n, (0 < n)%Z -> (pow2_scale n == 1 / inject_Z n <-> exists m, (0 <= m)%Z /\ n = (2 ^ m)%Z).
Proof. exact pow2_scale_exact_iff. Qed.
Print Assumptions C35_scale_exact_iff_power_of_two.

(** QMeanPow2 over any axes of a tensor of any rank: every output is the mean of its group times such a factor *)
Theorem C35_meanpow2 :
  forall axes x g, NoDup axes -> (forall a, In a axes -> (a < length (shape x))%nat) ->
  valid_index (keep_shape_from 0 axes (shape x)) g -> (0 < mean_count axes (shape x))%nat ->
  length (collect axes x g) = mean_count axes (shape x) /\
  exists r, at_ (qmeanpow2_call axes x) g == r * (qsum (collect axes x g) / nQ (length (collect axes x g))) /\ 1 # 2 < r * r /\ r * r < 2.
Proof. intros axes x g ND HB Hg Hn. exact (conj (collect_count axes x g ND HB Hg) (meanpow2_near axes x g ND HB Hg Hn)). Qed.
Print Assumptions C35_meanpow2.
Theorem C35_meanpow2_exact :
  forall axes x g m, NoDup axes -> (forall a, In a axes -> (a < length (shape x))%nat) ->
  valid_index (keep_shape_from 0 axes (shape x)) g -> mean_count axes (shape x) = (2 ^ m)%nat ->
  at_ (qmeanpow2_call axes x) g == qsum (collect axes x g) / nQ (length (collect axes x g)).
Proof. exact meanpow2_exact. Qed.
Print Assumptions C35_meanpow2_exact.

(** no accuracy is lost: inputs on a grid of step 2^-f give outputs on a grid of step 2^-(f+k) *)
Theorem C35_meanpow2_stays_on_grid :
  forall axes x g f, (forall idx, exists n, at_ x idx == inject_Z n * pow2 (- f)) ->
  exists n k, at_ (qmeanpow2_call axes x) g == inject_Z n * pow2 (- (f + k)) /\ k = round_log2 (Z.of_nat (mean_count axes (shape x))).
Proof. exact meanpow2_grid. Qed.
Print Assumptions C35_meanpow2_stays_on_grid.

(** QAveragePow2, any number of inputs *)
Theorem C35_averagepow2 :
  forall xs y, qaveragepow2 xs = Some y ->
  (exists r, y == r * (qsum xs / nQ (length xs)) /\ 1 # 2 < r * r /\ r * r < 2) /\
  forall m, length xs = (2 ^ m)%nat -> y == qsum xs / nQ (length xs).
Proof. intros xs y E. exact (conj (average_near xs y E) (fun m => average_exact xs y m E)). Qed.
Print Assumptions C35_averagepow2.

(** negative axes count from the end, as in numpy *)
Theorem C35_axes :
  forall axes n, (forall a, In a axes -> (- Z.of_nat n <= a < Z.of_nat n)%Z) ->
  Forall2 (fun a b => (b < n)%nat /\ (Z.of_nat b = a \/ (Z.of_nat b = a + Z.of_nat n)%Z)) axes (norm_axes axes n).
Proof. exact norm_axes_spec. Qed.
Print Assumptions C35_axes.

Example ex_C35 : pow2_scale 3 == 1 # 4 /\ pow2_scale 5 == 1 # 4 /\ pow2_scale 6 == 1 # 8 /\ pow2_scale 11 == 1 # 8 /\ pow2_scale 12 == 1 # 16.
Proof. repeat split; reflexivity. Qed.
Definition ex_t : tensor Q := mk_tensor [1; 2; 3]%nat (fun i => nQ (fold_right Nat.add 0%nat i)).
Example ex_C35_mean : mean_count [1; 2]%nat (shape ex_t) = 6%nat /\ at_ (qmeanpow2_call [1; 2]%nat ex_t) [0; 0; 0]%nat == 9 # 8 /\
  at_ (qmeanpow2_call [1]%nat ex_t) [0; 0; 2]%nat == 5 # 2 /\ valid_index (keep_shape_from 0 [1; 2]%nat (shape ex_t)) [0; 0; 0]%nat.
Proof. split; [reflexivity|]. split; [reflexivity|]. split; [reflexivity|]. repeat constructor. Qed.
Example ex_C35_avg : exists y, qaveragepow2 [1; 2; 6] = Some y /\ y == 9 # 4.
Proof. eexists. split; reflexivity. Qed.
