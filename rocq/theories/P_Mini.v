(** C54: the minifloat quantizer. *)
From Coq Require Import Reals Qreals SetoidList.
From Verif Require Import Num M_Fixed M_State M_Mapper S_Mapper L_Mapper M_Mini S_Mini L_Mini.
Open Scope Q_scope.

(** the advertised maximum and minimum are minifloats, and the largest and smallest ones *)
Theorem C54_range :
  forall m e e0, (0 <= m)%Z -> (1 <= e)%Z ->
  exists v, minifloat m e e0 v /\ minifloat m e e0 (- v) /\ Q2R v = mf_max m e e0 /\ Q2R (- v) = mf_min m e e0 /\
    forall w, minifloat m e e0 w -> - v <= w /\ w <= v.
Proof.
  intros m e e0 Hm He. exists (vmax m e e0). assert (V := vmax_minifloat m e e0 Hm He). assert (O : (-1 <= m)%Z) by lia. assert (O' : (0 <= e)%Z) by lia.
  split; [exact V|]. split; [exact (minifloat_opp m e e0 _ O O' V)|]. assert (M := mf_max_exact m e e0 Hm He). split; [symmetry; exact M|].
  split; [rewrite Q2R_opp; unfold mf_min; rewrite M; reflexivity|]. intros w Hw. split; [|exact (vmax_upper m e e0 w Hm He Hw)].
  assert (- w <= vmax m e e0) by exact (vmax_upper m e e0 _ Hm He (minifloat_opp m e e0 w O O' Hw)). lra.
Qed.
Print Assumptions C54_range.

(** the advertised epsilon is a minifloat, and every minifloat is a multiple of it *)
Theorem C54_epsilon :
  forall m e e0, (0 <= m)%Z -> (1 <= e)%Z ->
  exists t, 0 < t /\ minifloat m e e0 t /\ Q2R t = mf_epsilon m e e0 /\
    forall v, minifloat m e e0 v -> exists n, v == inject_Z n * t.
Proof.
  intros m e e0 Hm He. exists (tiny m e e0). split; [exact (tiny_pos m e e0)|]. split; [exact (tiny_minifloat m e e0 Hm He)|].
  split; [symmetry; exact (mf_epsilon_exact m e e0 He)|]. intros v Hv. exact (tiny_least m e e0 v Hm He Hv).
Qed.
Print Assumptions C54_epsilon.

(** the advertised number of bits is what it takes to write every value (zero has two codes) *)
Theorem C54_bits :
  forall m e e0, (0 <= m)%Z -> (1 <= e)%Z ->
  exists l, NoDupA Qeq l /\ (forall v, minifloat m e e0 v <-> InA Qeq v l) /\ Z.of_nat (length l) = (2 ^ mf_bits m e - 1)%Z.
Proof. exact bits_exact. Qed.
Print Assumptions C54_bits.

(** with a conforming rounding primitive: outputs are representable, quantization is idempotent,
    the error is at most one unit in the last place, and out of range inputs saturate *)
Theorem C54_quantizer :
  forall fq, conforms fq -> forall m e e0 x, (0 <= m)%Z -> (1 <= e)%Z ->
  minifloat m e e0 (fq x m e e0) /\ fq (fq x m e e0) m e e0 == fq x m e e0 /\
  ((Q2R (Qabs x) <= mf_max m e e0)%R ->
     (Q2R (Qabs (fq x m e e0 - x)) <= mf_epsilon m e e0)%R \/ Qabs (fq x m e e0 - x) <= pow2 (- m) * Qabs x) /\
  ((mf_max m e e0 <= Q2R x)%R -> Q2R (fq x m e e0) = mf_max m e e0) /\
  ((Q2R x <= mf_min m e e0)%R -> Q2R (fq x m e e0) = mf_min m e e0).
Proof.
  intros fq C m e e0 x Hm He. assert (O : (-1 <= m)%Z) by lia. assert (F := C x m e e0 O He).
  split; [exact (proj1 F)|]. split; [exact (faithful_fix _ _ _ (C _ m e e0 O He) (proj1 F))|]. unfold mf_min. rewrite (mf_max_exact m e e0 Hm He), (mf_epsilon_exact m e e0 He).
  destruct (saturates m e e0 x _ Hm He F) as [S1 S2]. split; [|split].
  - intros H. apply Rle_Qle in H. destruct (error_bound m e e0 x _ Hm He F H) as [E|E]; [left; apply Qle_Rle; exact E|right; exact E].
  - intros H. apply Rle_Qle in H. exact (Qeq_eqR _ _ (S1 H)).
  - rewrite <- Q2R_opp. intros H. apply Rle_Qle in H. exact (Qeq_eqR _ _ (S2 H)).
Qed.
Print Assumptions C54_quantizer.

(** whole tensors: every element is rounded in the format of its own group *)
Theorem C54_call :
  forall fq ha oa built het hom w s x,
  conforms fq -> built_for ha oa built het hom w -> shape_matches built (shape x) ->
  shape (f_m s) = w -> shape (f_e s) = w -> shape (f_e0 s) = w ->
  (forall g, valid_index w g -> (-1 <= p_m (at_ (f_m s) g))%Z /\ (1 <= p_e (at_ (f_e s) g))%Z) ->
  exists y entry, mf_tcall fq s x = Some y /\ shape y = shape x /\
    forall i, valid_index (shape x) i -> valid_index w (entry i) /\
      faithful (minifloat (p_m (at_ (f_m s) (entry i))) (p_e (at_ (f_e s) (entry i))) (p_e0 (at_ (f_e0 s) (entry i)))) (at_ x i) (at_ y i) /\
      forall j, valid_index (shape x) j -> (entry i = entry j <-> same_group het i j).
Proof. exact mf_tcall_groups. Qed.
Print Assumptions C54_call.

(** after the constraints, m >= -1 and e >= 0 whatever the optimizer did *)
Theorem C54_constraints :
  forall s g, (-1 <= p_m (at_ (f_m (mf_constrain s)) g))%Z /\ (0 <= p_e (at_ (f_e (mf_constrain s)) g))%Z.
Proof. intros s g. exact (conj (constrained_m _) (constrained_e _)). Qed.
Print Assumptions C54_constraints.

(** m = -1 prunes: the output is zero, and the advertised range is zero *)
Theorem C54_pruned :
  forall fq, conforms fq -> forall e e0 x, (1 <= e)%Z -> fq x (-1)%Z e e0 == 0 /\ mf_max (-1)%Z e e0 = 0%R.
Proof.
  intros fq C e e0 x He. split; [apply (minifloat_zero_width e e0); exact (proj1 (C x (-1)%Z e e0 (Z.le_refl _) He))|].
  unfold mf_max. replace (- IZR (-1))%R with 1%R by ring. rewrite Rpower_1; [ring|Rlra].
Qed.
Print Assumptions C54_pruned.

(** but the advertised number of bits of a pruned weight is e, not zero: it still counts in EBOPs *)
Theorem C54_pruned_bits_refuted :
  ~ (forall m e e0, (-1 <= m)%Z -> (1 <= e)%Z -> (forall v, minifloat m e e0 v -> v == 0) -> mf_bits m e = 0%Z).
Proof.
  intros H. specialize (H (-1)%Z 4%Z 0%Z (Z.le_refl _)). assert (1 <= 4)%Z as L by lia. specialize (H L (fun v => proj1 (minifloat_zero_width 4 0 v))). discriminate H.
Qed.
Print Assumptions C54_pruned_bits_refuted.

(** and the default constraint admits e = 0, where the advertised maximum is irrational: no binary
    format has it as a value *)
Theorem C54_no_exponent_bits_refuted :
  ~ (forall m e e0, (0 <= m)%Z -> (0 <= e)%Z -> exists v, minifloat m e e0 v /\ Q2R v = mf_max m e e0).
Proof.
  intros H. assert (L0 : (0 <= 0)%Z) by lia. destruct (H 0%Z 0%Z 0%Z L0 L0) as (v & _ & E). exact (mf_max_no_exponent 0 0 v L0 (eq_sym E)).
Qed.
Print Assumptions C54_no_exponent_bits_refuted.

(** ** The hypotheses are satisfiable *)
Example C54_a_conforming_primitive : conforms floor_mf.
Proof. exact floor_mf_conforms. Qed.
(** m = 2, e = 3, e0 = 0 (default for weights): largest 14, smallest 1/32; 63 values *)
Example C54_values : length (values 2 3 0) = 63%nat /\ vmax 2 3 0 == 14 /\ tiny 2 3 0 == 1 # 32 /\ floor_mf (33 # 10) 2 3 0 == 3.
Proof. vm_compute. repeat split; reflexivity. Qed.
Example C54_tensor :
  built_for None (Some [0%Z]) [None; Some 2%nat] [1%nat] [0%nat] [1%nat; 2%nat] /\
  exists y, mf_tcall floor_mf (mk_mf (mk_tensor [1; 2]%nat (fun g => if Nat.eqb (nth 1 g 0%nat) 0 then -1 else (19 # 10)))
                                     (mk_tensor [1; 2]%nat (fun _ => 3)) (mk_tensor [1; 2]%nat (fun _ => 0)))
            (mk_tensor [3; 2]%nat (fun _ => 33 # 10)) = Some y /\ at_ y [2; 0]%nat == 0 /\ at_ y [2; 1]%nat == 3.
Proof. split; [vm_compute; repeat split; reflexivity|]. eexists. split; [reflexivity|]. split; vm_compute; reflexivity. Qed.
