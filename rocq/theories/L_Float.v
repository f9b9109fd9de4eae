From Coq Require Import Reals List Permutation Qreals.
From Flocq Require Import Core Sterbenz.
From Verif Require Import Num M_Fixed S_Fixed L_Fixed M_Ebops L_Ebops M_Float S_Float.
From Coq Require Import Lra Lia.
Import ListNotations.
Local Open Scope R_scope.

Lemma rsum_app a b : rsum (a ++ b) = rsum a + rsum b.
Proof. induction a as [|x a IH]; cbn [rsum app]; [ring|rewrite IH; ring]. Qed.
Lemma rsum_perm a b : Permutation a b -> rsum a = rsum b.
Proof. intros P. induction P; cbn [rsum]; lra. Qed.
Lemma rsum_abs l : Rabs (rsum l) <= rsum (map Rabs l).
Proof.
  induction l as [|x l IH]; cbn [rsum map]; [rewrite Rabs_R0; lra|]. eapply Rle_trans; [apply Rabs_triang|]. lra.
Qed.
Lemma rsum_nonneg l : 0 <= rsum (map Rabs l).
Proof. induction l as [|x l IH]; cbn [rsum map]; [lra|]. pose proof (Rabs_pos x). lra. Qed.

Lemma grid_plus e x y : on_grid e x -> on_grid e y -> on_grid e (x + y).
Proof. intros [a ->] [b ->]. exists (a + b)%Z. rewrite plus_IZR. ring. Qed.
Lemma grid_rsum e l : Forall (on_grid e) l -> on_grid e (rsum l).
Proof. intros H. induction H; cbn [rsum]; [exists 0%Z; ring|apply grid_plus; assumption]. Qed.
Lemma grid_format e x : on_grid e x -> (-149 <= e)%Z -> Rabs x <= bpow radix2 (24 + e) -> generic_format radix2 (FLT_exp (-149) 24) x.
Proof.
  intros [z ->] He Hx.
  assert (Hz : (Z.abs z <= 2 ^ 24)%Z).
  { rewrite Rabs_mult, (Rabs_pos_eq (bpow radix2 e)), bpow_plus in Hx by apply bpow_ge_0. apply Rmult_le_reg_r in Hx; [|apply bpow_gt_0].
    rewrite <- abs_IZR in Hx. apply le_IZR. replace (IZR (2 ^ 24)) with (bpow radix2 24) by reflexivity. exact Hx. }
  destruct (Z.eq_dec (Z.abs z) (2 ^ 24)) as [E|N].
  - apply generic_format_FLT. exists (Float radix2 (z / 2) (e + 1)); cbn [Fnum Fexp]; [|change (Zpower_nat radix2 24) with (2 ^ 24)%Z|lia].
    + unfold F2R. cbn [Fnum Fexp]. rewrite bpow_plus. change (bpow radix2 1) with 2. assert (Z2 : (z = 2 * (z / 2))%Z) by (destruct (Z.abs_eq_or_opp z) as [A|A]; rewrite A in E; [rewrite E|replace z with (- 2 ^ 24)%Z by lia]; reflexivity).
      rewrite Z2 at 1. rewrite mult_IZR. ring.
    + change (Zpower radix2 24) with (2 ^ 24)%Z. destruct (Z.abs_eq_or_opp z) as [A|A]; rewrite A in E; [rewrite E|replace z with (- 2 ^ 24)%Z by lia]; reflexivity.
  - apply generic_format_FLT. exists (Float radix2 z e); cbn [Fnum Fexp]; [reflexivity| |lia]. change (Zpower radix2 24) with (2 ^ 24)%Z. lia.
Qed.
Lemma grid_b32 e x : on_grid e x -> (-149 <= e)%Z -> Rabs x <= bpow radix2 (24 + e) -> b32 x = x.
Proof. intros. unfold b32. apply round_generic; [apply valid_rnd_N|]. exact (grid_format e x H H0 H1). Qed.

Section Exact.
  Context (e : Z) (He : (-149 <= e)%Z).
  Lemma tree_exact t : Forall (on_grid e) (terms t) -> rsum (map Rabs (terms t)) <= bpow radix2 (24 + e) -> fl_eval t = rsum (terms t).
  Proof.
    induction t as [a b|c|l IHl r IHr|a b t IH]; cbn [terms fl_eval]; intros G S.
    - inversion G; subst. cbn [map rsum] in *. rewrite Rplus_0_r in *. apply (grid_b32 e); assumption.
    - cbn [rsum]. ring.
    - apply Forall_app in G. destruct G as [Gl Gr]. rewrite map_app, rsum_app in S. pose proof (rsum_nonneg (terms l)). pose proof (rsum_nonneg (terms r)).
      rewrite IHl, IHr, rsum_app by (assumption || lra). apply (grid_b32 e); [apply grid_plus; apply grid_rsum; assumption|exact He|].
      eapply Rle_trans; [apply Rabs_triang|]. pose proof (rsum_abs (terms l)). pose proof (rsum_abs (terms r)). lra.
    - inversion G as [|? ? Ga Gt]; subst. cbn [map rsum] in *. pose proof (Rabs_pos (a * b)). pose proof (rsum_nonneg (terms t)).
      rewrite IH by (assumption || lra). apply (grid_b32 e); [apply grid_plus; [exact Ga|apply grid_rsum; exact Gt]|exact He|].
      eapply Rle_trans; [apply Rabs_triang|]. pose proof (rsum_abs (terms t)). lra.
  Qed.
  Lemma tree_no_overflow t : (e <= 103)%Z -> Forall (on_grid e) (terms t) -> rsum (map Rabs (terms t)) <= bpow radix2 (24 + e) -> no_overflow t.
  Proof.
    intros H103. assert (B : bpow radix2 (24 + e) < bpow radix2 128) by (apply bpow_lt; lia).
    assert (V : forall t, Forall (on_grid e) (terms t) -> rsum (map Rabs (terms t)) <= bpow radix2 (24 + e) -> Rabs (fl_eval t) < bpow radix2 128).
    { intros t' G S. rewrite tree_exact by assumption. pose proof (rsum_abs (terms t')). lra. }
    induction t as [a b|c|l IHl r IHr|a b t IH]; intros G S; (split; [apply V; assumption|]); try exact I; cbn [terms] in *.
    - apply Forall_app in G. destruct G as [Gl Gr]. rewrite map_app, rsum_app in S. pose proof (rsum_nonneg (terms l)). pose proof (rsum_nonneg (terms r)).
      split; [apply IHl|apply IHr]; assumption || lra.
    - inversion G; subst. cbn [map rsum] in S. pose proof (Rabs_pos (a * b)). apply IH; [assumption|lra].
  Qed.
End Exact.

(** ** quantized operands *)
Lemma Q2R_pow2 z : Q2R (pow2 z) = bpow radix2 z.
Proof.
  assert (P : forall n : Z, (0 <= n)%Z -> Q2R (pow2 n) = bpow radix2 n).
  { intros n Hn. rewrite (Qeq_eqR _ _ (pow2_inject n Hn)). unfold Q2R, inject_Z. cbn [Qnum Qden]. rewrite Rinv_1, Rmult_1_r. rewrite <- (IZR_Zpower radix2 n Hn). reflexivity. }
  destruct (Z.le_gt_cases 0 z) as [L|L]; [apply P, L|].
  assert (E : Q2R (pow2 z) * Q2R (pow2 (- z)) = 1).
  { rewrite <- Q2R_mult, (Qeq_eqR _ _ (pow2_opp_mul z)). unfold Q2R. cbn. lra. }
  rewrite (P (- z)%Z) in E by lia. replace (bpow radix2 z) with (/ bpow radix2 (- z)) by (rewrite bpow_opp, Rinv_inv; reflexivity).
  apply (Rmult_eq_reg_r (bpow radix2 (- z))); [rewrite E; field|]; apply Rgt_not_eq, bpow_gt_0.
Qed.
Lemma Q2R_inject z : Q2R (inject_Z z) = IZR z.
Proof. unfold Q2R, inject_Z. cbn [Qnum Qden]. rewrite Rinv_1. ring. Qed.
Lemma quantized_code rm om k i f x : exists n, (base_call rm om false k i f x == inject_Z n * pow2 (- f))%Q /\ (Qabs (base_call rm om false k i f x) <= pow2 i)%Q.
Proof.
  destruct (Z.le_gt_cases (kz k + i + f) 0) as [L|L].
  - exists 0%Z. rewrite base_call_npos by exact L. split; [ring|]. change (Qabs 0) with 0%Q. apply Qlt_le_weak, pow2_pos.
  - pose proof (base_call_pos rm om k i f x L) as E. eexists. split; [exact E|].
    assert (Hb : (0 <= i + f)%Z) by (destruct k; cbn [kz] in L; lia).
    rewrite E. pose proof (overflow_code_range om k (i + f) (rnd_int rm (x * pow2 f)) Hb) as R. cbv zeta in R. set (n := overflow_code om k (i + f) _) in *.
    assert (Hn : (Z.abs n <= 2 ^ (i + f))%Z) by (unfold code_lo, code_hi in R; destruct om, k; cbn [kz] in R; lia).
    rewrite Qabs_Qmult, (Qabs_pos (pow2 (- f))) by (apply Qlt_le_weak, pow2_pos).
    assert (A : (Qabs (inject_Z n) <= pow2 (i + f))%Q). { rewrite (pow2_inject _ Hb). change (Qabs (inject_Z n)) with (inject_Z (Z.abs n)). rewrite <- Zle_Qle. exact Hn. }
    assert (P2 : (pow2 i == pow2 (i + f) * pow2 (- f))%Q) by (rewrite <- pow2_add; replace (i + f + - f)%Z with i by lia; reflexivity).
    rewrite P2. apply Qmult_le_compat_r; [exact A|apply Qlt_le_weak, pow2_pos].
Qed.
(** coarser grids are finer grids *)
Lemma grid_le e e' x : on_grid e' x -> (e <= e')%Z -> on_grid e x.
Proof.
  intros [z ->] H. exists (z * 2 ^ (e' - e))%Z. rewrite mult_IZR. change 2%Z with (radix_val radix2). rewrite (IZR_Zpower radix2) by lia.
  rewrite Rmult_assoc, <- bpow_plus. do 2 f_equal. lia.
Qed.
Lemma Q2R_qsum l : Q2R (qsum l) = rsum (map Q2R l).
Proof.
  induction l as [|x l IH]; [change (qsum []) with 0%Q; unfold Q2R; cbn; lra|]. cbn [map rsum]. rewrite <- IH, <- Q2R_plus, qsum_cons. reflexivity.
Qed.
Lemma Q2R_abs x : Q2R (Qabs x) = Rabs (Q2R x).
Proof.
  apply Qabs_case; intros H; apply Qle_Rle in H; replace (Q2R 0) with 0 in H by (unfold Q2R; cbn; lra); [rewrite Rabs_pos_eq by exact H; reflexivity|].
  rewrite Q2R_opp, Rabs_left1 by exact H. reflexivity.
Qed.
Lemma rsum_le {A} (f g : A -> R) l : (forall a, In a l -> f a <= g a) -> rsum (map f l) <= rsum (map g l).
Proof. induction l as [|a l IH]; intros H; cbn [map rsum]; [lra|]. pose proof (H a (or_introl eq_refl)). pose proof (IH (fun b Hb => H b (or_intror Hb))). lra. Qed.

Lemma quantize_grid q x : on_grid (- f_f q) (Q2R (quantize q x)) /\ Rabs (Q2R (quantize q x)) <= bpow radix2 (f_i q).
Proof.
  unfold quantize. destruct (quantized_code (f_rm q) (f_om q) (f_k q) (f_i q) (f_f q) x) as (n & E & B). split.
  - exists n. rewrite (Qeq_eqR _ _ E), Q2R_mult, Q2R_inject, Q2R_pow2. reflexivity.
  - rewrite <- Q2R_abs, <- Q2R_pow2. apply Qle_Rle, B.
Qed.

Section Dense.
  Context (n : nat) (qx qw : nat -> qfmt) (qb : option qfmt) (x w : nat -> Q) (b : Q) (e : Z).
  Local Notation exact_terms := (exact_terms n qx qw qb x w b).
  Local Notation largest := (largest n qx qw qb).
  Context (He : (-149 <= e)%Z) (Hf : forall i, (i < n)%nat -> (e <= - (f_f (qx i) + f_f (qw i)))%Z) (Hb : forall q, qb = Some q -> (e <= - f_f q)%Z).
  Context (Hl : largest <= bpow radix2 (24 + e)).
  Lemma exact_terms_grid : Forall (on_grid e) (map Q2R exact_terms).
  Proof.
    unfold S_Float.exact_terms. rewrite map_app. apply Forall_app. split.
    - rewrite map_map. apply Forall_forall. intros r Hr. apply in_map_iff in Hr. destruct Hr as (i & <- & Hi). apply in_seq in Hi.
      apply (grid_le e (- (f_f (qx i) + f_f (qw i)))); [|apply Hf; lia].
      destruct (quantize_grid (qx i) (x i)) as [[a Ea] _], (quantize_grid (qw i) (w i)) as [[c Ec] _]. exists (a * c)%Z.
      rewrite Q2R_mult, Ea, Ec, mult_IZR. replace (- (f_f (qx i) + f_f (qw i)))%Z with (- f_f (qx i) + - f_f (qw i))%Z by lia. rewrite bpow_plus. ring.
    - destruct qb as [q|]; cbn [map]; [|constructor]. constructor; [|constructor]. apply (grid_le e (- f_f q)); [apply quantize_grid|apply Hb; reflexivity].
  Qed.
  Lemma exact_terms_bound : rsum (map Rabs (map Q2R exact_terms)) <= bpow radix2 (24 + e).
  Proof.
    eapply Rle_trans; [|exact Hl]. unfold S_Float.exact_terms, S_Float.largest. rewrite !map_app, rsum_app, !map_map. apply Rplus_le_compat.
    - apply rsum_le. intros i _. rewrite Q2R_mult, Rabs_mult, bpow_plus. apply Rmult_le_compat; try apply Rabs_pos; apply quantize_grid.
    - destruct qb as [q|]; cbn [map rsum]; [|lra]. rewrite Rplus_0_r. apply quantize_grid.
  Qed.
  Lemma dense_exact t : Permutation (terms t) (map Q2R exact_terms) -> fl_eval t = Q2R (qsum exact_terms) /\ ((e <= 103)%Z -> no_overflow t).
  Proof.
    intros P. assert (G : Forall (on_grid e) (terms t)) by (apply (Permutation_Forall (Permutation_sym P)), exact_terms_grid).
    assert (S : rsum (map Rabs (terms t)) <= bpow radix2 (24 + e)) by (rewrite (rsum_perm _ _ (Permutation_map Rabs P)); apply exact_terms_bound).
    split; [|intros H; apply (tree_no_overflow e He t H G S)]. rewrite (tree_exact e He t G S), (rsum_perm _ _ P), Q2R_qsum. reflexivity.
  Qed.
End Dense.

(** ** the spike function *)
Lemma b32_mono x y : x <= y -> b32 x <= b32 y.
Proof. intros H. unfold b32. apply round_le; [apply FLT_exp_valid; reflexivity|apply valid_rnd_N|exact H]. Qed.
Lemma b32_dyadic z e : (-149 <= e)%Z -> (Z.abs z <= 2 ^ 24)%Z -> b32 (IZR z * bpow radix2 e) = IZR z * bpow radix2 e.
Proof.
  intros He Hz. apply (grid_b32 e); [exists z; reflexivity|exact He|]. rewrite Rabs_mult, (Rabs_pos_eq (bpow radix2 e)), bpow_plus by apply bpow_ge_0.
  apply Rmult_le_compat_r; [apply bpow_ge_0|]. rewrite <- abs_IZR. change (bpow radix2 24) with (IZR (2 ^ 24)). apply IZR_le, Hz.
Qed.
Lemma b32_format x : generic_format radix2 (FLT_exp (-149) 24) (b32 x).
Proof. apply generic_format_round; [apply FLT_exp_valid; reflexivity|apply valid_rnd_N]. Qed.
Lemma b32_id x : generic_format radix2 (FLT_exp (-149) 24) x -> b32 x = x.
Proof. intros H. apply round_generic; [apply valid_rnd_N|exact H]. Qed.
Lemma b32_half : b32 (1 / 2) = 1 / 2.
Proof. replace (1 / 2) with (IZR 1 * bpow radix2 (-1)) by (change (bpow radix2 (-1)) with (/ 2); lra). apply b32_dyadic; lia. Qed.
Lemma b32_two : b32 2 = 2.
Proof. replace 2 with (IZR 2 * bpow radix2 0) by (change (bpow radix2 0) with 1; lra). apply b32_dyadic; lia. Qed.
Lemma b32_one : b32 1 = 1.
Proof. pose proof (b32_dyadic 1 0 ltac:(lia) ltac:(lia)) as H. change (bpow radix2 0) with 1 in H. replace (1 * 1) with 1 in H by ring. exact H. Qed.
Lemma b32_zero : b32 0 = 0.
Proof. apply round_0, valid_rnd_N. Qed.
Lemma spike_fires a : 0 <= a <= 3 / 2 -> fl_spike 1 (fl_soft a) = 1.
Proof.
  intros H. unfold fl_spike. set (s := fl_soft a).
  assert (S1 : 1 / 2 <= s) by (unfold s, fl_soft; apply (Rle_trans _ (b32 (1 / 2))); [rewrite b32_half; lra|apply b32_mono; lra]).
  assert (S2 : s <= 2) by (unfold s, fl_soft; apply (Rle_trans _ (b32 2)); [apply b32_mono; lra|rewrite b32_two; lra]).
  assert (F : generic_format radix2 (FLT_exp (-149) 24) s) by apply b32_format.
  rewrite (b32_id (1 - s)).
  - replace (1 - s + s) with 1 by ring. apply b32_one.
  - apply sterbenz; [apply FLT_exp_valid; reflexivity|apply FLT_exp_monotone| |exact F|lra].
    rewrite <- b32_one. apply b32_format.
Qed.
Lemma spike_silent soft : generic_format radix2 (FLT_exp (-149) 24) soft -> fl_spike 0 soft = 0.
Proof.
  intros F. unfold fl_spike. rewrite (b32_id (0 - soft)); [replace (0 - soft + soft) with 0 by ring; apply b32_zero|].
  replace (0 - soft) with (- soft) by ring. apply generic_format_opp, F.
Qed.
Lemma spike_exact a : (0 <= a <= 3 / 2 -> fl_spike 1 (fl_soft a) = 1) /\ fl_spike 0 (fl_soft a) = 0.
Proof. split; [apply spike_fires|apply spike_silent, b32_format]. Qed.
Lemma quantized_float q x : (-149 <= - f_f q)%Z -> (f_i q + f_f q <= 24)%Z -> b32 (Q2R (quantize q x)) = Q2R (quantize q x).
Proof.
  intros H1 H2. destruct (quantize_grid q x) as [G B]. apply (grid_b32 (- f_f q)); [exact G|exact H1|]. eapply Rle_trans; [exact B|]. apply bpow_le. lia.
Qed.
Lemma rsum_const {A} (c : R) (l : list A) : rsum (map (fun _ => c) l) = IZR (Z.of_nat (length l)) * c.
Proof. induction l as [|a l IH]; cbn [map rsum length]; [change (IZR (Z.of_nat 0)) with 0; ring|]. rewrite IH, Nat2Z.inj_succ, succ_IZR. ring. Qed.
Lemma order_matters : exists t u, Permutation (terms t) (terms u) /\ Forall (on_grid 0) (terms t) /\ fl_eval t <> fl_eval u.
Proof.
  exists (Add (Add (Value 16777216) (Value 1)) (Value 1)), (Add (Value 16777216) (Add (Value 1) (Value 1))). split; [apply Permutation_refl|]. split.
  - cbn [terms app]. repeat constructor; [exists 16777216%Z|exists 1%Z|exists 1%Z]; change (bpow radix2 0) with 1; ring.
  - cbn [fl_eval].
    assert (A : b32 (16777216 + 1) = 16777216).
    { unfold b32, round, scaled_mantissa, cexp. replace (16777216 + 1) with (IZR 16777217) by (rewrite <- plus_IZR; reflexivity).
      rewrite (mag_unique_pos radix2 _ 25).
      2:{ change (25 - 1)%Z with 24%Z. change (bpow radix2 24) with (IZR (2 ^ 24)). change (bpow radix2 25) with (IZR (2 ^ 25)). split; [apply IZR_le|apply IZR_lt]; reflexivity || discriminate. }
      change (FLT_exp (-149) 24 25) with 1%Z. change (bpow radix2 (- (1))) with (/ 2).
      assert (Z1 : ZnearestE (IZR 16777217 * / 2) = 8388608%Z).
      { unfold ZnearestE, Znearest. assert (F : Zfloor (IZR 16777217 * / 2) = 8388608%Z) by (apply Zfloor_imp; change (8388608 + 1)%Z with 8388609%Z; lra).
        rewrite F. rewrite Rcompare_Eq by lra. reflexivity. }
      rewrite Z1. unfold F2R. cbn [Fnum Fexp]. change (bpow radix2 1) with 2. lra. }
    rewrite A, A. replace (1 + 1) with (IZR 2 * bpow radix2 0) by (change (bpow radix2 0) with 1; lra). rewrite b32_dyadic by lia.
    replace (16777216 + IZR 2 * bpow radix2 0) with (IZR 8388609 * bpow radix2 1) by (change (bpow radix2 0) with 1; change (bpow radix2 1) with 2; lra).
    rewrite b32_dyadic by lia. change (bpow radix2 1) with 2. lra.
Qed.
