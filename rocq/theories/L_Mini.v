(** Lemmas on minifloats. *)
From Coq Require Import Reals Qreals SetoidList.
From Verif Require Import Num M_Fixed M_State M_Mapper S_Mapper L_Mapper M_Mini S_Mini.
Open Scope Q_scope.
Ltac Rlra := Coq.micromega.Lra.lra.

(** magnitudes, as multiples of the smallest positive number, in increasing order *)
Definition mag (m n : Z) : Z :=
  if (n <? 2 ^ m)%Z then n else ((2 ^ m + n mod 2 ^ m) * 2 ^ (n / 2 ^ m - 1))%Z.
Definition gap (m n : Z) : Z := if (n <? 2 ^ m)%Z then 1%Z else (2 ^ (n / 2 ^ m - 1))%Z.

Lemma mag_step m n : (0 <= m)%Z -> (0 <= n)%Z -> mag m (n + 1) = (mag m n + gap m n)%Z.
Proof.
  intros Hm Hn. unfold mag, gap. assert (P : (0 < 2 ^ m)%Z) by (apply Z.pow_pos_nonneg; lia).
  destruct (Z.ltb_spec n (2 ^ m)) as [A|A]; destruct (Z.ltb_spec (n + 1) (2 ^ m)) as [B|B]; try lia.
  - assert (n + 1 = 2 ^ m)%Z as -> by lia. rewrite Z_mod_same_full, Z_div_same_full by lia. change (2 ^ (1 - 1))%Z with 1%Z. lia.
  - set (M := (2 ^ m)%Z) in *. pose proof (Z_div_mod_eq_full n M) as E. pose proof (Z.mod_pos_bound n M P) as R.
    assert (D : (1 <= n / M)%Z) by (apply Z.div_le_lower_bound; lia).
    destruct (Z.eq_dec (n mod M + 1) M) as [F|F].
    + assert (Q1 : ((n + 1) / M = n / M + 1)%Z) by (symmetry; apply (Z.div_unique_pos _ _ _ 0); lia).
      assert (Q2 : ((n + 1) mod M = 0)%Z) by (symmetry; apply (Z.mod_unique_pos _ _ (n / M + 1)); lia).
      rewrite Q1, Q2. replace (n / M + 1 - 1)%Z with (Z.succ (n / M - 1)) by lia. rewrite Z.pow_succ_r by lia. nia.
    + assert (Q1 : ((n + 1) / M = n / M)%Z) by (symmetry; apply (Z.div_unique_pos _ _ _ (n mod M + 1)); lia).
      assert (Q2 : ((n + 1) mod M = n mod M + 1)%Z) by (symmetry; apply (Z.mod_unique_pos _ _ (n / M)); lia).
      rewrite Q1, Q2. nia.
Qed.
Lemma gap_pos m n : (0 <= m)%Z -> (0 <= n)%Z -> (1 <= gap m n)%Z.
Proof.
  intros Hm Hn. unfold gap. destruct (Z.ltb_spec n (2 ^ m)) as [A|A]; [lia|]. assert (P : (0 < 2 ^ m)%Z) by (apply Z.pow_pos_nonneg; lia).
  assert (D : (1 <= n / 2 ^ m)%Z) by (apply Z.div_le_lower_bound; lia). assert (0 < 2 ^ (n / 2 ^ m - 1))%Z by (apply Z.pow_pos_nonneg; lia). lia.
Qed.
Lemma mag_0 m : (0 <= m)%Z -> mag m 0 = 0%Z.
Proof. intros Hm. unfold mag. destruct (Z.ltb_spec 0 (2 ^ m)) as [A|A]; [reflexivity|]. assert (0 < 2 ^ m)%Z by (apply Z.pow_pos_nonneg; lia). lia. Qed.
Lemma mag_lt m a b : (0 <= m)%Z -> (0 <= a)%Z -> (a < b)%Z -> (mag m a < mag m b)%Z.
Proof.
  intros Hm Ha Hab. replace b with (a + Z.of_nat (S (Z.to_nat (b - a - 1))))%Z by lia. set (d := Z.to_nat (b - a - 1)). clearbody d. clear Hab.
  induction d as [|d IH].
  - change (Z.of_nat 1) with 1%Z. rewrite mag_step by lia. pose proof (gap_pos m a Hm Ha). lia.
  - replace (a + Z.of_nat (S (S d)))%Z with ((a + Z.of_nat (S d)) + 1)%Z by lia. rewrite mag_step by lia. pose proof (gap_pos m (a + Z.of_nat (S d))%Z Hm). lia.
Qed.
Lemma mag_le m a b : (0 <= m)%Z -> (0 <= a)%Z -> (a <= b)%Z -> (mag m a <= mag m b)%Z.
Proof. intros Hm Ha Hab. destruct (Z.eq_dec a b) as [->|N]; [lia|]. pose proof (mag_lt m a b Hm Ha). lia. Qed.
Lemma mag_inj m a b : (0 <= m)%Z -> (0 <= a)%Z -> (0 <= b)%Z -> mag m a = mag m b -> a = b.
Proof. intros Hm Ha Hb E. destruct (Z.lt_trichotomy a b) as [L|[L|L]]; [pose proof (mag_lt m a b Hm Ha L)|assumption|pose proof (mag_lt m b a Hm Hb L)]; lia. Qed.
Lemma mag_pos m a : (0 <= m)%Z -> (0 < a)%Z -> (0 < mag m a)%Z.
Proof. intros Hm Ha. pose proof (mag_lt m 0 a Hm) as H. rewrite mag_0 in H by exact Hm. lia. Qed.

(** the smallest positive number *)
Definition tiny (m e e0 : Z) : Q := pow2 (emin e e0 - m).
Lemma tiny_pos m e e0 : 0 < tiny m e e0.
Proof. apply pow2_pos. Qed.
Lemma decode_mag m e e0 s c k : (0 <= m)%Z -> (0 <= c)%Z -> (0 <= k < 2 ^ m)%Z ->
  decode m e e0 s c k == sgn s * inject_Z (mag m (c * 2 ^ m + k)) * tiny m e e0.
Proof.
  intros Hm Hc Hk. unfold decode, tiny, mag. destruct (Z.eqb_spec c 0) as [->|N].
  - replace (0 * 2 ^ m + k)%Z with k by lia. destruct (Z.ltb_spec k (2 ^ m)) as [A|A]; [|lia].
    replace (emin e e0 - m)%Z with (- m + emin e e0)%Z by lia. rewrite pow2_add. ring.
  - destruct (Z.ltb_spec (c * 2 ^ m + k) (2 ^ m)) as [A|A]; [nia|].
    assert (Q1 : ((c * 2 ^ m + k) / 2 ^ m = c)%Z) by (symmetry; apply (Z.div_unique_pos _ _ _ k); lia).
    assert (Q2 : ((c * 2 ^ m + k) mod 2 ^ m = k)%Z) by (symmetry; apply (Z.mod_unique_pos _ _ c); lia). rewrite Q1, Q2.
    rewrite injZ_mul, injZ_add, <- !pow2_inject by lia. replace (emin e e0 - m)%Z with (- m + emin e e0)%Z by lia. rewrite !pow2_add.
    transitivity (sgn s * (pow2 m * pow2 (- m) + inject_Z k * pow2 (- m)) * (pow2 (emin e e0) * pow2 (c - 1))); [rewrite pow2_opp_mul; reflexivity|ring].
Qed.
Lemma minifloat_mag m e e0 v : (0 <= m)%Z -> (0 <= e)%Z ->
  (minifloat m e e0 v <-> exists s n, (0 <= n < 2 ^ (m + e))%Z /\ v == sgn s * inject_Z (mag m n) * tiny m e e0).
Proof.
  intros Hm He. assert (P : (0 < 2 ^ m)%Z) by (apply Z.pow_pos_nonneg; lia). rewrite Z.pow_add_r by lia. split.
  - intros [[? ?]|[_ (s & c & k & Hc & Hk & E)]]; [lia|]. exists s, (c * 2 ^ m + k)%Z. split; [nia|]. rewrite E. apply decode_mag; lia.
  - intros (s & n & Hn & E). right. split; [exact Hm|]. exists s, (n / 2 ^ m)%Z, (n mod 2 ^ m)%Z.
    pose proof (Z_div_mod_eq_full n (2 ^ m)) as D. pose proof (Z.mod_pos_bound n (2 ^ m) P) as R.
    assert (C : (0 <= n / 2 ^ m < 2 ^ e)%Z) by (split; [apply Z.div_pos; lia|apply Z.div_lt_upper_bound; lia]).
    split; [exact C|]. split; [exact R|]. rewrite decode_mag by lia. rewrite E. replace (n / 2 ^ m * 2 ^ m + n mod 2 ^ m)%Z with n by lia. reflexivity.
Qed.
Lemma minifloat_zero_width e e0 v : minifloat (-1) e e0 v <-> v == 0.
Proof. split; [intros [[_ H]|[H _]]; [exact H|lia]|intros H; left; split; [reflexivity|exact H]]. Qed.
Lemma minifloat_0 m e e0 : (-1 <= m)%Z -> (0 <= e)%Z -> minifloat m e e0 0.
Proof.
  intros Hm He. destruct (Z.eq_dec m (-1)) as [->|N]; [apply minifloat_zero_width; reflexivity|].
  apply minifloat_mag; [lia|exact He|]. exists false, 0%Z. split; [split; [lia|apply Z.pow_pos_nonneg; lia]|]. rewrite mag_0 by lia. unfold sgn. change (inject_Z 0) with 0. ring.
Qed.
Lemma minifloat_opp m e e0 v : (-1 <= m)%Z -> (0 <= e)%Z -> minifloat m e e0 v -> minifloat m e e0 (- v).
Proof.
  intros Hm He H. destruct (Z.eq_dec m (-1)) as [->|N]; [apply minifloat_zero_width in H; apply minifloat_zero_width; rewrite H; reflexivity|].
  apply minifloat_mag in H; [|lia|exact He]. apply minifloat_mag; [lia|exact He|]. destruct H as (s & n & Hn & E). exists (negb s), n. split; [exact Hn|]. rewrite E. destruct s; unfold sgn, negb; ring.
Qed.
(** the largest magnitude *)
Definition top (m e : Z) : Z := mag m (2 ^ (m + e) - 1).
Lemma top_value m e : (0 <= m)%Z -> (1 <= e)%Z -> top m e = ((2 * 2 ^ m - 1) * 2 ^ (2 ^ e - 2))%Z.
Proof.
  intros Hm He. unfold top, mag. assert (P : (0 < 2 ^ m)%Z) by (apply Z.pow_pos_nonneg; lia).
  assert (T : (2 <= 2 ^ e)%Z) by (change 2%Z with (2 ^ 1)%Z at 1; apply Z.pow_le_mono_r; lia). rewrite Z.pow_add_r by lia.
  destruct (Z.ltb_spec (2 ^ m * 2 ^ e - 1) (2 ^ m)) as [A|A].
  - assert (A2 : (2 ^ m * 2 <= 2 ^ m * 2 ^ e)%Z) by (apply Z.mul_le_mono_nonneg_l; lia).
    assert (2 ^ m = 1)%Z as -> by lia. assert (2 ^ e = 2)%Z as -> by lia. reflexivity.
  - set (M := (2 ^ m)%Z) in *. set (E := (2 ^ e)%Z) in *.
    assert (Q1 : ((M * E - 1) / M = E - 1)%Z) by (symmetry; apply (Z.div_unique_pos _ _ _ (M - 1)); lia).
    assert (Q2 : ((M * E - 1) mod M = M - 1)%Z) by (symmetry; apply (Z.mod_unique_pos _ _ (E - 1)); lia).
    rewrite Q1, Q2. replace (E - 1 - 1)%Z with (E - 2)%Z by lia. f_equal. lia.
Qed.
Definition vmax (m e e0 : Z) : Q := inject_Z (top m e) * tiny m e e0.
Lemma vmax_eq m e e0 : (0 <= m)%Z -> (1 <= e)%Z -> vmax m e e0 == pow2 (2 ^ (e - 1) + e0 - 1) * (2 - pow2 (- m)).
Proof.
  intros Hm He. unfold vmax, tiny. rewrite top_value by assumption.
  assert (T : (2 ^ e = 2 * 2 ^ (e - 1))%Z) by (rewrite <- Z.pow_succ_r by lia; f_equal; lia). assert (T1 : (0 < 2 ^ (e - 1))%Z) by (apply Z.pow_pos_nonneg; lia).
  rewrite injZ_mul, injZ_sub, injZ_mul, <- !pow2_inject by lia.
  replace (2 ^ (e - 1) + e0 - 1)%Z with ((2 ^ e - 2) + emin e e0)%Z by (unfold emin; lia).
  generalize (2 ^ e - 2)%Z (emin e e0). intros u v. unfold Z.sub. rewrite !pow2_add. change (inject_Z 2) with 2. change (inject_Z 1) with 1.
  transitivity ((2 * (pow2 m * pow2 (- m)) - pow2 (- m)) * pow2 u * pow2 v); [ring|rewrite pow2_opp_mul; ring].
Qed.
Lemma vmax_minifloat m e e0 : (0 <= m)%Z -> (1 <= e)%Z -> minifloat m e e0 (vmax m e e0).
Proof.
  intros Hm He. apply minifloat_mag; [exact Hm|lia|]. exists false, (2 ^ (m + e) - 1)%Z. assert (0 < 2 ^ (m + e))%Z by (apply Z.pow_pos_nonneg; lia).
  split; [lia|]. unfold vmax, top, sgn. ring.
Qed.
Lemma vmax_upper m e e0 v : (0 <= m)%Z -> (1 <= e)%Z -> minifloat m e e0 v -> v <= vmax m e e0.
Proof.
  intros Hm He H. apply minifloat_mag in H; [|exact Hm|lia]. destruct H as (s & n & Hn & E). rewrite E. unfold vmax, top.
  assert (L : inject_Z (mag m n) <= inject_Z (mag m (2 ^ (m + e) - 1))) by (apply injZ_le; apply mag_le; lia).
  assert (G : 0 <= inject_Z (mag m n)) by (change 0 with (inject_Z 0); apply injZ_le; rewrite <- (mag_0 m Hm); apply mag_le; lia).
  apply Qmult_le_compat_r; [|apply Qlt_le_weak, tiny_pos]. destruct s; unfold sgn; lra.
Qed.
Lemma tiny_minifloat m e e0 : (0 <= m)%Z -> (1 <= e)%Z -> minifloat m e e0 (tiny m e e0).
Proof.
  intros Hm He. apply minifloat_mag; [exact Hm|lia|]. exists false, 1%Z.
  assert (2 <= 2 ^ (m + e))%Z by (change 2%Z with (2 ^ 1)%Z at 1; apply Z.pow_le_mono_r; lia). split; [lia|].
  pose proof (mag_step m 0 Hm) as S. rewrite mag_0 in S by exact Hm. change (0 + 1)%Z with 1%Z in S. rewrite S by lia. unfold gap.
  destruct (Z.ltb_spec 0 (2 ^ m)) as [A|A]; [|assert (0 < 2 ^ m)%Z by (apply Z.pow_pos_nonneg; lia); lia]. unfold sgn. change (inject_Z (0 + 1)) with 1. ring.
Qed.
Lemma tiny_least m e e0 v : (0 <= m)%Z -> (1 <= e)%Z -> minifloat m e e0 v -> exists n, v == inject_Z n * tiny m e e0.
Proof.
  intros Hm He H. apply minifloat_mag in H; [|exact Hm|lia]. destruct H as (s & n & Hn & E).
  destruct s; [exists (- mag m n)%Z; rewrite injZ_opp|exists (mag m n)]; rewrite E; unfold sgn; ring.
Qed.

(** ** real-valued attributes *)
Lemma Rpower_pow2 z : Rpower 2 (IZR z) = Q2R (pow2 z).
Proof.
  assert (N : forall n : nat, Rpower 2 (IZR (Z.of_nat n)) = Q2R (pow2 (Z.of_nat n))).
  { induction n as [|n IH].
    - change (IZR (Z.of_nat 0)) with 0%R. rewrite Rpower_O by Rlra. rewrite (Qeq_eqR (pow2 (Z.of_nat 0)) 1 pow2_0). unfold Q2R. cbn. field.
    - rewrite Nat2Z.inj_succ. unfold Z.succ. rewrite plus_IZR, Rpower_plus, IH, Rpower_1 by Rlra.
      rewrite (Qeq_eqR _ _ (pow2_succ (Z.of_nat n))), Q2R_mult. replace (Q2R 2) with 2%R by (unfold Q2R; cbn; field). ring. }
  destruct (Z_le_gt_dec 0 z) as [H|H].
  - rewrite <- (Z2Nat.id z H). apply N.
  - assert (Hz : z = (- Z.of_nat (Z.to_nat (- z)))%Z) by lia. set (n := Z.to_nat (- z)) in *. rewrite Hz. rewrite opp_IZR, Rpower_Ropp, N.
    assert (NZ : Q2R (pow2 (Z.of_nat n)) <> 0%R).
    { intros E0. pose proof (Qlt_Rlt 0 _ (pow2_pos (Z.of_nat n))) as L. rewrite E0 in L. unfold Q2R in L. cbn in L. Rlra. }
    apply (Rmult_eq_reg_l (Q2R (pow2 (Z.of_nat n)))); [|exact NZ]. rewrite Rinv_r by exact NZ. rewrite <- Q2R_mult. rewrite (Qeq_eqR _ _ (pow2_opp_mul (Z.of_nat n))). unfold Q2R. cbn. field.
Qed.
Lemma Rpower_half_exp e : (1 <= e)%Z -> Rpower 2 (IZR e - 1) = IZR (2 ^ (e - 1)).
Proof.
  intros He. rewrite <- minus_IZR, Rpower_pow2. rewrite (Qeq_eqR _ _ (pow2_inject (e - 1) ltac:(lia))). unfold Q2R, inject_Z. cbn. field.
Qed.
Lemma mf_max_exact m e e0 : (0 <= m)%Z -> (1 <= e)%Z -> mf_max m e e0 = Q2R (vmax m e e0).
Proof.
  intros Hm He. unfold mf_max. rewrite Rpower_half_exp by exact He. rewrite <- opp_IZR, <- plus_IZR, <- minus_IZR, !Rpower_pow2.
  rewrite (Qeq_eqR _ _ (vmax_eq m e e0 Hm He)), Q2R_mult, Q2R_minus. replace (Q2R 2) with 2%R by (unfold Q2R; cbn; field). reflexivity.
Qed.
Lemma mf_epsilon_exact m e e0 : (1 <= e)%Z -> mf_epsilon m e e0 = Q2R (tiny m e e0).
Proof.
  intros He. unfold mf_epsilon. rewrite Rpower_half_exp by exact He. rewrite <- !opp_IZR, <- !plus_IZR, !Rpower_pow2, <- Q2R_mult. apply Qeq_eqR.
  rewrite <- pow2_add. unfold tiny, emin. f_equiv. lia.
Qed.

(** ** counting *)
Definition values (m e e0 : Z) : list Q :=
  0 :: flat_map (fun n => let v := inject_Z (mag m (Z.of_nat n)) * tiny m e e0 in v :: - v :: nil) (seq 1 (Z.to_nat (2 ^ (m + e) - 1))).
Lemma values_length m e e0 : length (values m e e0) = S (2 * Z.to_nat (2 ^ (m + e) - 1)).
Proof.
  unfold values. cbn [length]. f_equal.
  assert (G : forall k a, length (flat_map (fun n => let v := inject_Z (mag m (Z.of_nat n)) * tiny m e e0 in v :: - v :: nil) (seq a k)) = (2 * k)%nat); [|apply G].
  induction k as [|k IH]; intros a; [reflexivity|]. cbn [seq flat_map]. rewrite app_length, IH. cbn [length]. lia.
Qed.
Lemma values_in m e e0 v : (0 <= m)%Z -> (1 <= e)%Z -> (minifloat m e e0 v <-> InA Qeq v (values m e e0)).
Proof.
  intros Hm He. assert (P : (0 < 2 ^ (m + e))%Z) by (apply Z.pow_pos_nonneg; lia). rewrite minifloat_mag by lia. split.
  - intros (s & n & Hn & E). destruct (Z.eq_dec n 0) as [->|N].
    + left. rewrite E, mag_0 by exact Hm. change (inject_Z 0) with 0. ring.
    + right. apply InA_alt. assert (I : In (Z.to_nat n) (seq 1 (Z.to_nat (2 ^ (m + e) - 1)))) by (apply in_seq; lia).
      destruct s; [exists (- (inject_Z (mag m n) * tiny m e e0))|exists (inject_Z (mag m n) * tiny m e e0)]; (split; [rewrite E; unfold sgn; ring|]);
        apply in_flat_map; exists (Z.to_nat n); (split; [exact I|]); rewrite Z2Nat.id by lia; cbv zeta; [right; left|left]; reflexivity.
  - intros H. apply InA_alt in H. destruct H as (y & E & [<-|H]).
    + exists false, 0%Z. split; [lia|]. rewrite E, mag_0 by exact Hm. unfold sgn. change (inject_Z 0) with 0. ring.
    + apply in_flat_map in H. destruct H as (n & Hn & Hy). apply in_seq in Hn. cbv zeta in Hy. destruct Hy as [<-|[<-|[]]]; [exists false|exists true]; exists (Z.of_nat n); (split; [lia|]); rewrite E; unfold sgn; ring.
Qed.
Lemma NoDupA_flat_map {A B} (R : B -> B -> Prop) (ER : Equivalence R) (f : A -> list B) l :
  NoDup l -> (forall a, In a l -> NoDupA R (f a)) ->
  (forall a b x y, In a l -> In b l -> In x (f a) -> In y (f b) -> R x y -> a = b) -> NoDupA R (flat_map f l).
Proof.
  intros N. induction N as [|a l H N IH]; intros H1 H2; [constructor|]. cbn [flat_map]. apply NoDupA_app; [exact ER|apply H1; left; reflexivity| |].
  - apply IH; [intros; apply H1; right; assumption|]. intros a' b' x y Ha Hb. apply H2; right; assumption.
  - intros x Hx Hy. apply InA_alt in Hx. apply InA_alt in Hy. destruct Hx as (x' & Ex & Hx). destruct Hy as (y' & Ey & Hy). apply in_flat_map in Hy. destruct Hy as (b & Hb & Hy).
    apply H. rewrite (H2 a b x' y'); try assumption; [left; reflexivity|right; assumption|rewrite <- Ex; exact Ey].
Qed.
Lemma values_distinct m e e0 : (0 <= m)%Z -> (1 <= e)%Z -> NoDupA Qeq (values m e e0).
Proof.
  intros Hm He. pose proof (tiny_pos m e e0) as T. unfold values.
  assert (P : forall n, (1 <= n)%nat -> 0 < inject_Z (mag m (Z.of_nat n)) * tiny m e e0).
  { intros n Hn. apply Qmult_lt_0_compat; [|exact T]. change 0 with (inject_Z 0). apply injZ_lt. apply mag_pos; lia. }
  constructor.
  - intros H. apply InA_alt in H. destruct H as (y & E & H). apply in_flat_map in H. destruct H as (n & Hn & Hy). apply in_seq in Hn. cbv zeta in Hy.
    pose proof (P n ltac:(lia)) as Pn. destruct Hy as [<-|[<-|[]]]; lra.
  - apply NoDupA_flat_map; [typeclasses eauto|apply seq_NoDup| |].
    + intros n Hn. apply in_seq in Hn. pose proof (P n ltac:(lia)) as Pn. cbv zeta. constructor; [|constructor; [intros H; inversion H|constructor]]. intros H. inversion H as [? ? H1|? ? H1]; subst; [lra|inversion H1].
    + intros a b x y Ha Hb Hx Hy E. apply in_seq in Ha. apply in_seq in Hb. pose proof (P a ltac:(lia)) as Pa. pose proof (P b ltac:(lia)) as Pb. cbv zeta in Hx, Hy.
      assert (V : inject_Z (mag m (Z.of_nat a)) * tiny m e e0 == inject_Z (mag m (Z.of_nat b)) * tiny m e e0).
      { destruct Hx as [<-|[<-|[]]]; destruct Hy as [<-|[<-|[]]]; lra. }
      apply Qmult_inj_r in V; [|lra]. apply (proj1 (injZ_eq _ _)) in V. apply mag_inj in V; lia.
Qed.
Lemma bits_exact m e e0 : (0 <= m)%Z -> (1 <= e)%Z ->
  exists l, NoDupA Qeq l /\ (forall v, minifloat m e e0 v <-> InA Qeq v l) /\ Z.of_nat (length l) = (2 ^ mf_bits m e - 1)%Z.
Proof.
  intros Hm He. exists (values m e e0). split; [apply values_distinct; assumption|]. split; [intros v; apply values_in; assumption|].
  rewrite values_length. assert (P : (0 < 2 ^ (m + e))%Z) by (apply Z.pow_pos_nonneg; lia). unfold mf_bits. rewrite (Z.pow_add_r 2 (m + e) 1) by lia. change (2 ^ 1)%Z with 2%Z. lia.
Qed.

(** ** consequences of the contract *)
Lemma faithful_fix P x y : faithful P x y -> P x -> y == x.
Proof. intros [_ H] Hx. destruct (H x Hx) as [A B]. pose proof (A (Qle_refl x)). pose proof (B (Qle_refl x)). lra. Qed.
Lemma faithful_between P x y a b : faithful P x y -> P a -> P b -> a <= x -> x <= b -> a <= y /\ y <= b.
Proof. intros [_ H] Ha Hb La Lb. split; [apply (H a Ha); exact La|apply (H b Hb); exact Lb]. Qed.
Lemma find_step (f : nat -> Q) x n : f O <= x -> x < f n -> exists k, (k < n)%nat /\ f k <= x /\ x < f (S k).
Proof.
  induction n as [|n IH]; intros H0 Hn; [exfalso; lra|]. destruct (Qlt_le_dec x (f n)) as [L|L].
  - destruct (IH H0 L) as (k & Hk & A). exists k. split; [lia|exact A].
  - exists n. split; [lia|]. split; assumption.
Qed.
Lemma gap_relative m n : (0 <= m)%Z -> (0 <= n)%Z -> gap m n = 1%Z \/ (gap m n * 2 ^ m <= mag m n)%Z.
Proof.
  intros Hm Hn. unfold gap, mag. assert (P : (0 < 2 ^ m)%Z) by (apply Z.pow_pos_nonneg; lia). destruct (Z.ltb_spec n (2 ^ m)) as [A|A]; [left; reflexivity|]. right.
  assert (D : (1 <= n / 2 ^ m)%Z) by (apply Z.div_le_lower_bound; lia). assert (0 < 2 ^ (n / 2 ^ m - 1))%Z by (apply Z.pow_pos_nonneg; lia).
  pose proof (Z.mod_pos_bound n (2 ^ m) P). nia.
Qed.
Lemma error_pos m e e0 x y : (0 <= m)%Z -> (1 <= e)%Z -> faithful (minifloat m e e0) x y -> 0 <= x -> x <= vmax m e e0 ->
  Qabs (y - x) <= tiny m e e0 \/ Qabs (y - x) <= pow2 (- m) * Qabs x.
Proof.
  intros Hm He F H0 H1. pose proof (tiny_pos m e e0) as T. destruct (Qlt_le_dec x (vmax m e e0)) as [L|L].
  - assert (P : (0 < 2 ^ (m + e))%Z) by (apply Z.pow_pos_nonneg; lia).
    assert (M : forall n, (Z.of_nat n < 2 ^ (m + e))%Z -> minifloat m e e0 (inject_Z (mag m (Z.of_nat n)) * tiny m e e0)).
    { intros n Hn. apply minifloat_mag; [lia|lia|]. exists false, (Z.of_nat n). split; [lia|]. unfold sgn. ring. }
    destruct (find_step (fun n => inject_Z (mag m (Z.of_nat n)) * tiny m e e0) x (Z.to_nat (2 ^ (m + e) - 1))) as (k & Hk & A & B).
    + change (Z.of_nat 0) with 0%Z. rewrite mag_0 by exact Hm. change (inject_Z 0) with 0. lra.
    + rewrite Z2Nat.id by lia. exact L.
    + destruct (faithful_between _ x y _ _ F (M k ltac:(lia)) (M (S k) ltac:(lia)) A (Qlt_le_weak _ _ B)) as [C D].
      rewrite Nat2Z.inj_succ in B, D. unfold Z.succ in B, D. rewrite mag_step in B, D by lia. rewrite injZ_add in B, D.
      set (g := inject_Z (gap m (Z.of_nat k))) in *. set (v := inject_Z (mag m (Z.of_nat k))) in *. set (t := tiny m e e0) in *.
      assert (AB : Qabs (y - x) <= g * t) by (apply Qabs_Qle_condition; split; lra).
      destruct (gap_relative m (Z.of_nat k) Hm ltac:(lia)) as [G|G].
      * left. unfold g in AB. rewrite G in AB. change (inject_Z 1) with 1 in AB. lra.
      * right. eapply Qle_trans; [exact AB|]. rewrite (Qabs_pos x H0). apply injZ_le in G. rewrite injZ_mul in G. rewrite <- (pow2_inject m Hm) in G. fold g v in G.
        apply Qle_trans with (pow2 (- m) * (v * t)); [|apply Qmult_le_l; [apply pow2_pos|exact A]].
        setoid_replace (g * t) with (pow2 (- m) * ((g * pow2 m) * t)) by (transitivity ((pow2 m * pow2 (- m)) * (g * t)); [rewrite pow2_opp_mul; ring|ring]).
        apply Qmult_le_l; [apply pow2_pos|]. apply Qmult_le_compat_r; [exact G|lra].
  - left. assert (E : x == vmax m e e0) by (apply Qle_antisym; assumption). destruct F as [Fy F]. destruct (F _ (vmax_minifloat m e e0 Hm He)) as [A B].
    assert (y - x == 0) as -> by (pose proof (A H1); pose proof (B L); lra). change (Qabs 0) with 0. lra.
Qed.
Lemma faithful_opp m e e0 x y : (-1 <= m)%Z -> (0 <= e)%Z -> faithful (minifloat m e e0) x y -> faithful (minifloat m e e0) (- x) (- y).
Proof.
  intros Hm He [A B]. split; [apply minifloat_opp; assumption|]. intros z Hz. destruct (B (- z) (minifloat_opp m e e0 z Hm He Hz)) as [C D].
  split; intros H; [assert (- z <= y) by (apply D; lra)|assert (y <= - z) by (apply C; lra)]; lra.
Qed.
Lemma error_bound m e e0 x y : (0 <= m)%Z -> (1 <= e)%Z -> faithful (minifloat m e e0) x y -> Qabs x <= vmax m e e0 ->
  Qabs (y - x) <= tiny m e e0 \/ Qabs (y - x) <= pow2 (- m) * Qabs x.
Proof.
  intros Hm He F H. apply Qabs_Qle_condition in H. destruct H as [H1 H2]. destruct (Qlt_le_dec x 0) as [L|L].
  - assert (F' := faithful_opp m e e0 x y ltac:(lia) ltac:(lia) F).
    destruct (error_pos m e e0 (- x) (- y) Hm He F' ltac:(lra) ltac:(lra)) as [R|R]; [left|right]; setoid_replace (y - x) with (- (- y - - x)) by ring; rewrite Qabs_opp; [exact R|].
    rewrite <- (Qabs_opp x). exact R.
  - apply error_pos; assumption.
Qed.
Lemma saturates m e e0 x y : (0 <= m)%Z -> (1 <= e)%Z -> faithful (minifloat m e e0) x y ->
  (vmax m e e0 <= x -> y == vmax m e e0) /\ (x <= - vmax m e e0 -> y == - vmax m e e0).
Proof.
  intros Hm He [Fy F]. assert (V := vmax_minifloat m e e0 Hm He). assert (V' := minifloat_opp m e e0 _ ltac:(lia) ltac:(lia) V). split; intros L; apply Qle_antisym.
  - apply vmax_upper; assumption.
  - apply (F _ V); exact L.
  - apply (F _ V'); exact L.
  - assert (- y <= vmax m e e0) by (apply vmax_upper; [assumption|assumption|]; apply minifloat_opp; [lia|lia|exact Fy]). lra.
Qed.

(** ** a function meeting the contract: round towards minus infinity within the range *)
Definition best (x : Q) (l : list Q) (lo : Q) : Q := fold_left (fun acc v => if Qle_bool v x then (if Qle_bool acc v then v else acc) else acc) l lo.
Lemma best_spec x l : forall lo, lo <= x -> best x l lo <= x /\ (best x l lo = lo \/ In (best x l lo) l) /\ lo <= best x l lo /\ forall z, In z l -> z <= x -> z <= best x l lo.
Proof.
  induction l as [|v l IH]; intros lo H.
  - cbn [best fold_left]. split; [exact H|]. split; [left; reflexivity|]. split; [apply Qle_refl|intros z []].
  - change (best x (v :: l) lo) with (best x l (if Qle_bool v x then (if Qle_bool lo v then v else lo) else lo)).
    destruct (Qle_bool v x) eqn:E1; [destruct (Qle_bool lo v) eqn:E2|].
    + apply Qle_bool_iff in E1. apply Qle_bool_iff in E2. destruct (IH v E1) as (A & B & C & D). split; [exact A|]. split; [right; destruct B as [B|B]; [left; symmetry; exact B|right; exact B]|].
      split; [lra|]. intros z [<-|Hz] L; [exact C|apply D; assumption].
    + apply Qle_bool_iff in E1. assert (E2' : v <= lo) by (destruct (Qlt_le_dec v lo) as [G|G]; [lra|apply Qle_bool_iff in G; congruence]).
      destruct (IH lo H) as (A & B & C & D). split; [exact A|]. split; [destruct B; [left|right; right]; assumption|]. split; [exact C|]. intros z [<-|Hz] L; [lra|apply D; assumption].
    + assert (E1' : x < v) by (destruct (Qlt_le_dec x v) as [G|G]; [exact G|apply Qle_bool_iff in G; congruence]).
      destruct (IH lo H) as (A & B & C & D). split; [exact A|]. split; [destruct B; [left|right; right]; assumption|]. split; [exact C|]. intros z [<-|Hz] L; [lra|apply D; assumption].
Qed.
Definition floor_mf (x : Q) (m e e0 : Z) : Q :=
  if (m <? 0)%Z then 0 else
  let lo := - vmax m e e0 in if Qle_bool lo x then best x (values m e e0) lo else lo.
Lemma minifloat_ext m e e0 u v : u == v -> minifloat m e e0 u -> minifloat m e e0 v.
Proof. intros E [[A B]|[A (s & c & k & Hc & Hk & B)]]; [left; split; [exact A|rewrite <- E; exact B]|right; split; [exact A|]; exists s, c, k; rewrite <- E; auto]. Qed.
Lemma floor_mf_conforms : conforms floor_mf.
Proof.
  intros x m e e0 Hm He. unfold floor_mf. destruct (Z.ltb_spec m 0) as [N|N].
  - assert (m = -1)%Z as -> by lia. split; [apply minifloat_zero_width; reflexivity|]. intros z Hz. apply minifloat_zero_width in Hz. split; intros; lra.
  - cbv zeta. assert (V := vmax_minifloat m e e0 N He). assert (V' := minifloat_opp m e e0 _ Hm ltac:(lia) V). assert (LOW : forall z, minifloat m e e0 z -> - vmax m e e0 <= z).
    { intros z Hz. assert (- z <= vmax m e e0) by (apply vmax_upper; [assumption|assumption|]; apply minifloat_opp; [lia|lia|exact Hz]). lra. }
    destruct (Qle_bool (- vmax m e e0) x) eqn:E.
    + apply Qle_bool_iff in E. destruct (best_spec x (values m e e0) _ E) as (A & B & C & D).
      split; [destruct B as [->|B]; [exact V'|apply values_in; [assumption|assumption|]; apply In_InA; [typeclasses eauto|exact B]]|].
      intros z Hz. split; intros L; [lra|]. apply values_in in Hz; [|assumption|assumption]. apply InA_alt in Hz. destruct Hz as (z' & Ez & Hz). rewrite Ez. apply D; [exact Hz|rewrite <- Ez; exact L].
    + split; [exact V'|]. intros z Hz. split; intros L; [apply LOW; exact Hz|]. exfalso. assert (- vmax m e e0 <= x) as G by (pose proof (LOW z Hz); lra). apply Qle_bool_iff in G. congruence.
Qed.

(** ** constraints *)
Lemma round_even_ge (n : Z) w : inject_Z n <= w -> (n <= round_even w)%Z.
Proof. intros H. rewrite <- (round_even_inject n). apply round_even_mono. exact H. Qed.
Lemma constrained_m w : (-1 <= p_m (c_min (-1) w))%Z.
Proof. apply round_even_ge. unfold c_min. destruct (Qle_bool w (-1)) eqn:E; [apply Qle_refl|]. destruct (Qlt_le_dec (-1) w) as [G|G]; [apply Qlt_le_weak; exact G|apply Qle_bool_iff in G; congruence]. Qed.
Lemma constrained_e w : (0 <= p_e (c_nonneg w))%Z.
Proof. apply round_even_ge. unfold c_nonneg. destruct (Qle_bool 0 w) eqn:E; [apply Qle_bool_iff in E; exact E|apply Qle_refl]. Qed.

(** ** whole tensors *)
Lemma mf_tcall_groups fq ha oa built het hom w s x :
  conforms fq -> built_for ha oa built het hom w -> shape_matches built (shape x) ->
  shape (f_m s) = w -> shape (f_e s) = w -> shape (f_e0 s) = w ->
  (forall g, valid_index w g -> (-1 <= p_m (at_ (f_m s) g))%Z /\ (1 <= p_e (at_ (f_e s) g))%Z) ->
  exists y entry, mf_tcall fq s x = Some y /\ shape y = shape x /\
    forall i, valid_index (shape x) i -> valid_index w (entry i) /\
      faithful (minifloat (p_m (at_ (f_m s) (entry i))) (p_e (at_ (f_e s) (entry i))) (p_e0 (at_ (f_e0 s) (entry i)))) (at_ x i) (at_ y i) /\
      forall j, valid_index (shape x) j -> (entry i = entry j <-> same_group het i j).
Proof.
  intros C B S Sm Se Se0 H. unfold mf_tcall.
  destruct (@bw_to_x_groups Z ha oa built het hom w (shape x) (mk_tensor w (fun g => 0%Z)) B S eq_refl) as (r & entry & Er & Sr & G).
  unfold broadcast_to, tmap in *. cbn [shape at_] in *. rewrite Sm, Se, Se0.
  destruct (bcast_ok w (shape x)) eqn:OK; [|discriminate].
  exists (mk_tensor (shape x) (fun i => fq (at_ x i) (p_m (at_ (f_m s) (bcast_index w i))) (p_e (at_ (f_e s) (bcast_index w i))) (p_e0 (at_ (f_e0 s) (bcast_index w i))))), (bcast_index w).
  split; [reflexivity|]. split; [reflexivity|].
  destruct (@bw_to_x_groups index ha oa built het hom w (shape x) (mk_tensor w (fun g => g)) B S eq_refl) as (r2 & en2 & Er2 & Sr2 & G2).
  unfold broadcast_to in Er2. cbn [shape at_] in Er2. rewrite OK in Er2. assert (E2 := f_equal (fun o => match o with Some t => at_ t | None => fun _ => nil end) Er2). cbn beta iota in E2.
  assert (EN : forall i, valid_index (shape x) i -> bcast_index w i = en2 i).
  { intros i Hi. destruct (G2 i Hi) as (_ & A & _). rewrite <- E2 in A. cbn [at_] in A. exact A. }
  intros i Hi. destruct (G2 i Hi) as (V & _ & J). rewrite (EN i Hi). split; [exact V|]. cbn [at_]. rewrite (EN i Hi). split; [apply C; apply H; exact V|].
  intros j Hj. rewrite (EN j Hj). apply J. exact Hj.
Qed.

(** ** zero exponent bits *)
Lemma no_sqrt2 (n d : Z) : d <> 0%Z -> (n * n <> 2 * (d * d))%Z.
Proof.
  intros Hd. remember (Z.to_nat (Z.abs d)) as k eqn:Ek. assert (Hk : (Z.to_nat (Z.abs d) <= k)%nat) by lia. clear Ek. revert n d Hd Hk.
  induction k as [|k IH]; intros n d Hd Hk E; [lia|].
  assert (En : Z.even n = true).
  { rewrite <- Z.negb_odd. destruct (Z.odd n) eqn:O; [|reflexivity]. assert (O2 : Z.odd (n * n) = true) by (rewrite Z.odd_mul, O; reflexivity). rewrite E, Z.odd_mul in O2. discriminate. }
  apply Z.even_spec in En. destruct En as [a ->]. assert (E1 : (d * d = 2 * (a * a))%Z) by lia.
  assert (Ed : Z.even d = true).
  { rewrite <- Z.negb_odd. destruct (Z.odd d) eqn:O; [|reflexivity]. assert (O2 : Z.odd (d * d) = true) by (rewrite Z.odd_mul, O; reflexivity). rewrite E1, Z.odd_mul in O2. discriminate. }
  apply Z.even_spec in Ed. destruct Ed as [b ->]. apply (IH a b); lia.
Qed.
Lemma no_qsqrt2 (q : Q) : ~ q * q == 2.
Proof. destruct q as [n d]. unfold Qeq, Qmult. cbn [Qnum Qden]. intros H. apply (no_sqrt2 n (Zpos d)); [discriminate|]. rewrite Pos2Z.inj_mul in H. lia. Qed.
Lemma mf_max_no_exponent m e0 v : (0 <= m)%Z -> mf_max m 0 e0 <> Q2R v.
Proof.
  intros Hm E. unfold mf_max in E. replace (Rpower 2 (IZR 0 - 1)) with (/ 2)%R in E.
  2:{ replace (IZR 0 - 1)%R with (- (1))%R by ring. rewrite Rpower_Ropp, Rpower_1 by Rlra. reflexivity. }
  rewrite <- opp_IZR, Rpower_pow2 in E. set (r := 2 - pow2 (- m)) in *.
  assert (R0 : 1 <= r). { unfold r. assert (pow2 (- m) <= pow2 0) by (apply pow2_le; lia). rewrite pow2_0 in H. lra. }
  assert (ER : (2 - Q2R (pow2 (- m)) = Q2R r)%R). { unfold r. rewrite Q2R_minus. f_equal. unfold Q2R. cbn. field. }
  rewrite ER in E. assert (E2 : Q2R (v * v) = Q2R (pow2 (2 * e0 - 1) * (r * r))).
  { rewrite Q2R_mult, <- E. rewrite 2 Q2R_mult. rewrite <- Rpower_pow2.
    replace (IZR (2 * e0 - 1)) with ((/ 2 + IZR e0 - 1) + (/ 2 + IZR e0 - 1))%R by (rewrite minus_IZR, mult_IZR; field). rewrite Rpower_plus. ring. }
  apply eqR_Qeq in E2. apply (no_qsqrt2 (v * pow2 (1 - e0) / r)).
  transitivity ((v * v) * (pow2 (1 - e0) * pow2 (1 - e0)) / (r * r)); [field; lra|]. rewrite E2. rewrite <- pow2_add.
  transitivity ((pow2 (2 * e0 - 1) * pow2 (1 - e0 + (1 - e0))) ); [field; lra|]. rewrite <- pow2_add. replace (2 * e0 - 1 + (1 - e0 + (1 - e0)))%Z with 1%Z by lia. apply pow2_1.
Qed.
