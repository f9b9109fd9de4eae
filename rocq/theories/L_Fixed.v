(** Proofs about the fixed-point quantizer model. *)
From Verif Require Import Num M_Fixed S_Fixed.

Ltac zify_pre := idtac.
Lemma kz_cases k : kz k = 0%Z \/ kz k = 1%Z.
Proof. destruct k; auto. Qed.

Lemma half_pow2 a : pow2 a / 2 == pow2 (a - 1).
Proof. rewrite (pow2_pred a). field. Qed.

(** ** Rounding *)
#[global] Instance rnd_int_Proper rm : Proper (Qeq ==> eq) (rnd_int rm).
Proof.
  intros x y E. destruct rm; cbn [rnd_int].
  - apply Qfloor_comp, E.
  - apply Qfloor_comp. rewrite E. reflexivity.
  - apply round_even_comp, E.
Qed.

#[global] Instance round_f_Proper rm f : Proper (Qeq ==> Qeq) (round_f rm f).
Proof. intros x y E. unfold round_f. rewrite E. reflexivity. Qed.

Lemma rnd_int_inject rm n : rnd_int rm (inject_Z n) = n.
Proof.
  destruct rm; cbn [rnd_int].
  - apply floor_inject.
  - apply floor_unique; lra.
  - apply round_even_inject.
Qed.

Lemma rnd_int_mono rm x y : x <= y -> (rnd_int rm x <= rnd_int rm y)%Z.
Proof.
  intros H. destruct rm; cbn [rnd_int].
  - apply floor_mono, H.
  - apply floor_mono. lra.
  - apply round_even_mono, H.
Qed.

Lemma scale_code f n : inject_Z n * pow2 (- f) * pow2 f == inject_Z n.
Proof. pose proof (pow2_opp_mul f). rewrite <- Qmult_assoc, (Qmult_comm (pow2 (- f))), H. lra. Qed.

Lemma round_f_fix rm f n x : x == inject_Z n * pow2 (- f) -> round_f rm f x == x.
Proof.
  intros E. unfold round_f. rewrite E, scale_code, rnd_int_inject. reflexivity.
Qed.

Lemma round_f_code rm f x : has_code f (round_f rm f x) (rnd_int rm (x * pow2 f)).
Proof. unfold has_code, round_f. reflexivity. Qed.

Lemma round_f_idem rm rm' f x : round_f rm' f (round_f rm f x) == round_f rm f x.
Proof. eapply round_f_fix. apply round_f_code. Qed.

Lemma round_f_mono rm f x y : x <= y -> round_f rm f x <= round_f rm f y.
Proof.
  intros H. unfold round_f. pose proof (pow2_pos f). pose proof (pow2_pos (- f)).
  assert (Hz : (rnd_int rm (x * pow2 f) <= rnd_int rm (y * pow2 f))%Z) by (apply rnd_int_mono; nra).
  apply (proj2 (injZ_le _ _)) in Hz. nra.
Qed.

Lemma round_f_0 rm f : round_f rm f 0 == 0.
Proof. rewrite (round_f_fix rm f 0 0); [reflexivity|]. change (inject_Z 0) with 0. lra. Qed.

Lemma unscale x f : x == x * pow2 f * pow2 (- f).
Proof. pose proof (pow2_opp_mul f). rewrite <- Qmult_assoc, H. lra. Qed.

Lemma round_f_rounds rm f x : rounds_to rm f x (round_f rm f x).
Proof.
  exists (rnd_int rm (x * pow2 f)). split; [apply round_f_code|].
  unfold round_f. set (y := x * pow2 f). pose proof (unscale x f) as U. fold y in U.
  pose proof (pow2_pos (- f)) as P. set (e := pow2 (- f)) in *.
  clearbody y e.
  destruct rm; cbn [rnd_int].
  - destruct (floor_spec y). split; rewrite U; nra.
  - destruct (floor_spec (y + (1#2))). assert (D : e / 2 == e * (1#2)) by field.
    rewrite D, U. split; nra.
  - pose proof (round_even_bound y) as B.
    assert (A : Qabs (x - inject_Z (round_even y) * e) == Qabs (inject_Z (round_even y) - y) * e).
    { rewrite <- (Qabs_pos e) at 2 by lra. rewrite <- Qabs_Qmult.
      rewrite <- (Qabs_opp (x - _)). apply Qabs_wd. rewrite U. ring. }
    assert (D : e / 2 == e * (1#2)) by field.
    split; [rewrite A, D; nra|].
    intros T. rewrite D in T. rewrite A in T.
    assert (T2 : Qabs (inject_Z (round_even y) - y) == 1#2) by nra.
    assert (C : y == inject_Z (round_even y) + (1#2) \/ y == inject_Z (round_even y - 1) + (1#2)).
    { rewrite injZ_sub. change (inject_Z 1) with 1.
      destruct (Qlt_le_dec (inject_Z (round_even y) - y) 0) as [L|L].
      - left. rewrite Qabs_neg in T2 by lra. lra.
      - right. rewrite Qabs_pos in T2 by lra. lra. }
    destruct C as [C|C]; eapply round_even_tie; exact C.
Qed.

(** ** Overflow in the code domain *)
Definition overflow_code (om : omode) (k : bool) (b n : Z) : Z :=
  match om with
  | WRAP => ((n + kz k * 2 ^ b) mod 2 ^ (b + kz k) - kz k * 2 ^ b)%Z
  | SAT => Z.min (Z.max n (- kz k * 2 ^ b)) (2 ^ b - 1)
  | SAT_SYM => Z.min (Z.max n (- kz k * (2 ^ b - 1))) (2 ^ b - 1)
  end.

Lemma pow2_i_code i f : (0 <= i + f)%Z -> pow2 i == inject_Z (2 ^ (i + f)) * pow2 (- f).
Proof.
  intros H. rewrite <- pow2_inject by exact H. rewrite <- pow2_add.
  replace (i + f + - f)%Z with i by lia. reflexivity.
Qed.

Lemma clip_code lo hi n f :
  clip (inject_Z lo * pow2 (- f)) (inject_Z hi * pow2 (- f)) (inject_Z n * pow2 (- f))
  == inject_Z (Z.min (Z.max n lo) hi) * pow2 (- f).
Proof.
  unfold clip. pose proof (pow2_pos (- f)) as P.
  assert (M : forall a b, (a <= b)%Z -> inject_Z a * pow2 (- f) <= inject_Z b * pow2 (- f)).
  { intros a b H. apply (proj2 (injZ_le _ _)) in H. nra. }
  assert (E1 : Qmax (inject_Z n * pow2 (- f)) (inject_Z lo * pow2 (- f)) == inject_Z (Z.max n lo) * pow2 (- f)).
  { destruct (Z.max_spec n lo) as [[H ->]|[H ->]].
    - apply Q.max_r. apply M. lia.
    - apply Q.max_l. apply M. lia. }
  rewrite E1. destruct (Z.min_spec (Z.max n lo) hi) as [[H ->]|[H ->]].
  - apply Q.min_l. apply M. lia.
  - apply Q.min_r. apply M. lia.
Qed.

#[global] Instance clip_Proper : Proper (Qeq ==> Qeq ==> Qeq ==> Qeq) clip.
Proof. intros a b E c d E' x y E''. unfold clip. rewrite E, E', E''. reflexivity. Qed.

#[global] Instance overflow_Proper om k i f : Proper (Qeq ==> Qeq) (overflow om k i f).
Proof.
  intros x y E. destruct om; unfold overflow; [|rewrite E; reflexivity|rewrite E; reflexivity].
  cbv zeta. assert (F : Qfloor ((x + inject_Z (kz k) * pow2 i) / pow2 (i + kz k)) =
                       Qfloor ((y + inject_Z (kz k) * pow2 i) / pow2 (i + kz k))).
  { apply Qfloor_comp. rewrite E. reflexivity. }
  rewrite F, E. reflexivity.
Qed.

Lemma overflow_code_ok om k i f n : (0 <= i + f)%Z ->
  overflow om k i f (inject_Z n * pow2 (- f)) == inject_Z (overflow_code om k (i + f) n) * pow2 (- f).
Proof.
  intros Hb. pose proof (pow2_i_code i f Hb) as Ei. set (b := (i + f)%Z) in *.
  destruct om; unfold overflow, overflow_code; cbv zeta.
  - assert (Hm : pow2 (i + kz k) == inject_Z (2 ^ (b + kz k)) * pow2 (- f)).
    { pose proof (kz_cases k).
      rewrite <- pow2_inject by lia. rewrite <- pow2_add.
      replace (b + kz k + - f)%Z with (i + kz k)%Z by (unfold b; lia). reflexivity. }
    assert (HM : (0 < 2 ^ (b + kz k))%Z) by (apply Z.pow_pos_nonneg; [lia|destruct (kz_cases k); lia]).
    set (M := (2 ^ (b + kz k))%Z) in *.
    pose proof (pow2_pos (- f)) as P.
    assert (HMq : 0 < inject_Z M) by (change 0 with (inject_Z 0); apply (proj2 (injZ_lt _ _)); exact HM).
    assert (F : Qfloor ((inject_Z n * pow2 (- f) + inject_Z (kz k) * pow2 i) / pow2 (i + kz k)) = ((n + kz k * 2 ^ b) / M)%Z).
    { rewrite Zdiv_Qdiv. apply Qfloor_comp. rewrite Hm, Ei, injZ_add, injZ_mul. field. split; lra. }
    rewrite F, Hm, Ei. rewrite Z.mod_eq by lia.
    rewrite !injZ_sub, injZ_add, !injZ_mul. ring.
  - transitivity (clip (inject_Z (- kz k * 2 ^ b) * pow2 (- f)) (inject_Z (2 ^ b - 1) * pow2 (- f)) (inject_Z n * pow2 (- f))).
    + apply clip_Proper; [| |reflexivity].
      * rewrite Ei, injZ_mul, injZ_opp. ring.
      * rewrite Ei, injZ_sub. change (inject_Z 1) with 1. ring.
    + apply clip_code.
  - transitivity (clip (inject_Z (- kz k * (2 ^ b - 1)) * pow2 (- f)) (inject_Z (2 ^ b - 1) * pow2 (- f)) (inject_Z n * pow2 (- f))).
    + apply clip_Proper; [| |reflexivity].
      * rewrite Ei, injZ_mul, injZ_opp, injZ_sub. change (inject_Z 1) with 1. ring.
      * rewrite Ei, injZ_sub. change (inject_Z 1) with 1. ring.
    + apply clip_code.
Qed.

Lemma pow2z_pos b : (0 <= b)%Z -> (1 <= 2 ^ b)%Z.
Proof. intros H. pose proof (Z.pow_pos_nonneg 2 b). lia. Qed.

Lemma overflow_code_range om k b n : (0 <= b)%Z ->
  (code_lo om k b <= overflow_code om k b n <= code_hi b)%Z.
Proof.
  intros Hb. pose proof (pow2z_pos b Hb). unfold overflow_code, code_lo, code_hi.
  destruct om, k; cbn [kz]; try lia.
  - rewrite Z.pow_add_r by lia. change (2 ^ 1)%Z with 2%Z.
    pose proof (Z.mod_pos_bound (n + 1 * 2 ^ b) (2 ^ b * 2) ltac:(lia)). lia.
  - replace (b + 0)%Z with b by lia. pose proof (Z.mod_pos_bound (n + 0 * 2 ^ b) (2 ^ b) ltac:(lia)). lia.
Qed.

Lemma overflow_code_id om k b n : (0 <= b)%Z ->
  (code_lo om k b <= n <= code_hi b)%Z -> overflow_code om k b n = n.
Proof.
  intros Hb. pose proof (pow2z_pos b Hb). unfold overflow_code, code_lo, code_hi.
  destruct om, k; cbn [kz]; intros HR; try lia.
  - rewrite Z.mod_small; [lia|]. rewrite Z.pow_add_r by lia. change (2 ^ 1)%Z with 2%Z. lia.
  - replace (b + 0)%Z with b by lia. rewrite Z.mod_small; lia.
Qed.

(** ** The inference call *)
Definition inference rm om k i f x := base_call rm om false k i f x.

Lemma width_cases k i f : (0 < kz k + i + f)%Z -> (0 <= i + f)%Z.
Proof. destruct k; cbn [kz]; lia. Qed.

Lemma base_call_pos rm om k i f x : (0 < kz k + i + f)%Z ->
  base_call rm om false k i f x ==
  inject_Z (overflow_code om k (i + f) (rnd_int rm (x * pow2 f))) * pow2 (- f).
Proof.
  intros H. unfold base_call. apply Z.ltb_lt in H as H'. rewrite H'.
  unfold stateless. assert (E : forall o, match o with WRAP => overflow o k i f (round_f rm f x) | _ => overflow o k i f (round_f rm f x) end = overflow o k i f (round_f rm f x)) by (destruct o; reflexivity).
  transitivity (overflow om k i f (round_f rm f x)); [destruct om; reflexivity|].
  unfold round_f. apply overflow_code_ok. apply width_cases in H. exact H.
Qed.

Lemma base_call_npos rm om k i f x : (kz k + i + f <= 0)%Z -> base_call rm om false k i f x = 0.
Proof.
  intros H. unfold base_call. destruct (Z.ltb_spec 0 (kz k + i + f)); [lia|reflexivity].
Qed.

#[global] Instance base_call_Proper rm om t k i f : Proper (Qeq ==> Qeq) (base_call rm om t k i f).
Proof.
  intros x y E. unfold base_call, stateless.
  destruct t, om, (0 <? kz k + i + f)%Z; rewrite ?E; reflexivity.
Qed.

Lemma code_times_lo om k i f : (0 <= i + f)%Z -> q_min om k i f == inject_Z (code_lo om k (i + f)) * pow2 (- f).
Proof.
  intros H. unfold q_min, code_lo. pose proof (pow2_i_code i f H) as Ei.
  destruct om, k; cbn [symmetric kz]; rewrite ?Ei, ?injZ_opp, ?injZ_sub; change (inject_Z 1) with 1; change (inject_Z 0) with 0; ring.
Qed.

Lemma code_times_hi i f : (0 <= i + f)%Z -> q_max i f == inject_Z (code_hi (i + f)) * pow2 (- f).
Proof.
  intros H. unfold q_max, code_hi. rewrite (pow2_i_code i f H), injZ_sub. change (inject_Z 1) with 1. ring.
Qed.

Lemma has_code_inj f y n m : has_code f y n -> has_code f y m -> n = m.
Proof.
  unfold has_code. intros H1 H2. pose proof (pow2_pos (- f)).
  apply (proj1 (injZ_eq _ _)). rewrite H1 in H2. nra.
Qed.

Lemma has_code_Proper f y y' n : y == y' -> has_code f y n -> has_code f y' n.
Proof. unfold has_code. intros <-. auto. Qed.

(* C01 *)
Lemma inference_representable rm om k i f x : (0 < kz k + i + f)%Z ->
  representable om k i f (base_call rm om false k i f x).
Proof.
  intros H. eexists. split; [unfold has_code; apply base_call_pos, H|].
  apply overflow_code_range. apply width_cases in H. exact H.
Qed.

Lemma inference_between rm om k i f x : (0 < kz k + i + f)%Z ->
  q_min om k i f <= base_call rm om false k i f x <= q_max i f.
Proof.
  intros H. pose proof (width_cases _ _ _ H) as Hb.
  rewrite (base_call_pos rm om k i f x H), code_times_lo, code_times_hi by exact Hb.
  destruct (overflow_code_range om k (i + f) (rnd_int rm (x * pow2 f)) Hb) as [A B].
  apply (proj2 (injZ_le _ _)) in A, B. pose proof (pow2_pos (- f)). split; nra.
Qed.

Lemma representable_minmax om k i f y : (0 < kz k + i + f)%Z ->
  representable om k i f y <-> (exists n, has_code f y n) /\ q_min om k i f <= y <= q_max i f.
Proof.
  intros H. pose proof (width_cases _ _ _ H) as Hb. pose proof (pow2_pos (- f)).
  rewrite code_times_lo, code_times_hi by exact Hb. split.
  - intros (n & Hn & A & B). split; [eauto|]. unfold has_code in Hn. rewrite Hn.
    apply (proj2 (injZ_le _ _)) in A, B. split; nra.
  - intros ((n & Hn) & A & B). exists n. split; [exact Hn|]. unfold has_code in Hn.
    rewrite Hn in A, B. split; apply (proj1 (injZ_le _ _)); nra.
Qed.

(* C02 *)
Lemma inference_fixes_representable rm om k i f y : (0 < kz k + i + f)%Z ->
  representable om k i f y -> base_call rm om false k i f y == y.
Proof.
  intros H (n & Hn & R). pose proof (width_cases _ _ _ H) as Hb. unfold has_code in Hn.
  rewrite (base_call_pos rm om k i f y H).
  assert (E : rnd_int rm (y * pow2 f) = n).
  { rewrite Hn, scale_code. apply rnd_int_inject. }
  rewrite E, overflow_code_id by assumption. symmetry. exact Hn.
Qed.

Lemma inference_idempotent rm rm' om k i f x :
  base_call rm' om false k i f (base_call rm om false k i f x) == base_call rm om false k i f x.
Proof.
  destruct (Z_lt_le_dec 0 (kz k + i + f)) as [H|H].
  - apply inference_fixes_representable; [exact H|]. apply inference_representable, H.
  - rewrite !base_call_npos by exact H. reflexivity.
Qed.

Lemma representable_Proper om k i f y y' : y == y' -> representable om k i f y -> representable om k i f y'.
Proof. intros E (n & Hn & R). exists n. split; [|exact R]. eapply has_code_Proper; eauto. Qed.

Lemma inference_fixpoints rm om k i f y : (0 < kz k + i + f)%Z ->
  base_call rm om false k i f y == y <-> representable om k i f y.
Proof.
  intros H. split; [|apply inference_fixes_representable, H].
  intros E. eapply representable_Proper; [exact E|]. apply inference_representable, H.
Qed.

(* C03 *)
Lemma inference_in_range rm om k i f x : (0 < kz k + i + f)%Z ->
  q_min om k i f <= round_f rm f x <= q_max i f ->
  base_call rm om false k i f x == round_f rm f x.
Proof.
  intros H R. rewrite (base_call_pos rm om k i f x H).
  assert (RR : representable om k i f (round_f rm f x)).
  { apply representable_minmax; [exact H|]. split; [|exact R]. eexists. apply round_f_code. }
  destruct RR as (n & Hn & B). pose proof (has_code_inj _ _ _ _ Hn (round_f_code rm f x)) as En. subst n.
  rewrite overflow_code_id; [reflexivity| |exact B]. apply width_cases in H. exact H.
Qed.

(* C04 *)
Lemma overflow_code_mono_sat om k b n m : om <> WRAP -> (n <= m)%Z ->
  (overflow_code om k b n <= overflow_code om k b m)%Z.
Proof. intros Ho H. destruct om; [congruence| |]; unfold overflow_code; lia. Qed.

Lemma inference_mono rm om k i f x y : om <> WRAP -> x <= y ->
  base_call rm om false k i f x <= base_call rm om false k i f y.
Proof.
  intros Ho H. destruct (Z_lt_le_dec 0 (kz k + i + f)) as [W|W].
  - rewrite !base_call_pos by exact W. pose proof (pow2_pos f). pose proof (pow2_pos (- f)).
    assert (M : (rnd_int rm (x * pow2 f) <= rnd_int rm (y * pow2 f))%Z) by (apply rnd_int_mono; nra).
    apply (overflow_code_mono_sat om k (i + f)) in M; [|exact Ho].
    apply (proj2 (injZ_le _ _)) in M. nra.
  - rewrite !base_call_npos by exact W. lra.
Qed.

Lemma inference_sat_high rm om k i f x : om <> WRAP -> (0 < kz k + i + f)%Z ->
  q_max i f <= round_f rm f x -> base_call rm om false k i f x == q_max i f.
Proof.
  intros Ho H R. pose proof (width_cases _ _ _ H) as Hb. pose proof (pow2_pos (- f)).
  rewrite (base_call_pos rm om k i f x H). rewrite code_times_hi in * by exact Hb.
  unfold round_f in R. assert (A : (code_hi (i + f) <= rnd_int rm (x * pow2 f))%Z) by (apply (proj1 (injZ_le _ _)); nra).
  pose proof (pow2z_pos _ Hb). unfold code_hi in *.
  assert (overflow_code om k (i + f) (rnd_int rm (x * pow2 f)) = 2 ^ (i + f) - 1)%Z as ->; [|reflexivity].
  destruct om, k; [congruence|congruence| | | |]; unfold overflow_code; cbn [kz]; lia.
Qed.

Lemma inference_sat_low rm om k i f x : om <> WRAP -> (0 < kz k + i + f)%Z ->
  round_f rm f x <= q_min om k i f -> base_call rm om false k i f x == q_min om k i f.
Proof.
  intros Ho H R. pose proof (width_cases _ _ _ H) as Hb. pose proof (pow2_pos (- f)).
  rewrite (base_call_pos rm om k i f x H). rewrite code_times_lo in * by exact Hb.
  unfold round_f in R. assert (A : (rnd_int rm (x * pow2 f) <= code_lo om k (i + f))%Z) by (apply (proj1 (injZ_le _ _)); nra).
  pose proof (pow2z_pos _ Hb). unfold code_lo in *.
  assert (overflow_code om k (i + f) (rnd_int rm (x * pow2 f)) = code_lo om k (i + f)) as E; [|unfold code_lo in E; rewrite E; reflexivity].
  destruct om, k; [congruence|congruence| | | |]; unfold overflow_code, code_lo; cbn [kz]; lia.
Qed.

(** no representable value is nearer to the rounded input than the output *)
Lemma inference_sat_nearest rm om k i f x z : om <> WRAP -> (0 < kz k + i + f)%Z ->
  representable om k i f z ->
  Qabs (round_f rm f x - base_call rm om false k i f x) <= Qabs (round_f rm f x - z).
Proof.
  intros Ho H Hz.
  assert (B : q_min om k i f <= z <= q_max i f) by (apply (representable_minmax om k i f z H); exact Hz).
  destruct (Qlt_le_dec (q_max i f) (round_f rm f x)) as [A|A].
  - rewrite (inference_sat_high rm om k i f x Ho H) by lra.
    rewrite !Qabs_pos by lra. lra.
  - destruct (Qlt_le_dec (round_f rm f x) (q_min om k i f)) as [C|C].
    + rewrite (inference_sat_low rm om k i f x Ho H) by lra.
      rewrite !Qabs_neg by lra. lra.
    + rewrite (inference_in_range rm om k i f x H) by lra.
      assert (round_f rm f x - round_f rm f x == 0) as -> by lra.
      apply Qabs_nonneg.
Qed.

(* C05 *)
Lemma inference_wrap rm k i f x : (0 < kz k + i + f)%Z ->
  exists z, base_call rm WRAP false k i f x == round_f rm f x + inject_Z z * pow2 (i + kz k).
Proof.
  intros H. pose proof (width_cases _ _ _ H) as Hb.
  exists (- ((rnd_int rm (x * pow2 f) + kz k * 2 ^ (i + f)) / 2 ^ (i + f + kz k)))%Z.
  rewrite (base_call_pos rm WRAP k i f x H). unfold round_f, overflow_code.
  assert (HM : (0 < 2 ^ (i + f + kz k))%Z) by (apply Z.pow_pos_nonneg; destruct k; cbn [kz]; lia).
  rewrite Z.mod_eq by lia.
  assert (Hm : pow2 (i + kz k) == inject_Z (2 ^ (i + f + kz k)) * pow2 (- f)).
  { rewrite <- pow2_inject by (destruct k; cbn [kz]; lia). rewrite <- pow2_add.
    replace (i + f + kz k + - f)%Z with (i + kz k)%Z by lia. reflexivity. }
  rewrite Hm. rewrite !injZ_sub, injZ_opp, injZ_add, !injZ_mul. ring.
Qed.

Lemma code_span k b : (0 <= b)%Z -> (code_hi b - code_lo WRAP k b + 1 = 2 ^ (b + kz k))%Z.
Proof.
  intros Hb. unfold code_hi, code_lo. destruct k; cbn [kz].
  - rewrite Z.pow_add_r by lia. lia.
  - rewrite Z.add_0_r. lia.
Qed.

Lemma wrap_unique k i f r y y' z z' : (0 < kz k + i + f)%Z ->
  representable WRAP k i f y -> representable WRAP k i f y' ->
  y == r + inject_Z z * pow2 (i + kz k) -> y' == r + inject_Z z' * pow2 (i + kz k) -> y == y'.
Proof.
  intros H (n & Hn & Rn) (m & Hm & Rm) Ey Ey'. pose proof (width_cases _ _ _ H) as Hb.
  unfold has_code in *. pose proof (pow2_pos (- f)) as P.
  assert (Hp : pow2 (i + kz k) == inject_Z (2 ^ (i + f + kz k)) * pow2 (- f)).
  { rewrite <- pow2_inject by (destruct k; cbn [kz]; lia). rewrite <- pow2_add.
    replace (i + f + kz k + - f)%Z with (i + kz k)%Z by lia. reflexivity. }
  assert (D : inject_Z (n - m) == inject_Z ((z - z') * 2 ^ (i + f + kz k))).
  { rewrite injZ_sub, injZ_mul, injZ_sub. rewrite Hn, Hp in Ey. rewrite Hm, Hp in Ey'.
    assert (K : (inject_Z n - inject_Z m) * pow2 (- f) == (inject_Z z - inject_Z z') * inject_Z (2 ^ (i + f + kz k)) * pow2 (- f)).
    { transitivity (inject_Z n * pow2 (- f) - inject_Z m * pow2 (- f)); [ring|]. rewrite Ey, Ey'. ring. }
    apply Qmult_inj_r with (z := pow2 (- f)); [lra|exact K]. }
  apply (proj1 (injZ_eq _ _)) in D.
  pose proof (code_span k (i + f) Hb) as S.
  assert (n = m) as ->; [|rewrite Hn, Hm; reflexivity].
  assert (z = z'); [|subst; lia].
  assert (0 < 2 ^ (i + f + kz k))%Z by (apply Z.pow_pos_nonneg; destruct k; cbn [kz]; lia).
  assert ((z - z') * 2 ^ (i + f + kz k) < 2 ^ (i + f + kz k))%Z by lia.
  assert (- 2 ^ (i + f + kz k) < (z - z') * 2 ^ (i + f + kz k))%Z by lia.
  nia.
Qed.

(* C06 *)
Lemma inference_fits rm om k i f x : (0 < kz k + i + f)%Z ->
  (om = WRAP -> k = true -> 0 < i + f)%Z ->
  exists n, has_code f (base_call rm om false k i f x) n /\ fits k (q_fbits om k (kif_b i f)) n.
Proof.
  intros H Hw. destruct (inference_representable rm om k i f x H) as (n & Hn & R).
  pose proof (width_cases _ _ _ H) as Hb. exists n. split; [exact Hn|].
  unfold fits, q_fbits, kif_b. rewrite Z.max_r by lia. unfold code_lo, code_hi in R.
  destruct om, k; cbn [kz] in *.
  - destruct (Z.ltb_spec 0 (i + f)); [|specialize (Hw eq_refl eq_refl); lia].
    replace (i + f + 1 * 1 - 1)%Z with (i + f)%Z by lia. lia.
  - replace (i + f + 0 * _)%Z with (i + f)%Z by lia. lia.
  - replace (i + f + 1 - 1)%Z with (i + f)%Z by lia. lia.
  - replace (i + f + 0)%Z with (i + f)%Z by lia. lia.
  - replace (i + f + 1 - 1)%Z with (i + f)%Z by lia. lia.
  - replace (i + f + 0)%Z with (i + f)%Z by lia. lia.
Qed.

Lemma inference_bits rm om k i f x : (0 < kz k + i + f)%Z ->
  exists n, has_code f (base_call rm om false k i f x) n /\
    (om = SAT -> fits k (q_bits om k (kif_b i f)) n) /\
    (om <> SAT -> if k then - 2 ^ q_bits om k (kif_b i f) <= n < 2 ^ q_bits om k (kif_b i f)
                  else 0 <= n < 2 ^ q_bits om k (kif_b i f))%Z.
Proof.
  intros H. destruct (inference_representable rm om k i f x H) as (n & Hn & R).
  pose proof (width_cases _ _ _ H) as Hb. exists n. split; [exact Hn|].
  unfold fits, q_bits, kif_b. rewrite Z.max_r by lia. unfold code_lo, code_hi in R.
  split; intros E; [subst om|]; destruct k; try destruct om; cbn [kz] in *; try congruence; try lia.
  - replace (i + f + 1 - 1)%Z with (i + f)%Z by lia. lia.
  - rewrite Z.add_0_r. lia.
Qed.

Lemma code_count om k i f : (0 < kz k + i + f)%Z ->
  q_max i f - q_min om k i f == inject_Z (2 ^ (kz k + i + f) - (if symmetric om && k then 1 else 0) - 1) * q_epsilon f.
Proof.
  intros H. pose proof (width_cases _ _ _ H) as Hb.
  rewrite code_times_lo, code_times_hi by exact Hb. unfold q_epsilon.
  setoid_replace (inject_Z (code_hi (i + f)) * pow2 (- f) - inject_Z (code_lo om k (i + f)) * pow2 (- f))
    with (inject_Z (code_hi (i + f) - code_lo om k (i + f)) * pow2 (- f)) by (rewrite injZ_sub; ring).
  assert (code_hi (i + f) - code_lo om k (i + f) = 2 ^ (kz k + i + f) - (if symmetric om && k then 1 else 0) - 1)%Z as ->; [|reflexivity].
  unfold code_hi, code_lo. destruct k; cbn [kz].
  - replace (1 + i + f)%Z with (i + f + 1)%Z by lia. rewrite (Z.pow_add_r 2 (i + f) 1) by lia. change (2 ^ 1)%Z with 2%Z.
    destruct om; cbn [symmetric andb]; lia.
  - replace (0 + i + f)%Z with (i + f)%Z by lia. destruct om; cbn [symmetric andb]; lia.
Qed.

Lemma minmax_attained rm om k i f : (0 < kz k + i + f)%Z ->
  base_call rm om false k i f (q_max i f) == q_max i f /\
  base_call rm om false k i f (q_min om k i f) == q_min om k i f.
Proof.
  intros H. pose proof (width_cases _ _ _ H) as Hb. pose proof (pow2z_pos _ Hb).
  split; apply inference_fixes_representable; try exact H.
  - exists (code_hi (i + f)). split; [apply code_times_hi, Hb|].
    unfold code_lo, code_hi. destruct om, k; lia.
  - exists (code_lo om k (i + f)). split; [apply code_times_lo, Hb|].
    unfold code_lo, code_hi. destruct om, k; lia.
Qed.

(** the rounding specification determines the rounded value *)
Lemma rounds_to_unique rm f x r : rounds_to rm f x r -> r == round_f rm f x.
Proof.
  intros (n & Hn & H). unfold has_code in Hn. unfold round_f.
  pose proof (unscale x f) as U. set (y := x * pow2 f) in *.
  pose proof (pow2_pos (- f)) as P. set (e := pow2 (- f)) in *. clearbody y e.
  assert (D : e / 2 == e * (1#2)) by field.
  rewrite Hn. apply Qmult_comp; [|reflexivity]. apply (proj2 (injZ_eq _ _)).
  destruct rm; cbn [rnd_int]; rewrite ?Hn, ?U in H; rewrite ?D in H.
  - symmetry. apply floor_unique; nra.
  - symmetry. apply floor_unique; nra.
  - destruct H as [H Ht].
    assert (A : Qabs (y * e - inject_Z n * e) == Qabs (y - inject_Z n) * e).
    { rewrite <- (Qabs_pos e) at 3 by lra. rewrite <- Qabs_Qmult. apply Qabs_wd. ring. }
    assert (B : Qabs (y - inject_Z n) <= 1#2) by (rewrite A in H; nra).
    assert (T : Qabs (y - inject_Z n) == 1#2 -> Z.even n = true).
    { intros T. apply Ht. rewrite A, T. ring. }
    clear H Ht A.
    apply (proj1 (Qabs_Qle_condition _ _)) in B.
    unfold round_even. destruct (floor_spec (y + (1#2))) as [F1 F2].
    destruct (Qeq_dec (y + (1#2)) (inject_Z (n + 1))) as [E|E].
    + (* tie above n *)
      assert (F : Qfloor (y + (1#2)) = (n + 1)%Z) by (rewrite E; apply floor_inject).
      rewrite F.
      assert (Qeq_bool (inject_Z (n + 1)) (y + (1#2)) = true) as -> by (apply Qeq_eq_bool; lra).
      assert (Z.even n = true) as He.
      { apply T. rewrite injZ_add in E. change (inject_Z 1) with 1 in E. rewrite Qabs_pos by lra. lra. }
      rewrite Z.add_1_r, Z.odd_succ, He. cbn [andb]. lia.
    + rewrite injZ_add in E. change (inject_Z 1) with 1 in E.
      assert (F : Qfloor (y + (1#2)) = n) by (apply floor_unique; lra).
      rewrite F. destruct (Qeq_bool (inject_Z n) (y + (1#2))) eqn:Eb; cbn [andb]; [|reflexivity].
      apply Qeq_bool_eq in Eb.
      assert (Z.even n = true) as He by (apply T; rewrite Qabs_neg by lra; lra).
      rewrite <- Z.negb_even, He. reflexivity.
Qed.
