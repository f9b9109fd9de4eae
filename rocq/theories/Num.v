(** Numeric base: rationals, powers of two, floor, ceil(log2), rounding half to even.
    Everything here is mathematics used by the model; code citations are given where a
    definition stands for a primitive the code calls. *)
From Coq Require Export ZArith QArith Qpower Qround Qabs Qminmax List Lia Lqa Bool.
Export ListNotations.
Open Scope Q_scope.

(** [2.0**z], e.g. fixed_point_quantizer.py 109-116. *)
Definition pow2 (z : Z) : Q := Qpower (2#1) z.

Lemma pow2_pos z : 0 < pow2 z.
Proof. unfold pow2. apply Qpower_0_lt. reflexivity. Qed.

Lemma pow2_nz z : ~ pow2 z == 0.
Proof. pose proof (pow2_pos z). lra. Qed.

Lemma pow2_add a b : pow2 (a + b) == pow2 a * pow2 b.
Proof. unfold pow2. apply Qpower_plus. discriminate. Qed.

Lemma pow2_0 : pow2 0 == 1.
Proof. reflexivity. Qed.

Lemma pow2_1 : pow2 1 == 2.
Proof. reflexivity. Qed.

Lemma pow2_succ a : pow2 (a + 1) == 2 * pow2 a.
Proof. rewrite pow2_add, pow2_1. lra. Qed.

Lemma pow2_pred a : pow2 a == 2 * pow2 (a - 1).
Proof. rewrite <- pow2_succ. replace (a - 1 + 1)%Z with a by lia. reflexivity. Qed.

Lemma pow2_opp_mul a : pow2 a * pow2 (- a) == 1.
Proof. rewrite <- pow2_add. replace (a + - a)%Z with 0%Z by lia. reflexivity. Qed.

Lemma pow2_sub a b : pow2 (a - b) == pow2 a * pow2 (- b).
Proof. unfold Z.sub. apply pow2_add. Qed.

Lemma pow2_inject n : (0 <= n)%Z -> pow2 n == inject_Z (2 ^ n).
Proof.
  intros H. unfold pow2. rewrite Zpower_Qpower by exact H. reflexivity.
Qed.

Lemma pow2_ge1 n : (0 <= n)%Z -> 1 <= pow2 n.
Proof.
  intros H. rewrite pow2_inject by exact H.
  change 1 with (inject_Z 1). rewrite <- Zle_Qle.
  pose proof (Z.pow_pos_nonneg 2 n). lia.
Qed.

Lemma pow2_le a b : (a <= b)%Z -> pow2 a <= pow2 b.
Proof.
  intros H. replace b with (a + (b - a))%Z by lia. rewrite pow2_add.
  pose proof (pow2_pos a). pose proof (pow2_ge1 (b - a)). 
  assert (1 <= pow2 (b - a)) by (apply pow2_ge1; lia). nra.
Qed.

Lemma pow2_lt a b : (a < b)%Z -> pow2 a < pow2 b.
Proof.
  intros H. assert (Hle : pow2 (a + 1) <= pow2 b) by (apply pow2_le; lia).
  rewrite pow2_succ in Hle. pose proof (pow2_pos a). lra.
Qed.

Lemma pow2_le_inv a b : pow2 a <= pow2 b -> (a <= b)%Z.
Proof.
  intros H. destruct (Z_le_gt_dec a b) as [Hab|Hab]; [exact Hab|].
  assert (pow2 b < pow2 a) by (apply pow2_lt; lia). lra.
Qed.

Lemma pow2_lt_inv a b : pow2 a < pow2 b -> (a < b)%Z.
Proof.
  intros H. destruct (Z_lt_ge_dec a b) as [Hab|Hab]; [exact Hab|].
  assert (pow2 b <= pow2 a) by (apply pow2_le; lia). lra.
Qed.

Lemma pow2_inj a b : pow2 a == pow2 b -> a = b.
Proof.
  intros H. apply Z.le_antisymm; apply pow2_le_inv; rewrite H; apply Qle_refl.
Qed.

#[global] Instance pow2_comp : Proper (eq ==> Qeq) pow2.
Proof. intros a b ->. reflexivity. Qed.

(** ** Floor *)

Lemma floor_spec x : inject_Z (Qfloor x) <= x /\ x < inject_Z (Qfloor x) + 1.
Proof.
  split; [apply Qfloor_le|].
  pose proof (Qlt_floor x) as H. rewrite inject_Z_plus in H. exact H.
Qed.

Lemma injZ_add a b : inject_Z (a + b) == inject_Z a + inject_Z b.
Proof. rewrite inject_Z_plus. reflexivity. Qed.
Lemma injZ_mul a b : inject_Z (a * b) == inject_Z a * inject_Z b.
Proof. rewrite inject_Z_mult. reflexivity. Qed.
Lemma injZ_opp a : inject_Z (- a) == - inject_Z a.
Proof. rewrite inject_Z_opp. reflexivity. Qed.
Lemma injZ_sub a b : inject_Z (a - b) == inject_Z a - inject_Z b.
Proof. unfold Z.sub. rewrite injZ_add, injZ_opp. reflexivity. Qed.

Lemma injZ_le a b : inject_Z a <= inject_Z b <-> (a <= b)%Z.
Proof. rewrite Zle_Qle. tauto. Qed.
Lemma injZ_lt a b : inject_Z a < inject_Z b <-> (a < b)%Z.
Proof. rewrite Zlt_Qlt. tauto. Qed.
Lemma injZ_eq a b : inject_Z a == inject_Z b <-> a = b.
Proof.
  split; [|intros ->; reflexivity]. intros H.
  apply Z.le_antisymm; apply injZ_le; rewrite H; apply Qle_refl.
Qed.

Lemma floor_unique x n : inject_Z n <= x -> x < inject_Z n + 1 -> Qfloor x = n.
Proof.
  intros H1 H2. destruct (floor_spec x) as [H3 H4].
  assert (A : inject_Z n < inject_Z (Qfloor x + 1)) by (rewrite injZ_add; change (inject_Z 1) with 1; lra).
  assert (B : inject_Z (Qfloor x) < inject_Z (n + 1)) by (rewrite injZ_add; change (inject_Z 1) with 1; lra).
  apply (proj1 (injZ_lt _ _)) in A. apply (proj1 (injZ_lt _ _)) in B. lia.
Qed.

Lemma floor_inject n : Qfloor (inject_Z n) = n.
Proof. apply floor_unique; lra. Qed.

Lemma floor_add_Z x n : Qfloor (x + inject_Z n) = (Qfloor x + n)%Z.
Proof.
  destruct (floor_spec x) as [H1 H2].
  apply floor_unique; rewrite injZ_add; lra.
Qed.

Lemma floor_mono x y : x <= y -> (Qfloor x <= Qfloor y)%Z.
Proof. apply Qfloor_resp_le. Qed.

Lemma floor_ge_Z x n : inject_Z n <= x -> (n <= Qfloor x)%Z.
Proof. intros H. rewrite <- (floor_inject n). apply floor_mono, H. Qed.

Lemma floor_lt_Z x n : x < inject_Z n -> (Qfloor x < n)%Z.
Proof.
  intros H. destruct (floor_spec x) as [H1 _].
  apply injZ_lt. lra.
Qed.

(** ** ceil(log2 x): the least integer [i] with [x <= 2^i], for [x > 0].
    Stands for [ops.ceil(ops.log2(x))], fixed_point_quantizer.py 19-20, 28-29.
    The code only applies it to positive arguments (see M_Fixed).  *)
Definition ceil_log2 (x : Q) : Z :=
  let i := (Z.log2_up (Qnum x) - Z.log2 (Zpos (Qden x)))%Z in
  if Qle_bool x (pow2 (i - 1)) then (i - 1)%Z else i.

Lemma log2_up_spec' n : (0 < n)%Z ->
  inject_Z n <= pow2 (Z.log2_up n) /\ pow2 (Z.log2_up n - 1) < inject_Z n.
Proof.
  intros Hn. destruct (Z.eq_dec n 1) as [->|Hn1].
  - split; vm_compute; [discriminate|reflexivity].
  - pose proof (Z.log2_up_spec n ltac:(lia)) as [H1 H2].
    pose proof (Z.log2_up_nonneg n).
    pose proof (Z.log2_up_pos n ltac:(lia)).
    split.
    + rewrite pow2_inject by lia. apply injZ_le. exact H2.
    + rewrite pow2_inject by lia. apply injZ_lt.
      rewrite Z.sub_1_r. exact H1.
Qed.

Lemma log2_spec' n : (0 < n)%Z ->
  pow2 (Z.log2 n) <= inject_Z n /\ inject_Z n < pow2 (Z.log2 n + 1).
Proof.
  intros Hn. pose proof (Z.log2_spec n Hn) as [H1 H2].
  pose proof (Z.log2_nonneg n). split.
  - rewrite pow2_inject by lia. apply injZ_le. exact H1.
  - rewrite pow2_inject by lia. apply injZ_lt. rewrite Z.add_1_r. exact H2.
Qed.

Lemma Qnum_den x : x == inject_Z (Qnum x) / inject_Z (Zpos (Qden x)).
Proof. destruct x as [n d]. unfold Qeq, inject_Z, Qdiv, Qmult, Qinv; simpl. lia. Qed.

Lemma ceil_log2_spec x : 0 < x -> x <= pow2 (ceil_log2 x) /\ pow2 (ceil_log2 x - 1) < x.
Proof.
  intros Hx.
  assert (Hn : (0 < Qnum x)%Z) by (unfold Qlt in Hx; simpl in Hx; lia).
  unfold ceil_log2.
  set (lu := Z.log2_up (Qnum x)). set (ld := Z.log2 (Zpos (Qden x))).
  destruct (log2_up_spec' (Qnum x) Hn) as [A1 A2]. fold lu in A1, A2.
  destruct (log2_spec' (Zpos (Qden x)) ltac:(lia)) as [B1 B2]. fold ld in B1, B2.
  pose proof (Qnum_den x) as E.
  set (N := inject_Z (Qnum x)) in *. set (D := inject_Z (Zpos (Qden x))) in *.
  assert (HD : 0 < D) by (unfold D; change 0 with (inject_Z 0); apply injZ_lt; lia).
  assert (EN : x * D == N) by (rewrite E; field; lra).
  assert (U : x <= pow2 (lu - ld)).
  { rewrite pow2_sub. pose proof (pow2_opp_mul ld) as Ho.
    pose proof (pow2_pos (-ld)) as P1. pose proof (pow2_pos ld) as P2.
    assert (x * pow2 ld <= pow2 lu) by nra.
    assert (x == x * pow2 ld * pow2 (- ld)) as -> by (rewrite <- Qmult_assoc, Ho; lra).
    nra. }
  assert (L : pow2 (lu - ld - 2) < x).
  { replace (lu - ld - 2)%Z with ((lu - 1) - (ld + 1))%Z by lia. rewrite pow2_sub.
    pose proof (pow2_opp_mul (ld + 1)) as Ho.
    pose proof (pow2_pos (-(ld + 1))) as P1. pose proof (pow2_pos (ld + 1)) as P2.
    assert (pow2 (lu - 1) < x * pow2 (ld + 1)) by nra.
    assert (x == x * pow2 (ld + 1) * pow2 (- (ld + 1))) as -> by (rewrite <- Qmult_assoc, Ho; lra).
    nra. }
  destruct (Qle_bool x (pow2 (lu - ld - 1))) eqn:Hb.
  - apply Qle_bool_iff in Hb. split; [exact Hb|].
    replace (lu - ld - 1 - 1)%Z with (lu - ld - 2)%Z by lia. exact L.
  - assert (Hb' : ~ x <= pow2 (lu - ld - 1)) by (rewrite <- Qle_bool_iff; congruence).
    split; [exact U|]. lra.
Qed.

Lemma ceil_log2_unique x i : 0 < x -> x <= pow2 i -> pow2 (i - 1) < x -> ceil_log2 x = i.
Proof.
  intros Hx H1 H2. destruct (ceil_log2_spec x Hx) as [H3 H4].
  assert (A : (ceil_log2 x - 1 < i)%Z) by (apply pow2_lt_inv; lra).
  assert (B : (i - 1 < ceil_log2 x)%Z) by (apply pow2_lt_inv; lra).
  lia.
Qed.

Lemma ceil_log2_le x i : 0 < x -> (ceil_log2 x <= i)%Z <-> x <= pow2 i.
Proof.
  intros Hx. destruct (ceil_log2_spec x Hx) as [H3 H4]. split; intros H.
  - pose proof (pow2_le _ _ H). lra.
  - assert ((ceil_log2 x - 1 < i)%Z) by (apply pow2_lt_inv; lra). lia.
Qed.

Lemma ceil_log2_mono x y : 0 < x -> x <= y -> (ceil_log2 x <= ceil_log2 y)%Z.
Proof.
  intros Hx Hxy. apply ceil_log2_le; [exact Hx|].
  destruct (ceil_log2_spec y ltac:(lra)). lra.
Qed.

Lemma ceil_log2_comp x y : 0 < x -> x == y -> ceil_log2 x = ceil_log2 y.
Proof. intros Hx E. apply Z.le_antisymm; apply ceil_log2_mono; lra. Qed.

Lemma ceil_log2_pow2 i : ceil_log2 (pow2 i) = i.
Proof.
  apply ceil_log2_unique; [apply pow2_pos|lra|]. apply pow2_lt; lia.
Qed.

(** ** Rounding half to even: [round_conv] of the [quantizers] package
    (imported in fixed_point_quantizer.py 10), also [ops.round]/[np.round]. *)
Definition round_even (y : Q) : Z :=
  let n := Qfloor (y + (1#2)) in
  if Qeq_bool (inject_Z n) (y + (1#2)) && Z.odd n then (n - 1)%Z else n.

Lemma round_even_bound y : Qabs (inject_Z (round_even y) - y) <= 1#2.
Proof.
  unfold round_even. destruct (floor_spec (y + (1#2))) as [H1 H2].
  set (n := Qfloor (y + (1#2))) in *.
  destruct (Qeq_bool (inject_Z n) (y + (1#2))) eqn:E; cbn [andb].
  - apply Qeq_bool_eq in E. destruct (Z.odd n).
    + pose proof (injZ_sub n 1). change (inject_Z 1) with 1 in *. apply (proj2 (Qabs_Qle_condition _ _)). split; lra.
    + apply (proj2 (Qabs_Qle_condition _ _)). split; lra.
  - apply (proj2 (Qabs_Qle_condition _ _)). split; lra.
Qed.

Lemma round_even_inject n : round_even (inject_Z n) = n.
Proof.
  unfold round_even.
  assert (Qfloor (inject_Z n + (1#2)) = n) as -> by (apply floor_unique; lra).
  destruct (Qeq_bool (inject_Z n) (inject_Z n + (1#2))) eqn:E; [|reflexivity].
  apply Qeq_bool_eq in E. lra.
Qed.

Lemma round_even_tie y n : y == inject_Z n + (1#2) -> Z.even (round_even y) = true.
Proof.
  intros E. unfold round_even.
  assert (F : Qfloor (y + (1#2)) = (n + 1)%Z).
  { apply floor_unique; rewrite injZ_add; change (inject_Z 1) with 1; lra. }
  rewrite F.
  assert (Qeq_bool (inject_Z (n + 1)) (y + (1#2)) = true) as ->.
  { apply Qeq_eq_bool. rewrite injZ_add. change (inject_Z 1) with 1. lra. }
  simpl. destruct (Z.odd (n + 1)) eqn:O.
  - replace (n + 1 - 1)%Z with n by lia.
    rewrite Z.add_1_r, Z.odd_succ in O. exact O.
  - rewrite <- Z.negb_odd, O. reflexivity.
Qed.

Lemma round_even_mono x y : x <= y -> (round_even x <= round_even y)%Z.
Proof.
  intros H. unfold round_even.
  pose proof (floor_mono (x + (1#2)) (y + (1#2)) ltac:(lra)) as Hf.
  destruct (Qeq_bool (inject_Z (Qfloor (x + (1#2)))) (x + (1#2))) eqn:E1;
  destruct (Qeq_bool (inject_Z (Qfloor (y + (1#2)))) (y + (1#2))) eqn:E2; cbn [andb].
  - destruct (Z.odd (Qfloor (x + (1#2)))) eqn:O1, (Z.odd (Qfloor (y + (1#2)))) eqn:O2; try lia.
    assert (Qfloor (x + (1#2)) <> Qfloor (y + (1#2))) by congruence. lia.
  - destruct (Z.odd (Qfloor (x + (1#2)))); lia.
  - destruct (Z.odd (Qfloor (y + (1#2)))) eqn:O2; [|lia].
    destruct (Z.eq_dec (Qfloor (x + (1#2))) (Qfloor (y + (1#2)))) as [Hq|Hq]; [|lia].
    exfalso. apply Qeq_bool_eq in E2.
    destruct (floor_spec (x + (1#2))) as [A B]. rewrite Hq in A.
    assert (inject_Z (Qfloor (x + (1 # 2))) == x + (1#2)) as C by (rewrite Hq; lra).
    apply Qeq_eq_bool in C. congruence.
  - lia.
Qed.

Lemma round_even_comp x y : x == y -> round_even x = round_even y.
Proof. intros E. apply Z.le_antisymm; apply round_even_mono; lra. Qed.

#[global] Instance round_even_Proper : Proper (Qeq ==> eq) round_even.
Proof. intros x y E. apply round_even_comp, E. Qed.

#[global] Instance inject_Z_Proper : Proper (eq ==> Qeq) inject_Z.
Proof. intros a b ->. reflexivity. Qed.
#[global] Instance Qfloor_Proper : Proper (Qeq ==> eq) Qfloor.
Proof. intros a b E. apply Qfloor_comp, E. Qed.
