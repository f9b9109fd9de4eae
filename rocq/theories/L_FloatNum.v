(** Lemmas for C61: binary32 on rationals. *)
From Coq Require Import Reals Qreals Permutation.
From Flocq Require Import Core.
From Verif Require Import Num M_Fixed S_Fixed L_Fixed M_Ebops L_Ebops M_Float S_Float L_Float.
From Coq Require Import String.
From Verif Require Import M_State M_Wrapper M_Mapper M_Contr M_Pow2 M_Patch M_Ops M_Mirror M_Trace M_Net M_FloatNet S_FloatNet.
Local Open Scope list_scope.
Open Scope Q_scope.

Lemma expo_spec x : ~ x == 0 -> pow2 (expo x - 1) <= Qabs x /\ Qabs x < pow2 (expo x).
Proof.
  intros N. assert (P : 0 < Qabs x) by (destruct (Qlt_le_dec 0 x); [rewrite Qabs_pos; lra|rewrite Qabs_neg by assumption; lra]).
  assert (PI : 0 < / Qabs x) by (apply Qinv_lt_0_compat, P).
  destruct (ceil_log2_spec _ PI) as [H1 H2]. unfold expo. set (c := ceil_log2 (/ Qabs x)) in *. clearbody c.
  assert (E : Qabs x * / Qabs x == 1) by (apply Qmult_inv_r; lra). set (y := / Qabs x) in *. clearbody y.
  pose proof (pow2_opp_mul c) as Ec. pose proof (pow2_opp_mul (c - 1)) as Ec'. pose proof (pow2_pos (- c)). pose proof (pow2_pos (- (c - 1))).
  set (a := Qabs x) in *. clearbody a.
  replace (1 - c - 1)%Z with (- c)%Z by lia. replace (1 - c)%Z with (- (c - 1))%Z by lia. split.
  - setoid_replace (pow2 (- c)) with (a * (y * pow2 (- c))) by (rewrite Qmult_assoc, E; ring). setoid_replace a with (a * (pow2 c * pow2 (- c))) at 2 by (rewrite Ec; ring).
    apply Qmult_le_l; [exact P|]. apply Qmult_le_compat_r; [exact H1|lra].
  - setoid_replace (pow2 (- (c - 1))) with (a * (y * pow2 (- (c - 1)))) by (rewrite Qmult_assoc, E; ring). setoid_replace a with (a * (pow2 (c - 1) * pow2 (- (c - 1)))) at 1 by (rewrite Ec'; ring).
    apply Qmult_lt_l; [exact P|]. apply Qmult_lt_compat_r; [assumption|exact H2].
Qed.
Lemma expo_comp x y : ~ x == 0 -> x == y -> expo x = expo y.
Proof.
  intros N E. unfold expo. f_equal. apply ceil_log2_comp; [|rewrite E; reflexivity]. apply Qinv_lt_0_compat.
  destruct (Qlt_le_dec 0 x); [rewrite Qabs_pos; lra|rewrite Qabs_neg by assumption; lra].
Qed.
#[global] Instance fl32_Proper : Proper (Qeq ==> Qeq) fl32.
Proof.
  intros x y E. unfold fl32. destruct (Qeq_bool x 0) eqn:B; destruct (Qeq_bool y 0) eqn:B'; try reflexivity.
  - apply Qeq_bool_iff in B. apply Qeq_bool_neq in B'. exfalso. apply B'. rewrite <- E. exact B.
  - apply Qeq_bool_iff in B'. apply Qeq_bool_neq in B. exfalso. apply B. rewrite E. exact B'.
  - apply Qeq_bool_neq in B. rewrite (expo_comp x y B E). cbv zeta. rewrite E. reflexivity.
Qed.
Lemma Q2R_0 : Q2R 0 = 0%R. Proof. unfold Q2R. cbn. Coq.micromega.Lra.lra. Qed.
Lemma Q2R_half : Q2R (1#2) = (/ 2)%R. Proof. unfold Q2R. cbn. Coq.micromega.Lra.lra. Qed.
Lemma Zfloor_Q2R y : Zfloor (Q2R y) = Qfloor y.
Proof.
  apply Zfloor_imp. rewrite <- !Q2R_inject. split; [apply Qle_Rle, Qfloor_le|apply Qlt_Rlt, Qlt_floor].
Qed.
Lemma ZnearestE_Q2R y : ZnearestE (Q2R y) = round_even y.
Proof.
  pose proof (round_even_bound y) as B. destruct (Qlt_le_dec (Qabs (inject_Z (round_even y) - y)) (1#2)) as [L|L].
  - apply Znearest_imp. rewrite Rabs_minus_sym, <- Q2R_inject, <- Q2R_minus, <- Q2R_abs, <- Q2R_half. apply Qlt_Rlt, L.
  - (* a tie *)
    assert (T : y == inject_Z (Qfloor y) + (1#2)).
    { pose proof (Qfloor_le y). pose proof (Qlt_floor y) as U. rewrite inject_Z_plus in U. change (inject_Z 1) with 1 in U.
      revert B L. apply Qabs_case; intros S B L.
      - (* n = y + 1/2 *) assert (E : y == inject_Z (round_even y) - (1#2)) by lra. 
        assert (F : Qfloor y = (round_even y - 1)%Z).
        { apply Z.le_antisymm; [|]. + assert (inject_Z (Qfloor y) < inject_Z (round_even y)) by lra. rewrite <- Zlt_Qlt in *. lia.
          + assert (A : inject_Z (round_even y) < inject_Z (Qfloor y + 2)) by (rewrite inject_Z_plus; change (inject_Z 2) with 2; lra). rewrite <- Zlt_Qlt in A. lia. }
        rewrite F. unfold Z.sub. rewrite inject_Z_plus. change (inject_Z (-(1))) with (-(1)). lra.
      - assert (E : y == inject_Z (round_even y) + (1#2)) by lra.
        assert (F : Qfloor y = round_even y).
        { apply Z.le_antisymm. + assert (A : inject_Z (Qfloor y) < inject_Z (round_even y + 1)) by (rewrite inject_Z_plus; change (inject_Z 1) with 1; lra). rewrite <- Zlt_Qlt in A. lia.
          + assert (A : inject_Z (round_even y) < inject_Z (Qfloor y + 1)) by (rewrite inject_Z_plus; change (inject_Z 1) with 1; lra). rewrite <- Zlt_Qlt in A. lia. }
        rewrite F. lra. }
    pose proof (round_even_tie y _ T) as EV.
    unfold ZnearestE, Znearest. rewrite Zfloor_Q2R.
    assert (EQ : (Q2R y - IZR (Qfloor y))%R = (/ 2)%R) by (rewrite (Qeq_eqR _ _ T), Q2R_plus, Q2R_inject, Q2R_half; ring).
    rewrite EQ, Rcompare_Eq by reflexivity. set (n := Qfloor y) in *.
    assert (C : round_even y = n \/ round_even y = (n + 1)%Z).
    { set (w := round_even y) in *. clearbody w. clear L. revert B. apply Qabs_case; intros S B.
      - assert (A1 : inject_Z w <= inject_Z (n + 1)) by (rewrite inject_Z_plus; change (inject_Z 1) with 1; lra). rewrite <- Zle_Qle in A1.
        assert (A2 : inject_Z n < inject_Z w) by lra. rewrite <- Zlt_Qlt in A2. right. lia.
      - assert (A1 : inject_Z w < inject_Z (n + 1)) by (rewrite inject_Z_plus; change (inject_Z 1) with 1; lra). rewrite <- Zlt_Qlt in A1.
        assert (A2 : inject_Z n <= inject_Z w) by lra. rewrite <- Zle_Qle in A2. left. lia. }
    assert (CE : Zceil (Q2R y) = (n + 1)%Z).
    { rewrite Zceil_floor_neq; rewrite Zfloor_Q2R; [reflexivity|]. fold n. intros X. rewrite X in EQ. assert (Z0 : (Q2R y - Q2R y = 0)%R) by ring. rewrite Z0 in EQ. Coq.micromega.Lra.lra. }
    rewrite CE. destruct (Z.even n) eqn:EN; cbn [negb].
    + destruct C as [C|C]; [congruence|]. rewrite C, Z.even_add, EN in EV. discriminate.
    + destruct C as [C|C]; [congruence|]. congruence.
Qed.

Lemma Q2R_nz x : ~ x == 0 -> Q2R x <> 0%R.
Proof. intros N E. apply N. apply eqR_Qeq. rewrite E, Q2R_0. reflexivity. Qed.
Lemma mag_Q2R x : ~ x == 0 -> (mag radix2 (Q2R x) : Z) = expo x.
Proof.
  intros N. destruct (expo_spec x N) as [H1 H2]. apply mag_unique. rewrite <- Q2R_abs, <- !Q2R_pow2. split; [apply Qle_Rle, H1|apply Qlt_Rlt, H2].
Qed.
Lemma Q2R_fl32 x : Q2R (fl32 x) = b32 (Q2R x).
Proof.
  unfold fl32. destruct (Qeq_bool x 0) eqn:B.
  - apply Qeq_bool_iff in B. rewrite (Qeq_eqR _ _ B), Q2R_0. symmetry. apply b32_zero.
  - apply Qeq_bool_neq in B. cbv zeta. unfold b32, round, scaled_mantissa, cexp. rewrite (mag_Q2R x B). unfold FLT_exp.
    replace (Z.max (expo x - 24) (-149)) with (Z.max (-149) (expo x - 24)) by lia. set (e := Z.max _ _).
    unfold F2R. cbn [Fnum Fexp]. rewrite Q2R_mult, Q2R_inject, Q2R_pow2. rewrite <- ZnearestE_Q2R, Q2R_mult, Q2R_pow2. reflexivity.
Qed.
Lemma Qle_Q2R x y : (Q2R x <= Q2R y)%R -> x <= y. Proof. apply Rle_Qle. Qed.
Lemma fl32_mono x y : x <= y -> fl32 x <= fl32 y.
Proof. intros H. apply Rle_Qle. rewrite !Q2R_fl32. apply b32_mono, Qle_Rle, H. Qed.
(** ** representable values *)
Definition rep (x : Q) : Prop := exists z e, x == inject_Z z * pow2 e /\ (Z.abs z <= 2 ^ 24)%Z /\ (-149 <= e)%Z.
#[global] Instance rep_Proper : Proper (Qeq ==> iff) rep.
Proof. intros x y E. split; intros (z & e & H & R); exists z, e; (split; [|exact R]); [rewrite <- E|rewrite E]; exact H. Qed.
Lemma fl32_rep x : rep x -> fl32 x == x.
Proof.
  intros (z & e & E & Hz & He). apply eqR_Qeq. rewrite Q2R_fl32, (Qeq_eqR _ _ E), Q2R_mult, Q2R_inject, Q2R_pow2. apply b32_dyadic; assumption.
Qed.
Lemma fl_rep x : rep x -> Qabs x < pow2 128 -> exists v, fl x = Some v /\ v == x.
Proof.
  intros R B. unfold fl. cbv zeta. destruct (Qle_bool _ _) eqn:L; [|eexists; split; [reflexivity|apply fl32_rep, R]].
  apply Qle_bool_iff in L. rewrite (fl32_rep x R) in L. lra.
Qed.
Lemma fl_comp x y v : x == y -> fl x = Some v -> exists w, fl y = Some w /\ w == v.
Proof.
  intros E. unfold fl. cbv zeta. pose proof (fl32_Proper x y E) as F. destruct (Qle_bool (pow2 128) (Qabs (fl32 x))) eqn:L; [discriminate|]. intros [= <-].
  destruct (Qle_bool (pow2 128) (Qabs (fl32 y))) eqn:L'; [|eexists; split; [reflexivity|symmetry; exact F]].
  apply Qle_bool_iff in L'. rewrite <- F in L'. apply Qle_bool_iff in L'. congruence.
Qed.

(** ** multiples of a power of two *)
Definition mult (e : Z) (x : Q) : Prop := exists z, x == inject_Z z * pow2 e.
#[global] Instance mult_Proper e : Proper (Qeq ==> iff) (mult e).
Proof. intros x y E. split; intros (z & H); exists z; [rewrite <- E|rewrite E]; exact H. Qed.
Lemma is_int_spec x : is_int x = true <-> exists z, x == inject_Z z.
Proof.
  unfold is_int. rewrite Qeq_bool_iff. split; [intros E; eexists; symmetry; exact E|].
  intros (z & E). rewrite E. rewrite Qfloor_Z. reflexivity.
Qed.
Lemma multiple_spec e x : multiple e x = true <-> mult e x.
Proof.
  unfold multiple, mult. rewrite is_int_spec. split; intros (z & E); exists z.
  - rewrite <- E, <- Qmult_assoc, <- pow2_add. replace (- e + e)%Z with 0%Z by lia. rewrite pow2_0. ring.
  - rewrite E, <- Qmult_assoc, pow2_opp_mul. ring.
Qed.
Lemma mult_plus e x y : mult e x -> mult e y -> mult e (x + y).
Proof. intros (a & Ea) (b & Eb). exists (a + b)%Z. rewrite Ea, Eb, inject_Z_plus. ring. Qed.
Lemma mult_opp e x : mult e x -> mult e (- x).
Proof. intros (a & Ea). exists (- a)%Z. rewrite Ea, inject_Z_opp. ring. Qed.
Lemma mult_0 e : mult e 0.
Proof. exists 0%Z. ring. Qed.
Lemma mult_int e x z : mult e x -> mult e (inject_Z z * x).
Proof. intros (a & Ea). exists (z * a)%Z. rewrite Ea, inject_Z_mult. ring. Qed.
Lemma mult_weaken e e' x : (e <= e')%Z -> mult e' x -> mult e x.
Proof.
  intros H (z & E). exists (z * 2 ^ (e' - e))%Z. rewrite E, inject_Z_mult, <- (pow2_inject (e' - e)) by lia. rewrite <- Qmult_assoc, <- pow2_add.
  replace (e' - e + e)%Z with e' by lia. reflexivity.
Qed.
Lemma mult_scale e f x : mult e x -> mult (e + f) (x * pow2 f).
Proof. intros (z & E). exists z. rewrite E, pow2_add. ring. Qed.
Lemma mult_bound e n z x : x == inject_Z z * pow2 e -> (0 <= n)%Z -> (Z.abs z <= 2 ^ n)%Z <-> Qabs x <= pow2 (n + e).
Proof.
  intros E Hn. rewrite E, Qabs_Qmult, (Qabs_pos (pow2 e)) by (apply Qlt_le_weak, pow2_pos). rewrite pow2_add, (pow2_inject n Hn).
  change (Qabs (inject_Z z)) with (inject_Z (Z.abs z)). rewrite Qmult_le_r by apply pow2_pos. rewrite <- Zle_Qle. reflexivity.
Qed.
Lemma rep_mult e x : mult e x -> (-149 <= e)%Z -> Qabs x <= pow2 (24 + e) -> rep x.
Proof. intros (z & E) He H. exists z, e. split; [exact E|]. split; [|exact He]. apply (mult_bound e 24 z x E); [lia|exact H]. Qed.

(** ** carried values *)
Lemma carried_spec n x : (1 <= n)%Z -> carried n x = true <->
  (exists z e, x == inject_Z z * pow2 e /\ (Z.abs z <= 2 ^ n)%Z /\ (-149 <= e)%Z) /\ Qabs x < pow2 128.
Proof.
  intros Hn. unfold carried. rewrite !andb_true_iff, orb_true_iff, Qeq_bool_iff, !multiple_spec.
  assert (LT : qlt_b (Qabs x) (pow2 128) = true <-> Qabs x < pow2 128).
  { unfold qlt_b. destruct (Qle_bool (pow2 128) (Qabs x)) eqn:B; cbn [negb]; [apply Qle_bool_iff in B; split; [discriminate|lra]|]. split; [intros _|reflexivity].
    apply Qnot_le_lt. intros C. apply Qle_bool_iff in C. congruence. }
  rewrite LT. split.
  - intros [[A M] L]. split; [|exact L]. destruct (Qeq_dec x 0) as [Z0|NZ].
    + exists 0%Z, 0%Z. split; [rewrite Z0; ring|]. split; [rewrite Z.abs_0; apply Z.pow_nonneg; lia|lia].
    + destruct A as [A|A]; [contradiction|]. destruct (expo_spec x NZ) as [_ H2]. destruct (Z_le_gt_dec (-149) (expo x - n)) as [G|G].
      * destruct A as (z & E). exists z, (expo x - n)%Z. split; [exact E|]. split; [|exact G]. apply (mult_bound _ n z x E); [lia|].
        replace (n + (expo x - n))%Z with (expo x) by lia. lra.
      * destruct M as (z & E). exists z, (-149)%Z. split; [exact E|]. split; [|lia]. apply (mult_bound _ n z x E); [lia|].
        assert (pow2 (expo x) <= pow2 (n + -149)) by (apply pow2_le; lia). lra.
  - intros [(z & e & E & Hz & He) L]. split; [|exact L]. split; [|apply (mult_weaken _ e); [exact He|exists z; exact E]].
    destruct (Qeq_dec x 0) as [Z0|NZ]; [left; exact Z0|right]. destruct (expo_spec x NZ) as [H1 _].
    assert (B : Qabs x <= pow2 (n + e)) by (apply (mult_bound e n z x E); [lia|exact Hz]).
    assert (EL : (expo x - 1 <= n + e)%Z) by (apply pow2_le_inv; lra).
    destruct (Z.eq_dec (expo x - 1) (n + e)) as [EE|NE].
    + apply (mult_weaken _ (e + 1)); [lia|]. rewrite EE in H1. assert (EA : Qabs x == pow2 (n + e)) by lra.
      assert (M1 : mult (e + 1) (pow2 (n + e))). { exists (2 ^ (n - 1))%Z. rewrite <- (pow2_inject (n - 1)) by lia. rewrite <- pow2_add. replace (n - 1 + (e + 1))%Z with (n + e)%Z by lia. reflexivity. }
      rewrite <- EA in M1. revert M1. apply Qabs_case; intros _ M1; [exact M1|]. apply mult_opp in M1. setoid_replace x with (- - x) by ring. exact M1.
    + apply (mult_weaken _ e); [lia|]. exists z; exact E.
Qed.
Lemma carried_rep x : carried 24 x = true -> rep x /\ Qabs x < pow2 128.
Proof. intros H. apply carried_spec in H; [exact H|lia]. Qed.
Lemma rep_carried x : rep x -> Qabs x < pow2 128 -> carried 24 x = true.
Proof. intros H L. apply carried_spec; [lia|]. split; [exact H|exact L]. Qed.
Lemma carried_comp n x y : (1 <= n)%Z -> x == y -> carried n x = carried n y.
Proof.
  intros Hn E. apply eq_true_iff_eq. rewrite !carried_spec by exact Hn. split; intros [(z & e & H & R) L]; (split; [exists z, e; split; [|exact R]|]); try (rewrite <- E; assumption); rewrite E; assumption.
Qed.
Lemma fl_carried x : carried 24 x = true -> exists v, fl x = Some v /\ v == x.
Proof. intros H. apply carried_rep in H. apply fl_rep; apply H. Qed.

(** ** sums *)
Definition fits (e : Z) (l : list Q) : Prop := (-149 <= e <= 103)%Z /\ Forall (mult e) l /\ qsum (map Qabs l) <= pow2 (24 + e).
Lemma qabs_sum l : Qabs (qsum l) <= qsum (map Qabs l).
Proof.
  induction l as [|x l IH]; [apply Qle_refl|]. cbn [map]. rewrite !qsum_cons. eapply Qle_trans; [apply Qabs_triangle|]. lra.
Qed.
Lemma qabs_nonneg l : 0 <= qsum (map Qabs l).
Proof. induction l as [|x l IH]; [apply Qle_refl|]. cbn [map]. rewrite qsum_cons. pose proof (Qabs_nonneg x). lra. Qed.
Lemma sum_fits_spec l : sum_fits l = true -> exists e, fits e l.
Proof.
  unfold sum_fits. cbv zeta. set (s := qsum (map Qabs l)). rewrite orb_true_iff, andb_true_iff, Qeq_bool_iff, Z.leb_le, forallb_forall.
  intros [Z0|[H1 H2]].
  - exists 0%Z. split; [lia|]. split; [|fold s; rewrite Z0; apply Qlt_le_weak, pow2_pos]. unfold s in Z0. clear s. induction l as [|x l IH]; [constructor|].
    cbn [map] in Z0. rewrite qsum_cons in Z0. pose proof (Qabs_nonneg x). pose proof (qabs_nonneg l).
    constructor; [|apply IH; lra]. assert (X : Qabs x == 0) by lra. assert (X0 : x == 0). { pose proof (Qle_Qabs x). pose proof (Qle_Qabs (- x)) as N. rewrite Qabs_opp in N. lra. }
    rewrite X0. apply mult_0.
  - eexists. split; [split; [|exact H1]; lia|]. split; [apply Forall_forall; intros x Hx; apply multiple_spec, H2, Hx|]. fold s.
    pose proof (qabs_nonneg l) as N. fold s in N. destruct (Qlt_le_dec 0 s) as [P|P]; [|eapply Qle_trans; [exact P|apply Qlt_le_weak, pow2_pos]].
    destruct (ceil_log2_spec s P) as [U _]. eapply Qle_trans; [exact U|]. apply pow2_le. lia.
Qed.
Lemma fits_app e l l' : fits e (l ++ l') -> fits e l /\ fits e l'.
Proof.
  intros (H1 & H2 & H3). apply Forall_app in H2. destruct H2 as [F F']. rewrite map_app, qsum_app in H3. pose proof (qabs_nonneg l). pose proof (qabs_nonneg l').
  split; (split; [exact H1|]); split; (assumption || lra).
Qed.
Lemma fits_rep e l : fits e l -> rep (qsum l) /\ Qabs (qsum l) < pow2 128.
Proof.
  intros (H1 & H2 & H3). pose proof (qabs_sum l) as A. assert (M : mult e (qsum l)).
  { clear A H3. induction H2 as [|x l Hx Hl IH]; [apply mult_0|]. rewrite qsum_cons. apply mult_plus; assumption. }
  split; [apply (rep_mult e); [exact M|lia|lra]|]. assert (pow2 (24 + e) < pow2 128) by (apply pow2_lt; lia). lra.
Qed.
Lemma fl_fits e l x : fits e l -> x == qsum l -> exists v, fl x = Some v /\ v == qsum l.
Proof.
  intros F E. destruct (fits_rep e l F) as [R B]. destruct (fl_rep (qsum l) R B) as (v & Ev & E'). destruct (fl_comp (qsum l) x v (Qeq_sym _ _ E) Ev) as (w & Ew & Eq).
  exists w. split; [exact Ew|]. rewrite Eq. exact E'.
Qed.
Lemma qsum1 x : qsum [x] == x. Proof. rewrite qsum_cons. change (qsum []) with 0. ring. Qed.
Lemma feval_exact e t : fits e (map tval (fterms t)) -> exists v, feval t = Some v /\ v == qsum (map tval (fterms t)).
Proof.
  induction t as [|c|a b|l IHl r IHr|a b t IH]; cbn [fterms feval]; intros F.
  - exists 0. split; reflexivity.
  - exists c. split; [reflexivity|]. cbn [map tval]. rewrite qsum1. reflexivity.
  - apply (fl_fits e); [exact F|]. cbn [map tval]. rewrite qsum1. reflexivity.
  - rewrite map_app in F |- *. destruct (fits_app e _ _ F) as [Fl Fr]. destruct (IHl Fl) as (x & -> & Ex). destruct (IHr Fr) as (y & -> & Ey). cbn [bind].
    apply (fl_fits e); [exact F|]. rewrite Ex, Ey, qsum_app. reflexivity.
  - cbn [map tval] in F |- *. destruct (fits_app e [a * b] _ F) as [_ Ft]. destruct (IH Ft) as (y & -> & Ey). cbn [bind].
    apply (fl_fits e); [exact F|]. rewrite Ey, qsum_cons. reflexivity.
Qed.
