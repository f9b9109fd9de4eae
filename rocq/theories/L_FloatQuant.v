(** Lemmas for C61: the quantizer in binary32. *)
From Verif Require Import Num M_Fixed S_Fixed L_Fixed M_Ebops L_Ebops.
From Coq Require Import String.
From Verif Require Import M_State M_Wrapper M_Mapper M_Contr M_Pow2 M_Patch M_Ops M_Mirror M_Trace M_Net M_FloatNet S_FloatNet L_FloatNum.
Local Open Scope list_scope.
Open Scope Q_scope.

Lemma round_even_near w d : Qabs d < 1#2 -> round_even (inject_Z w + d) = w.
Proof.
  intros H. pose proof (round_even_bound (inject_Z w + d)) as B. set (n := round_even _) in *. clearbody n.
  apply Qabs_Qlt_condition in H. apply Qabs_Qle_condition in B.
  assert (A1 : inject_Z n < inject_Z (w + 1)) by (rewrite inject_Z_plus; change (inject_Z 1) with 1; lra).
  assert (A2 : inject_Z w < inject_Z (n + 1)) by (rewrite inject_Z_plus; change (inject_Z 1) with 1; lra). rewrite <- Zlt_Qlt in *. lia.
Qed.
Lemma round_even_half w : Z.even w = true -> round_even (inject_Z w + (1#2)) = w.
Proof.
  intros EW. pose proof (round_even_tie (inject_Z w + (1#2)) w (Qeq_refl _)) as T. pose proof (round_even_bound (inject_Z w + (1#2))) as B. set (n := round_even _) in *. clearbody n.
  apply Qabs_Qle_condition in B.
  assert (A1 : inject_Z n <= inject_Z (w + 1)) by (rewrite inject_Z_plus; change (inject_Z 1) with 1; lra).
  assert (A2 : inject_Z w <= inject_Z n) by lra. rewrite <- Zle_Qle in *. assert (C : n = w \/ n = (w + 1)%Z) by lia. destruct C as [C|C]; [exact C|].
  rewrite C, Z.even_add, EW in T. discriminate.
Qed.
Lemma abs_int m : Qabs (inject_Z m) = inject_Z (Z.abs m). Proof. reflexivity. Qed.

(** + 0.5 and floor, on a value of at most 23 bits *)
Lemma half_up_int m z g : m = (z * 2 ^ g)%Z -> (0 <= g)%Z -> (Z.abs z <= 2 ^ 23)%Z -> Qabs (inject_Z m) < pow2 128 ->
  exists s, fl (inject_Z m + (1#2)) = Some s /\ Qfloor s = m.
Proof.
  intros Em Hg Hz L. destruct (Z_le_gt_dec (Z.abs (2 * m + 1)) (2 ^ 24)) as [S|S].
  - assert (R : rep (inject_Z m + (1#2))). { exists (2 * m + 1)%Z, (-1)%Z. split; [|split; [exact S|lia]]. rewrite inject_Z_plus, inject_Z_mult. change (pow2 (-1)) with (1#2). change (inject_Z 2) with 2. change (inject_Z 1) with 1. ring. }
    assert (B : Qabs (inject_Z m + (1#2)) < pow2 128).
    { eapply Qle_lt_trans; [apply Qabs_triangle|]. change (Qabs (1#2)) with (1#2). assert (A : Qabs (inject_Z m) <= inject_Z (2 ^ 24)) by (rewrite abs_int, <- Zle_Qle; lia).
      assert (inject_Z (2 ^ 24) + (1#2) < pow2 128) by reflexivity. lra. }
    destruct (fl_rep _ R B) as (s & Es & E). exists s. split; [exact Es|]. rewrite E. apply Z.le_antisymm.
    + assert (A : inject_Z (Qfloor (inject_Z m + (1#2))) < inject_Z (m + 1)) by (rewrite inject_Z_plus; change (inject_Z 1) with 1; pose proof (Qfloor_le (inject_Z m + (1#2))); lra). rewrite <- Zlt_Qlt in A. lia.
    + rewrite <- (Qfloor_Z m) at 1. apply Qfloor_resp_le. lra.
  - set (x := inject_Z m + (1#2)).
    assert (AX : Qabs x <= inject_Z (Z.abs m) + (1#2)) by (unfold x; eapply Qle_trans; [apply Qabs_triangle|]; rewrite abs_int; change (Qabs (1#2)) with (1#2); lra).
    assert (AL : inject_Z (2 ^ 23) <= Qabs x).
    { unfold x. destruct (Z_le_gt_dec 0 m) as [P|P].
      - rewrite Qabs_pos; [|assert (0 <= inject_Z m) by (change 0 with (inject_Z 0); rewrite <- Zle_Qle; lia); lra]. assert (A : inject_Z (2 ^ 23) <= inject_Z m) by (rewrite <- Zle_Qle; lia). lra.
      - assert (A : inject_Z m + 1 <= - inject_Z (2 ^ 23)). { rewrite <- inject_Z_opp. change 1 with (inject_Z 1). rewrite <- inject_Z_plus, <- Zle_Qle. lia. }
        rewrite Qabs_neg; [lra|]. assert (0 <= inject_Z (2 ^ 23)) by discriminate. lra. }
    assert (NZ : ~ x == 0) by (intros E; rewrite E in AL; compute in AL; apply AL; reflexivity).
    destruct (expo_spec x NZ) as [H1 H2]. rewrite <- pow2_inject in AL by lia.
    assert (E24 : (23 < expo x)%Z) by (apply pow2_lt_inv; lra).
    set (e := (expo x - 24)%Z). assert (He : (0 <= e)%Z) by lia.
    assert (Eg : (e <= g)%Z).
    { assert (A : pow2 (23 + e) < inject_Z (Z.abs m + 1)) by (rewrite inject_Z_plus; change (inject_Z 1) with 1; replace (expo x - 1)%Z with (23 + e)%Z in H1 by lia; lra).
      rewrite pow2_inject in A by lia. rewrite <- Zlt_Qlt in A. assert (B : (2 ^ (23 + e) <= Z.abs m)%Z) by lia. rewrite Em, Z.abs_mul, (Z.abs_eq (2 ^ g)) in B by (apply Z.pow_nonneg; lia).
      assert (C : (2 ^ (23 + e) <= 2 ^ (23 + g))%Z) by (rewrite (Z.pow_add_r 2 23 g) by lia; assert (0 <= 2 ^ g)%Z by (apply Z.pow_nonneg; lia); nia).
      apply Z.pow_le_mono_r_iff in C; lia. }
    set (w := (z * 2 ^ (g - e))%Z). assert (Ew : m = (w * 2 ^ e)%Z) by (unfold w; rewrite Em, <- Z.mul_assoc, <- Z.pow_add_r by lia; do 2 f_equal; lia).
    assert (EM : inject_Z m == inject_Z w * pow2 e) by (rewrite Ew, inject_Z_mult, pow2_inject by lia; reflexivity).
    assert (EV : e = 0%Z -> Z.even w = true).
    { intros E0. rewrite E0, Z.pow_0_r, Z.mul_1_r in Ew. rewrite <- Ew, Em. rewrite Z.even_mul. destruct (Z.eq_dec g 0) as [G0|G0].
      - subst g. rewrite Z.pow_0_r, Z.mul_1_r in Em. assert (ZZ : z = (2 ^ 23)%Z \/ z = (- 2 ^ 23)%Z) by lia. destruct ZZ as [-> | ->]; reflexivity.
      - rewrite Z.even_pow by lia. apply orb_true_r. }
    assert (F : fl32 x == inject_Z m).
    { unfold fl32. destruct (Qeq_bool x 0) eqn:Q0; [apply Qeq_bool_iff in Q0; contradiction|]. cbv zeta. replace (Z.max (-149) (expo x - 24)) with e by lia.
      rewrite EM. apply Qmult_comp; [|reflexivity]. assert (RE : round_even (x * pow2 (- e)) = w); [|rewrite RE; reflexivity].
      assert (X : x * pow2 (- e) == inject_Z w + pow2 (- e - 1)).
      { unfold x. rewrite EM. unfold Z.sub. rewrite pow2_add. change (pow2 (-(1))) with (1#2). setoid_replace ((inject_Z w * pow2 e + (1#2)) * pow2 (- e)) with (inject_Z w * (pow2 e * pow2 (- e)) + (1#2) * pow2 (- e)) by ring. rewrite pow2_opp_mul. ring. }
      rewrite X. destruct (Z.eq_dec e 0) as [E0|E0].
      - rewrite E0. change (pow2 (- 0 - 1)) with (1#2). apply round_even_half, EV, E0.
      - apply round_even_near. rewrite Qabs_pos by (apply Qlt_le_weak, pow2_pos). assert (pow2 (- e - 1) <= pow2 (-2)) by (apply pow2_le; lia). change (pow2 (-2)) with (1#4) in *. lra. }
    unfold fl. cbv zeta. destruct (Qle_bool _ _) eqn:O.
    + apply Qle_bool_iff in O. fold x in O. rewrite F in O. lra.
    + eexists. split; [reflexivity|]. fold x. rewrite F. apply Qfloor_Z.
Qed.
Lemma half_up y z g : y == inject_Z z * pow2 g -> (Z.abs z <= 2 ^ 23)%Z -> Qabs y < pow2 128 -> exists s, fl (y + (1#2)) = Some s /\ Qfloor s = Qfloor (y + (1#2)).
Proof.
  intros E Hz L. destruct (Z_le_gt_dec 0 g) as [G|G].
  - set (m := (z * 2 ^ g)%Z). assert (EM : y == inject_Z m) by (unfold m; rewrite E, inject_Z_mult, (pow2_inject g G); reflexivity).
    destruct (half_up_int m z g eq_refl G Hz) as (s & Es & Fs); [rewrite <- EM; exact L|].
    destruct (fl_comp _ (y + (1#2)) s ltac:(rewrite EM; reflexivity) Es) as (s' & Es' & Eq). exists s'. split; [exact Es'|]. rewrite Eq, Fs, EM. symmetry. apply Z.le_antisymm.
    + assert (A : inject_Z (Qfloor (inject_Z m + (1#2))) < inject_Z (m + 1)) by (rewrite inject_Z_plus; change (inject_Z 1) with 1; pose proof (Qfloor_le (inject_Z m + (1#2))); lra). rewrite <- Zlt_Qlt in A. lia.
    + rewrite <- (Qfloor_Z m) at 1. apply Qfloor_resp_le. lra.
  - assert (B : Qabs y <= pow2 (23 + g)) by (apply (mult_bound g 23 z y E); [lia|exact Hz]). destruct (Z_le_gt_dec (-24) g) as [G2|G2].
    + assert (R : rep (y + (1#2))).
      { apply (rep_mult g); [|lia|].
        - apply mult_plus; [exists z; exact E|]. apply (mult_weaken g (-1)); [lia|]. exists 1%Z. reflexivity.
        - eapply Qle_trans; [apply Qabs_triangle|]. change (Qabs (1#2)) with (pow2 (-1)). assert (pow2 (-1) <= pow2 (23 + g)) by (apply pow2_le; lia).
          pose proof (pow2_succ (23 + g)) as D. replace (23 + g + 1)%Z with (24 + g)%Z in D by lia. lra. }
      assert (B2 : Qabs (y + (1#2)) < pow2 128).
      { eapply Qle_lt_trans; [apply Qabs_triangle|]. change (Qabs (1#2)) with (1#2). assert (pow2 (23 + g) <= pow2 22) by (apply pow2_le; lia). assert (pow2 22 + (1#2) < pow2 128) by reflexivity. lra. }
      destruct (fl_rep _ R B2) as (s & Es & Eq). exists s. split; [exact Es|]. rewrite Eq. reflexivity.
    + assert (B4 : Qabs y <= 1#4) by (assert (pow2 (23 + g) <= pow2 (-2)) by (apply pow2_le; lia); change (pow2 (-2)) with (1#4) in *; lra).
      apply Qabs_Qle_condition in B4. assert (F1 : fl32 (1#4) <= fl32 (y + (1#2))) by (apply fl32_mono; lra). assert (F2 : fl32 (y + (1#2)) <= fl32 (3#4)) by (apply fl32_mono; lra).
      change (fl32 (1#4)) with (fl32 (1#4)) in F1. assert (Q1 : fl32 (1#4) == 1#4) by reflexivity. assert (Q2 : fl32 (3#4) == 3#4) by reflexivity. rewrite Q1 in F1. rewrite Q2 in F2.
      unfold fl. cbv zeta. destruct (Qle_bool _ _) eqn:O.
      * apply Qle_bool_iff in O. rewrite Qabs_pos in O by lra. assert (3#4 < pow2 128) by reflexivity. lra.
      * eexists. split; [reflexivity|]. 
        assert (Z0 : forall u, 1#4 <= u -> u <= 3#4 -> Qfloor u = 0%Z).
        { intros u U1 U2. pose proof (Qfloor_le u) as A. pose proof (Qlt_floor u) as C. rewrite inject_Z_plus in C. change (inject_Z 1) with 1 in C.
          assert (A1 : inject_Z (Qfloor u) < inject_Z 1) by (change (inject_Z 1) with 1; lra). assert (A2 : inject_Z (-1) < inject_Z (Qfloor u)) by (change (inject_Z (-1)) with (-(1)); lra).
          rewrite <- Zlt_Qlt in *. lia. }
        rewrite !Z0; lra || reflexivity.
Qed.

Lemma fl_pow2 e : (-149 <= e <= 127)%Z -> exists p, fl (pow2 e) = Some p /\ p == pow2 e.
Proof.
  intros H. apply fl_rep; [exists 1%Z, e; split; [change (inject_Z 1) with 1; ring|lia]|]. rewrite Qabs_pos by (apply Qlt_le_weak, pow2_pos). apply pow2_lt. lia.
Qed.
Lemma fl_of x y v : fl x = Some v -> v == x -> x == y -> exists w, fl y = Some w /\ w == y.
Proof. intros F V E. destruct (fl_comp x y v E F) as (w & Ew & W). exists w. split; [exact Ew|]. rewrite W, V. exact E. Qed.
Lemma fl_carried' x y : carried 24 x = true -> y == x -> exists v, fl y = Some v /\ v == x.
Proof. intros H E. destruct (fl_carried x H) as (v & F & V). destruct (fl_of x y v F V (Qeq_sym _ _ E)) as (w & W & Ew). exists w. split; [exact W|]. rewrite Ew. exact E. Qed.
Lemma fl_rep' x y : rep x -> Qabs x < pow2 128 -> y == x -> exists v, fl y = Some v /\ v == x.
Proof. intros R B E. apply fl_carried'; [apply rep_carried; assumption|exact E]. Qed.
Lemma Qeq_bool_false x y : ~ x == y -> Qeq_bool x y = false.
Proof. intros N. destruct (Qeq_bool x y) eqn:E; [apply Qeq_bool_iff in E; contradiction|reflexivity]. Qed.

Lemma fl_round_exact rm f x x' : (-126 <= f <= 126)%Z -> carried (match rm with RND => 23 | _ => 24 end) x = true -> carried 24 (x * pow2 f) = true -> carried 24 (round_f rm f x) = true ->
  x' == x -> exists v, fl_round rm f x' = Some v /\ v == round_f rm f x.
Proof.
  intros Hf Hx Hy Hr E. unfold fl_round. destruct (fl_pow2 f ltac:(lia)) as (p & -> & Ep). cbn [bind].
  rewrite Qeq_bool_false by (rewrite Ep; apply pow2_nz).
  destruct (fl_carried' _ (x' * p) Hy ltac:(rewrite E, Ep; reflexivity)) as (y & -> & Ey). cbn [bind].
  assert (R : exists r, match rm with TRN => Some (Qfloor y) | RND => do s <- fl (y + (1#2)); Some (Qfloor s) | RND_CONV => Some (round_even y) end = Some r /\ r = rnd_int rm (x * pow2 f)).
  { destruct rm; cbn [rnd_int].
    - eexists. split; [reflexivity|]. rewrite Ey. reflexivity.
    - apply carried_spec in Hx; [|lia]. destruct Hx as [(z & e & Ez & Hz & _) _]. apply carried_rep in Hy. destruct Hy as [_ By].
      destruct (half_up (x * pow2 f) z (e + f)) as (s & Es & Fs); [rewrite Ez, pow2_add; ring|exact Hz|exact By|].
      destruct (fl_comp _ (y + (1#2)) s ltac:(rewrite Ey; reflexivity) Es) as (s' & -> & Eq). cbn [bind]. eexists. split; [reflexivity|]. rewrite Eq. exact Fs.
    - eexists. split; [reflexivity|]. rewrite Ey. reflexivity. }
  destruct R as (r & -> & ->). cbn [bind]. apply (fl_carried' _ _ Hr). unfold round_f. rewrite Ep. unfold Qdiv. apply Qmult_comp; [reflexivity|].
  assert (P : pow2 f * pow2 (- f) == 1) by apply pow2_opp_mul. pose proof (pow2_nz f). setoid_replace (pow2 (- f)) with (/ pow2 f * (pow2 f * pow2 (- f))) by (field; assumption). rewrite P. ring.
Qed.

Lemma qtrunc_comp x y : x == y -> qtrunc x = qtrunc y.
Proof.
  intros E. unfold qtrunc. destruct (Qle_bool 0 x) eqn:A; destruct (Qle_bool 0 y) eqn:B; try (rewrite E; reflexivity).
  - apply Qle_bool_iff in A. rewrite E in A. apply Qle_bool_iff in A. congruence.
  - apply Qle_bool_iff in B. rewrite <- E in B. apply Qle_bool_iff in B. congruence.
Qed.
#[global] Instance fmod_Proper : Proper (Qeq ==> Qeq ==> Qeq) fmod.
Proof. intros s s' Es m m' Em. unfold fmod. rewrite (qtrunc_comp (s / m) (s' / m')) by (rewrite Es, Em; reflexivity). rewrite Es, Em. reflexivity. Qed.
Lemma fmod_floor s m : 0 < m -> let r := fmod s m in
  (0 <= r -> r == s - inject_Z (Qfloor (s / m)) * m /\ r < m) /\ (r < 0 -> r + m == s - inject_Z (Qfloor (s / m)) * m).
Proof.
  intros Hm. cbv zeta. unfold fmod, qtrunc. assert (SM : s == (s / m) * m) by (field; lra). set (u := s / m) in *. clearbody u.
  assert (FL : inject_Z (Qfloor u) <= u) by apply Qfloor_le. assert (FU : u < inject_Z (Qfloor u) + 1) by (pose proof (Qlt_floor u) as L; rewrite inject_Z_plus in L; exact L).
  destruct (Qle_bool 0 u) eqn:A.
  - split; intros H; [split; [reflexivity|]; rewrite SM; nra|]. exfalso. rewrite SM in H. nra.
  - assert (N : u < 0) by (apply Qnot_le_lt; intros C; apply Qle_bool_iff in C; congruence).
    assert (FL' : inject_Z (Qfloor (- u)) <= - u) by apply Qfloor_le. assert (FU' : - u < inject_Z (Qfloor (- u)) + 1) by (pose proof (Qlt_floor (- u)) as L; rewrite inject_Z_plus in L; exact L).
    set (a := Qfloor u) in *. set (b := Qfloor (- u)) in *. rewrite inject_Z_opp.
    assert (AB : (a = - b \/ a = - b - 1)%Z).
    { assert (C1 : inject_Z a <= inject_Z (- b)) by (rewrite inject_Z_opp; lra). assert (C2 : inject_Z (- b) < inject_Z (a + 2)) by (rewrite inject_Z_opp, inject_Z_plus; change (inject_Z 2) with 2; lra).
      rewrite <- Zle_Qle in C1. rewrite <- Zlt_Qlt in C2. lia. }
    assert (IB : a = (- b)%Z -> inject_Z a == - inject_Z b) by (intros ->; rewrite inject_Z_opp; reflexivity).
    assert (IB' : a = (- b - 1)%Z -> inject_Z a == - inject_Z b - 1) by (intros ->; unfold Z.sub; rewrite inject_Z_plus, inject_Z_opp; reflexivity).
    split; intros H.
    + rewrite SM in H. assert (U : u + inject_Z b >= 0) by (apply Qnot_lt_le; intros C; assert ((u + inject_Z b) * m < 0) by nra; lra).
      assert (EU : u == - inject_Z b) by lra. destruct AB as [AB|AB]; [specialize (IB AB)|specialize (IB' AB); exfalso; lra].
      rewrite IB. split; [ring|]. rewrite SM, EU. lra.
    + destruct AB as [AB|AB]; [specialize (IB AB)|specialize (IB' AB); rewrite IB'; ring].
      exfalso. assert (EU : u == - inject_Z b) by lra. rewrite SM, EU in H. lra.
Qed.
Lemma mult_fmod e s m : mult e s -> mult e m -> mult e (fmod s m).
Proof. intros A B. unfold fmod, Qminus. apply mult_plus; [exact A|]. apply mult_opp, mult_int, B. Qed.
Lemma kz01 k : inject_Z (kz k) == 0 \/ inject_Z (kz k) == 1. Proof. destruct k; [right|left]; reflexivity. Qed.
Lemma clip_comp lo lo' hi hi' x x' : lo == lo' -> hi == hi' -> x == x' -> clip lo hi x == clip lo' hi' x'.
Proof. intros A B C. unfold clip. rewrite A, B, C. reflexivity. Qed.
Lemma fl_overflow_exact om k i f rm x v : (0 < kz k + i + f)%Z -> (-126 <= f <= 126)%Z -> (-126 <= i <= 126)%Z ->
  match om with WRAP => (i + f + kz k <=? 24)%Z && carried 24 (round_f rm f x + inject_Z (kz k) * pow2 i) | _ => (i + f <=? 24)%Z end = true ->
  v == round_f rm f x -> exists y, fl_overflow om k i f v = Some y /\ y == overflow om k i f (round_f rm f x).
Proof.
  intros Hp Hf Hi Hc Ev. assert (Hb : (0 <= i + f)%Z) by (destruct k; cbn [kz] in Hp; lia).
  assert (SAT' : (i + f <= 24)%Z -> exists hi, fl (pow2 i - pow2 (- f)) = Some hi /\ hi == pow2 i - pow2 (- f)).
  { intros H24. apply fl_rep.
    - exists (2 ^ (i + f) - 1)%Z, (- f)%Z. split; [|split; [|lia]].
      + unfold Z.sub at 1. rewrite inject_Z_plus, <- (pow2_inject (i + f) Hb). setoid_replace (pow2 i) with (pow2 (i + f) * pow2 (- f)) by (rewrite <- pow2_add; replace (i + f + - f)%Z with i by lia; reflexivity). change (inject_Z (-(1))) with (-(1)). ring.
      + assert (1 <= 2 ^ (i + f))%Z by (apply (Z.pow_le_mono_r 2 0); lia). assert (2 ^ (i + f) <= 2 ^ 24)%Z by (apply Z.pow_le_mono_r; lia). lia.
    - pose proof (pow2_pos i). pose proof (pow2_pos (- f)). assert (pow2 (- f) <= pow2 i) by (apply pow2_le; lia). assert (pow2 i < pow2 128) by (apply pow2_lt; lia). rewrite Qabs_pos; lra. }
  destruct om; cbn [fl_overflow overflow].
  - apply andb_true_iff in Hc. destruct Hc as [Hw Hc]. apply Z.leb_le in Hw.
    assert (K01 : (0 <= kz k <= 1)%Z) by (destruct k; cbn; lia).
    destruct (fl_pow2 (i + kz k) ltac:(lia)) as (m & -> & Em). cbn [bind].
    assert (B : exists bias, fl (inject_Z (kz k) * pow2 i) = Some bias /\ bias == inject_Z (kz k) * pow2 i).
    { apply fl_rep; [exists (kz k), i; split; [reflexivity|lia]|]. assert (pow2 i < pow2 128) by (apply pow2_lt; lia). pose proof (pow2_pos i). destruct (kz01 k) as [-> | ->]; rewrite Qabs_pos; lra. }
    destruct B as (bias & -> & Eb). cbn [bind]. destruct (fl_carried' _ (v + bias) Hc ltac:(rewrite Ev, Eb; reflexivity)) as (s & -> & Es). cbn [bind].
    rewrite Qeq_bool_false by (rewrite Em; apply pow2_nz).
    set (M := pow2 (i + kz k)) in *. set (BI := inject_Z (kz k) * pow2 i) in *. set (S := round_f rm f x + BI) in *.
    assert (PM : 0 < M) by apply pow2_pos. destruct (fmod_floor S M PM) as [F1 F2]. set (W := S - inject_Z (Qfloor (S / M)) * M) in *.
    assert (MS : mult (- f) S).
    { unfold S, round_f. apply mult_plus; [eexists; reflexivity|]. unfold BI. apply mult_int. apply (mult_weaken (- f) i); [lia|]. exists 1%Z. change (inject_Z 1) with 1. ring. }
    assert (MM : mult (- f) M) by (apply (mult_weaken (- f) (i + kz k)); [lia|]; exists 1%Z; unfold M; change (inject_Z 1) with 1; ring).
    assert (MW : mult (- f) W) by (unfold W, Qminus; apply mult_plus; [exact MS|]; apply mult_opp, mult_int, MM).
    assert (BW : 0 <= W /\ W < M).
    { unfold W. assert (SM : S == (S / M) * M) by (field; lra). set (u := S / M) in *. pose proof (Qfloor_le u). pose proof (Qlt_floor u) as L. rewrite inject_Z_plus in L. change (inject_Z 1) with 1 in L. split; rewrite SM; nra. }
    assert (ML : M <= pow2 (24 + - f)) by (apply pow2_le; lia). assert (M128 : M < pow2 128) by (apply pow2_lt; lia).
    assert (Er : fmod s m == fmod S M) by (rewrite Es, Em; reflexivity).
    assert (R : exists r, (if Qle_bool 0 (fmod s m) then Some (fmod s m) else fl (fmod s m + m)) = Some r /\ r == W).
    { destruct (Qle_bool 0 (fmod s m)) eqn:A.
      - apply Qle_bool_iff in A. rewrite Er in A. eexists. split; [reflexivity|]. rewrite Er. apply F1, A.
      - assert (N : fmod S M < 0) by (rewrite <- Er; apply Qnot_le_lt; intros C; apply Qle_bool_iff in C; congruence).
        apply fl_rep'; [apply (rep_mult (- f)); [exact MW|lia|rewrite Qabs_pos by lra; lra]|rewrite Qabs_pos; lra|]. rewrite Er, Em. apply F2, N. }
    destruct R as (r & -> & ER). cbn [bind].
    apply fl_rep'; [| |rewrite ER, Eb; reflexivity].
    + apply (rep_mult (- f)); [apply mult_plus; [exact MW|]; apply mult_opp; unfold BI; apply mult_int; apply (mult_weaken (- f) i); [lia|]; exists 1%Z; change (inject_Z 1) with 1; ring|lia|].
      assert (BI <= M /\ 0 <= BI). { unfold BI, M. pose proof (pow2_pos i). destruct k; cbn [kz]; [change (inject_Z 1) with 1; rewrite pow2_succ; split; lra|change (inject_Z 0) with 0; split; pose proof (pow2_pos (i + 0)); lra]. }
      apply Qabs_Qle_condition. split; lra.
    + assert (BI <= M /\ 0 <= BI). { unfold BI, M. pose proof (pow2_pos i). destruct k; cbn [kz]; [change (inject_Z 1) with 1; rewrite pow2_succ; split; lra|change (inject_Z 0) with 0; split; pose proof (pow2_pos (i + 0)); lra]. }
      apply Qabs_Qlt_condition. split; lra.
  - apply Z.leb_le in Hc. destruct (fl_pow2 i ltac:(lia)) as (p & -> & Ep). cbn [bind]. destruct (fl_pow2 (- f) ltac:(lia)) as (q & -> & Eq). cbn [bind].
    destruct (SAT' Hc) as (h & Eh & Vh). destruct (fl_of _ (p - q) h Eh Vh ltac:(rewrite Ep, Eq; reflexivity)) as (hi & -> & Ehi). cbn [bind].
    eexists. split; [reflexivity|]. apply clip_comp; [rewrite Ep; reflexivity|rewrite Ehi, Ep, Eq; reflexivity|exact Ev].
  - apply Z.leb_le in Hc. destruct (fl_pow2 i ltac:(lia)) as (p & -> & Ep). cbn [bind]. destruct (fl_pow2 (- f) ltac:(lia)) as (q & -> & Eq). cbn [bind].
    destruct (SAT' Hc) as (h & Eh & Vh). destruct (fl_of _ (p - q) h Eh Vh ltac:(rewrite Ep, Eq; reflexivity)) as (hi & -> & Ehi). cbn [bind].
    eexists. split; [reflexivity|]. apply clip_comp; [rewrite Ehi, Ep, Eq; reflexivity|rewrite Ehi, Ep, Eq; reflexivity|exact Ev].
Qed.
Lemma quant_exact rm om k i f x x' : quant_fits rm om k i f x = true -> x' == x -> exists v, fl_base_call rm om k i f x' = Some v /\ v == base_call rm om false k i f x.
Proof.
  unfold quant_fits, fl_base_call, base_call. intros H E. destruct (0 <? kz k + i + f)%Z eqn:P; [|exists 0; split; reflexivity].
  apply Z.ltb_lt in P. apply orb_true_iff in H. destruct H as [H|H]; [apply Z.leb_le in H; lia|].
  rewrite !andb_true_iff, !Z.leb_le in H. destruct H as [[[[[[[F1 F2] I1] I2] Hx] Hy] Hr] Hc].
  destruct (fl_round_exact rm f x x' (conj F1 F2) Hx Hy Hr E) as (v & -> & Ev). cbn [bind]. unfold stateless.
  destruct (fl_overflow_exact om k i f rm x v P (conj F1 F2) (conj I1 I2) Hc Ev) as (y & Ey & V). exists y. split; [exact Ey|]. rewrite V. destruct om; reflexivity.
Qed.
