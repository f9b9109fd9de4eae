From Coq Require Import Permutation.
From Verif Require Import Num M_Fixed S_Fixed M_State M_Mapper S_Mapper L_Mapper M_Contr M_Ebops S_Ebops L_Ebops L_Ebops2 M_Pow2.

Lemma sqrt2_irr : forall e, (0 <= e)%Z -> forall n, (0 < n)%Z -> (2 ^ e <= n)%Z -> (n < 2 ^ Z.succ e)%Z ->
   (2 ^ (2 * e) <= n * n < 2 ^ (2 * e + 2))%Z -> (n * n)%Z = (2 ^ (2 * e + 1))%Z -> False.
Proof.
  intros e He. pattern e. revert e He. apply Zlt_0_ind.
    intros x IH Hx n Hn H1 H2 Hsq E. destruct (Z.eq_dec x 0) as [->|Hx0].
    - cbn in E. assert (n = 1 \/ n >= 2)%Z as [->|] by lia; [discriminate|]. nia.
    - assert (Hev : Z.Even n).
      { destruct (Z.Even_or_Odd n) as [|Ho]; [assumption|]. exfalso. assert (Z.Odd (n * n)).
        { destruct Ho as [m ->]. exists (2 * m * m + 2 * m)%Z. ring. }
        assert (Z.Even (n * n)).
        { rewrite E. exists (2 ^ (2 * x))%Z. rewrite Z.pow_add_r by lia. change (2 ^ 1)%Z with 2%Z. lia. }
        apply (Z.Even_Odd_False (n * n)); assumption. }
      destruct Hev as [m ->]. apply (IH (x - 1)%Z ltac:(lia) m); [lia|..].
      + assert (E1 : (2 ^ x = 2 * 2 ^ (x - 1))%Z) by (replace x with (Z.succ (x - 1)) at 1 by lia; rewrite Z.pow_succ_r by lia; reflexivity). lia.
      + assert (E1 : (2 ^ Z.succ x = 2 * 2 ^ Z.succ (x - 1))%Z) by (rewrite Z.pow_succ_r by lia; f_equal; f_equal; lia). lia.
      + assert (E1 : (2 ^ (2 * x) = 4 * 2 ^ (2 * (x - 1)))%Z) by (replace (2 * x)%Z with (2 + 2 * (x - 1))%Z by lia; rewrite Z.pow_add_r by lia; reflexivity).
        assert (E2 : (2 ^ (2 * x + 2) = 4 * 2 ^ (2 * (x - 1) + 2))%Z) by (replace (2 * x + 2)%Z with (2 + (2 * (x - 1) + 2))%Z by lia; rewrite Z.pow_add_r by lia; reflexivity).
        nia.
      + assert (E1 : (2 ^ (2 * x + 1) = 4 * 2 ^ (2 * (x - 1) + 1))%Z) by (replace (2 * x + 1)%Z with (2 + (2 * (x - 1) + 1))%Z by lia; rewrite Z.pow_add_r by lia; reflexivity).
        nia.
Qed.
Lemma round_log2_spec n : (0 < n)%Z -> let k := round_log2 n in
  pow2 (2 * k - 1) < inject_Z n * inject_Z n /\ inject_Z n * inject_Z n < pow2 (2 * k + 1).
Proof.
  intros Hn k. unfold k, round_log2. clear k. destruct (Z.log2_spec n Hn) as [H1 H2]. pose proof (Z.log2_nonneg n) as He.
  set (e := Z.log2 n) in *. clearbody e.
  assert (Hsq : (2 ^ (2 * e) <= n * n < 2 ^ (2 * e + 2))%Z).
  { replace (2 * e)%Z with (e + e)%Z by lia. replace (e + e + 2)%Z with (Z.succ e + Z.succ e)%Z by lia. rewrite !Z.pow_add_r by lia.
    split; [apply Z.mul_le_mono_nonneg; lia|apply Z.mul_lt_mono_nonneg; lia]. }
  assert (Hne : (n * n <> 2 ^ (2 * e + 1))%Z) by (intros E; exact (sqrt2_irr e He n Hn H1 H2 Hsq E)).
  destruct (2 ^ (2 * e + 1) <? n * n)%Z eqn:Hc.
  - apply Z.ltb_lt in Hc. replace (2 * (e + 1) - 1)%Z with (2 * e + 1)%Z by lia. replace (2 * (e + 1) + 1)%Z with (2 * e + 3)%Z by lia.
    rewrite !pow2_inject by lia. rewrite <- injZ_mul, !injZ_lt. split; [exact Hc|].
    assert (2 ^ (2 * e + 2) <= 2 ^ (2 * e + 3))%Z by (apply Z.pow_le_mono_r; lia). lia.
  - apply Z.ltb_ge in Hc. rewrite (pow2_inject (2 * e + 1)) by lia. rewrite <- injZ_mul. split; [|apply injZ_lt; lia].
    apply Qlt_le_trans with (pow2 (2 * e)); [apply pow2_lt; lia|]. rewrite pow2_inject by lia. apply injZ_le. lia.
Qed.

(** scale within a factor sqrt 2 of 1/n *)
Lemma pow2_scale_near n : (0 < n)%Z -> let r := pow2_scale n * inject_Z n in 1 # 2 < r * r /\ r * r < 2.
Proof.
  intros Hn r. destruct (round_log2_spec n Hn) as [H1 H2]. unfold r, pow2_scale. set (k := round_log2 n) in *. clearbody k.
  assert (Hp : pow2 (- k) * pow2 (- k) == pow2 (- (2 * k))) by (rewrite <- pow2_add; replace (- k + - k)%Z with (- (2 * k))%Z by lia; reflexivity).
  set (N := inject_Z n * inject_Z n) in *.
  assert (Hr : pow2 (- k) * inject_Z n * (pow2 (- k) * inject_Z n) == pow2 (- (2 * k)) * N) by (rewrite <- Hp; unfold N; ring).
  rewrite Hr. clear Hr. rewrite pow2_succ in H2. assert (H1' : pow2 (2 * k) < 2 * N) by (rewrite pow2_pred; lra).
  pose proof (pow2_opp_mul (2 * k)) as Ho. pose proof (pow2_pos (- (2 * k))) as Hpos.
  set (P := pow2 (2 * k)) in *. set (I := pow2 (- (2 * k))) in *. clearbody P I N. split.
  - assert (I * P < I * (2 * N)) by (apply Qmult_lt_l; assumption). lra.
  - assert (I * N < I * (2 * P)) by (apply Qmult_lt_l; assumption). lra.
Qed.

(** exact for powers of two, and only for those *)
Lemma pow2_scale_pow m : (0 <= m)%Z -> pow2_scale (2 ^ m) == 1 / inject_Z (2 ^ m).
Proof.
  intros Hm. unfold pow2_scale, round_log2. rewrite Z.log2_pow2 by lia.
  assert (Hc : (2 ^ (2 * m + 1) <? 2 ^ m * 2 ^ m)%Z = false).
  { apply Z.ltb_ge. rewrite <- Z.pow_add_r by lia. apply Z.pow_le_mono_r; lia. }
  rewrite Hc. rewrite <- (pow2_inject m) by lia. pose proof (pow2_opp_mul m). pose proof (pow2_pos m).
  apply (Qmult_inj_r _ _ (pow2 m)); [lra|]. rewrite Qmult_comm. rewrite H. field. lra.
Qed.
Lemma pow2_scale_exact_iff n : (0 < n)%Z -> (pow2_scale n == 1 / inject_Z n <-> exists m, (0 <= m)%Z /\ n = (2 ^ m)%Z).
Proof.
  intros Hn. split; [|intros (m & Hm & ->); apply pow2_scale_pow, Hm].
  intros H. unfold pow2_scale in H. set (k := round_log2 n) in *.
  assert (Hk : (0 <= k)%Z) by (unfold k, round_log2; pose proof (Z.log2_nonneg n); destruct (_ <? _)%Z; lia).
  exists k. split; [exact Hk|]. assert (Hnq : 0 < inject_Z n) by (change 0 with (inject_Z 0); apply injZ_lt, Hn).
  apply injZ_eq. rewrite <- pow2_inject by exact Hk. pose proof (pow2_opp_mul k) as Ho. rewrite H in Ho.
  setoid_replace (pow2 k) with (pow2 k * (1 / inject_Z n) * inject_Z n) by (field; lra). rewrite Ho. ring.
Qed.

(** ** The layers *)
Fixpoint masked_sizes (a : nat) (axes : list nat) (sh : list nat) : nat :=
  match sh with [] => 1%nat | d :: sh' => ((if memb a axes then d else 1) * masked_sizes (S a) axes sh')%nat end.

Lemma filter_flat_map {A B} (p : B -> bool) (f : A -> list B) l : filter p (flat_map f l) = flat_map (fun a => filter p (f a)) l.
Proof. induction l as [|a l IH]; [reflexivity|]. cbn [flat_map]. rewrite filter_app, IH. reflexivity. Qed.
Lemma filter_map_comm {A B} (p : B -> bool) (f : A -> B) l : filter p (map f l) = map f (filter (fun a => p (f a)) l).
Proof. induction l as [|a l IH]; [reflexivity|]. cbn [map filter]. destruct (p (f a)); cbn [map]; rewrite IH; reflexivity. Qed.
Lemma index_eqb_iff i j : index_eqb i j = true <-> i = j.
Proof. unfold index_eqb. destruct (list_eq_dec Nat.eq_dec i j); split; congruence. Qed.
Lemma index_eqb_cons a b i j : index_eqb (a :: i) (b :: j) = (a =? b)%nat && index_eqb i j.
Proof.
  apply eq_true_iff_eq. rewrite andb_true_iff, !index_eqb_iff, Nat.eqb_eq. split; [intros E; injection E as -> ->; auto|intros [-> ->]; reflexivity].
Qed.
Lemma group_size axes sh : forall a g, valid_index (keep_shape_from a axes sh) g ->
  length (filter (fun idx => index_eqb (keep_from a axes idx) g) (indices sh)) = masked_sizes a axes sh.
Proof.
  induction sh as [|d sh IH]; intros a g Hg; inversion Hg as [|g0 m g' ms Hlt Hg' E1 E2]; subst.
  - reflexivity.
  - cbn [indices masked_sizes]. rewrite filter_flat_map. cbn [keep_shape_from] in *.
    assert (Hin : forall i, filter (fun idx => index_eqb (keep_from a axes idx) (g0 :: g')) (map (cons i) (indices sh))
       = if ((if memb a axes then 0 else i) =? g0)%nat then map (cons i) (filter (fun idx => index_eqb (keep_from (S a) axes idx) g') (indices sh)) else []).
    { intros i. rewrite filter_map_comm. destruct (_ =? g0)%nat eqn:Ei.
      - f_equal. apply filter_ext. intros idx. cbn [keep_from]. rewrite index_eqb_cons, Ei. reflexivity.
      - assert (HF : forall l, filter (fun a0 => index_eqb (keep_from a axes (i :: a0)) (g0 :: g')) l = []).
        { induction l as [|y l IHl]; [reflexivity|]. cbn [filter keep_from]. rewrite index_eqb_cons, Ei. cbn [andb]. exact IHl. }
        rewrite HF. reflexivity. }
    rewrite (flat_map_ext _ _ Hin). set (F := filter _ (indices sh)) in *. specialize (IH (S a) g' Hg'). fold F in IH.
    destruct (memb a axes) eqn:Em.
    + assert (g0 = 0%nat) by lia. subst g0. rewrite Nat.eqb_refl.
      assert (HL : forall l, length (flat_map (fun i : nat => map (cons i) F) l) = (length l * masked_sizes (S a) axes sh)%nat).
      { induction l as [|i l IHl]; [reflexivity|]. cbn [flat_map length]. rewrite app_length, map_length, IH, IHl. reflexivity. }
      rewrite HL, seq_length. reflexivity.
    + assert (HL : forall st n, (st <= g0 < st + n)%nat -> length (flat_map (fun i : nat => if (i =? g0)%nat then map (cons i) F else []) (seq st n)) = masked_sizes (S a) axes sh).
      { assert (H0 : forall st n, ~ (st <= g0 < st + n)%nat -> flat_map (fun i : nat => if (i =? g0)%nat then map (cons i) F else []) (seq st n) = []).
        { intros st n. revert st. induction n as [|n IHn]; intros st Hn; [reflexivity|]. cbn [seq flat_map].
          destruct (st =? g0)%nat eqn:Es; [apply Nat.eqb_eq in Es; lia|]. apply IHn. lia. }
        intros st n. revert st. induction n as [|n IHn]; intros st Hn; [lia|]. cbn [seq flat_map].
        destruct (st =? g0)%nat eqn:Es; [apply Nat.eqb_eq in Es|apply Nat.eqb_neq in Es].
        - rewrite H0 by lia. rewrite app_nil_r, map_length. exact IH.
        - apply IHn. lia. }
      rewrite HL by lia. lia.
Qed.
Lemma masked_sizes_count sh : forall a axes, NoDup axes -> (forall x, In x axes -> a <= x < a + length sh)%nat ->
  masked_sizes a axes sh = nprod (map (fun x => nth (x - a) sh 0%nat) axes).
Proof.
  induction sh as [|d sh IH]; intros a axes ND HB; cbn [masked_sizes].
  - destruct axes as [|x axes]; [reflexivity|]. specialize (HB x (or_introl eq_refl)). cbn [length] in HB. lia.
  - set (rest := filter (fun x => negb (x =? a)%nat) axes).
    assert (Hsz : masked_sizes (S a) axes sh = masked_sizes (S a) rest sh).
    { assert (G : forall b l, (a < b)%nat -> masked_sizes b axes l = masked_sizes b rest l).
      { intros b l. revert b. induction l as [|x l IHl]; intros b Hb; [reflexivity|]. cbn [masked_sizes]. rewrite IHl by lia. f_equal.
        assert (Hm : memb b axes = memb b rest); [|rewrite Hm; reflexivity]. apply eq_true_iff_eq. rewrite !memb_In. unfold rest. rewrite filter_In, negb_true_iff, Nat.eqb_neq. intuition lia. }
      apply G. lia. }
    rewrite Hsz, (IH (S a) rest).
    + assert (Hsame : map (fun x => nth (x - S a) sh 0%nat) rest = map (fun x => nth (x - a) (d :: sh) 0%nat) rest).
      { apply map_ext_in. intros x Hx. unfold rest in Hx. apply filter_In in Hx. destruct Hx as [Hx Hn]. apply negb_true_iff, Nat.eqb_neq in Hn.
        specialize (HB x Hx). replace (x - a)%nat with (S (x - S a)) by lia. reflexivity. }
      rewrite Hsame. destruct (memb a axes) eqn:Em.
      * apply memb_In in Em. assert (HP : Permutation axes (a :: rest)).
        { apply NoDup_Permutation; [exact ND|constructor; [unfold rest; rewrite filter_In, negb_true_iff, Nat.eqb_neq; lia|apply NoDup_filter, ND]|].
          intros x. cbn [In]. unfold rest. rewrite filter_In, negb_true_iff, Nat.eqb_neq. split; [intros Hx; destruct (Nat.eq_dec a x); [left; assumption|right; split; [exact Hx|lia]]|].
          intros [->|[Hx _]]; assumption. }
        rewrite (nprod_perm _ _ (Permutation_map (fun x => nth (x - a) (d :: sh) 0%nat) HP)). cbn [map]. rewrite Nat.sub_diag. reflexivity.
      * apply memb_false in Em. assert (Hr : rest = axes).
        { unfold rest. clear -Em. induction axes as [|x axes IH]; [reflexivity|]. cbn [filter].
          destruct (x =? a)%nat eqn:E; [apply Nat.eqb_eq in E; exfalso; apply Em; left; exact E|]. cbn [negb]. f_equal. apply IH. intros H. apply Em. right. exact H. }
        rewrite Hr. lia.
    + apply NoDup_filter, ND.
    + intros x Hx. unfold rest in Hx. apply filter_In in Hx. destruct Hx as [Hx Hn]. apply negb_true_iff, Nat.eqb_neq in Hn. specialize (HB x Hx). cbn [length] in HB. lia.
Qed.
Lemma collect_count axes (x : tensor Q) g : NoDup axes -> (forall a, In a axes -> a < length (shape x))%nat ->
  valid_index (keep_shape_from 0 axes (shape x)) g -> length (collect axes x g) = mean_count axes (shape x).
Proof.
  intros ND HB Hg. unfold collect. rewrite map_length. unfold keep. rewrite group_size by exact Hg.
  rewrite masked_sizes_count; [unfold mean_count; f_equal; apply map_ext; intros a; f_equal; lia|exact ND|].
  intros a Ha. specialize (HB a Ha). lia.
Qed.

Definition qmean (l : list Q) : Q := qsum l / nQ (length l).
Lemma pow2_scale_ratio n s : (0 < n)%nat -> exists r, s * pow2_scale (Z.of_nat n) == r * (s / nQ n) /\ 1 # 2 < r * r /\ r * r < 2.
Proof.
  intros Hn. exists (pow2_scale (Z.of_nat n) * inject_Z (Z.of_nat n)). split; [|apply pow2_scale_near; lia].
  pose proof (nQ_pos n Hn). fold (nQ n). field. lra.
Qed.
Lemma meanpow2_near axes x g : NoDup axes -> (forall a, In a axes -> a < length (shape x))%nat ->
  valid_index (keep_shape_from 0 axes (shape x)) g -> (0 < mean_count axes (shape x))%nat ->
  exists r, at_ (qmeanpow2_call axes x) g == r * qmean (collect axes x g) /\ 1 # 2 < r * r /\ r * r < 2.
Proof.
  intros ND HB Hg Hn. unfold qmeanpow2_call, qsum_call, qmean. cbn [tmap at_ reduce_keep]. rewrite (collect_count axes x g ND HB Hg).
  apply pow2_scale_ratio, Hn.
Qed.
Lemma meanpow2_exact axes x g m : NoDup axes -> (forall a, In a axes -> a < length (shape x))%nat ->
  valid_index (keep_shape_from 0 axes (shape x)) g -> mean_count axes (shape x) = (2 ^ m)%nat ->
  at_ (qmeanpow2_call axes x) g == qmean (collect axes x g).
Proof.
  intros ND HB Hg Hn. unfold qmeanpow2_call, qsum_call, qmean. cbn [tmap at_ reduce_keep]. rewrite (collect_count axes x g ND HB Hg), Hn.
  unfold nQ. rewrite Nat2Z.inj_pow. change (Z.of_nat 2) with 2%Z. rewrite pow2_scale_pow by lia.
  rewrite <- pow2_inject by lia. pose proof (pow2_pos (Z.of_nat m)). field. lra.
Qed.
Lemma average_near xs y : qaveragepow2 xs = Some y -> exists r, y == r * qmean xs /\ 1 # 2 < r * r /\ r * r < 2.
Proof.
  unfold qaveragepow2. destruct xs as [|x0 rest]; [discriminate|]. intros E.
  match type of E with Some ?e = _ => assert (E' : y = e) by congruence end.
  destruct (pow2_scale_ratio (length (x0 :: rest)) (qsum (x0 :: rest))) as (r & Hr & Hb); [cbn [length]; lia|].
  exists r. split; [|exact Hb]. unfold qmean. rewrite <- Hr, E', fold_plus. reflexivity.
Qed.
Lemma average_exact xs y m : qaveragepow2 xs = Some y -> length xs = (2 ^ m)%nat -> y == qmean xs.
Proof.
  unfold qaveragepow2. destruct xs as [|x0 rest]; [discriminate|]. intros E Hl.
  match type of E with Some ?e = _ => assert (E' : y = e) by congruence end. rewrite E', fold_plus, Hl.
  unfold qmean. change (qsum (x0 :: rest)) with (x0 + qsum rest). rewrite Hl. unfold nQ. rewrite Nat2Z.inj_pow. change (Z.of_nat 2) with 2%Z.
  rewrite pow2_scale_pow by lia. rewrite <- pow2_inject by lia. pose proof (pow2_pos (Z.of_nat m)). field. lra.
Qed.
(** no accuracy is lost: on a grid of step 2^-f the result is on the grid of step 2^-(f+k) *)
Lemma sum_on_grid f l : (forall x, In x l -> exists n, x == inject_Z n * pow2 (- f)) -> exists n, qsum l == inject_Z n * pow2 (- f).
Proof.
  induction l as [|x l IH]; intros H.
  - exists 0%Z. change (qsum []) with 0. ring.
  - destruct (H x (or_introl eq_refl)) as [a Ha]. destruct IH as [b Hb]; [intros y Hy; apply H; right; exact Hy|].
    exists (a + b)%Z. rewrite qsum_cons, Ha, Hb, injZ_add. ring.
Qed.
Lemma meanpow2_grid axes x g f : (forall idx, exists n, at_ x idx == inject_Z n * pow2 (- f)) ->
  exists n k, at_ (qmeanpow2_call axes x) g == inject_Z n * pow2 (- (f + k)) /\ k = round_log2 (Z.of_nat (mean_count axes (shape x))).
Proof.
  intros H. unfold qmeanpow2_call, qsum_call. cbn [tmap at_ reduce_keep]. destruct (sum_on_grid f (collect axes x g)) as [n Hn].
  { intros y Hy. unfold collect in Hy. apply in_map_iff in Hy. destruct Hy as (i & <- & _). apply H. }
  exists n. exists (round_log2 (Z.of_nat (mean_count axes (shape x)))). split; [|reflexivity]. rewrite Hn. unfold pow2_scale. replace (- (f + round_log2 (Z.of_nat (mean_count axes (shape x)))))%Z with (- f + - round_log2 (Z.of_nat (mean_count axes (shape x))))%Z by lia.
  rewrite pow2_add. ring.
Qed.

(** negative axes count from the end *)
Lemma norm_axes_spec axes n : (forall a, In a axes -> (- Z.of_nat n <= a < Z.of_nat n)%Z) ->
  Forall2 (fun a b => (b < n)%nat /\ (Z.of_nat b = a \/ (Z.of_nat b = a + Z.of_nat n)%Z)) axes (norm_axes axes n).
Proof.
  induction axes as [|a axes IH]; intros H; [constructor|]. cbn [norm_axes map]. constructor; [|apply IH; intros b Hb; apply H; right; exact Hb].
  specialize (H a (or_introl eq_refl)). destruct (0 <=? a)%Z eqn:E; [apply Z.leb_le in E|apply Z.leb_gt in E]; lia.
Qed.
