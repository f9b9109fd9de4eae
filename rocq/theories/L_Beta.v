From Coq Require Import Reals ZArith List Bool Lra Lia Permutation Sorted Psatz.
From Verif Require Import M_Beta S_Beta.
Open Scope R_scope.

Definition kle (a b : knot) : Prop := (k_epoch a <= k_epoch b)%Z.

Lemma insert_perm k l : Permutation (k :: l) (insert k l).
Proof.
  induction l as [|h t IH]; cbn [insert]; [apply Permutation_refl|].
  destruct (k_epoch k <=? k_epoch h)%Z; [apply Permutation_refl|].
  eapply Permutation_trans; [apply perm_swap|]. apply perm_skip. exact IH.
Qed.
Lemma sort_perm l : Permutation l (sort l).
Proof.
  induction l as [|k t IH]; cbn [sort]; [constructor|].
  eapply Permutation_trans; [apply perm_skip; exact IH|apply insert_perm].
Qed.
Lemma insert_sorted k l : StronglySorted kle l -> StronglySorted kle (insert k l).
Proof.
  intros H. induction H as [|h t Ht IH Hf]; cbn [insert].
  - constructor; constructor.
  - destruct (k_epoch k <=? k_epoch h)%Z eqn:E.
    + constructor; [constructor; assumption|]. constructor; [unfold kle; lia|].
      eapply Forall_impl; [|exact Hf]. intros a Ha. unfold kle in *. lia.
    + constructor; [exact IH|]. rewrite Forall_forall in *. intros a Ha.
      apply (Permutation_in _ (Permutation_sym (insert_perm k t))) in Ha. destruct Ha as [<-|Ha]; [unfold kle; lia|auto].
Qed.
Lemma sort_sorted l : StronglySorted kle (sort l).
Proof. induction l; cbn [sort]; [constructor|apply insert_sorted; assumption]. Qed.

Lemma search_split ks e : StronglySorted kle ks ->
  let n := searchsorted_right ks e in
  (n <= length ks)%nat /\
  (forall i k, nth_error ks i = Some k -> ((i < n)%nat -> (k_epoch k <= e)%Z) /\ ((n <= i)%nat -> (e < k_epoch k)%Z)).
Proof.
  intros H. induction H as [|h t Ht IH Hf]; cbn [searchsorted_right length].
  - split; [lia|]. intros i k Hi. destruct i; discriminate.
  - destruct (k_epoch h <=? e)%Z eqn:E.
    + destruct IH as [L IH]. split; [lia|]. intros [|i] k Hi; cbn in Hi.
      * injection Hi as <-. split; [lia|lia].
      * destruct (IH i k Hi). split; intros; [apply H|apply H0]; lia.
    + split; [lia|]. intros [|i] k Hi; cbn in Hi; (split; [lia|]); intros _.
      * injection Hi as <-. lia.
      * apply nth_error_In in Hi. rewrite Forall_forall in Hf. specialize (Hf k Hi). unfold kle in Hf. lia.
Qed.

Lemma sorted_nth ks i j a b : StronglySorted kle ks -> nth_error ks i = Some a -> nth_error ks j = Some b -> (i <= j)%nat -> (k_epoch a <= k_epoch b)%Z.
Proof.
  intros H. revert i j. induction H as [|h t Ht IH Hf]; intros i j Hi Hj Hij; [destruct i; discriminate|].
  destruct i as [|i], j as [|j]; cbn in Hi, Hj; try lia.
  - assert (a = b) by congruence. subst; lia.
  - injection Hi as <-. apply nth_error_In in Hj. rewrite Forall_forall in Hf. specialize (Hf b Hj). unfold kle in Hf; lia.
  - eapply IH; eauto. lia.
Qed.

Lemma distinct_inj ks a b : distinct_epochs ks -> In a ks -> In b ks -> k_epoch a = k_epoch b -> a = b.
Proof.
  unfold distinct_epochs. induction ks as [|h t IH]; intros ND Ha Hb E; [destruct Ha|].
  cbn [map] in ND. inversion ND as [|? ? N1 N2]; subst.
  destruct Ha as [<-|Ha], Hb as [<-|Hb]; auto.
  - exfalso. apply N1. rewrite E. apply in_map. exact Hb.
  - exfalso. apply N1. rewrite <- E. apply in_map. exact Ha.
Qed.

(** the two knots used for an epoch *)
Definition seg (ks : list knot) (e : Z) : option (knot * knot) :=
  let i0 := (Z.of_nat (searchsorted_right ks e) - 1)%Z in
  match nth_error ks (Z.to_nat (clamp_idx i0 (length ks))), nth_error ks (Z.to_nat (clamp_idx (i0 + 1) (length ks))) with
  | Some k0, Some k1 => Some (k0, k1) | _, _ => None end.
Definition interpolate (k0 k1 : knot) (e : Z) : option R :=
  let de := IZR e - IZR (k_epoch k0) in
  let den := IZR (k_epoch k1) - IZR (k_epoch k0) + eps in
  match k_interp k0 with
  | Linear => match pydiv ((k_beta k1 - k_beta k0) * de) den with Some q => Some (k_beta k0 + q) | None => None end
  | Log =>
      match pydiv (k_beta k1) (k_beta k0), pydiv de den with
      | Some r, Some t => match pypow r t with Some p => Some (k_beta k0 * p) | None => None end
      | _, _ => None
      end
  | Constant => Some (k_beta k0)
  end.
Lemma pws_seg ks e : pws_sorted ks e = match seg ks e with Some (k0, k1) => interpolate k0 k1 e | None => None end.
Proof.
  unfold pws_sorted, seg, interpolate.
  destruct (nth_error ks _); [|reflexivity]. destruct (nth_error ks _); reflexivity.
Qed.

Lemma in_sort k l : In k l <-> In k (sort l).
Proof. split; intros H; [exact (Permutation_in _ (sort_perm l) H)|exact (Permutation_in _ (Permutation_sym (sort_perm l)) H)]. Qed.

Lemma seg_between l k0 k1 e : distinct_epochs l -> neighbours l k0 k1 e -> seg (sort l) e = Some (k0, k1).
Proof.
  intros ND (H0 & H1 & He & Hn). unfold seg.
  pose proof (sort_sorted l) as SS. destruct (search_split (sort l) e SS) as [L Hs].
  set (n := searchsorted_right (sort l) e) in *.
  destruct (In_nth_error _ _ (proj1 (in_sort _ _) H0)) as [i Hi].
  destruct (In_nth_error _ _ (proj1 (in_sort _ _) H1)) as [j Hj].
  assert (i < n)%nat. { destruct (Nat.lt_ge_cases i n); [assumption|]. pose proof (proj2 (Hs _ _ Hi)). lia. }
  assert (n <= j)%nat. { destruct (Nat.lt_ge_cases j n); [|assumption]. pose proof (proj1 (Hs _ _ Hj)). lia. }
  assert (Hjl : (j < length (sort l))%nat) by (apply nth_error_Some; rewrite Hj; discriminate).
  replace (Z.to_nat (clamp_idx (Z.of_nat n - 1) (length (sort l)))) with (n - 1)%nat by (unfold clamp_idx; lia).
  replace (Z.to_nat (clamp_idx (Z.of_nat n - 1 + 1) (length (sort l)))) with n by (unfold clamp_idx; lia).
  destruct (nth_error (sort l) (n - 1)) as [a|] eqn:Ea; [|exfalso; apply nth_error_None in Ea; lia].
  destruct (nth_error (sort l) n) as [b|] eqn:Eb; [|exfalso; apply nth_error_None in Eb; lia].
  assert (Ia : In a l) by (apply in_sort; eapply nth_error_In; eassumption).
  assert (Ib : In b l) by (apply in_sort; eapply nth_error_In; eassumption).
  pose proof (proj1 (Hs _ _ Ea) ltac:(lia)). pose proof (proj2 (Hs _ _ Eb) ltac:(lia)).
  pose proof (sorted_nth _ _ _ _ _ SS Hi Ea ltac:(lia)). pose proof (sorted_nth _ _ _ _ _ SS Eb Hj ltac:(lia)).
  pose proof (Hn _ Ia). pose proof (Hn _ Ib).
  rewrite (distinct_inj l a k0), (distinct_inj l b k1); auto; lia.
Qed.

Lemma seg_before l k e : distinct_epochs l -> is_first l k -> (e < k_epoch k)%Z -> seg (sort l) e = Some (k, k).
Proof.
  intros ND (H0 & Hn) He. unfold seg.
  pose proof (sort_sorted l) as SS. destruct (search_split (sort l) e SS) as [L Hs].
  destruct (In_nth_error _ _ (proj1 (in_sort _ _) H0)) as [i Hi].
  assert (Hl : (i < length (sort l))%nat) by (apply nth_error_Some; rewrite Hi; discriminate).
  destruct (nth_error (sort l) 0) as [a|] eqn:Ea; [|apply nth_error_None in Ea; lia].
  assert (Ia : In a l) by (apply in_sort; eapply nth_error_In; eassumption).
  pose proof (sorted_nth _ _ _ _ _ SS Ea Hi ltac:(lia)). pose proof (Hn _ Ia).
  assert (a = k) by (apply (distinct_inj l); auto; lia). subst a.
  assert (HSR : searchsorted_right (sort l) e = 0%nat).
  { destruct (searchsorted_right (sort l) e) eqn:E; [reflexivity|]. pose proof (proj1 (Hs _ _ Ea) ltac:(lia)). lia. }
  rewrite HSR.
  replace (Z.to_nat (clamp_idx (Z.of_nat 0 - 1) (length (sort l)))) with 0%nat by (unfold clamp_idx; lia).
  replace (Z.to_nat (clamp_idx (Z.of_nat 0 - 1 + 1) (length (sort l)))) with 0%nat by (unfold clamp_idx; lia).
  rewrite Ea. reflexivity.
Qed.
Lemma seg_after l k e : distinct_epochs l -> is_last l k -> (k_epoch k <= e)%Z -> seg (sort l) e = Some (k, k).
Proof.
  intros ND (H0 & Hn) He. unfold seg.
  pose proof (sort_sorted l) as SS. destruct (search_split (sort l) e SS) as [L Hs].
  destruct (In_nth_error _ _ (proj1 (in_sort _ _) H0)) as [i Hi].
  assert (Hl : (i < length (sort l))%nat) by (apply nth_error_Some; rewrite Hi; discriminate).
  destruct (nth_error (sort l) (length (sort l) - 1)) as [a|] eqn:Ea; [|apply nth_error_None in Ea; lia].
  assert (Ia : In a l) by (apply in_sort; eapply nth_error_In; eassumption).
  pose proof (sorted_nth _ _ _ _ _ SS Hi Ea ltac:(lia)). pose proof (Hn _ Ia).
  assert (a = k) by (apply (distinct_inj l); auto; lia). subst a.
  assert (HSR : searchsorted_right (sort l) e = length (sort l)).
  { destruct (Nat.lt_ge_cases (searchsorted_right (sort l) e) (length (sort l))) as [C|C]; [|lia].
    pose proof (proj2 (Hs _ _ Ea) ltac:(lia)). lia. }
  rewrite HSR. set (n := length (sort l)) in *.
  replace (Z.to_nat (clamp_idx (Z.of_nat n - 1) n)) with (n - 1)%nat by (unfold clamp_idx; lia).
  replace (Z.to_nat (clamp_idx (Z.of_nat n - 1 + 1) n)) with (n - 1)%nat by (unfold clamp_idx; lia).
  rewrite Ea. reflexivity.
Qed.

Lemma eps_pos : 0 < eps.
Proof. unfold eps. apply Rinv_0_lt_compat. apply pow_lt. lra. Qed.
Lemma eps_val : eps = / 1000000000.
Proof. unfold eps. f_equal. lra. Qed.

Definition ok_log (k : knot) : Prop := k_interp k = Log -> k_beta k <> 0.

Lemma interpolate_same k e : ok_log k -> interpolate k k e = Some (k_beta k).
Proof.
  intros Hk. unfold interpolate, ok_log in *. pose proof eps_pos as Hp.
  destruct (k_interp k).
  - unfold pydiv. destruct (Req_EM_T _ 0) as [E|_]; [lra|]. f_equal. unfold Rdiv. replace (k_beta k - k_beta k) with 0 by ring. ring.
  - specialize (Hk eq_refl). unfold pydiv. destruct (Req_EM_T (k_beta k) 0); [contradiction|].
    destruct (Req_EM_T _ 0) as [E|_]; [lra|]. unfold Rdiv at 1. rewrite Rinv_r by assumption.
    unfold pypow. destruct (Rlt_dec 0 1); [|lra]. f_equal. unfold Rpower. rewrite ln_1, Rmult_0_r, exp_0. ring.
  - reflexivity.
Qed.
Lemma interpolate_at k0 k1 : (k_epoch k0 < k_epoch k1)%Z -> ok_log k0 -> interpolate k0 k1 (k_epoch k0) = Some (k_beta k0).
Proof.
  intros He Hk. unfold interpolate. pose proof eps_pos as Hp. apply IZR_lt in He.
  destruct (k_interp k0) eqn:Ei.
  - unfold pydiv. destruct (Req_EM_T _ 0) as [E|_]; [lra|]. f_equal. unfold Rdiv. ring.
  - specialize (Hk Ei). unfold pydiv. destruct (Req_EM_T (k_beta k0) 0); [contradiction|].
    destruct (Req_EM_T _ 0) as [E|_]; [lra|]. replace (IZR (k_epoch k0) - IZR (k_epoch k0)) with 0 by ring.
    unfold Rdiv at 2. rewrite Rmult_0_l.
    unfold pypow. destruct (Rlt_dec 0 _) as [P|P].
    + rewrite Rpower_O by exact P. f_equal. ring.
    + destruct (Req_EM_T 0 0); [|lra]. f_equal. ring.
  - reflexivity.
Qed.

Theorem pws_before l k e : distinct_epochs l -> is_first l k -> (e < k_epoch k)%Z -> ok_log k -> PieceWiseSchedule l e = Some (k_beta k).
Proof. intros. unfold PieceWiseSchedule. rewrite pws_seg, (seg_before l k e) by assumption. apply interpolate_same. assumption. Qed.
Theorem pws_after l k e : distinct_epochs l -> is_last l k -> (k_epoch k <= e)%Z -> ok_log k -> PieceWiseSchedule l e = Some (k_beta k).
Proof. intros. unfold PieceWiseSchedule. rewrite pws_seg, (seg_after l k e) by assumption. apply interpolate_same. assumption. Qed.

(** every knot is the last one or has a successor *)
Lemma next_knot l k : distinct_epochs l -> In k l -> is_last l k \/ exists k1, neighbours l k k1 (k_epoch k).
Proof.
  intros ND Hk.
  assert (G : forall m, (forall a, In a m -> In a l) -> (forall a, In a m -> (k_epoch a <= k_epoch k)%Z) \/
     exists k1, In k1 m /\ (k_epoch k < k_epoch k1)%Z /\ forall a, In a m -> (k_epoch a <= k_epoch k \/ k_epoch k1 <= k_epoch a)%Z).
  { induction m as [|h t IH]; intros Hs; [left; intros a []|].
    destruct IH as [C|(k1 & I1 & L1 & C)]; [intros; apply Hs; right; assumption| |].
    - destruct (Z_lt_le_dec (k_epoch k) (k_epoch h)) as [D|D].
      + right. exists h. split; [left; reflexivity|]. split; [exact D|]. intros a [<-|Ha]; [right; lia|left; auto].
      + left. intros a [<-|Ha]; auto.
    - right. destruct (Z_lt_le_dec (k_epoch k) (k_epoch h)) as [D|D].
      + destruct (Z_le_gt_dec (k_epoch k1) (k_epoch h)) as [D2|D2].
        * exists k1. split; [right; exact I1|]. split; [exact L1|]. intros a [<-|Ha]; [right; lia|auto].
        * exists h. split; [left; reflexivity|]. split; [exact D|]. intros a [<-|Ha]; [right; lia|]. destruct (C a Ha); [left; assumption|right; lia].
      + exists k1. split; [right; exact I1|]. split; [exact L1|]. intros a [<-|Ha]; [left; lia|auto]. }
  destruct (G l (fun a H => H)) as [C|(k1 & I1 & L1 & C)].
  - left. split; assumption.
  - right. exists k1. split; [exact Hk|]. split; [exact I1|]. split; [lia|exact C].
Qed.
Theorem pws_at_knot l k : distinct_epochs l -> In k l -> ok_log k -> PieceWiseSchedule l (k_epoch k) = Some (k_beta k).
Proof.
  intros ND Hk Ho. destruct (next_knot l k ND Hk) as [H|(k1 & H)].
  - apply pws_after; auto. lia.
  - unfold PieceWiseSchedule. rewrite pws_seg, (seg_between l k k1) by assumption. apply interpolate_at; auto. destruct H as (_ & _ & ? & _). lia.
Qed.
Theorem pws_constant l k0 k1 e : distinct_epochs l -> neighbours l k0 k1 e -> k_interp k0 = Constant -> PieceWiseSchedule l e = Some (k_beta k0).
Proof. intros ND H Hi. unfold PieceWiseSchedule. rewrite pws_seg, (seg_between l k0 k1) by assumption. unfold interpolate. rewrite Hi. reflexivity. Qed.

Lemma ln_div x y : 0 < x -> 0 < y -> ln (x / y) = ln x - ln y.
Proof. intros Hx Hy. unfold Rdiv. rewrite ln_mult, ln_Rinv by (try assumption; apply Rinv_0_lt_compat; assumption). ring. Qed.
(** the position actually used *)
Definition frac' (e0 e1 e : Z) : R := (IZR e - IZR e0) / (IZR e1 - IZR e0 + eps).
Lemma frac'_range e0 e1 e : (e0 <= e < e1)%Z -> 0 <= frac' e0 e1 e < 1.
Proof.
  intros [H1 H2]. apply IZR_le in H1. apply IZR_lt in H2. pose proof eps_pos. unfold frac'. split.
  - apply Rmult_le_pos; [lra|]. left. apply Rinv_0_lt_compat. lra.
  - apply Rmult_lt_reg_r with (IZR e1 - IZR e0 + eps); [lra|]. unfold Rdiv. rewrite Rmult_assoc, Rinv_l by lra. lra.
Qed.
Lemma frac'_close e0 e1 e : (e0 <= e < e1)%Z -> 0 <= frac e0 e1 e - frac' e0 e1 e <= eps.
Proof.
  intros H. assert (G : IZR e0 + 1 <= IZR e1) by (rewrite <- plus_IZR; apply IZR_le; lia).
  destruct H as [H1 H2]. apply IZR_le in H1. apply IZR_lt in H2. pose proof eps_pos as Hp. unfold frac, frac'.
  set (a := IZR e - IZR e0) in *. set (n := IZR e1 - IZR e0) in *.
  assert (0 <= a) by (unfold a; lra). assert (a < n) by (unfold a, n; lra). assert (1 <= n) by (unfold n; lra).
  assert (E : a / n - a / (n + eps) = eps * (a / n) / (n + eps)) by (field; lra). rewrite E.
  assert (0 <= a / n) by (apply Rmult_le_pos; [lra|left; apply Rinv_0_lt_compat; lra]).
  assert (a / n <= 1) by (apply Rmult_le_reg_r with n; [lra|]; unfold Rdiv; rewrite Rmult_assoc, Rinv_l by lra; lra).
  assert (Hi : 0 < / (n + eps) <= 1).
  { split; [apply Rinv_0_lt_compat; lra|]. rewrite <- Rinv_1. apply Rinv_le_contravar; lra. }
  unfold Rdiv at 1 3. split; [apply Rmult_le_pos; [apply Rmult_le_pos|]; lra|].
  assert (0 <= eps * (a / n) <= eps) by nra. fold (a / n). nra.
Qed.

Theorem pws_linear l k0 k1 e : distinct_epochs l -> neighbours l k0 k1 e -> k_interp k0 = Linear ->
  exists v, PieceWiseSchedule l e = Some v /\ Rmin (k_beta k0) (k_beta k1) <= v <= Rmax (k_beta k0) (k_beta k1) /\
    Rabs (v - lin (k_beta k0) (k_beta k1) (frac (k_epoch k0) (k_epoch k1) e)) <= Rabs (k_beta k1 - k_beta k0) * / 1000000000.
Proof.
  intros ND H Hi. exists (lin (k_beta k0) (k_beta k1) (frac' (k_epoch k0) (k_epoch k1) e)).
  pose proof (seg_between l k0 k1 e ND H) as Hs. destruct H as (_ & _ & He & _).
  pose proof (frac'_range _ _ _ He) as R1. pose proof (frac'_close _ _ _ He) as R2. pose proof eps_pos as Hp.
  split.
  - unfold PieceWiseSchedule. rewrite pws_seg, Hs. unfold interpolate. rewrite Hi. unfold pydiv.
    assert (IZR (k_epoch k0) < IZR (k_epoch k1)) by (apply IZR_lt; lia).
    destruct (Req_EM_T _ 0) as [E|_]; [lra|]. f_equal. unfold lin, frac', Rdiv. ring.
  - unfold lin. set (t := frac' _ _ _) in *. set (s := frac _ _ _) in *. split.
    + unfold Rmin, Rmax. destruct (Rle_dec (k_beta k0) (k_beta k1)); nra.
    + replace (k_beta k0 + (k_beta k1 - k_beta k0) * t - (k_beta k0 + (k_beta k1 - k_beta k0) * s)) with ((k_beta k1 - k_beta k0) * - (s - t)) by ring.
      rewrite Rabs_mult, Rabs_Ropp, (Rabs_right (s - t)) by lra. rewrite eps_val in R2. pose proof (Rabs_pos (k_beta k1 - k_beta k0)). nra.
Qed.

Lemma log_seg b0 b1 t : 0 < b0 -> 0 < b1 -> b0 * Rpower (b1 / b0) t = exp (lin (ln b0) (ln b1) t).
Proof.
  intros H0 H1. unfold Rpower, lin. rewrite exp_plus, exp_ln by assumption. f_equal. f_equal.
  rewrite ln_div by assumption. ring.
Qed.
Theorem pws_log l k0 k1 e : distinct_epochs l -> neighbours l k0 k1 e -> k_interp k0 = Log -> 0 < k_beta k0 -> 0 < k_beta k1 ->
  exists v, PieceWiseSchedule l e = Some v /\ Rmin (k_beta k0) (k_beta k1) <= v <= Rmax (k_beta k0) (k_beta k1) /\
    Rabs (ln v - ln (log_interp (k_beta k0) (k_beta k1) (frac (k_epoch k0) (k_epoch k1) e))) <= Rabs (ln (k_beta k1) - ln (k_beta k0)) * / 1000000000.
Proof.
  intros ND H Hi P0 P1. exists (log_interp (k_beta k0) (k_beta k1) (frac' (k_epoch k0) (k_epoch k1) e)).
  pose proof (seg_between l k0 k1 e ND H) as Hs. destruct H as (_ & _ & He & _).
  pose proof (frac'_range _ _ _ He) as R1. pose proof (frac'_close _ _ _ He) as R2. pose proof eps_pos as Hp.
  split.
  - unfold PieceWiseSchedule. rewrite pws_seg, Hs. unfold interpolate. rewrite Hi. unfold pydiv.
    assert (IZR (k_epoch k0) < IZR (k_epoch k1)) by (apply IZR_lt; lia).
    destruct (Req_EM_T (k_beta k0) 0); [lra|].
    destruct (Req_EM_T _ 0) as [E|_]; [lra|]. unfold pypow.
    assert (0 < k_beta k1 / k_beta k0) by (apply Rdiv_lt_0_compat; assumption).
    destruct (Rlt_dec 0 _); [|contradiction]. rewrite log_seg by assumption. reflexivity.
  - unfold log_interp. rewrite !ln_exp. unfold lin. set (t := frac' _ _ _) in *. set (s := frac _ _ _) in *.
    set (a := ln (k_beta k0)) in *. set (b := ln (k_beta k1)) in *. split.
    + unfold Rmin, Rmax. rewrite <- (exp_ln (k_beta k0) P0), <- (exp_ln (k_beta k1) P1). fold a b.
      assert (M : forall x y, x <= y -> exp x <= exp y) by (intros x y [L| ->]; [left; apply exp_increasing; exact L|right; reflexivity]).
      destruct (Rle_dec (exp a) (exp b)) as [L|L].
      * assert (a <= b) by (destruct (Rle_lt_dec a b) as [|G]; [assumption|pose proof (exp_increasing _ _ G); lra]).
        split; apply M; nra.
      * assert (b <= a) by (destruct (Rle_lt_dec b a) as [|G]; [assumption|pose proof (exp_increasing _ _ G); lra]).
        split; apply M; nra.
    + replace (a + (b - a) * t - (a + (b - a) * s)) with ((b - a) * - (s - t)) by ring.
      rewrite Rabs_mult, Rabs_Ropp, (Rabs_right (s - t)) by lra. rewrite eps_val in R2. pose proof (Rabs_pos (b - a)). nra.
Qed.
(** a log segment starting at 0 has no value *)
Theorem pws_log_zero l k0 k1 e : distinct_epochs l -> neighbours l k0 k1 e -> k_interp k0 = Log -> k_beta k0 = 0 -> PieceWiseSchedule l e = None.
Proof.
  intros ND H Hi Hz. unfold PieceWiseSchedule. rewrite pws_seg, (seg_between l k0 k1) by assumption.
  unfold interpolate. rewrite Hi, Hz. unfold pydiv at 1. destruct (Req_EM_T 0 0); [reflexivity|lra].
Qed.

(** * set_beta *)
Lemma set_beta_all b ls : all_have b (set_beta b ls).
Proof.
  intros v H. unfold set_beta in H. apply in_map_iff in H. destruct H as ([| |w] & E & _); try discriminate. congruence.
Qed.
Lemma set_beta_shape b ls : map has_beta (set_beta b ls) = map has_beta ls.
Proof. unfold set_beta. rewrite map_map. apply map_ext. intros []; reflexivity. Qed.
Lemma get_avg_set b ls : ~ In BetaNone ls -> In true (map has_beta ls) -> get_avg_beta (set_beta b ls) = Some b.
Proof.
  intros Hn Hin. unfold get_avg_beta.
  assert (G : forall m n c, ~ In BetaNone m -> sum_betas (set_beta b m) n c =
     Some ((n + length (filter has_beta m))%nat, c + INR (length (filter has_beta m)) * b)).
  { induction m as [|h t IH]; intros n c HN; cbn [set_beta map sum_betas filter].
    - cbn [length INR]. f_equal. f_equal; [lia|ring].
    - assert (~ In BetaNone t) by (intros F; apply HN; right; exact F).
      destruct h as [| |w]; cbn [has_beta length].
      + apply IH; assumption.
      + exfalso. apply HN. left. reflexivity.
      + fold (set_beta b t). rewrite IH by assumption. f_equal. f_equal; [lia|]. rewrite S_INR. ring. }
  rewrite G by assumption. cbn [Nat.add].
  assert (0 < length (filter has_beta ls))%nat.
  { apply in_map_iff in Hin. destruct Hin as (o & E & I). destruct (filter has_beta ls) eqn:F; [|cbn; lia].
    assert (In o (filter has_beta ls)) by (apply filter_In; auto). rewrite F in H. destruct H. }
  assert (L : (0 <? length (filter has_beta ls))%nat = true) by (apply Nat.ltb_lt; exact H). rewrite L. f_equal.
  assert (INR (length (filter has_beta ls)) <> 0) by (apply not_0_INR; lia). field. assumption.
Qed.
Lemma get_avg_fails ls : get_avg_beta ls = None <-> In BetaNone ls.
Proof.
  unfold get_avg_beta.
  assert (G : forall m n c, sum_betas m n c = None <-> In BetaNone m).
  { induction m as [|h t IH]; intros n c; cbn [sum_betas].
    - split; [discriminate|intros []].
    - destruct h as [| |w].
      + rewrite IH. split; [intros H; right; exact H|intros [F|H]; [discriminate|exact H]].
      + split; [intros _; left; reflexivity|reflexivity].
      + rewrite IH. split; [intros H; right; exact H|intros [F|H]; [discriminate|exact H]]. }
  rewrite <- (G ls 0%nat 0). destruct (sum_betas ls 0 0) as [[n c]|]; split; intros H; try discriminate; reflexivity.
Qed.

(** * BetaPID *)
Lemma clamp_low c b : min_beta c <= clamp_beta c b.
Proof. unfold clamp_beta. apply Rmax_r. Qed.
Lemma clamp_high c b m : max_beta c = Some m -> min_beta c <= m -> clamp_beta c b <= m.
Proof. intros H1 H2. unfold clamp_beta. rewrite H1. apply Rmax_lub; [apply Rmin_r|exact H2]. Qed.
Lemma clamp_mono c a b : a <= b -> clamp_beta c a <= clamp_beta c b.
Proof.
  intros H. unfold clamp_beta. destruct (max_beta c) as [m|].
  - unfold Rmax, Rmin. repeat destruct (Rle_dec _ _); lra.
  - unfold Rmax. repeat destruct (Rle_dec _ _); lra.
Qed.
Lemma clamp_neg c a b : 0 <= min_beta c -> a <= 0 -> clamp_beta c a <= clamp_beta c b.
Proof.
  intros H1 H2. unfold clamp_beta. destruct (max_beta c) as [m|]; unfold Rmax, Rmin; repeat destruct (Rle_dec _ _); lra.
Qed.

Theorem beta_bounds c epoch s s' : (warmup c <= epoch)%Z -> on_epoch_begin c epoch s = Some s' ->
  min_beta c <= beta s' /\ (forall m, max_beta c = Some m -> min_beta c <= m -> beta s' <= m) /\
  all_have (beta s') (layers s') /\ map has_beta (layers s') = map has_beta (layers s).
Proof.
  intros Hw H. unfold on_epoch_begin in H. replace (epoch <? warmup c)%Z with false in H by (symmetry; apply Z.ltb_ge; lia).
  destruct (if (epoch =? warmup c)%Z then match_integral c s else Some (ctl s)) as [k|]; [|discriminate].
  destruct (control c k (ebops s)) as [[k' b]|]; [|discriminate]. injection H as <-. cbn [beta layers].
  split; [apply clamp_low|]. split; [intros; apply clamp_high; assumption|]. split; [apply set_beta_all|apply set_beta_shape].
Qed.
Theorem run_bounds c : forall hist epoch s l, (warmup c <= epoch)%Z -> run_epochs c epoch hist s = Some l ->
  forall s', In s' l -> min_beta c <= beta s' /\ (forall m, max_beta c = Some m -> min_beta c <= m -> beta s' <= m) /\
    all_have (beta s') (layers s').
Proof.
  induction hist as [|e t IH]; intros epoch s l Hw H s' Hin; cbn [run_epochs] in H.
  - injection H as <-. destruct Hin.
  - destruct (on_epoch_begin c epoch s) as [s1|] eqn:E; [|discriminate].
    destruct (run_epochs c (epoch + 1) t (on_epoch_end e s1)) as [l'|] eqn:E2; [|discriminate].
    injection H as <-. destruct Hin as [<-|Hin].
    + destruct (beta_bounds c epoch s s1 Hw E) as (A & B & C & _). auto.
    + apply (IH (epoch + 1)%Z _ l' ltac:(lia) E2 s' Hin).
Qed.
Theorem warmup_keeps c epoch s s' : (epoch < warmup c)%Z -> on_epoch_begin c epoch s = Some s' ->
  ctl s' = ctl s /\ beta s' = beta s /\ match init_beta c with Some b => all_have b (layers s') | None => layers s' = layers s end.
Proof.
  intros Hw H. unfold on_epoch_begin in H. replace (epoch <? warmup c)%Z with true in H by (symmetry; apply Z.ltb_lt; lia).
  injection H as <-. destruct (init_beta c); cbn; auto. split; [reflexivity|]. split; [reflexivity|]. apply set_beta_all.
Qed.

(** two consecutive controlled epochs *)
Definition err_of (c : pid_conf) (e : R) : R := if log c then log10 (e / target_ebops c) else e / target_ebops c - 1.
Definition out_of (c : pid_conf) (u : R) : R := if log c then exp10 u else u.
Lemma control_spec c k e : control c k e = None /\ log c = true /\ e / target_ebops c <= 0 \/
  (log c = true -> 0 < e / target_ebops c) /\
  let err := err_of c e in
  control c k e = Some (mk_pid (gp k) (gi k) (gd k) (integral k + err) err,
     out_of c (gp k * err + gi k * (integral k + err) + gd k * (err - prev_error k))).
Proof.
  unfold control, err_of, out_of, pylog10. destruct (log c).
  - destruct (Rlt_dec 0 (e / target_ebops c)).
    + right. split; [auto|]. cbn. rewrite Rminus_0_r. reflexivity.
    + left. repeat split; lra.
  - right. split; [discriminate|]. reflexivity.
Qed.
Lemma exp10_mono a b : a <= b -> exp10 a <= exp10 b.
Proof. intros H. unfold exp10. apply Rle_Rpower; lra. Qed.
Lemma out_mono c a b : a <= b -> out_of c a <= out_of c b.
Proof. intros. unfold out_of. destruct (log c); [apply exp10_mono|]; assumption. Qed.
Lemma exp10_pos a : 0 < exp10 a.
Proof. unfold exp10, Rpower. apply exp_pos. Qed.
Lemma ln10_pos : 0 < ln 10.
Proof. rewrite <- ln_1. apply ln_increasing; lra. Qed.
Lemma log10_mono a b : 0 < a -> a <= b -> log10 a <= log10 b.
Proof.
  intros Ha H. unfold log10. apply Rmult_le_compat_r; [left; apply Rinv_0_lt_compat, ln10_pos|].
  destruct H as [H| ->]; [left; apply ln_increasing; assumption|right; reflexivity].
Qed.
Lemma log10_1 : log10 1 = 0.
Proof. unfold log10. rewrite ln_1. unfold Rdiv. ring. Qed.
Lemma err_mono c a b : 0 < target_ebops c -> (log c = true -> 0 < a / target_ebops c) -> a <= b -> err_of c a <= err_of c b.
Proof.
  intros Ht Hl H. assert (a / target_ebops c <= b / target_ebops c) by (apply Rmult_le_compat_r; [left; apply Rinv_0_lt_compat; exact Ht|exact H]).
  unfold err_of. destruct (log c); [apply log10_mono; auto|lra].
Qed.
Lemma div_target c : 0 < target_ebops c -> target_ebops c / target_ebops c = 1.
Proof. intros. field. lra. Qed.
Lemma err_target c : 0 < target_ebops c -> err_of c (target_ebops c) = 0.
Proof. intros H. unfold err_of. rewrite div_target by exact H. destruct (log c); [apply log10_1|ring]. Qed.
Lemma pos_div c e : 0 < target_ebops c -> 0 < e / target_ebops c -> 0 < e.
Proof. intros Ht H. replace e with (e / target_ebops c * target_ebops c) by (field; lra). apply Rmult_lt_0_compat; assumption. Qed.

Lemma begin_past c epoch s : (warmup c < epoch)%Z ->
  on_epoch_begin c epoch s = match control c (ctl s) (ebops s) with
    | None => None
    | Some (k', b) => let b := clamp_beta c (damped c (ebops s) b) in Some (mk_st k' b (ebops s) (set_beta b (layers s))) end.
Proof.
  intros H. unfold on_epoch_begin, damped.
  replace (epoch <? warmup c)%Z with false by (symmetry; apply Z.ltb_ge; lia).
  replace (epoch =? warmup c)%Z with false by (symmetry; apply Z.eqb_neq; lia). reflexivity.
Qed.
(** any controlled epoch (warm-up just over or later): the controller output before clamping *)
Lemma begin_controlled c epoch s s' : (warmup c <= epoch)%Z -> on_epoch_begin c epoch s = Some s' ->
  exists u, gp (ctl s') = gp (ctl s) /\ gi (ctl s') = gi (ctl s) /\ gd (ctl s') = gd (ctl s) /\
    prev_error (ctl s') = err_of c (ebops s) /\ ebops s' = ebops s /\
    (log c = true -> 0 < ebops s / target_ebops c) /\
    (gd (ctl s) = 0 -> u = gp (ctl s) * err_of c (ebops s) + gi (ctl s) * integral (ctl s')) /\
    beta s' = clamp_beta c (damped c (ebops s) (out_of c u)).
Proof.
  intros Hw H. unfold on_epoch_begin in H. replace (epoch <? warmup c)%Z with false in H by (symmetry; apply Z.ltb_ge; lia).
  destruct (if (epoch =? warmup c)%Z then match_integral c s else Some (ctl s)) as [k|] eqn:Ek; [|discriminate].
  assert (Gk : gp k = gp (ctl s) /\ gi k = gi (ctl s) /\ gd k = gd (ctl s)).
  { destruct (epoch =? warmup c)%Z; [|injection Ek as <-; auto].
    unfold match_integral in Ek. destruct (log c).
    - destruct (pylog10 _); [|discriminate]. destruct (pylog10 _); [|discriminate]. destruct (pydiv _ _); [|discriminate]. injection Ek as <-. auto.
    - destruct (pydiv _ _); [|discriminate]. injection Ek as <-. auto. }
  destruct Gk as (G1 & G2 & G3).
  destruct (control_spec c k (ebops s)) as [(E & _)|(Hl & E)]; rewrite E in H; [discriminate|]. injection H as <-.
  exists (gp k * err_of c (ebops s) + gi k * (integral k + err_of c (ebops s)) + gd k * (err_of c (ebops s) - prev_error k)).
  cbn [ctl gp gi gd prev_error ebops beta integral].
  do 6 (split; [first [assumption|reflexivity]|]). split; [|unfold damped; reflexivity].
  intros Hd. rewrite G1, G2, G3, Hd. ring.
Qed.

Lemma damp_up c e e' a b : 0 <= min_beta c -> 0 <= damp c <= 1 -> target_ebops c <= e' -> a <= b ->
  clamp_beta c (damped c e a) <= clamp_beta c (damped c e' b).
Proof.
  intros Hm Hd He H. unfold damped. destruct (Rlt_dec e' (target_ebops c)); [lra|].
  destruct (Rlt_dec e (target_ebops c)).
  - destruct (Rle_lt_dec a 0) as [N|P]; [apply clamp_neg; [exact Hm|nra]|apply clamp_mono; nra].
  - apply clamp_mono; exact H.
Qed.
Lemma damp_down c e e' a b : 0 <= min_beta c -> 0 <= damp c <= 1 -> e' <= e -> b <= a ->
  clamp_beta c (damped c e' b) <= clamp_beta c (damped c e a).
Proof.
  intros Hm Hd He H. unfold damped. destruct (Rlt_dec e' (target_ebops c)) as [L|L]; destruct (Rlt_dec e (target_ebops c)) as [L2|L2]; try lra.
  - apply clamp_mono. nra.
  - destruct (Rle_lt_dec b 0) as [N|P]; [apply clamp_neg; [exact Hm|nra]|apply clamp_mono; nra].
  - apply clamp_mono; exact H.
Qed.

(** the epoch [s -> s1], then [e] observed, then the next epoch [-> s2] *)
Theorem pid_rises c epoch s s1 e s2 : 0 < target_ebops c -> 0 <= min_beta c -> 0 <= damp c <= 1 ->
  0 <= gp (ctl s) -> 0 <= gi (ctl s) -> gd (ctl s) = 0 ->
  (warmup c <= epoch)%Z -> on_epoch_begin c epoch s = Some s1 ->
  on_epoch_begin c (epoch + 1) (on_epoch_end e s1) = Some s2 ->
  target_ebops c <= e -> ebops s <= e -> beta s1 <= beta s2.
Proof.
  intros Ht Hm Hd Hp Hi H0 Hw H1 H2 He Hmon.
  destruct (begin_controlled _ _ _ _ Hw H1) as (u1 & A1 & A2 & A3 & A4 & A5 & A6 & A7 & A8).
  rewrite begin_past in H2 by lia. cbn [on_epoch_end ctl ebops layers] in H2.
  destruct (control_spec c (ctl s1) e) as [(E & _)|(Hl & E)]; rewrite E in H2; [discriminate|]. injection H2 as <-. cbn [beta].
  rewrite A8. apply damp_up; try assumption. apply out_mono. rewrite (A7 H0), A1, A2, A3, H0.
  assert (0 <= err_of c e).
  { rewrite <- (err_target c Ht). apply err_mono; auto. intros _. rewrite div_target by exact Ht. lra. }
  pose proof (err_mono c (ebops s) e Ht A6 Hmon). nra.
Qed.
Theorem pid_falls c epoch s s1 e s2 : 0 < target_ebops c -> 0 <= min_beta c -> 0 <= damp c <= 1 ->
  0 <= gp (ctl s) -> 0 <= gi (ctl s) -> gd (ctl s) = 0 ->
  (warmup c <= epoch)%Z -> on_epoch_begin c epoch s = Some s1 ->
  on_epoch_begin c (epoch + 1) (on_epoch_end e s1) = Some s2 ->
  e <= target_ebops c -> e <= ebops s -> beta s2 <= beta s1.
Proof.
  intros Ht Hm Hd Hp Hi H0 Hw H1 H2 He Hmon.
  destruct (begin_controlled _ _ _ _ Hw H1) as (u1 & A1 & A2 & A3 & A4 & A5 & A6 & A7 & A8).
  rewrite begin_past in H2 by lia. cbn [on_epoch_end ctl ebops layers] in H2.
  destruct (control_spec c (ctl s1) e) as [(E & _)|(Hl & E)]; rewrite E in H2; [discriminate|]. injection H2 as <-. cbn [beta].
  rewrite A8. apply damp_down; try assumption. apply out_mono. rewrite (A7 H0), A1, A2, A3, H0.
  assert (err_of c e <= 0) by (rewrite <- (err_target c Ht); apply err_mono; auto).
  pose proof (err_mono c e (ebops s) Ht Hl Hmon). nra.
Qed.

(** no steady-state error: same EBOPs and same (unclamped, undamped) beta in two consecutive epochs *)
Lemma out_inj c a b : out_of c a = out_of c b -> a = b.
Proof.
  unfold out_of. destruct (log c); [|auto]. unfold exp10, Rpower. intros H. apply exp_inv in H.
  pose proof ln10_pos. nra.
Qed.
Lemma log10_0 v : 0 < v -> log10 v = 0 -> v = 1.
Proof.
  intros Hv H. unfold log10 in H. pose proof ln10_pos.
  assert (ln v = 0) by (apply (f_equal (fun z => z * ln 10)) in H; unfold Rdiv in H; rewrite Rmult_assoc, Rinv_l in H by lra; lra).
  rewrite <- (exp_ln v Hv), H1. apply exp_0.
Qed.
Theorem pid_steady c epoch s s1 s2 : 0 < target_ebops c -> 0 < gi (ctl s) -> gd (ctl s) = 0 -> damp c = 0 ->
  (warmup c <= epoch)%Z -> on_epoch_begin c epoch s = Some s1 ->
  on_epoch_begin c (epoch + 1) (on_epoch_end (ebops s) s1) = Some s2 ->
  beta s2 = beta s1 -> min_beta c < beta s1 -> (forall m, max_beta c = Some m -> beta s1 < m) ->
  ebops s = target_ebops c.
Proof.
  intros Ht Hi H0 Hd Hw H1 H2 Hb Hlo Hhi.
  destruct (begin_controlled _ _ _ _ Hw H1) as (u1 & A1 & A2 & A3 & A4 & A5 & A6 & A7 & A8).
  rewrite begin_past in H2 by lia. cbn [on_epoch_end ctl ebops layers] in H2.
  destruct (control_spec c (ctl s1) (ebops s)) as [(E & _)|(Hl & E)]; rewrite E in H2; [discriminate|]. injection H2 as <-. cbn [beta] in Hb.
  clear E.
  assert (U : forall b, clamp_beta c b = beta s1 -> b = beta s1).
  { intros b Eb. unfold clamp_beta in Eb. destruct (max_beta c) as [m|].
    - specialize (Hhi m eq_refl). unfold Rmax, Rmin in Eb. repeat destruct (Rle_dec _ _); lra.
    - unfold Rmax in Eb. destruct (Rle_dec _ _); lra. }
  assert (D : forall b, damped c (ebops s) b = b) by (intros b; unfold damped; destruct (Rlt_dec _ _); rewrite ?Hd; ring).
  symmetry in A8. apply U in A8. apply U in Hb. rewrite D in A8, Hb. rewrite <- A8 in Hb. apply out_inj in Hb.
  rewrite (A7 H0), A1, A2, A3, H0 in Hb.
  assert (err_of c (ebops s) = 0) by nra. unfold err_of in H. destruct (log c).
  - apply log10_0 in H; [|auto]. replace (ebops s) with (ebops s / target_ebops c * target_ebops c) by (field; lra). rewrite H. ring.
  - replace (ebops s) with (ebops s / target_ebops c * target_ebops c) by (field; lra). replace (ebops s / target_ebops c) with 1 by lra. ring.
Qed.

(** start of the controller *)
Theorem start_linear c s s' : log c = false -> gi (ctl s) <> 0 -> gd (ctl s) = 0 ->
  on_epoch_begin c (warmup c) s = Some s' ->
  beta s' = clamp_beta c (damped c (ebops s) (beta s + 2 * (gp (ctl s) + gi (ctl s)) * (ebops s / target_ebops c - 1))).
Proof.
  intros Hl Hi Hd H. unfold on_epoch_begin in H.
  rewrite Z.ltb_irrefl, Z.eqb_refl in H. unfold match_integral, control in H. rewrite Hl in H. unfold pydiv in H.
  destruct (Req_EM_T (gi (ctl s)) 0); [contradiction|]. cbn in H. injection H as <-. cbn [beta].
  unfold damped. f_equal. rewrite Hd.
  assert (E : forall a b, a = b -> (if Rlt_dec (ebops s) (target_ebops c) then a * (1 - damp c) else a) = (if Rlt_dec (ebops s) (target_ebops c) then b * (1 - damp c) else b)) by (intros a b ->; reflexivity).
  apply E. set (r := ebops s / target_ebops c). field. assumption.
Qed.
(** log mode, every gain, with derivative term: the value before damping and clamping *)
Theorem start_log_gen c s s' : log c = true -> 0 < target_ebops c -> 0 <= gp (ctl s) + gi (ctl s) -> gd (ctl s) = 0 ->
  on_epoch_begin c (warmup c) s = Some s' ->
  exists u, beta s' = clamp_beta c (damped c (ebops s) u) /\ 0 < u /\ 0 < beta s /\ 0 < ebops s /\
    u <= beta s /\ ln (beta s) - ln u <= (gp (ctl s) + gi (ctl s)) * (/ 1000000000 * (target_ebops c / ebops s)).
Proof.
  intros Hl Ht Hg Hd H. unfold on_epoch_begin in H.
  rewrite Z.ltb_irrefl, Z.eqb_refl in H. unfold match_integral, control in H. rewrite Hl in H.
  set (r := ebops s / target_ebops c) in *.
  unfold pylog10 in H. pose proof eps_pos as Hp. unfold eps in Hp.
  assert (Hep : / 10 ^ 9 = / 1000000000) by (f_equal; lra). set (ep := / 10 ^ 9) in *. clearbody ep. rewrite <- Hep.
  destruct (Rlt_dec 0 (r + ep)); [|discriminate]. destruct (Rlt_dec 0 (beta s)) as [Pb|]; [|discriminate].
  unfold pydiv in H. destruct (Req_EM_T (gi (ctl s)) 0); [discriminate|].
  destruct (Rlt_dec 0 r) as [Hr|]; [|discriminate]. cbn [pid_call with_integral gp gi gd integral prev_error] in H.
  injection H as <-. cbn [beta] in *.
  set (o := _ + _ + _) in *.
  assert (Eo : o = log10 (beta s) + (gp (ctl s) + gi (ctl s)) * (log10 r - log10 (r + ep))).
  { unfold o. rewrite Hd. field. assumption. }
  assert (He : ebops s = r * target_ebops c) by (unfold r; field; lra).
  assert (He0 : 0 < ebops s) by (rewrite He; apply Rmult_lt_0_compat; assumption).
  assert (D : 0 <= ln (r + ep) - ln r <= ep / r).
  { split.
    - assert (ln r < ln (r + ep)) by (apply ln_increasing; lra). lra.
    - rewrite <- ln_div by lra. replace ((r + ep) / r) with (1 + ep / r) by (field; lra).
      assert (0 < ep / r) by (apply Rdiv_lt_0_compat; lra).
      rewrite <- (ln_exp (ep / r)) at 2. left. apply ln_increasing; [lra|]. apply exp_ineq1. lra. }
  assert (Lo : ln (exp10 o) = ln (beta s) - (gp (ctl s) + gi (ctl s)) * (ln (r + ep) - ln r)).
  { unfold exp10, Rpower. rewrite ln_exp, Eo. unfold log10. pose proof ln10_pos. field. lra. }
  exists (exp10 o). split; [reflexivity|]. split; [apply exp10_pos|]. split; [exact Pb|]. split; [exact He0|].
  set (g := gp (ctl s) + gi (ctl s)) in *. split.
  - assert (ln (exp10 o) <= ln (beta s)) by (rewrite Lo; assert (0 <= g * (ln (r + ep) - ln r)) by (apply Rmult_le_pos; lra); lra).
    destruct (Rle_or_lt (exp10 o) (beta s)) as [|C]; [assumption|]. apply ln_increasing in C; [lra|exact Pb].
  - rewrite Lo. replace (ep * (target_ebops c / ebops s)) with (ep / r) by (rewrite He; field; lra).
    assert (g * (ln (r + ep) - ln r) <= g * (ep / r)) by (apply Rmult_le_compat_l; lra). lra.
Qed.
(** BaseBetaPID *)
Theorem base_nonneg t k e ls : let '(k', b, ls') := base_epoch_begin t k e ls in 0 <= b /\ all_have b ls' /\ map has_beta ls' = map has_beta ls.
Proof.
  unfold base_epoch_begin. destruct (pid_call k t e) as [k' b]. split; [apply Rmax_r|]. split; [apply set_beta_all|apply set_beta_shape].
Qed.

(** in linear mode with a non-zero integral gain no epoch raises *)
Lemma linear_total c : log c = false -> forall hist epoch s, gi (ctl s) <> 0 -> (warmup c <= epoch)%Z ->
  exists l, run_epochs c epoch hist s = Some l /\ length l = length hist.
Proof.
  intros Hl. induction hist as [|e t IH]; intros epoch s Hg Hw; cbn [run_epochs]; [exists []; split; reflexivity|].
  assert (E : exists s1, on_epoch_begin c epoch s = Some s1).
  { unfold on_epoch_begin, match_integral, control. rewrite Hl. replace (epoch <? warmup c)%Z with false by (symmetry; apply Z.ltb_ge; lia).
    unfold pydiv. destruct (Req_EM_T (gi (ctl s)) 0); [contradiction|]. destruct (epoch =? warmup c)%Z; eexists; reflexivity. }
  destruct E as (s1 & E). rewrite E. destruct (begin_controlled _ _ _ _ Hw E) as (_ & _ & G & _).
  destruct (IH (epoch + 1)%Z (on_epoch_end e s1)) as (l & El & Ll); [cbn; congruence|lia|].
  rewrite El. exists (s1 :: l). split; [reflexivity|]. cbn [length]. f_equal. exact Ll.
Qed.
