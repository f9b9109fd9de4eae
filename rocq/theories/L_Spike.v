From Verif Require Import Num M_Fixed S_Fixed L_Fixed M_State M_Mapper M_Mirror M_Ebops L_Ebops M_Cebops L_Cebops M_Rnn S_Rnn L_Rnn M_Spike S_Spike L_Ops.

Lemma spk_cases c mem j : (j < s_units c)%nat -> (snn_spk c mem j == 1 /\ s_threshold c j < mem j) \/ snn_spk c mem j == 0.
Proof.
  intros Hj. rewrite (spk_fire c mem mem j) by (exact Hj || (intros i _; reflexivity)). destruct (replay_fire c mem j) eqn:E; [left; split; [reflexivity|]|right; reflexivity].
  unfold replay_fire in E. cbv zeta in E. assert (F : qlt_b 0 (mem j - s_threshold c j) = true) by (destruct (s_inhibition c); [apply andb_true_iff in E; destruct E as [E _]; apply andb_true_iff in E; apply E|exact E]).
  apply qlt_b_iff in F. lra.
Qed.
Lemma layer_q_ext q u v j : u j == v j -> layer_q q u j == layer_q q v j.
Proof. intros E. unfold layer_q. apply affine_comp, base_call_Proper, E. Qed.
Lemma opt_q_ext q u v j : u j == v j -> opt_q layer_q q u j == opt_q layer_q q v j.
Proof. destruct q; cbn [opt_q]; [apply layer_q_ext|auto]. Qed.
Lemma scan_app {S X Y} (step : X -> S -> Y * S) xs : forall ys s,
  scan step (xs ++ ys) s = (fst (scan step xs s) ++ fst (scan step ys (snd (scan step xs s))), snd (scan step ys (snd (scan step xs s)))).
Proof.
  induction xs as [|x xs IH]; intros ys s; cbn [scan app fst snd]; [destruct (scan step ys s); reflexivity|].
  destruct (step x s) as [y s1]. rewrite IH. destruct (scan step xs s1) as [a b]. cbn [fst snd]. destruct (scan step ys b). reflexivity.
Qed.
Definition mem_of (c : snn_cell) (x s : vec) : vec := match s_beta c with Some beta => fun j => beta j * s j + opt_q layer_q (s_iq c) x j | None => fun j => s j + opt_q layer_q (s_iq c) x j end.
Lemma call_parts c x s : snn_call c x s = (opt_q layer_q (s_oq c) (fun j => snn_spk c (mem_of c x s) j * s_factor c j), opt_q layer_q (s_sq c) (snn_reset c (mem_of c x s) (snn_spk c (mem_of c x s)))).
Proof. reflexivity. Qed.
Lemma mem_leak c x s j : mem_of c x s j == leak c j * s j + opt_q layer_q (s_iq c) x j.
Proof. unfold mem_of, leak. destruct (s_beta c); [reflexivity|ring]. Qed.

(** ** outputs *)
Lemma output_binary c backwards xs s y j : In y (fst (keras_rnn (snn_call c) backwards xs s)) -> (j < s_units c)%nat ->
  y j == opt_q layer_q (s_oq c) (fun _ => 0) j \/ y j == opt_q layer_q (s_oq c) (s_factor c) j.
Proof.
  unfold keras_rnn. generalize (if backwards then rev xs else xs). clear xs. intros xs. revert s.
  induction xs as [|x xs IH]; intros s H Hj; cbn [scan] in H; [destruct H|]. rewrite call_parts in H.
  match type of H with context [scan _ xs ?t] => specialize (IH t); destruct (scan (snn_call c) xs t) as [ys s2] end. cbn [fst] in *.
  destruct H as [<-|H]; [|exact (IH H Hj)].
  destruct (spk_cases c (mem_of c x s) j Hj) as [[E _]|E]; [right|left]; apply opt_q_ext; rewrite E; ring.
Qed.

Lemma scan_length {S X Y} (step : X -> S -> Y * S) xs : forall s, length (fst (scan step xs s)) = length xs.
Proof. induction xs as [|x xs IH]; intros s; cbn [scan]; [reflexivity|]. destruct (step x s) as [y s1]. specialize (IH s1). destruct (scan step xs s1). cbn [fst length] in *. f_equal. exact IH. Qed.
(** ** the membrane is what came in minus what went out *)
Lemma power_S b n : power b (S n) = b * power b n. Proof. reflexivity. Qed.
Lemma conservation c xs : forall s j, s_reset c = RSubtract -> s_sq c = None -> s_oq c = None -> (j < s_units c)%nat ->
  s_factor c j * membrane c xs s j == s_factor c j * (power (leak c j) (length xs) * s j + discounted (leak c j) (received c xs j)) - s_threshold c j * discounted (leak c j) (map (fun y => y j) (outputs c xs s)).
Proof.
  unfold membrane, outputs, keras_rnn, received. induction xs as [|x xs IH]; intros s j R Q O Hj; cbn [scan fst snd map length discounted power]; [ring|].
  rewrite call_parts. set (m := mem_of c x s). set (s1 := opt_q layer_q (s_sq c) (snn_reset c m (snn_spk c m))).
  specialize (IH s1 j R Q O Hj). destruct (scan (snn_call c) xs s1) as [ys s2] eqn:E. cbn [fst snd map discounted] in *. rewrite !map_length.
  assert (L : length ys = length xs) by (rewrite <- (scan_length (snn_call c) xs s1), E; reflexivity).
  rewrite L, IH.
  assert (S1 : s1 j == leak c j * s j + opt_q layer_q (s_iq c) x j - snn_spk c m j * s_threshold c j) by (unfold s1; rewrite Q; cbn [opt_q]; unfold snn_reset; rewrite R; unfold m at 1; rewrite mem_leak; ring).
  rewrite S1, O. cbn [opt_q]. rewrite ?map_length. ring.
Qed.

(** ** the membrane stays bounded *)
Lemma reset_between c m j lo hi : (j < s_units c)%nat -> 0 <= s_threshold c j -> lo <= 0 -> 0 <= hi -> lo <= m j -> m j <= hi ->
  lo <= snn_reset c m (snn_spk c m) j /\ snn_reset c m (snn_spk c m) j <= hi.
Proof.
  intros Hj T L H A B. unfold snn_reset. destruct (spk_cases c m j Hj) as [[E F]|E]; destruct (s_reset c); try (split; assumption);
    [setoid_replace (m j - snn_spk c m j * s_threshold c j) with (m j - s_threshold c j) by (rewrite E; ring)|setoid_replace (m j * (1 - snn_spk c m j)) with 0 by (rewrite E; ring)
    |setoid_replace (m j - snn_spk c m j * s_threshold c j) with (m j) by (rewrite E; ring)|setoid_replace (m j * (1 - snn_spk c m j)) with (m j) by (rewrite E; ring)]; split; lra.
Qed.
Lemma bounded_leaky c xs lo hi b j : (j < s_units c)%nat -> s_sq c = None -> 0 <= s_threshold c j -> 0 <= leak c j <= b -> b < 1 -> lo <= 0 <= hi -> (forall v, In v (received c xs j) -> lo <= v <= hi) ->
  forall s, lo / (1 - b) <= s j <= hi / (1 - b) -> lo / (1 - b) <= membrane c xs s j <= hi / (1 - b).
Proof.
  intros Hj Q T [L0 L1] B [Hl Hh]. unfold membrane, keras_rnn, received.
  set (d := 1 - b). assert (D : 0 < d) by (unfold d; lra).
  assert (Zl : lo / d <= 0) by (apply Qle_shift_div_r; lra). assert (Zh : 0 <= hi / d) by (apply Qle_shift_div_l; lra).
  assert (Fl : lo / d == b * (lo / d) + lo) by (unfold d; field; lra). assert (Fh : hi / d == b * (hi / d) + hi) by (unfold d; field; lra).
  clearbody d. induction xs as [|x xs IH]; intros R s S; cbn [scan snd]; [exact S|].
  rewrite call_parts. set (m := mem_of c x s). specialize (IH (fun v H => R v (or_intror H)) (opt_q layer_q (s_sq c) (snn_reset c m (snn_spk c m)))).
  destruct (scan (snn_call c) xs (opt_q layer_q (s_sq c) (snn_reset c m (snn_spk c m)))) as [ys s2]. cbn [snd] in *. apply IH. rewrite Q. cbn [opt_q].
  pose proof (R _ (or_introl eq_refl)) as [R1 R2]. cbv beta in R1, R2.
  assert (M : lo / d <= m j /\ m j <= hi / d) by (unfold m; rewrite !mem_leak; set (u := lo / d) in *; set (v := hi / d) in *; clearbody u v; split; nra).
  apply reset_between; try assumption; apply M.
Qed.
Lemma bounded_sum c xs lo hi j : (j < s_units c)%nat -> s_sq c = None -> 0 <= s_threshold c j -> 0 <= leak c j <= 1 -> lo <= 0 <= hi -> (forall v, In v (received c xs j) -> lo <= v <= hi) ->
  forall s n, nQ n * lo <= s j <= nQ n * hi -> nQ (n + length xs) * lo <= membrane c xs s j <= nQ (n + length xs) * hi.
Proof.
  intros Hj Q T [L0 L1] [Hl Hh]. unfold membrane, keras_rnn, received.
  induction xs as [|x xs IH]; intros R s n S; cbn [scan snd length]; [rewrite Nat.add_0_r; exact S|].
  rewrite call_parts. set (m := mem_of c x s). specialize (IH (fun v H => R v (or_intror H)) (opt_q layer_q (s_sq c) (snn_reset c m (snn_spk c m))) (Datatypes.S n)).
  destruct (scan (snn_call c) xs (opt_q layer_q (s_sq c) (snn_reset c m (snn_spk c m)))) as [ys s2]. cbn [snd] in *. rewrite <- Nat.add_succ_comm. apply IH. rewrite Q. cbn [opt_q].
  pose proof (R _ (or_introl eq_refl)) as [R1 R2]. cbv beta in R1, R2.
  assert (N : nQ (Datatypes.S n) == nQ n + 1) by (unfold nQ; rewrite Nat2Z.inj_succ, <- Z.add_1_r, inject_Z_plus; reflexivity).
  assert (P : 0 <= nQ n) by (apply nQ_nonneg). set (k := nQ n) in *.
  assert (A : k * lo <= leak c j * s j) by (destruct (Qlt_le_dec (s j) 0); nra). assert (B : leak c j * s j <= k * hi) by (destruct (Qlt_le_dec (s j) 0); nra).
  assert (M : nQ (Datatypes.S n) * lo <= m j /\ m j <= nQ (Datatypes.S n) * hi) by (unfold m; rewrite !mem_leak, !N; split; nra).
  apply reset_between; try assumption; try apply M; rewrite N; nra.
Qed.
Lemma zero_reset c xs s x j : (j < s_units c)%nat -> s_reset c = RZero -> s_inhibition c = false -> s_sq c = None -> 0 <= s_threshold c j -> membrane c (xs ++ [x]) s j <= s_threshold c j.
Proof.
  intros Hj R I Q T. unfold membrane, keras_rnn. rewrite scan_app. cbn [snd scan]. set (s0 := snd (scan (snn_call c) xs s)). rewrite call_parts. cbn [snd]. rewrite Q. cbn [opt_q]. unfold snn_reset. rewrite R.
  set (m := mem_of c x s0). unfold snn_spk. cbv zeta. rewrite I, spike_hard. unfold hard. destruct (qlt_b 0 (m j - s_threshold c j)) eqn:E; [lra|].
  assert (~ s_threshold c j < m j) by (intros H; assert (qlt_b 0 (m j - s_threshold c j) = true) by (apply qlt_b_iff; lra); congruence). lra.
Qed.

(** ** the accumulator is wide enough *)
Lemma code_of_sum f a b x y : has_code f x a -> has_code f y b -> has_code f (x + y) (a + b).
Proof. unfold has_code. intros -> ->. rewrite inject_Z_plus. ring. Qed.
Lemma code_of_diff f a b x y : has_code f x a -> has_code f y b -> has_code f (x - y) (a - b).
Proof. unfold has_code. intros -> ->. unfold Z.sub. rewrite inject_Z_plus, inject_Z_opp. ring. Qed.
Lemma code_le f a b x y : has_code f x a -> has_code f y b -> x <= y -> (a <= b)%Z.
Proof.
  unfold has_code. intros -> -> H. pose proof (pow2_pos (- f)). rewrite Zle_Qle. apply Qmult_le_r with (pow2 (- f)); [assumption|exact H].
Qed.
Definition between (T lo hi : Z) (f : Z) (x : Q) : Prop := exists n, has_code f x n /\ (T * lo <= n <= T * hi)%Z.
Lemma between_ext T lo hi f x y : x == y -> between T lo hi f x -> between T lo hi f y.
Proof. intros E (n & H & R). exists n. split; [unfold has_code in *; rewrite <- E; exact H|exact R]. Qed.
Lemma between_step c q xs : forall s (n : nat) j, (j < s_units c)%nat -> s_iq c = Some q -> q_aff q = None -> (0 < kz (q_k q j) + q_i q j + q_f q j)%Z -> s_beta c = None -> s_sq c = None -> good_threshold c q j ->
  let lo := code_lo (q_om q) (q_k q j) (q_i q j + q_f q j) in let hi := code_hi (q_i q j + q_f q j) in
  between (Z.of_nat n) lo hi (q_f q j) (s j) -> between (Z.of_nat (n + length xs)) lo hi (q_f q j) (membrane c xs s j).
Proof.
  intros s n j Hj Iq A W B Sq [T G] lo hi. assert (Hlo : (lo <= 0)%Z /\ (0 <= hi)%Z).
  { unfold lo, hi, code_lo, code_hi. assert (0 <= q_i q j + q_f q j)%Z by (destruct (q_k q j); cbn [kz] in W; lia). pose proof (Z.pow_pos_nonneg 2 (q_i q j + q_f q j)). destruct (q_k q j), (q_om q); lia. }
  assert (X : forall x, between 1 lo hi (q_f q j) (opt_q layer_q (s_iq c) x j)).
  { intros x. rewrite Iq. cbn [opt_q]. unfold layer_q. rewrite A. cbn [affine_of]. destruct (inference_representable (q_rm q) (q_om q) (q_k q j) (q_i q j) (q_f q j) (x j) W) as (v & V1 & V2).
    exists v. split; [exact V1|]. fold lo hi in V2. lia. }
  unfold membrane, keras_rnn. clearbody lo hi. revert s n. induction xs as [|x xs IH]; intros s n S; cbn [scan snd length]; [rewrite Nat.add_0_r; exact S|].
  rewrite call_parts. set (m := mem_of c x s).
  specialize (IH (opt_q layer_q (s_sq c) (snn_reset c m (snn_spk c m))) (Datatypes.S n)).
  destruct (scan (snn_call c) xs (opt_q layer_q (s_sq c) (snn_reset c m (snn_spk c m)))) as [ys s2]. cbn [snd] in *. rewrite <- Nat.add_succ_comm. apply IH. clear IH. rewrite Sq. cbn [opt_q].
  destruct S as (a & A1 & A2). destruct (X x) as (v & V1 & V2).
  assert (M : has_code (q_f q j) (m j) (a + v)) by (unfold m; unfold has_code; rewrite mem_leak; unfold leak; rewrite B; setoid_replace (1 * s j + opt_q layer_q (s_iq c) x j) with (s j + opt_q layer_q (s_iq c) x j) by ring; exact (code_of_sum _ _ _ _ _ A1 V1)).
  assert (R : (Z.of_nat (Datatypes.S n) * lo <= a + v <= Z.of_nat (Datatypes.S n) * hi)%Z) by nia.
  assert (Z0 : has_code (q_f q j) 0 0) by (unfold has_code; ring).
  unfold snn_reset. destruct (spk_cases c m j Hj) as [[E F]|E]; destruct (s_reset c).
  - destruct (G eq_refl) as (t & Ht). apply (between_ext _ _ _ _ (m j - s_threshold c j)); [rewrite E; ring|]. exists (a + v - t)%Z. split; [apply code_of_diff; assumption|].
    pose proof (code_le _ _ _ _ _ Z0 Ht T). assert (t <= a + v)%Z by (apply (code_le _ _ _ _ _ Ht M); lra). nia.
  - apply (between_ext _ _ _ _ 0); [rewrite E; ring|]. exists 0%Z. split; [exact Z0|nia].
  - exists (a + v)%Z. split; assumption.
  - apply (between_ext _ _ _ _ (m j)); [rewrite E; ring|]. exists (a + v)%Z. split; assumption.
  - apply (between_ext _ _ _ _ (m j)); [rewrite E; ring|]. exists (a + v)%Z. split; assumption.
  - exists (a + v)%Z. split; assumption.
Qed.
Lemma between_charged c q xs s x j : (j < s_units c)%nat -> s_iq c = Some q -> q_aff q = None -> (0 < kz (q_k q j) + q_i q j + q_f q j)%Z -> s_beta c = None -> s_sq c = None -> good_threshold c q j ->
  let lo := code_lo (q_om q) (q_k q j) (q_i q j + q_f q j) in let hi := code_hi (q_i q j + q_f q j) in
  s j == 0 -> between (Z.of_nat (S (length xs))) lo hi (q_f q j) (charged c xs s x j).
Proof.
  intros Hj Iq A W B Sq G lo hi S0. assert (S1 : between (Z.of_nat 0) lo hi (q_f q j) (s j)) by (exists 0%Z; split; [unfold has_code; rewrite S0; ring|lia]).
  destruct (between_step c q xs s 0 j Hj Iq A W B Sq G S1) as (a & A1 & A2). fold lo hi in A2. cbn [Nat.add] in A2.
  unfold charged, leak. rewrite B, Iq. cbn [opt_q]. unfold layer_q. rewrite A. cbn [affine_of]. destruct (inference_representable (q_rm q) (q_om q) (q_k q j) (q_i q j) (q_f q j) (x j) W) as (v & V1 & V2). fold lo hi in V2.
  exists (a + v)%Z. split; [|nia]. pose proof (code_of_sum _ _ _ _ _ A1 V1) as C. unfold has_code in *. rewrite <- C. ring.
Qed.
Lemma codes_fit T om k b n e : (0 <= b)%Z -> (0 <= e)%Z -> (T <= 2 ^ e)%Z -> (0 <= T)%Z -> (T * code_lo om k b <= n <= T * code_hi b)%Z -> (code_lo SAT k (b + e) <= n <= code_hi (b + e))%Z.
Proof.
  intros Hb He Ht H0 R. unfold code_lo, code_hi in *. rewrite Z.pow_add_r by assumption. pose proof (Z.pow_pos_nonneg 2 b ltac:(lia) Hb) as P. pose proof (Z.pow_pos_nonneg 2 e ltac:(lia) He) as P'.
  set (B := (2 ^ b)%Z) in *. set (E := (2 ^ e)%Z) in *. destruct k; [destruct om; nia|nia].
Qed.
(** signed two's complement (or unsigned) with [w] bits *)
Lemma membrane_fits c q qb n T xs s x j t tb :
  (j < s_units c)%nat -> s_iq c = Some q -> q_aff q = None -> (0 < kz (q_k q j) + q_i q j + q_f q j)%Z -> s_beta c = None -> s_sq c = None -> good_threshold c q j -> q_om q = SAT ->
  s j == 0 -> (length xs < T)%nat -> accumulator_bits [1%nat; n] None qb T = Some t -> bits_ qb [1%nat; n] = Some tb -> at_ tb [0%nat; j] == inject_Z (q_bits (q_om q) (q_k q j) (kif_b (q_i q j) (q_f q j))) ->
  exists w, at_ t [0%nat; j] == inject_Z w /\
    (exists m, has_code (q_f q j) (charged c xs s x j) m /\ fits (q_k q j) w m) /\ (exists m, has_code (q_f q j) (membrane c xs s j) m /\ fits (q_k q j) w m).
Proof.
  intros Hj Iq A W B Sq G Om S0 HT Et Eb Hb. cbn [accumulator_bits] in Et. rewrite Eb in Et. cbn [bind] in Et. apply some_inj in Et. subst t. cbn [at_].
  set (e := Z.log2_up (Z.of_nat (Nat.max T 1))). pose proof (width_cases _ _ _ W) as Wb.
  assert (He : (0 <= e)%Z) by apply Z.log2_up_nonneg. destruct (headroom T ltac:(lia)) as [Hd _]. fold e in Hd.
  exists (q_bits (q_om q) (q_k q j) (kif_b (q_i q j) (q_f q j)) + e)%Z. split; [rewrite Hb, inject_Z_plus; reflexivity|].
  rewrite Om. unfold q_bits, kif_b. rewrite Z.max_r by lia. set (b := (q_i q j + q_f q j)%Z) in *.
  assert (F : forall m, (code_lo SAT (q_k q j) (b + e) <= m <= code_hi (b + e))%Z -> fits (q_k q j) (b + kz (q_k q j) + e) m).
  { intros m R. unfold fits, code_lo, code_hi in *. destruct (q_k q j); cbn [kz]; [replace (b + 1 + e - 1)%Z with (b + e)%Z by lia|replace (b + 0 + e)%Z with (b + e)%Z by lia]; lia. }
  split.
  - destruct (between_charged c q xs s x j Hj Iq A W B Sq G S0) as (m & M1 & M2). exists m. split; [exact M1|]. apply F. apply (codes_fit (Z.of_nat (S (length xs))) (q_om q)); [exact Wb|exact He|lia|lia|exact M2].
  - assert (S1 : between (Z.of_nat 0) (code_lo (q_om q) (q_k q j) b) (code_hi b) (q_f q j) (s j)) by (exists 0%Z; split; [unfold has_code; rewrite S0; ring|lia]).
    destruct (between_step c q xs s 0 j Hj Iq A W B Sq G S1) as (m & M1 & M2). exists m. split; [exact M1|]. apply F. cbn [Nat.add] in M2. apply (codes_fit (Z.of_nat (length xs)) (q_om q)); [exact Wb|exact He|lia|lia|exact M2].
Qed.

(** ** the leak *)
Lemma clip01 w : 0 <= clip (inject_Z 0) (inject_Z 1) w <= 1.
Proof. unfold clip. split; [apply Q.min_glb; [apply Q.le_max_r || apply Q.le_max_l|discriminate]|apply Q.le_min_r]. Qed.
Lemma beta_life beta0 us : 0 <= beta0 <= 1 \/ us <> [] -> 0 <= lif_beta beta0 us <= 1.
Proof.
  unfold lif_beta. intros H. destruct us as [|u us] using rev_ind; [destruct H as [H|H]; [exact H|congruence]|]. rewrite fold_left_app. cbn [fold_left apply_c]. apply clip01.
Qed.
Lemma one_code f : (0 <= f)%Z -> has_code f 1 (2 ^ f).
Proof. intros H. unfold has_code. rewrite <- pow2_inject by exact H. rewrite pow2_opp_mul. reflexivity. Qed.
Lemma zero_representable om k i f : (0 < kz k + i + f)%Z -> representable om k i f 0.
Proof.
  intros W. pose proof (width_cases _ _ _ W) as Wb. exists 0%Z. split; [unfold has_code; ring|]. unfold code_lo, code_hi. pose proof (Z.pow_pos_nonneg 2 (i + f)). destruct k, om; lia.
Qed.
Lemma beta_quantized rm om k i f b : (0 <= f)%Z -> om <> WRAP \/ representable om k i f 1 -> 0 <= b <= 1 -> 0 <= base_call rm om false k i f b <= 1.
Proof.
  intros Hf Ho [B0 B1]. destruct (Z_lt_le_dec 0 (kz k + i + f)) as [W|W]; [|rewrite base_call_npos by exact W; lra].
  pose proof (zero_representable om k i f W) as R0. destruct Ho as [Ho|R1].
  - split; [rewrite <- (inference_fixes_representable rm om k i f 0 W R0); apply inference_mono; assumption|].
    apply Qle_trans with (base_call rm om false k i f 1); [apply inference_mono; assumption|].
    destruct (Qlt_le_dec (q_max i f) 1) as [L|L]; [apply Qle_trans with (q_max i f); [apply inference_between, W|lra]|].
    rewrite (inference_fixes_representable rm om k i f 1 W); [lra|]. apply representable_minmax; [exact W|]. split; [exists (2 ^ f)%Z; apply one_code, Hf|]. split; [|exact L].
    apply (proj1 (representable_minmax om k i f 0 W)) in R0. lra.
  - assert (A : 0 <= round_f rm f b <= 1).
    { split; [rewrite <- (round_f_0 rm f); apply round_f_mono, B0|]. rewrite <- (round_f_fix rm f (2 ^ f) 1 (one_code f Hf)). apply round_f_mono, B1. }
    rewrite inference_in_range; [exact A|exact W|]. apply (proj1 (representable_minmax om k i f 0 W)) in R0. apply (proj1 (representable_minmax om k i f 1 W)) in R1. lra.
Qed.
Lemma spike_threshold c mem j : s_inhibition c = false ->
    (s_threshold c j < mem j -> snn_spk c mem j == 1) /\ (mem j <= s_threshold c j -> snn_spk c mem j == 0).
Proof.
  intros I. unfold snn_spk. cbv zeta. rewrite I, !spike_hard. unfold hard.
  destruct (qlt_b 0 (mem j - s_threshold c j)) eqn:E.
  - apply qlt_b_iff in E. split; intros H; [reflexivity|lra].
  - split; intros H; [|reflexivity]. assert (T : qlt_b 0 (mem j - s_threshold c j) = true) by (apply qlt_b_iff; lra). congruence.
Qed.
