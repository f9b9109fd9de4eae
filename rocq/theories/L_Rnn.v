From Verif Require Import Num M_Fixed L_Fixed M_Wrapper M_Mirror L_Mirror M_Ebops L_Ebops M_Rnn S_Rnn.

(** ** quantizers *)
Lemma affine_comp a x y : x == y -> affine_of a x == affine_of a y.
Proof. intros E. destruct a as [[s b]|]; cbn [affine_of]; rewrite E; reflexivity. Qed.
Lemma mirror_layer n q u v : widths_ok n q -> same_vec n u v -> same_vec n (mirror_q q u) (layer_q q v).
Proof.
  intros W E j Hj. unfold mirror_q, layer_q. apply affine_comp. destruct (W j Hj) as [Wi Wf]. rewrite (to_int8_id _ Wi), (to_int8_id _ Wf), hw_quantize_eq.
  apply base_call_Proper, E, Hj.
Qed.
Lemma mirror_opt n q u v : owidths_ok n q -> same_vec n u v -> same_vec n (opt_q mirror_q q u) (opt_q layer_q q v).
Proof. intros W E. destruct q as [q|]; cbn [opt_q]; [apply mirror_layer; [apply W; reflexivity|exact E]|exact E]. Qed.

(** ** the loop *)
Lemma fold_scan {S X Y} (step : X -> S -> Y * S) xs : forall acc s,
  fold_left (fun a x => let '(outputs, state) := a in let '(y, state') := step x state in (outputs ++ [y], state')) xs (acc, s) =
  (acc ++ fst (scan step xs s), snd (scan step xs s)).
Proof.
  induction xs as [|x xs IH]; intros acc s; cbn [fold_left scan fst snd]; [rewrite app_nil_r; reflexivity|].
  destruct (step x s) as [y s1]. rewrite IH. destruct (scan step xs s1) as [ys s2]. cbn [fst snd]. rewrite <- app_assoc. reflexivity.
Qed.
Lemma fold_left_map {A B C} (f : A -> C -> A) (g : B -> C) l : forall a, fold_left f (map g l) a = fold_left (fun a b => f a (g b)) l a.
Proof. induction l as [|x l IH]; intros a; cbn; [reflexivity|apply IH]. Qed.
Lemma map_nth_seq {X} (d : X) xs : map (fun t => nth t xs d) (seq 0 (length xs)) = xs.
Proof.
  induction xs as [|x xs IH]; [reflexivity|]. cbn [length seq map nth]. f_equal. rewrite <- seq_shift, map_map. cbn [nth]. exact IH.
Qed.
Lemma replay_is_keras {S X Y} (dx : X) (step : X -> S -> Y * S) backwards xs s : replay_rnn dx step backwards xs s = keras_rnn step backwards xs s.
Proof.
  unfold replay_rnn, keras_rnn, replay_steps.
  rewrite <- (fold_left_map (fun (acc : list Y * S) x => let '(outputs, state) := acc in let '(y, state') := step x state in (outputs ++ [y], state')) (fun t => nth t xs dx)).
  rewrite fold_scan. cbn [app]. rewrite <- surjective_pairing. f_equal. destruct backwards; [rewrite map_rev|]; rewrite map_nth_seq; reflexivity.
Qed.
(** two steps that preserve agreement give agreeing runs *)
Lemma scan_agree {X} (stepA stepB : X -> vec -> vec * vec) n (P : vec -> Prop) xs :
  (forall x a b, In x xs -> same_vec n a b -> same_vec n (fst (stepA x a)) (fst (stepB x b)) /\ same_vec n (snd (stepA x a)) (snd (stepB x b))) ->
  forall a b, same_vec n a b -> same_seq n (fst (scan stepA xs a)) (fst (scan stepB xs b)) /\ same_vec n (snd (scan stepA xs a)) (snd (scan stepB xs b)).
Proof.
  induction xs as [|x xs IH]; intros H a b E; cbn [scan]; [split; [constructor|exact E]|].
  destruct (H x a b (or_introl eq_refl) E) as [H1 H2]. destruct (stepA x a) as [ya a1] eqn:EA, (stepB x b) as [yb b1] eqn:EB. cbn [fst snd] in H1, H2.
  destruct (IH (fun x' a' b' Hx => H x' a' b' (or_intror Hx)) a1 b1 H2) as [I1 I2].
  destruct (scan stepA xs a1), (scan stepB xs b1). cbn [fst snd] in *. split; [constructor; assumption|exact I2].
Qed.

(** ** spikes *)
Lemma qlt_b_iff x y : qlt_b x y = true <-> x < y.
Proof. unfold qlt_b. rewrite Bool.negb_true_iff. split; intros H; [apply Qnot_le_lt; intros L; apply Qle_bool_iff in L; congruence|]. destruct (Qle_bool y x) eqn:E; [apply Qle_bool_iff in E; exfalso; exact (Qlt_not_le _ _ H E)|reflexivity]. Qed.
Lemma spike_hard c x : spike c x == hard x.
Proof. unfold spike. destruct (s_soft c); [ring|reflexivity]. Qed.

Lemma argmax_spec f n : (0 < n)%nat -> (argmax f n < n)%nat /\ (forall j, (j < n)%nat -> f j <= f (argmax f n)) /\ (forall j, (j < argmax f n)%nat -> f j < f (argmax f n)).
Proof.
  induction n as [|m IH]; intros H; [lia|]. destruct m as [|m].
  - cbn [argmax]. split; [lia|]. split; [intros j Hj; assert (j = 0%nat) as -> by lia; lra|lia].
  - destruct (IH ltac:(lia)) as (A & B & C). change (argmax f (S (S m))) with (let a := argmax f (S m) in if qlt_b (f a) (f (S m)) then S m else a). cbv zeta.
    set (a := argmax f (S m)) in *. destruct (qlt_b (f a) (f (S m))) eqn:E.
    + apply qlt_b_iff in E. split; [lia|]. split.
      * intros j Hj. destruct (Nat.eq_dec j (S m)) as [->|N]; [lra|]. specialize (B j ltac:(lia)). lra.
      * intros j Hj. specialize (B j Hj). lra.
    + assert (L : f (S m) <= f a) by (apply Qnot_lt_le; intros L; apply qlt_b_iff in L; congruence).
      split; [lia|]. split; [|exact C]. intros j Hj. destruct (Nat.eq_dec j (S m)) as [->|N]; [exact L|apply B; lia].
Qed.
Lemma first_max f n i : (i < n)%nat ->
  (argmax f n = i <-> forallb (fun j => qlt_b (f j) (f i)) (seq 0 i) && forallb (fun j => Qle_bool (f j) (f i)) (seq (S i) (n - S i)) = true).
Proof.
  intros Hi. destruct (argmax_spec f n ltac:(lia)) as (A & B & C). rewrite Bool.andb_true_iff, !forallb_forall. split.
  - intros <-. split; intros j Hj; apply in_seq in Hj; [apply qlt_b_iff, C; lia|apply Qle_bool_iff, B; lia].
  - intros [H1 H2]. set (a := argmax f n) in *. destruct (Nat.lt_trichotomy a i) as [L|[E|L]]; [exfalso|exact E|exfalso].
    + specialize (H1 a ltac:(apply in_seq; lia)). apply qlt_b_iff in H1. specialize (B i Hi). lra.
    + specialize (H2 a ltac:(apply in_seq; lia)). apply Qle_bool_iff in H2. specialize (C i L). lra.
Qed.
(** the spikes of the layer are 1 where the replay fires, 0 elsewhere *)
Lemma spk_fire c mem mem' i : same_vec (s_units c) mem' mem -> (i < s_units c)%nat ->
  snn_spk c mem i == if replay_fire c mem' i then 1 else 0.
Proof.
  intros E Hi. unfold snn_spk, replay_fire. cbv zeta. set (n := s_units c) in *.
  assert (S : forall j, (j < n)%nat -> mem' j - s_threshold c j == mem j - s_threshold c j) by (intros j Hj; rewrite (E j Hj); reflexivity).
  assert (F : qlt_b 0 (mem' i - s_threshold c i) = qlt_b 0 (mem i - s_threshold c i)).
  { apply Bool.eq_true_iff_eq. rewrite !qlt_b_iff, (S i Hi). reflexivity. }
  rewrite F. destruct (s_inhibition c); [|rewrite spike_hard; unfold hard; destruct (qlt_b 0 _); reflexivity]. rewrite spike_hard. unfold hard.
  set (sc := fun j => mem j - s_threshold c j).
  assert (G : forallb (fun j => qlt_b (mem' j - s_threshold c j) (mem' i - s_threshold c i)) (seq 0 i) && forallb (fun j => Qle_bool (mem' j - s_threshold c j) (mem' i - s_threshold c i)) (seq (Datatypes.S i) (n - Datatypes.S i)) =
              forallb (fun j => qlt_b (sc j) (sc i)) (seq 0 i) && forallb (fun j => Qle_bool (sc j) (sc i)) (seq (Datatypes.S i) (n - Datatypes.S i))).
  { apply Bool.eq_true_iff_eq. rewrite !Bool.andb_true_iff, !forallb_forall. unfold sc.
    split; (intros [H1 H2]; split; intros j Hj; [specialize (H1 j Hj); apply qlt_b_iff in H1; apply qlt_b_iff|specialize (H2 j Hj); apply Qle_bool_iff in H2; apply Qle_bool_iff]); apply in_seq in Hj;
      pose proof (S j ltac:(lia)) as Sj; pose proof (S i Hi) as Si; lra. }
  rewrite <- Bool.andb_assoc. unfold one_hot. pose proof (first_max sc n i Hi) as FM. rewrite <- G in FM. clear G. fold sc.
  match goal with |- context [_ && ?b] => set (B := b) in *; destruct B end.
  - rewrite (proj2 FM eq_refl), Nat.eqb_refl. destruct (qlt_b 0 (mem i - s_threshold c i)); reflexivity.
  - destruct (Nat.eqb_spec (argmax sc n) i) as [E1|E1]; [apply FM in E1; congruence|]. rewrite Bool.andb_false_r. destruct (qlt_b 0 (mem i - s_threshold c i)); reflexivity.
Qed.

Definition snn_ok (c : snn_cell) : Prop := owidths_ok (s_units c) (s_iq c) /\ owidths_ok (s_units c) (s_oq c) /\ owidths_ok (s_units c) (s_sq c).
Lemma snn_step_agree c x a b : snn_ok c -> same_vec (s_units c) a b ->
  same_vec (s_units c) (fst (replay_snn c x a)) (fst (snn_call c x b)) /\ same_vec (s_units c) (snd (replay_snn c x a)) (snd (snn_call c x b)).
Proof.
  intros (Wi & Wo & Ws) E. unfold replay_snn, snn_call. cbv zeta. cbn [fst snd].
  set (qx' := opt_q mirror_q (s_iq c) x). set (qx := opt_q layer_q (s_iq c) x).
  assert (Ex : same_vec (s_units c) qx' qx) by (apply mirror_opt; [exact Wi|intros j _; reflexivity]).
  set (mem' := match s_beta c with Some beta => fun j => beta j * a j + qx' j | None => fun j => a j + qx' j end).
  set (mem := match s_beta c with Some beta => fun j => beta j * b j + qx j | None => fun j => b j + qx j end).
  assert (Em : same_vec (s_units c) mem' mem) by (intros j Hj; unfold mem, mem'; destruct (s_beta c); rewrite (E j Hj), (Ex j Hj); reflexivity).
  split; apply mirror_opt; try assumption; intros j Hj.
  - rewrite (spk_fire c mem mem' j Em Hj). destruct (replay_fire c mem' j); ring.
  - unfold replay_reset, snn_reset. pose proof (spk_fire c mem mem' j Em Hj) as Sp. destruct (s_reset c); [| |exact (Em j Hj)].
    + rewrite Sp, <- (Em j Hj). destruct (replay_fire c mem' j); ring.
    + rewrite Sp, <- (Em j Hj). destruct (replay_fire c mem' j); ring.
Qed.
Lemma snn_replay dx c backwards xs s : snn_ok c ->
  let r := replay_rnn dx (replay_snn c) backwards xs s in let k := keras_rnn (snn_call c) backwards xs s in
  same_seq (s_units c) (fst r) (fst k) /\ same_vec (s_units c) (snd r) (snd k).
Proof.
  intros W r k. unfold r, k. rewrite replay_is_keras. unfold keras_rnn. apply (scan_agree _ _ _ (fun _ => True)); [|intros j _; reflexivity].
  intros x a b _ E. apply snn_step_agree; assumption.
Qed.
(** inhibition: only the winner spikes *)
Lemma inhibition_winner c mem i : s_inhibition c = true -> (i < s_units c)%nat ->
  (winner (s_units c) (fun j => mem j - s_threshold c j) i -> snn_spk c mem i == 1) /\
  (~ winner (s_units c) (fun j => mem j - s_threshold c j) i -> snn_spk c mem i == 0).
Proof.
  intros Hi Hn. unfold snn_spk. cbv zeta. rewrite Hi, !spike_hard. set (sc := fun j => mem j - s_threshold c j). unfold one_hot, hard. change (mem i - s_threshold c i) with (sc i).
  destruct (argmax_spec sc (s_units c) ltac:(lia)) as (A & B & C). split.
  - intros (_ & P & M1 & M2). apply qlt_b_iff in P. rewrite P. destruct (Nat.eqb_spec (argmax sc (s_units c)) i) as [E|E]; [reflexivity|exfalso].
    destruct (Nat.lt_trichotomy (argmax sc (s_units c)) i) as [L|[L|L]]; [|congruence|].
    + specialize (M2 _ L). specialize (B i Hn). lra.
    + specialize (C _ L). specialize (M1 _ A). lra.
  - intros N. destruct (qlt_b 0 (sc i)) eqn:P; [|ring]. apply qlt_b_iff in P. destruct (Nat.eqb_spec (argmax sc (s_units c)) i) as [E|E]; [|ring].
    exfalso. apply N. rewrite E in *. repeat split; assumption.
Qed.
Lemma winner_unique n sc i j : winner n sc i -> winner n sc j -> i = j.
Proof.
  intros (A & _ & B & C) (A' & _ & B' & C'). destruct (Nat.lt_trichotomy i j) as [L|[L|L]]; [|exact L|]; exfalso.
  - specialize (C' _ L). specialize (B _ A'). lra.
  - specialize (C _ L). specialize (B' _ A). lra.
Qed.

(** ** recurrent cells *)
Lemma vecmat_same n u v m j : same_vec n u v -> vecmat n u m j == vecmat n v m j.
Proof. intros E. unfold vecmat. apply qsum_ext. intros i Hi. apply in_seq in Hi. rewrite (E i) by lia. reflexivity. Qed.

Definition rnn_ok (c : rnn_cell) : Prop := widths_ok (r_in c) (r_iq c) /\ owidths_ok (r_units c) (r_sq c) /\ widths_ok (r_units c) (r_paq c).
Lemma rnn_step_agree c act' x a b : rnn_ok c -> (forall y z, y == z -> act' y == r_act c z) -> same_vec (r_units c) a b ->
  same_vec (r_units c) (fst (replay_rnn_cell c act' x a)) (fst (rnn_call c x b)) /\ same_vec (r_units c) (snd (replay_rnn_cell c act' x a)) (snd (rnn_call c x b)).
Proof.
  intros (Wi & Ws & Wp) Ha E. unfold replay_rnn_cell, rnn_call. cbv zeta. cbn [fst snd].
  assert (G : forall j, (j < r_units c)%nat -> act' (mirror_q (r_paq c) (fun j => match r_bias c with Some b => fun j => vecmat (r_in c) (mirror_q (r_iq c) x) (r_kernel c) j + b j | None => vecmat (r_in c) (mirror_q (r_iq c) x) (r_kernel c) end j
      + vecmat (r_units c) (opt_q mirror_q (r_sq c) a) (r_rkernel c) j) j) ==
    r_act c (layer_q (r_paq c) (fun j => match r_bias c with Some b => fun j => vecmat (r_in c) (layer_q (r_iq c) x) (r_kernel c) j + b j | None => vecmat (r_in c) (layer_q (r_iq c) x) (r_kernel c) end j
      + vecmat (r_units c) (opt_q layer_q (r_sq c) b) (r_rkernel c) j) j)).
  { intros j Hj. apply Ha. apply (mirror_layer (r_units c)); [exact Wp| |exact Hj]. intros i Hi.
    rewrite (vecmat_same (r_units c) (opt_q mirror_q (r_sq c) a) (opt_q layer_q (r_sq c) b)) by (apply mirror_opt; assumption).
    assert (EX : vecmat (r_in c) (mirror_q (r_iq c) x) (r_kernel c) i == vecmat (r_in c) (layer_q (r_iq c) x) (r_kernel c) i) by (apply vecmat_same, mirror_layer; [exact Wi|intros i' _; reflexivity]).
    destruct (r_bias c); rewrite EX; reflexivity. }
  split; exact G.
Qed.
Lemma rnn_replay dx c act' backwards xs s : rnn_ok c -> (forall y z, y == z -> act' y == r_act c z) ->
  let r := replay_rnn dx (replay_rnn_cell c act') backwards xs s in let k := keras_rnn (rnn_call c) backwards xs s in
  same_seq (r_units c) (fst r) (fst k) /\ same_vec (r_units c) (snd r) (snd k).
Proof.
  intros W Ha r k. unfold r, k. rewrite replay_is_keras. unfold keras_rnn. apply (scan_agree _ _ _ (fun _ => True)); [|intros j _; reflexivity].
  intros x a b _ E. apply rnn_step_agree; assumption.
Qed.

Definition gru_ok (c : gru_cell) : Prop :=
  owidths_ok (g_in c) (g_iq c) /\ widths_ok (g_units c) (g_sq c) /\ widths_ok (g_units c) (g_paq c) /\ widths_ok (2 * g_units c) (g_praq c) /\ widths_ok (g_units c) (g_rhq c).
Lemma gru_step_agree c act' ract' x a b : gru_ok c -> (forall y z, y == z -> act' y == g_act c z) -> (forall y z, y == z -> ract' y == g_ract c z) ->
  same_vec (g_units c) a b ->
  same_vec (g_units c) (fst (replay_gru_cell c act' ract' x a)) (fst (gru_call c x b)) /\ same_vec (g_units c) (snd (replay_gru_cell c act' ract' x a)) (snd (gru_call c x b)).
Proof.
  intros (Wi & Ws & Wp & Wr & Wh) Ha Hr E. unfold replay_gru_cell, gru_call. set (n := g_units c) in *.
  set (qs := mirror_q (g_sq c) a). set (qh := layer_q (g_sq c) b). assert (Eh : same_vec n qs qh) by (apply mirror_layer; assumption).
  set (qx' := opt_q mirror_q (g_iq c) x). set (qx := opt_q layer_q (g_iq c) x). assert (Ex : same_vec (g_in c) qx' qx) by (apply mirror_opt; [exact Wi|intros j _; reflexivity]).
  set (mx := fun j => vecmat (g_in c) qx (g_kernel c) j + match g_bias c with GNoBias => 0 | GBias b0 _ => b0 j end).
  set (inner := if g_reset_after c then fun j => match g_bias c with GNoBias => vecmat n qh (g_rkernel c) j | GBias _ rb => vecmat n qh (g_rkernel c) j + rb j end else vecmat n qh (g_rkernel c)).
  set (bb := match g_bias c with GNoBias => (fun _ => 0, fun _ => 0) | GBias b0 rb => if g_reset_after c then (b0, rb) else (b0, fun _ => 0) end).
  destruct bb as [ib rb] eqn:Eb. cbv zeta. cbn [fst snd].
  set (mx' := fun j => vecmat (g_in c) qx' (g_kernel c) j + ib j).
  set (inner' := if g_reset_after c then fun j => vecmat n qs (g_rkernel c) j + rb j else vecmat n qs (g_rkernel c)).
  assert (Emx : forall j, mx' j == mx j).
  { intros j. unfold mx', mx. rewrite (vecmat_same _ _ _ _ _ Ex). apply Qplus_comp; [reflexivity|]. unfold bb in Eb. destruct (g_bias c); [injection Eb as <- _; reflexivity|]. destruct (g_reset_after c); injection Eb as <- _; reflexivity. }
  assert (Ein : forall j, inner' j == inner j).
  { intros j. unfold inner', inner. unfold bb in Eb. destruct (g_reset_after c); [|apply vecmat_same, Eh]. destruct (g_bias c); injection Eb as _ <-; rewrite (vecmat_same _ _ _ _ _ Eh); ring. }
  clear Eb.
  set (zr' := mirror_q (g_praq c) (fun j => ract' (mx' j + inner' j))). set (zr := layer_q (g_praq c) (fun j => g_ract c (mx j + inner j))).
  assert (Ezr : same_vec (2 * n) zr' zr) by (apply mirror_layer; [exact Wr|intros j _; apply Hr; rewrite Emx, Ein; reflexivity]).
  set (rh' := if g_reset_after c then fun j => zr' (n + j)%nat * mirror_q (g_rhq c) (fun i => inner' (2 * n + i)%nat) j else vecmat n (mirror_q (g_rhq c) (fun i => zr' (n + i)%nat * qs i)) (drop_cols (2 * n) (g_rkernel c))).
  set (rh := if g_reset_after c then fun j => zr (n + j)%nat * layer_q (g_rhq c) (fun i => inner (2 * n + i)%nat) j else vecmat n (layer_q (g_rhq c) (fun i => zr (n + i)%nat * qh i)) (drop_cols (2 * n) (g_rkernel c))).
  assert (Erh : same_vec n rh' rh).
  { intros j Hj. unfold rh', rh. destruct (g_reset_after c).
    - apply Qmult_comp; [apply Ezr; lia|]. apply (mirror_layer n); [exact Wh|intros i _; apply Ein|exact Hj].
    - apply vecmat_same, mirror_layer; [exact Wh|]. intros i Hi. rewrite (Ezr (n + i)%nat) by lia. rewrite (Eh i Hi). reflexivity. }
  assert (G : forall j, (j < n)%nat -> zr' j * qs j + (1 - zr' j) * mirror_q (g_paq c) (fun j => act' (mx' (2 * n + j)%nat + rh' j)) j == zr j * qh j + (1 - zr j) * layer_q (g_paq c) (fun j => g_act c (mx (2 * n + j)%nat + rh j)) j).
  { intros j Hj. rewrite (Ezr j) by lia. rewrite (Eh j Hj). apply Qplus_comp; [reflexivity|]. apply Qmult_comp; [reflexivity|].
    apply (mirror_layer n); [exact Wp| |exact Hj]. intros i Hi. apply Ha. rewrite Emx, (Erh i Hi). reflexivity. }
  split; exact G.
Qed.
Lemma gru_replay dx c act' ract' backwards xs s : gru_ok c -> (forall y z, y == z -> act' y == g_act c z) -> (forall y z, y == z -> ract' y == g_ract c z) ->
  let r := replay_rnn dx (replay_gru_cell c act' ract') backwards xs s in let k := keras_rnn (gru_call c) backwards xs s in
  same_seq (g_units c) (fst r) (fst k) /\ same_vec (g_units c) (snd r) (snd k).
Proof.
  intros W Ha Hr r k. unfold r, k. rewrite replay_is_keras. unfold keras_rnn. apply (scan_agree _ _ _ (fun _ => True)); [|intros j _; reflexivity].
  intros x a b _ E. apply gru_step_agree; assumption.
Qed.

(** ** cache *)
Section Cache.
  Context {W X Y : Type} (quant : W -> W) (run : W -> X -> option Y).
  Lemma cache_transparent es : (forall w x, In (CallLayer x) es -> run w x <> None) ->
    forall w, fst (cell_run quant run es (mk_cell w None)) = uncached quant run es w.
  Proof.
    unfold cell_run. induction es as [|e es IH]; intros H w; [reflexivity|]. cbn [scan uncached].
    assert (H' : forall w x, In (CallLayer x) es -> run w x <> None) by (intros w' x Hx; apply H; right; exact Hx).
    destruct e as [w'|x|]; cbn [cell_step cw cache read_q].
    - specialize (IH H' w'). destruct (scan _ es (mk_cell w' None)) as [ys s']. cbn [fst] in *. rewrite IH. reflexivity.
    - destruct (run (quant w) x) as [y|] eqn:E; [|destruct (H (quant w) x (or_introl eq_refl) E)].
      specialize (IH H' w). destruct (scan _ es (mk_cell w None)) as [ys s']. cbn [fst] in *. rewrite IH. reflexivity.
    - specialize (IH H' w). destruct (scan _ es (mk_cell w None)) as [ys s']. cbn [fst] in *. rewrite IH. reflexivity.
  Qed.
  (** calls give the right result on every history, also after failed calls *)
  Lemma calls_right es : forall w c, call_outcomes (fst (cell_run quant run es (mk_cell w c))) = call_outcomes (uncached quant run es w).
  Proof.
    unfold cell_run. induction es as [|e es IH]; intros w c; [reflexivity|]. cbn [scan uncached].
    destruct e as [w'|x|]; cbn [cell_step cw cache read_q].
    - specialize (IH w' c). destruct (scan _ es (mk_cell w' c)) as [ys s']. cbn [fst call_outcomes filter] in *. f_equal. exact IH.
    - destruct (run (quant w) x) as [y|] eqn:E.
      + specialize (IH w None). destruct (scan _ es (mk_cell w None)) as [ys s']. cbn [fst call_outcomes filter] in *. f_equal. exact IH.
      + specialize (IH w (Some (quant w))). destruct (scan _ es (mk_cell w (Some (quant w)))) as [ys s']. cbn [fst call_outcomes filter] in *. f_equal. exact IH.
    - specialize (IH w c). destruct (scan _ es (mk_cell w c)) as [ys s']. cbn [fst call_outcomes filter] in *. exact IH.
  Qed.
End Cache.
