From Verif Require Import Num M_Fixed S_Fixed L_Fixed M_State M_Mapper M_Ebops L_Ebops M_Softmax S_Softmax.

Lemma qmax_is_max l : l <> [] -> is_max (qmax_of l) l.
Proof.
  induction l as [|x l IH]; [congruence|]. intros _. destruct l as [|y l].
  - cbn [qmax_of]. split; [exists x; split; [left; reflexivity|reflexivity]|]. intros z [<-|[]]. apply Qle_refl.
  - destruct IH as [(w & Hw & Ew) Hb]; [discriminate|]. change (qmax_of (x :: y :: l)) with (Qmax x (qmax_of (y :: l))).
    set (M := qmax_of (y :: l)) in *. split.
    + destruct (Q.max_spec x M) as [[_ E]|[_ E]].
      * exists w. split; [right; exact Hw|rewrite E; exact Ew].
      * exists x. split; [left; reflexivity|symmetry; exact E].
    + intros z [<-|Hz]; [apply Q.le_max_l|]. apply Qle_trans with M; [apply Hb, Hz|apply Q.le_max_r].
Qed.
Lemma is_max_unique m m' l : is_max m l -> is_max m' l -> m == m'.
Proof. intros [(x & Hx & Ex) H1] [(y & Hy & Ey) H2]. specialize (H1 y Hy). specialize (H2 x Hx). lra. Qed.
Lemma is_max_map (y y' : nat -> Q) ps m : (forall q, In q ps -> y q == y' q) -> is_max m (map y ps) -> is_max m (map y' ps).
Proof.
  intros H [(x & Hx & Ex) Hb]. apply in_map_iff in Hx. destruct Hx as (q & Eq & Hq). split.
  - exists (y' q). split; [apply in_map, Hq|]. rewrite <- (H q Hq), Eq. exact Ex.
  - intros z Hz. apply in_map_iff in Hz. destruct Hz as (r & <- & Hr). rewrite <- (H r Hr). apply Hb, in_map, Hr.
Qed.
Lemma qmax_ext (y y' : nat -> Q) ps : (forall q, In q ps -> y q == y' q) -> qmax_of (map y ps) == qmax_of (map y' ps).
Proof.
  intros H. destruct ps as [|p ps]; [reflexivity|].
  assert (N1 : map y (p :: ps) <> []) by discriminate. assert (N2 : map y' (p :: ps) <> []) by discriminate.
  apply (is_max_unique _ _ (map y' (p :: ps))); [|apply qmax_is_max, N2]. apply (is_max_map y); [exact H|apply qmax_is_max, N1].
Qed.

(** ** masking *)
Lemma masked_zero s m x ps p : m p = false -> sm_call s (Some m) x ps p == 0.
Proof. intros H. unfold sm_call, sm_exps. rewrite H. unfold mz. ring. Qed.

Lemma mask_input_ext m (y y' : nat -> Q) q : (m q = true -> y q == y' q) -> mask_input (Some m) y q == mask_input (Some m) y' q.
Proof. intros H. unfold mask_input, mz. destruct (m q); [rewrite H by reflexivity; reflexivity|ring]. Qed.
Lemma mask_input_true m y q : m q = true -> mask_input (Some m) y q == y q.
Proof. intros H. unfold mask_input, mz. rewrite H. ring. Qed.
Lemma mask_input_false m y q : m q = false -> mask_input (Some m) y q == -1000000000.
Proof. intros H. unfold mask_input, mz. rewrite H. ring. Qed.

Lemma independent s m x x' ps : sm_functions s -> (forall q, In q ps -> m q = true -> x q == x' q) ->
  forall p, In p ps -> sm_call s (Some m) x ps p == sm_call s (Some m) x' ps p.
Proof.
  intros (F1 & F2 & F3) H.
  assert (HE : forall p, In p ps -> sm_exps s (Some m) x ps p == sm_exps s (Some m) x' ps p).
  { intros p Hp. unfold sm_exps, sm_exp_input. destruct (m p) eqn:Em; unfold mz; [|ring]. apply Qmult_comp; [reflexivity|]. apply F2.
    destruct (sm_stable s).
    - assert (Hm : forall q, In q ps -> mask_input (Some m) (fun q0 => sm_iq s q0 (x q0)) q == mask_input (Some m) (fun q0 => sm_iq s q0 (x' q0)) q)
        by (intros q Hq; apply mask_input_ext; intros Hmq; apply F1, H; assumption).
      rewrite (qmax_ext _ _ ps Hm), (Hm p Hp). reflexivity.
    - apply F1, H; assumption. }
  intros p Hp. unfold sm_call. apply Qmult_comp; [apply HE, Hp|]. apply F3, qsum_ext, HE.
Qed.

Lemma qsum_filter (m : nat -> bool) (f g : nat -> Q) ps : (forall q, In q ps -> m q = true -> f q == g q) -> (forall q, In q ps -> m q = false -> f q == 0) ->
  qsum (map f ps) == qsum (map g (filter m ps)).
Proof.
  induction ps as [|p ps IH]; intros H1 H2; [reflexivity|]. cbn [map filter].
  assert (HI : qsum (map f ps) == qsum (map g (filter m ps))) by (apply IH; intros q Hq Hm; [apply H1|apply H2]; try (right; assumption); assumption).
  rewrite qsum_cons, HI. destruct (m p) eqn:E; cbn [map].
  - rewrite qsum_cons, (H1 p (or_introl eq_refl) E). reflexivity.
  - rewrite (H2 p (or_introl eq_refl) E). ring.
Qed.

(** the maximum of the masked inputs is the maximum over the unmasked positions *)
Lemma masked_max (m : nat -> bool) (y z : nat -> Q) ps p : In p ps -> m p = true ->
  (forall q, In q ps -> m q = true -> z q == y q) ->
  (forall q r, In q ps -> In r ps -> m q = false -> m r = true -> z q <= y r) ->
  qmax_of (map z ps) == qmax_of (map y (filter m ps)).
Proof.
  intros Hp Hm H1 H2. assert (Hpf : In p (filter m ps)) by (apply filter_In; split; assumption).
  assert (N1 : map z ps <> []) by (destruct ps; [destruct Hp|discriminate]).
  assert (N2 : map y (filter m ps) <> []) by (destruct (filter m ps); [destruct Hpf|discriminate]).
  apply (is_max_unique _ _ (map z ps)); [apply qmax_is_max, N1|]. destruct (qmax_is_max _ N2) as [(w & Hw & Ew) Hb].
  apply in_map_iff in Hw. destruct Hw as (q & Eq & Hq). apply filter_In in Hq. destruct Hq as [Hq Hmq]. split.
  - exists (z q). split; [apply in_map, Hq|]. rewrite (H1 q Hq Hmq), Eq. exact Ew.
  - intros v Hv. apply in_map_iff in Hv. destruct Hv as (r & <- & Hr). destruct (m r) eqn:Emr.
    + rewrite (H1 r Hr Emr). apply Hb, in_map, filter_In. split; assumption.
    + apply Qle_trans with (y p); [apply H2; assumption|]. apply Hb, in_map, Hpf.
Qed.
Lemma restricts s m x ps p : sm_functions s -> In p ps -> m p = true -> (sm_stable s = true -> above_mask s m x ps) ->
  sm_call s (Some m) x ps p == sm_call s None x (filter m ps) p.
Proof.
  intros (F1 & F2 & F3) Hp Hm HA. set (y := fun q => sm_iq s q (x q)).
  assert (HE : forall q, In q ps -> m q = true -> sm_exps s (Some m) x ps q == sm_exps s None x (filter m ps) q).
  { intros q Hq Hmq. unfold sm_exps. rewrite Hmq. unfold mz. rewrite Qmult_1_l. apply F2. unfold sm_exp_input. fold y. destruct (sm_stable s); [|reflexivity].
    rewrite (masked_max m y (mask_input (Some m) y) ps q Hq Hmq).
    - rewrite (mask_input_true _ _ _ Hmq). reflexivity.
    - intros r _ Hmr. apply mask_input_true, Hmr.
    - intros r r' _ Hr' Hmr Hmr'. rewrite (mask_input_false _ _ _ Hmr). apply HA; auto. }
  unfold sm_call. apply Qmult_comp; [apply HE; assumption|]. apply F3. apply qsum_filter; [exact HE|].
  intros q _ Hmq. unfold sm_exps. rewrite Hmq. unfold mz. ring.
Qed.
(** without a mask the layer is the softmax formula *)
Lemma unmasked_formula s x ps p : sm_functions s -> In p ps -> sm_stable s = true ->
  stable_softmax (sm_exp s) (sm_inv s) (fun q => sm_iq s q (x q)) ps p (sm_call s None x ps p).
Proof.
  intros (F1 & F2 & F3) Hp Hs m Hm. set (y := fun q => sm_iq s q (x q)) in *.
  assert (N : map y ps <> []) by (destruct ps; [destruct Hp|discriminate]).
  assert (HM : qmax_of (map y ps) == m) by (apply (is_max_unique _ _ (map y ps)); [apply qmax_is_max, N|exact Hm]).
  assert (HE : forall q, sm_exps s None x ps q == sm_exp s q (m - y q)).
  { intros q. unfold sm_exps, sm_exp_input. rewrite Hs. fold y. apply F2. cbn [mask_input]. unfold mask_input. rewrite HM. reflexivity. }
  unfold sm_call. apply Qmult_comp; [apply HE|]. apply F3, qsum_ext. intros q _. apply HE.
Qed.

(** ** numerically stable: arguments of the exponential table *)
Lemma exponents s mask x ps : sm_stable s = true -> ps <> [] ->
  (forall p, In p ps -> 0 <= sm_exp_input s mask x ps p) /\ exists p, In p ps /\ sm_exp_input s mask x ps p == 0.
Proof.
  intros Hs Hn. unfold sm_exp_input. rewrite Hs. set (y := mask_input mask (fun q => sm_iq s q (x q))).
  assert (N : map y ps <> []) by (destruct ps; [congruence|discriminate]).
  destruct (qmax_is_max _ N) as [(w & Hw & Ew) Hb]. apply in_map_iff in Hw. destruct Hw as (q & Eq & Hq). split.
  - intros p Hp. specialize (Hb (y p) (in_map y _ _ Hp)). lra.
  - exists q. split; [exact Hq|]. rewrite Eq. lra.
Qed.

(** ** replay *)
Lemma replay_low_below lhs0 l : In l lhs0 -> replay_low lhs0 < l.
Proof.
  intros Hp. unfold replay_low. assert (N : map Qopp lhs0 <> []) by (destruct lhs0; [destruct Hp|discriminate]).
  destruct (qmax_is_max _ N) as [_ Hb]. specialize (Hb _ (in_map Qopp _ _ Hp)). lra.
Qed.
Lemma all_masked_max (z : nat -> Q) c ps : ps <> [] -> (forall q, In q ps -> z q == c) -> qmax_of (map z ps) == c.
Proof.
  intros Hn H. destruct ps as [|p ps]; [congruence|]. assert (N : map z (p :: ps) <> []) by discriminate.
  destruct (qmax_is_max _ N) as [(w & Hw & Ew) _]. apply in_map_iff in Hw. destruct Hw as (q & Eq & Hq). rewrite <- Ew, <- Eq. apply H, Hq.
Qed.
Lemma replay_equal s lhs0 mask x ps p : sm_functions s -> In p ps ->
  (forall q, In q ps -> exists l, In l lhs0 /\ l <= sm_iq s q (x q)) ->
  (forall m, mask = Some m -> sm_stable s = true -> above_mask s m x ps) ->
  replay_softmax s lhs0 mask x ps p == sm_call s mask x ps p.
Proof.
  intros (F1 & F2 & F3) Hp HL HA. destruct mask as [m|].
  2:{ unfold replay_softmax, sm_call, replay_exps, sm_exps, replay_exp_input, sm_exp_input. destruct (sm_stable s); reflexivity. }
  set (y := fun q => sm_iq s q (x q)). set (z := fun q => if m q then y q else replay_low lhs0).
  assert (HE : forall q, In q ps -> replay_exps s lhs0 (Some m) x ps q == sm_exps s (Some m) x ps q).
  { intros q Hq. unfold replay_exps, sm_exps. destruct (m q) eqn:Em; unfold mz; [|ring]. apply Qmult_comp; [reflexivity|]. apply F2.
    unfold replay_exp_input, sm_exp_input. fold y. fold z. destruct (sm_stable s) eqn:Es; [|reflexivity].
    assert (M1 : qmax_of (map (mask_input (Some m) y) ps) == qmax_of (map y (filter m ps))).
    { apply (masked_max m y (mask_input (Some m) y) ps q Hq Em).
      - intros r _ Hmr. apply mask_input_true, Hmr.
      - intros r r' _ Hr' Hmr Hmr'. rewrite (mask_input_false _ _ _ Hmr). apply (HA m eq_refl eq_refl); assumption. }
    assert (M2 : qmax_of (map z ps) == qmax_of (map y (filter m ps))).
    { apply (masked_max m y z ps q Hq Em).
      - intros r _ Hmr. unfold z. rewrite Hmr. reflexivity.
      - intros r r' Hr Hr' Hmr Hmr'. unfold z. rewrite Hmr. destruct (HL r' Hr') as (l & Hl & Hle). pose proof (replay_low_below lhs0 l Hl). unfold y. lra. }
    assert (M3 : mask_input (Some m) y q == y q) by (apply mask_input_true, Em).
    cbv zeta. fold y. fold z. rewrite M1, M3. change (qmax_of (map z ps) - z q == qmax_of (map y (filter m ps)) - y q).
    rewrite M2. unfold z. rewrite Em. reflexivity. }
  unfold replay_softmax, sm_call. apply Qmult_comp; [apply HE, Hp|]. apply F3, qsum_ext, HE.
Qed.

(** ** shift invariance *)
Lemma shift_none s x c ps p : sm_functions s -> sm_stable s = true -> (forall q v, sm_iq s q v == v) -> In p ps ->
  sm_call s None (fun q => x q + c) ps p == sm_call s None x ps p.
Proof.
  intros F Hs Hi Hp. destruct F as (F1 & F2 & F3).
  assert (HE : forall q, In q ps -> sm_exps s None (fun q => x q + c) ps q == sm_exps s None x ps q).
  { intros q Hq. unfold sm_exps. apply F2. unfold sm_exp_input. rewrite Hs. unfold mask_input.
    assert (N : map x ps <> []) by (destruct ps; [destruct Hp|discriminate]).
    assert (HM : qmax_of (map (fun q0 => sm_iq s q0 (x q0 + c)) ps) == qmax_of (map (fun q0 => sm_iq s q0 (x q0)) ps) + c).
    { rewrite (qmax_ext (fun q0 => sm_iq s q0 (x q0 + c)) (fun q0 => x q0 + c) ps) by (intros; apply Hi).
      rewrite (qmax_ext (fun q0 => sm_iq s q0 (x q0)) x ps) by (intros; apply Hi).
      assert (N2 : map (fun q0 => x q0 + c) ps <> []) by (destruct ps; [destruct Hp|discriminate]).
      apply (is_max_unique _ _ (map (fun q0 => x q0 + c) ps)); [apply qmax_is_max, N2|].
      destruct (qmax_is_max _ N) as [(w & Hw & Ew) Hb]. apply in_map_iff in Hw. destruct Hw as (r & Er & Hr). split.
      - exists (x r + c). split; [apply (in_map (fun q0 => x q0 + c)), Hr|]. rewrite Er, Ew. reflexivity.
      - intros v Hv. apply in_map_iff in Hv. destruct Hv as (r' & <- & Hr'). specialize (Hb (x r') (in_map x _ _ Hr')). lra. }
    rewrite HM, !Hi. ring. }
  unfold sm_call. apply Qmult_comp; [apply HE, Hp|]. apply F3, qsum_ext, HE.
Qed.
Lemma scores_bias dk query key bias p :
  scores dk query key bias p == scores dk query key (fun _ => 0) p + qsum (map (fun d => query d * bias d) (seq 0 dk)).
Proof. unfold scores. rewrite <- qsum_plus. apply qsum_ext. intros d _. ring. Qed.
Lemma filter_nonempty_in (m : nat -> bool) ps p : In p ps -> m p = true -> In p (filter m ps).
Proof. intros. apply filter_In. auto. Qed.
Lemma sm_call_ext s x x' ps p : sm_functions s -> (forall q, x q == x' q) -> sm_call s None x ps p == sm_call s None x' ps p.
Proof.
  intros (F1 & F2 & F3) H.
  assert (HE : forall q, sm_exps s None x ps q == sm_exps s None x' ps q).
  { intros q. unfold sm_exps. apply F2. unfold sm_exp_input, mask_input. destruct (sm_stable s); [|apply F1, H].
    rewrite (qmax_ext (fun q0 => sm_iq s q0 (x q0)) (fun q0 => sm_iq s q0 (x' q0)) ps) by (intros; apply F1, H). rewrite (F1 q _ _ (H q)). reflexivity. }
  unfold sm_call. apply Qmult_comp; [apply HE|]. apply F3, qsum_ext. intros q _. apply HE.
Qed.
Lemma weights_bias s mask dk query key bias ps p : sm_functions s -> sm_stable s = true -> (forall q v, sm_iq s q v == v) -> In p ps ->
  (forall m, mask = Some m -> above_mask s m (scores dk query key bias) ps /\ above_mask s m (scores dk query key (fun _ => 0)) ps) ->
  sm_call s mask (scores dk query key bias) ps p == sm_call s mask (scores dk query key (fun _ => 0)) ps p.
Proof.
  intros F Hs Hi Hp HA. set (c := qsum (map (fun d => query d * bias d) (seq 0 dk))).
  assert (H0 : forall l q, In q l -> sm_call s None (scores dk query key bias) l q == sm_call s None (scores dk query key (fun _ => 0)) l q).
  { intros l q Hq. rewrite (sm_call_ext s _ (fun r => scores dk query key (fun _ => 0) r + c) l q F) by (intros; apply scores_bias).
    apply shift_none; assumption. }
  destruct mask as [m|]; [|apply H0, Hp]. destruct (HA m eq_refl) as [A1 A2]. destruct (m p) eqn:Em; [|rewrite !masked_zero by exact Em; reflexivity].
  rewrite !restricts by (try assumption; intros; assumption). apply H0, filter_In. split; assumption.
Qed.
Lemma attention_bias s mask dk query key bias value ps d : sm_functions s -> sm_stable s = true -> (forall q v, sm_iq s q v == v) ->
  (forall m, mask = Some m -> above_mask s m (scores dk query key bias) ps /\ above_mask s m (scores dk query key (fun _ => 0)) ps) ->
  attention s mask dk query key bias value ps d == attention s mask dk query key (fun _ => 0) value ps d.
Proof.
  intros F Hs Hi HA. unfold attention. apply qsum_ext. intros p Hp. rewrite (weights_bias s mask dk query key bias ps p F Hs Hi Hp HA). reflexivity.
Qed.

(** ** unstable tables saturate *)
Lemma qsum_const (f : nat -> Q) top l : (forall q, In q l -> f q == top) -> qsum (map f l) == nQ (length l) * top.
Proof.
  induction l as [|q l IH]; intros H; [reflexivity|]. cbn [map length]. rewrite qsum_cons.
  assert (HI : qsum (map f l) == nQ (length l) * top) by (apply IH; intros r Hr; apply H; right; exact Hr).
  assert (HN : nQ (S (length l)) == nQ (length l) + 1) by (unfold nQ; rewrite Nat2Z.inj_succ, <- Z.add_1_r, inject_Z_plus; reflexivity).
  rewrite HI, HN, (H q (or_introl eq_refl)). ring.
Qed.
Lemma saturates s x ps x0 top : sm_functions s -> sm_stable s = false -> (forall q v, sm_iq s q v == v) ->
  (forall q v, x0 <= v -> sm_exp s q v == top) ->
  exists c, forall p, In p ps -> sm_call s None (fun q => x q + c) ps p == top * sm_inv s (nQ (length ps) * top).
Proof.
  intros (F1 & F2 & F3) Hs Hi Ht.
  assert (HC : exists c, forall q, In q ps -> x0 <= x q + c).
  { induction ps as [|p ps (c & Hc)]; [exists 0; intros q []|]. exists (Qmax c (x0 - x p)). intros q [<-|Hq].
    - pose proof (Q.le_max_r c (x0 - x p)). lra.
    - pose proof (Q.le_max_l c (x0 - x p)). specialize (Hc q Hq). lra. }
  destruct HC as (c & Hc). exists c. intros p Hp.
  assert (HE : forall q, In q ps -> sm_exps s None (fun q => x q + c) ps q == top).
  { intros q Hq. unfold sm_exps, sm_exp_input. rewrite Hs. rewrite (F2 q _ _ (Hi q (x q + c))). apply Ht, Hc, Hq. }
  unfold sm_call. apply Qmult_comp; [apply HE, Hp|]. apply F3, qsum_const, HE.
Qed.
Lemma unstable_not_shift_invariant s x ps x0 top : sm_functions s -> sm_stable s = false -> (forall q v, sm_iq s q v == v) ->
  (forall q v, x0 <= v -> sm_exp s q v == top) ->
  (exists p q, In p ps /\ In q ps /\ ~ sm_call s None x ps p == sm_call s None x ps q) ->
  exists c p, In p ps /\ ~ sm_call s None (fun q => x q + c) ps p == sm_call s None x ps p.
Proof.
  intros F Hs Hi Ht (p & q & Hp & Hq & N). destruct (saturates s x ps x0 top F Hs Hi Ht) as (c & Hc).
  set (v := top * sm_inv s (nQ (length ps) * top)) in *.
  destruct (Qeq_dec (sm_call s None x ps p) v) as [E|E].
  - exists c, q. split; [exact Hq|]. rewrite (Hc q Hq). intros E'. apply N. rewrite E. exact E'.
  - exists c, p. split; [exact Hp|]. rewrite (Hc p Hp). intros E'. apply E. symmetry. exact E'.
Qed.

(** ** calibration with a mask *)
Lemma absmax_ge l : forall x m, In x l -> absmax l = Some m -> Qabs x <= m.
Proof.
  induction l as [|y l IH]; intros x m Hx E; [destruct Hx|]. cbn [absmax] in E. injection E as <-.
  destruct (absmax l) as [a|] eqn:Ea.
  - destruct Hx as [<-|Hx]; [apply Q.le_max_l|]. apply Qle_trans with a; [apply IH; auto|apply Q.le_max_r].
  - destruct Hx as [<-|Hx]; [apply Qle_refl|]. destruct l; [destruct Hx|discriminate].
Qed.
Lemma round_f_lower rm f x : x < round_f rm f x + pow2 (- f).
Proof.
  assert (P : 0 < pow2 (- f)) by apply pow2_pos.
  destruct (round_f_rounds rm f x) as (n & _ & H). destruct rm; destruct H as [H H'].
  all: try (apply Qabs_Qle_condition in H; destruct H). all: unfold Qdiv in *; change (/ 2) with (1 # 2) in *; lra.
Qed.
Lemma calibration_masked c st s m x ps p q st' out :
  is_wrap (c_om c) = true -> c_trainable c = true -> sm_stable s = true ->
  In p ps -> m p = true -> In q ps -> m q = false -> -400000000 <= sm_iq s p (x p) ->
  exp_calibration c st s (Some m) x ps = Some (st', out) ->
  (c_ic c = None -> (30 <= kif_iz st')%Z) /\ (forall lo hi, c_ic c = Some (CMinMax lo hi) -> (Z.min 30 hi <= kif_iz st')%Z).
Proof.
  intros Hw Ht Hs Hp Hmp Hq Hmq Hy E. unfold exp_calibration, kif_call in E. rewrite Hw, Ht in E. cbn [andb] in E.
  set (f := kif_fz st) in *. set (e := sm_exp_input s (Some m) x ps) in *.
  destruct (absmax (map (round_f (c_rm c) f) (map e ps))) as [a|] eqn:Ea; [|discriminate].
  injection E as <- _.
  assert (He : 600000000 <= e q).
  { unfold e, sm_exp_input. rewrite Hs. set (y := mask_input (Some m) (fun q0 => sm_iq s q0 (x q0))).
    assert (N : map y ps <> []) by (destruct ps; [destruct Hp|discriminate]).
    destruct (qmax_is_max _ N) as [_ Hb]. specialize (Hb (y p) (in_map y _ _ Hp)).
    assert (Yp : y p == sm_iq s p (x p)) by (exact (mask_input_true m (fun q0 => sm_iq s q0 (x q0)) p Hmp)).
    assert (Yq : y q == -1000000000) by (exact (mask_input_false m (fun q0 => sm_iq s q0 (x q0)) q Hmq)). lra. }
  assert (Ha : 600000000 < a + pow2 (- f)).
  { pose proof (round_f_lower (c_rm c) f (e q)) as Hr.
    assert (Hi : Qabs (round_f (c_rm c) f (e q)) <= a) by (eapply absmax_ge; [apply in_map, in_map, Hq|exact Ea]).
    pose proof (Qle_Qabs (round_f (c_rm c) f (e q))). lra. }
  assert (Hc : (30 <= minimal_i_xf a f)%Z).
  { unfold minimal_i_xf. destruct (Z_le_gt_dec 30 (ceil_log2 (a + pow2 (- f)))) as [L|L]; [exact L|]. exfalso.
    assert (L' : (ceil_log2 (a + pow2 (- f)) <= 29)%Z) by lia. apply ceil_log2_le in L'; [|lra].
    assert (P : pow2 29 == 536870912) by reflexivity. rewrite P in L'. lra. }
  unfold kif_iz at 1 3. cbn [kif_i]. rewrite !round_even_inject.
  split.
  - intros ->. cbn [apply_cz]. lia.
  - intros lo hi ->. cbn [apply_cz]. lia.
Qed.
