(** Properties C19 (piecewise beta schedule) and C20 (BetaPID). *)
From Coq Require Import Reals ZArith List Lra Lia.
From Verif Require Import M_Beta S_Beta L_Beta.
Open Scope R_scope.

(** C19: at a knot the prescribed value.  A knot that starts a log segment must have a non-zero
    beta: Python divides by it. *)
Theorem C19_value_at_knots :
  forall ks k, distinct_epochs ks -> In k ks -> (k_interp k = Log -> k_beta k <> 0) ->
    PieceWiseSchedule ks (k_epoch k) = Some (k_beta k).
Proof. exact pws_at_knot. Qed.
Print Assumptions C19_value_at_knots.
(** between knots: linear, within 1e-9 of the straight line and never outside the two values *)
Theorem C19_linear_segment :
  forall ks k0 k1 e, distinct_epochs ks -> neighbours ks k0 k1 e -> k_interp k0 = Linear ->
  exists v, PieceWiseSchedule ks e = Some v /\ Rmin (k_beta k0) (k_beta k1) <= v <= Rmax (k_beta k0) (k_beta k1) /\
    Rabs (v - lin (k_beta k0) (k_beta k1) (frac (k_epoch k0) (k_epoch k1) e)) <= Rabs (k_beta k1 - k_beta k0) * / 1000000000.
Proof. exact pws_linear. Qed.
Print Assumptions C19_linear_segment.
Theorem C19_log_segment :
  forall ks k0 k1 e, distinct_epochs ks -> neighbours ks k0 k1 e -> k_interp k0 = Log -> 0 < k_beta k0 -> 0 < k_beta k1 ->
  exists v, PieceWiseSchedule ks e = Some v /\ Rmin (k_beta k0) (k_beta k1) <= v <= Rmax (k_beta k0) (k_beta k1) /\
    Rabs (ln v - ln (log_interp (k_beta k0) (k_beta k1) (frac (k_epoch k0) (k_epoch k1) e))) <= Rabs (ln (k_beta k1) - ln (k_beta k0)) * / 1000000000.
Proof. exact pws_log. Qed.
Print Assumptions C19_log_segment.
Theorem C19_constant_segment :
  forall ks k0 k1 e, distinct_epochs ks -> neighbours ks k0 k1 e -> k_interp k0 = Constant ->
    PieceWiseSchedule ks e = Some (k_beta k0).
Proof. exact pws_constant. Qed.
Print Assumptions C19_constant_segment.
Theorem C19_after_last_knot :
  forall ks k e, distinct_epochs ks -> is_last ks k -> (k_epoch k <= e)%Z -> (k_interp k = Log -> k_beta k <> 0) ->
    PieceWiseSchedule ks e = Some (k_beta k).
Proof. exact pws_after. Qed.
Print Assumptions C19_after_last_knot.
Theorem C19_before_first_knot :
  forall ks k e, distinct_epochs ks -> is_first ks k -> (e < k_epoch k)%Z -> (k_interp k = Log -> k_beta k <> 0) ->
    PieceWiseSchedule ks e = Some (k_beta k).
Proof. exact pws_before. Qed.
Print Assumptions C19_before_first_knot.
(** the error case the hypothesis on log knots excludes *)
Theorem C19_log_from_zero_raises :
  forall ks k0 k1 e, distinct_epochs ks -> neighbours ks k0 k1 e -> k_interp k0 = Log -> k_beta k0 = 0 ->
    PieceWiseSchedule ks e = None.
Proof. exact pws_log_zero. Qed.
Print Assumptions C19_log_from_zero_raises.
(** the scheduler writes the value to every layer that has a beta and to nothing else *)
Theorem C19_scheduler_sets_every_layer :
  forall fn epoch ls ls' b, fn epoch = Some b -> scheduler_epoch_begin fn epoch ls = Some ls' ->
    all_have b ls' /\ map has_beta ls' = map has_beta ls.
Proof.
  intros fn epoch ls ls' b Hf H. unfold scheduler_epoch_begin in H. rewrite Hf in H. injection H as <-.
  exact (conj (set_beta_all b ls) (set_beta_shape b ls)).
Qed.
Print Assumptions C19_scheduler_sets_every_layer.

Definition ex_ks : list knot := [mk_knot 20 4 Constant; mk_knot 0 1 Linear; mk_knot 10 3 Log].
Example C19_case :
  distinct_epochs ex_ks /\ neighbours ex_ks (mk_knot 0 1 Linear) (mk_knot 10 3 Log) 5 /\
  neighbours ex_ks (mk_knot 10 3 Log) (mk_knot 20 4 Constant) 12 /\
  is_first ex_ks (mk_knot 0 1 Linear) /\ is_last ex_ks (mk_knot 20 4 Constant) /\
  PieceWiseSchedule ex_ks 10 = Some 3 /\ PieceWiseSchedule ex_ks 25 = Some 4.
Proof.
  assert (D : distinct_epochs ex_ks) by (repeat constructor; cbn; intuition discriminate).
  assert (N : forall k0 k1 e, In k0 ex_ks -> In k1 ex_ks -> (k_epoch k0 <= e < k_epoch k1)%Z ->
     (forall k, In k ex_ks -> (k_epoch k <= k_epoch k0 \/ k_epoch k1 <= k_epoch k)%Z) -> neighbours ex_ks k0 k1 e) by (intros; split; auto).
  assert (L : is_last ex_ks (mk_knot 20 4 Constant)) by (split; [cbn; auto|cbn; intuition (subst; cbn; lia)]).
  split; [exact D|]. split; [apply N; cbn; intuition (subst; cbn; lia)|]. split; [apply N; cbn; intuition (subst; cbn; lia)|].
  split; [split; [cbn; auto|cbn; intuition (subst; cbn; lia)]|]. split; [exact L|]. split.
  - apply (C19_value_at_knots ex_ks (mk_knot 10 3 Log) D); cbn; [auto|intros _; lra].
  - apply (C19_after_last_knot ex_ks (mk_knot 20 4 Constant) 25 D L); cbn; [lia|discriminate].
Qed.

(** C20: bounds, for every history of observed EBOPs *)
Theorem C20_beta_within_bounds :
  forall c hist epoch s l, (warmup c <= epoch)%Z -> run_epochs c epoch hist s = Some l ->
  forall s', In s' l -> min_beta c <= beta s' /\ (forall m, max_beta c = Some m -> min_beta c <= m -> beta s' <= m) /\
    all_have (beta s') (layers s').
Proof. exact run_bounds. Qed.
Print Assumptions C20_beta_within_bounds.
Theorem C20_warmup_leaves_beta :
  forall c epoch s s', (epoch < warmup c)%Z -> on_epoch_begin c epoch s = Some s' ->
  ctl s' = ctl s /\ beta s' = beta s /\
  match init_beta c with Some b => all_have b (layers s') | None => layers s' = layers s end.
Proof. exact warmup_keeps. Qed.
Print Assumptions C20_warmup_leaves_beta.
(** EBOPs at or above target and not falling: beta does not fall; mirrored.  (No derivative gain,
    the documented default; non-negative gains.) *)
Theorem C20_rises_above_target :
  forall c epoch s s1 e s2, 0 < target_ebops c -> 0 <= min_beta c -> 0 <= damp c <= 1 ->
  0 <= gp (ctl s) -> 0 <= gi (ctl s) -> gd (ctl s) = 0 ->
  (warmup c <= epoch)%Z -> on_epoch_begin c epoch s = Some s1 ->
  on_epoch_begin c (epoch + 1) (on_epoch_end e s1) = Some s2 ->
  target_ebops c <= e -> ebops s <= e -> beta s1 <= beta s2.
Proof. exact pid_rises. Qed.
Print Assumptions C20_rises_above_target.
Theorem C20_falls_below_target :
  forall c epoch s s1 e s2, 0 < target_ebops c -> 0 <= min_beta c -> 0 <= damp c <= 1 ->
  0 <= gp (ctl s) -> 0 <= gi (ctl s) -> gd (ctl s) = 0 ->
  (warmup c <= epoch)%Z -> on_epoch_begin c epoch s = Some s1 ->
  on_epoch_begin c (epoch + 1) (on_epoch_end e s1) = Some s2 ->
  e <= target_ebops c -> e <= ebops s -> beta s2 <= beta s1.
Proof. exact pid_falls. Qed.
Print Assumptions C20_falls_below_target.
(** the controller can only settle (inside its bounds) on the target *)
Theorem C20_no_steady_state_error :
  forall c epoch s s1 s2, 0 < target_ebops c -> 0 < gi (ctl s) -> gd (ctl s) = 0 -> damp c = 0 ->
  (warmup c <= epoch)%Z -> on_epoch_begin c epoch s = Some s1 ->
  on_epoch_begin c (epoch + 1) (on_epoch_end (ebops s) s1) = Some s2 ->
  beta s2 = beta s1 -> min_beta c < beta s1 -> (forall m, max_beta c = Some m -> beta s1 < m) ->
  ebops s = target_ebops c.
Proof. exact pid_steady. Qed.
Print Assumptions C20_no_steady_state_error.
(** switching the controller on in log mode starts from the current beta, up to a relative error of
    1e-9 per unit of gain and of target/EBOPs, and then the on-target damping and the bounds *)
Theorem C20_start_keeps_beta_log :
  forall c s s', log c = true -> 0 < target_ebops c -> 0 <= gp (ctl s) + gi (ctl s) -> gd (ctl s) = 0 ->
  on_epoch_begin c (warmup c) s = Some s' ->
  exists u, beta s' = clamp_beta c (damped c (ebops s) u) /\ 0 < u /\ 0 < beta s /\ 0 < ebops s /\
    u <= beta s /\ ln (beta s) - ln u <= (gp (ctl s) + gi (ctl s)) * (/ 1000000000 * (target_ebops c / ebops s)).
Proof. exact start_log_gen. Qed.
Print Assumptions C20_start_keeps_beta_log.
(** in linear mode beta jumps by twice the first correction *)
Theorem C20_start_jump_linear :
  forall c s s', log c = false -> gi (ctl s) <> 0 -> gd (ctl s) = 0 ->
  on_epoch_begin c (warmup c) s = Some s' ->
  beta s' = clamp_beta c (damped c (ebops s) (beta s + 2 * (gp (ctl s) + gi (ctl s)) * (ebops s / target_ebops c - 1))).
Proof. exact start_linear. Qed.
Print Assumptions C20_start_jump_linear.

Definition ex_conf (lg : bool) : pid_conf := mk_conf 100 None 10 lg (Some 50) 0 (/ 2).
Definition ex_st : pid_state := mk_st (mk_pid 1 1 0 0 0) 1 300 [BetaVar 1; NoAttr; BetaVar 1].
Lemma ex_linear_runs : exists s', on_epoch_begin (ex_conf false) 10 ex_st = Some s' /\ beta s' = 9.
Proof.
  assert (E : exists s', on_epoch_begin (ex_conf false) 10 ex_st = Some s').
  { unfold on_epoch_begin, match_integral, control, pydiv. cbn [ex_conf ex_st warmup log gi ctl].
    change (10 <? 10)%Z with false. change (10 =? 10)%Z with true. cbn iota.
    destruct (Req_EM_T 1 0); [lra|]. cbn [pid_call]. eexists. reflexivity. }
  destruct E as (s' & E). exists s'. split; [exact E|].
  rewrite (C20_start_jump_linear (ex_conf false) ex_st s' eq_refl) by (try exact E; cbn; lra).
  unfold clamp_beta, damped. cbn [ex_conf ex_st max_beta min_beta ebops target_ebops beta gp gi ctl].
  destruct (Rlt_dec 300 100); [lra|]. unfold Rmin, Rmax. repeat destruct (Rle_dec _ _); lra.
Qed.
Theorem C20_start_keeps_beta_refuted :
  exists c s s', log c = false /\ 0 < gi (ctl s) /\ gd (ctl s) = 0 /\ target_ebops c <= ebops s /\
    on_epoch_begin c (warmup c) s = Some s' /\ min_beta c < beta s' < 50 /\ max_beta c = Some 50 /\ beta s = 1 /\ beta s' = 9.
Proof.
  destruct ex_linear_runs as (s' & E & B). exists (ex_conf false), ex_st, s'. cbn in *. repeat split; try assumption; lra.
Qed.
Print Assumptions C20_start_keeps_beta_refuted.
(** without init_beta, a quantized layer whose EBOPs are disabled makes on_train_begin raise *)
Theorem C20_train_begin_raises_iff :
  forall c k ls e, on_train_begin c k ls e = None <-> init_beta c = None /\ In BetaNone ls.
Proof.
  intros c k ls e. unfold on_train_begin. destruct (init_beta c) as [b|].
  - split; [discriminate|intros [F _]; discriminate].
  - rewrite <- get_avg_fails. destruct (get_avg_beta ls); split; try discriminate; auto. intros [_ F]; discriminate.
Qed.
Print Assumptions C20_train_begin_raises_iff.
(** BaseBetaPID never sets a negative beta *)
Theorem C20_base_controller_nonnegative :
  forall t k e ls, let '(k', b, ls') := base_epoch_begin t k e ls in
    0 <= b /\ all_have b ls' /\ map has_beta ls' = map has_beta ls.
Proof. exact base_nonneg. Qed.
Print Assumptions C20_base_controller_nonnegative.
Example C20_case :
  exists l, run_epochs (ex_conf false) 10 [200; 250; 90] ex_st = Some l /\ length l = 3%nat.
Proof. apply linear_total; cbn; [reflexivity|lra|lia]. Qed.
(** log mode: the first step runs, EBOPs at three times the target *)
Example C20_log_case : exists s', on_epoch_begin (ex_conf true) 10 ex_st = Some s' /\
  0 < beta s' <= 1 /\ ln 1 - ln (beta s') <= (1 + 1) * (/ 1000000000 * (100 / 300)).
Proof.
  assert (E : exists s', on_epoch_begin (ex_conf true) 10 ex_st = Some s').
  { unfold on_epoch_begin, match_integral, control, pydiv, pylog10. cbn [ex_conf ex_st warmup log gi ctl gp beta ebops target_ebops damp layers].
    change (10 <? 10)%Z with false. change (10 =? 10)%Z with true. cbn iota.
    replace (/ 10 ^ 9) with (/ 1000000000) by (f_equal; lra).
    destruct (Rlt_dec 0 (300 / 100 + / 1000000000)); [|lra]. destruct (Rlt_dec 0 1); [|lra].
    destruct (Req_EM_T 1 0); [lra|]. destruct (Rlt_dec 0 (300 / 100)); [|lra]. cbn [pid_call]. eexists. reflexivity. }
  destruct E as (s' & E). exists s'. split; [exact E|].
  destruct (C20_start_keeps_beta_log (ex_conf true) ex_st s' eq_refl) as (u & B & U & _ & _ & UL & LU); cbn; try lra; [exact E|].
  cbn [ex_conf ex_st gp gi ctl beta ebops target_ebops] in *.
  assert (beta s' = u) as ->.
  { rewrite B. unfold clamp_beta, damped, Rmax, Rmin. cbn [ex_conf max_beta min_beta target_ebops].
    destruct (Rlt_dec 300 100); [lra|]. repeat destruct (Rle_dec _ _); lra. }
  split; lra.
Qed.
