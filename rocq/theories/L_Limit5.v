(** Lemmas for C68: QSoftmax, attention, and networks. *)
From Coq Require Import String.
From Verif Require Import Num M_Fixed L_Fixed M_State M_Wrapper M_Mapper S_Mapper L_Mapper M_Contr M_Ebops L_Ebops M_Pow2 M_Patch L_Patch M_Ops L_Ops M_Mirror L_Mirror M_Trace L_Trace M_Softmax M_Net S_Net L_Net L_Net2 L_Net3 L_Net4 L_Net5 M_Causal L_Causal M_Calib S_Ops S_Calib L_Calib L_Calib2 L_Calib3 M_Prog S_Prog L_Prog L_Prog2 L_Prog3 L_Prog5 S_Limit L_Limit L_Limit2 L_Limit3 L_Limit4.
Local Open Scope list_scope.

(** ** tensors that are not negative *)
Definition tends_nn (X : nat -> tensor Q) (x : tensor Q) : Prop := tends_to X x /\ forall i, valid_index (shape x) i -> 0 <= at_ x i.
Lemma track_ask_nn id X x : tends_nn X x -> track tends_nn (fun n => ask id (X n)) (ask id x).
Proof. intros (T & P). apply (tr_ask tends_nn _ id X x (fun _ => Ret) Ret); [reflexivity|exact T|]. intros Y TY. apply track_some. split; assumption. Qed.
Lemma lim_tmap_at f X x : (forall i, valid_index (shape x) i -> continuous_at f (at_ x i)) -> tends_to X x -> tends_to (fun n => tmap f (X n)) (tmap f x).
Proof. intros C (S & T). split; [intros n; apply S|]. intros i Vi. exact (tends_fn f _ _ (C i Vi) (T i Vi)). Qed.
Lemma bcast_nn n x i : (forall j, valid_index (shape x) j -> 0 <= at_ x j) -> valid_index (lpad n (shape x)) (bcast_index (lpad n (shape x)) i) -> 0 <= bcast_at n x i.
Proof. intros P V. unfold lpad in V at 1. apply valid_app_r in V. rewrite repeat_length in V. exact (P _ V). Qed.
Lemma lim_mult_nn X x Y y : tends_nn X x -> tends_nn Y y -> olim tends_nn (fun n => np_binary Qmult (X n) (Y n)) (np_binary Qmult x y).
Proof.
  intros (Tx & Px) (Ty & Py) z Hz. destruct (lim_binary Qmult _ _ _ _ respects_mult Tx Ty z Hz) as (Zs & E & Tz). exists Zs. split; [exact E|]. split; [exact Tz|].
  revert Hz. unfold np_binary. set (r := Nat.max (List.length (shape x)) (List.length (shape y))). destruct (join_shape (lpad r (shape x)) (lpad r (shape y))) as [sh|] eqn:J; [|discriminate]. cbn [bind]. intros H. apply some_inj in H. subst z.
  cbn [shape at_]. intros i Hi. destruct (join_valid _ _ _ _ J Hi) as (A & B). apply Qmult_le_0_compat; apply bcast_nn; assumption.
Qed.
Lemma qsum_nn l : (forall v, In v l -> 0 <= v) -> 0 <= qsum l.
Proof.
  induction l as [|v l IH]; intros H; [apply Qle_refl|]. change (0 <= v + qsum l). pose proof (H v (or_introl eq_refl)). assert (0 <= qsum l) by (apply IH; intros w Hw; apply H; right; exact Hw). lra.
Qed.
Lemma sum_nn axes kd x i : (forall j, valid_index (shape x) j -> 0 <= at_ x j) -> 0 <= at_ (np_reduce qsum axes kd x) i.
Proof.
  intros P. assert (C : forall g, 0 <= qsum (collect axes x g)).
  { intros g. apply qsum_nn. intros v Hv. unfold collect in Hv. apply in_map_iff in Hv as (j & <- & Hj). apply filter_In in Hj as (Hj & _). apply P, in_indices, Hj. }
  unfold np_reduce. destruct kd; cbn [reduce_keep at_]; apply C.
Qed.

(** ** QSoftmax *)
Lemma soft_tracks l X x : soft_layer l -> tends_to X x -> track tends_to (fun n => ssoft_core l (X n)) (ssoft_core l x).
Proof.
  intros (Ce & Pe & Ci & Pm) T. unfold ssoft_core. tthen tends_to tends_to; [apply track_ask_opt, T|]. intros A a Ta. cbn beta.
  tthen tends_to tends_to.
  { apply track_lift. destruct (so_stable l); [|apply olim_some, Ta]. obind tends_to tends_to.
    - destruct (so_mask l) as [m|]; [|apply olim_some, Ta]. obind tends_to tends_to; [exact (lim_binary Qmult (fun _ => m) m A a respects_mult (tends_refl m) Ta)|]. intros B b Tb. cbn beta.
      exact (lim_binary Qminus B b (fun _ => tmap (fun v => (1 - v) * 1000000000) m) _ respects_minus Tb (tends_refl _)).
    - intros B b Tb. cbn beta. exact (lim_binary Qminus (fun n => np_reduce qmax_of (so_axes l) true (B n)) _ B b respects_minus (lim_reduce qmax_of (so_axes l) true B b respects_qmax Tb) Tb). }
  intros B b Tb. cbn beta. tthen tends_to tends_to; [apply track_ask_opt, Tb|]. intros C c Tc. cbn beta.
  tthen tends_nn tends_to; [apply (track_ask_nn _ (fun n => tmap (so_exp l) (C n))); split; [apply lim_tmap; assumption|]; intros i _; apply Pe|]. intros E e Te. cbn beta.
  tthen tends_nn tends_to.
  { apply track_lift. destruct (so_mask l) as [m|]; [|apply olim_some, Te]. apply (lim_mult_nn (fun _ => m) m E e); [|exact Te]. split; [apply tends_refl|]. exact (Pm m eq_refl). }
  intros D d Td. cbn beta.
  tthen tends_nn tends_to; [apply (track_ask_nn _ (fun n => np_reduce qsum (so_axes l) true (D n))); split; [exact (lim_reduce qsum (so_axes l) true D d respects_qsum (proj1 Td))|]; intros i _; apply sum_nn, Td|]. intros S s (Ts & Ps). cbn beta.
  tthen tends_to tends_to; [apply (track_ask _ (fun n => tmap (so_inv l) (S n))); apply lim_tmap_at; [|exact Ts]; intros i Vi; apply Ci, Ps, Vi|]. intros F f Tf. cbn beta.
  tthen tends_to tends_to; [apply track_lift; exact (lim_binary Qmult D d F f respects_mult (proj1 Td) Tf)|]. intros Y y Ty. apply track_ask_opt, Ty.
Qed.
Lemma ssoft_tracks l : soft_layer l -> tracks (ssoft_prog l).
Proof. intros H X x T. destruct x as [x|xs]; [|apply tr_raise]. destruct T as (V & E & T). apply (track_ext _ (fun n => ssoft_core l (V n))); [intros n; rewrite E; reflexivity|]. exact (soft_tracks l V x H T). Qed.

(** ** attention *)
Lemma one_tracks l X x : op_layer l -> tends_to X x -> track tends_to (fun n => layer_prog l (One (X n))) (layer_prog l (One x)).
Proof. intros H T. apply (layer_tracks l H (fun n => One (X n)) (One x)). exists X. split; [reflexivity|exact T]. Qed.
Lemma lim_inputs X x : tends_in X x -> olim tends3 (fun n => match X n with One q => Some (q, q, q) | Many [q; v] => Some (q, v, v) | Many [q; v; k] => Some (q, v, k) | _ => None end)
  (match x with One q => Some (q, q, q) | Many [q; v] => Some (q, v, v) | Many [q; v; k] => Some (q, v, k) | _ => None end).
Proof.
  intros T r. destruct x as [x|xs]; cbn [tends_in] in T.
  - destruct T as (V & E & T). intros H. apply some_inj in H. subst r. exists (fun n => (V n, V n, V n)). split; [intros n; rewrite E; reflexivity|]. exists V, V, V. split; [reflexivity|]. cbn [fst snd]. split; [exact T|split; exact T].
  - destruct T as (Vs & E & (Ys & EY & F)). destruct F as [|Q0 q Ys xs Tq F]; [discriminate|]. destruct F as [|Q1 v Ys xs Tv F]; [discriminate|]. destruct F as [|Q2 k Ys xs Tk F].
    + intros H. apply some_inj in H. subst r. exists (fun n => (Q0 n, Q1 n, Q1 n)). split; [intros n; rewrite E, EY; reflexivity|]. exists Q0, Q1, Q1. split; [reflexivity|]. cbn [fst snd]. split; [exact Tq|split; exact Tv].
    + destruct F as [|]; [|discriminate]. intros H. apply some_inj in H. subst r. exists (fun n => (Q0 n, Q1 n, Q2 n)). split; [intros n; rewrite E, EY; reflexivity|]. exists Q0, Q1, Q2. split; [reflexivity|]. cbn [fst snd]. split; [exact Tq|split; [exact Tv|exact Tk]].
Qed.
Lemma smha_tracks l : op_layer (sm_query l) -> op_layer (sm_key l) -> op_layer (sm_value l) -> op_layer (sm_out l) -> soft_layer (sm_soft l) -> tracks (smha_prog l).
Proof.
  intros Hq Hk Hv Ho Hs X x T. unfold smha_prog.
  match goal with |- track _ (fun n => then_ (@?P n) (@?F n)) (then_ ?p ?f) => apply (track_then3 tends_to P p F f) end; [apply track_lift, lim_inputs, T|]. intros Q0 q V v K k Tq Tv Tk. cbn beta iota.
  tthen tends_to tends_to; [apply one_tracks; assumption|]. intros QQ qq Tqq. cbn beta. tthen tends_to tends_to; [apply one_tracks; assumption|]. intros KK kk Tkk. cbn beta. tthen tends_to tends_to; [apply one_tracks; assumption|]. intros VV vv Tvv. cbn beta.
  destruct (sm_dot l) as [[li lk] lo]. tthen tends_to tends_to; [apply track_lift; apply (lim_einsum li lk lo KK kk (fun n => tmap (fun y => y * sm_scale l) (QQ n))); [exact Tkk|]; apply (lim_tmap (fun y => y * sm_scale l)); [apply continuous_scale|exact Tqq]|].
  intros S s Ts. cbn beta. tthen tends_to tends_to; [apply soft_tracks; assumption|]. intros A a Ta. cbn beta. destruct (sm_combine l) as [[ci ck] co].
  tthen tends_to tends_to; [apply track_lift; exact (lim_einsum ci ck co A a VV vv Ta Tvv)|]. intros B b Tb. cbn beta. tthen tends_to tends_to; [apply one_tracks; assumption|]. intros Y y Ty. apply track_ask_opt, Ty.
Qed.
Lemma smooth_tracks call : smooth call -> tracks call.
Proof.
  intros [l H|l H|l H H2|l H|l H1 H2 H3 H4 H5]; [apply layer_tracks, H|apply srnn_tracks, H|apply sgru_tracks; assumption|apply ssoft_tracks, H|apply smha_tracks; assumption].
Qed.

(** ** networks *)
Lemma ta_snoc Xs xs X x : tends_all Xs xs -> tends_to X x -> tends_all (fun n => Xs n ++ [X n]) (xs ++ [x]).
Proof. intros (Ys & E & F) T. exists (Ys ++ [X]). split; [intros n; rewrite E, map_app; reflexivity|]. apply Forall2_app; [exact F|constructor; [exact T|constructor]]. Qed.
Lemma ta_nth Xs xs i : tends_all Xs xs -> olim tends_to (fun n => nth_error (Xs n) i) (nth_error xs i).
Proof. intros (Ys & E & F). apply (olim_ext _ (fun n => nth_error (map (fun Y => Y n) Ys) i)); [intros n; rewrite E; reflexivity|]. exact (nth_error_all Ys xs i F). Qed.
Lemma lim_args Xs xs a : tends_all Xs xs -> olim tends_in (fun n => args_of (Xs n) a) (args_of xs a).
Proof.
  intros T. destruct a as [i|is]; cbn [args_of].
  - obind tends_to tends_in; [exact (ta_nth Xs xs i T)|]. intros V v Tv. apply (olim_some tends_in (fun n => One (V n))). exists V. split; [reflexivity|exact Tv].
  - obind tends_all tends_in; [|intros Vs vs Tv; apply (olim_some tends_in (fun n => Many (Vs n))); exists Vs; split; [reflexivity|exact Tv]].
    induction is as [|i is IH]; cbn [map opt_all]; [apply (olim_some tends_all (fun _ => [])); exact ta_nil|]. intros zs H.
    destruct (value xs i) as [v|] eqn:Ei; [|discriminate]. destruct (opt_all (map (value xs) is)) as [vs|] eqn:Es; [|discriminate]. apply some_inj in H. subst zs.
    destruct (ta_nth Xs xs i T v Ei) as (V & EV & TV). destruct (IH vs eq_refl) as (Vs & EVs & TVs). exists (fun n => V n :: Vs n). split; [|exact (ta_cons _ _ _ _ TV TVs)].
    intros n. change (value (Xs n) i) with (nth_error (Xs n) i). rewrite EV, EVs. reflexivity.
Qed.
Lemma net_tracks tab : widening tab -> forall net Xs xs vs vs0 (st : nat -> nstate), Forall (fun n => smooth (pn_call n)) net -> tends_all Xs xs -> plain_net net xs = Some vs0 -> (forall n, sametab (n_tab (st n)) (tab n)) ->
  (forall n, exists st', prun_nodes Infer net (st n) (Xs n) = Some (st', vs n)) -> tends_all vs vs0.
Proof.
  intros W. induction net as [|m net IH]; intros Xs xs vs vs0 st Sm T H0 St H; cbn [plain_net] in H0.
  - apply some_inj in H0. subst vs0. apply (ta_ext Xs); [|exact T]. intros n. destruct (H n) as (st' & E). cbn [prun_nodes] in E. injection E as _ E. exact E.
  - inversion Sm as [|? ? S1 S2]; subst. destruct (args_of xs (pn_args m)) as [a|] eqn:Ea; [|discriminate]. cbn [bind] in H0. destruct (plain (pn_call m a)) as [y|] eqn:Ey; [|discriminate]. cbn [bind] in H0.
    destruct (lim_args Xs xs (pn_args m) T a Ea) as (As & EA & TA).
    assert (G : forall n, exists y st1 st', eval (tab n) (pn_call m (As n)) = Some y /\ sametab (n_tab st1) (tab n) /\ prun_nodes Infer net st1 (Xs n ++ [y]) = Some (st', vs n)).
    { intros n. destruct (H n) as (st' & E). cbn [prun_nodes] in E. rewrite EA in E. cbn [bind] in E. pose proof (exec_infer (tab n) (pn_call m (As n)) (st n) (St n)) as X.
      destruct (eval (tab n) (pn_call m (As n))) as [z|] eqn:Ev; [|rewrite X in E; discriminate]. destruct X as (st1 & E1 & T1). rewrite E1 in E. cbn [bind] in E. exists z, st1, st'. split; [reflexivity|]. split; [exact T1|exact E]. }
    set (Y := fun n => match eval (tab n) (pn_call m (As n)) with Some z => z | None => y end).
    assert (HY : forall n, eval (tab n) (pn_call m (As n)) = Some (Y n)) by (intros n; unfold Y; destruct (G n) as (z & _ & _ & E & _); rewrite E; reflexivity).
    assert (TY : tends_to Y y).
    { destruct (track_eval tends_to _ _ (smooth_tracks _ S1 As a TA) tab W Y y HY Ey) as (Y' & EY & T'). apply (tends_to_ext Y'); [intros n; symmetry; apply EY|exact T']. }
    set (st1 := fun n => match exec Infer (pn_call m (As n)) (st n) with Some (s, _) => s | None => st n end).
    apply (IH (fun n => Xs n ++ [Y n]) (xs ++ [y]) vs vs0 st1 S2 (ta_snoc _ _ _ _ T TY) H0).
    + intros n. unfold st1. pose proof (exec_infer (tab n) (pn_call m (As n)) (st n) (St n)) as X. rewrite (HY n) in X. destruct X as (s & E1 & T1). rewrite E1. exact T1.
    + intros n. destruct (H n) as (st' & E). exists st'. cbn [prun_nodes] in E. rewrite EA in E. cbn [bind] in E. unfold st1. pose proof (exec_infer (tab n) (pn_call m (As n)) (st n) (St n)) as X. rewrite (HY n) in X.
      destruct X as (s & E1 & T1). rewrite E1 in E |- *. cbn [bind] in E. exact E.
Qed.
Lemma network_limit net ins tab vs vs0 : widening tab -> Forall (fun n => smooth (pn_call n)) net -> plain_net net ins = Some vs0 -> (forall n, exists st, pforward Infer net (mk_nstate (tab n) []) ins = Some (st, vs n)) ->
  forall j y, nth_error vs0 j = Some y -> exists Y, (forall n, nth_error (vs n) j = Some (Y n)) /\ tends_to Y y.
Proof.
  intros W Sm H0 H j y Hj.
  assert (T : tends_all vs vs0).
  { apply (net_tracks tab W net (fun _ => ins) ins vs vs0 (fun n => mk_nstate (tab n) []) Sm); [|exact H0|intros n id; reflexivity|exact H]. clear. induction ins as [|x ins IH]; [exact ta_nil|exact (ta_cons (fun _ => x) x _ _ (tends_refl x) IH)]. }
  exact (ta_nth vs vs0 j T y Hj).
Qed.
Lemma layer_limit call tab X x Y y : widening tab -> smooth call -> tends_to X x -> plain (call (One x)) = Some y -> (forall n, eval (tab n) (call (One (X n))) = Some (Y n)) -> tends_to Y y.
Proof.
  intros W S T Ey HY. destruct (track_eval tends_to _ _ (smooth_tracks _ S (fun n => One (X n)) (One x) (ex_intro _ X (conj (fun _ => eq_refl) T))) tab W Y y HY Ey) as (Y' & EY & T').
  apply (tends_to_ext Y'); [intros n; symmetry; apply EY|exact T'].
Qed.

(** ** the functions of QSoftmax, softmax.py 46-47, and others *)
Lemma continuous_inv eps v : 0 < eps -> 0 <= v -> continuous_at (fun v => 1 / (v + eps)) v.
Proof.
  intros He Hv e H. set (a := v + eps). assert (Pa : 0 < a) by (unfold a; lra). exists (Qmin (a * (1#2)) (a * a * e * (1#4))).
  assert (P2 : 0 < a * a * e) by (repeat apply Qmult_lt_0_compat; assumption). split; [apply Q.min_glb_lt; lra|]. intros y Hy.
  assert (Y1 : Qabs (y - v) < a * (1#2)) by (eapply Qlt_le_trans; [exact Hy|apply Q.le_min_l]). assert (Y2 : Qabs (y - v) < a * a * e * (1#4)) by (eapply Qlt_le_trans; [exact Hy|apply Q.le_min_r]).
  assert (Y3 : a * (1#2) < y + eps). { apply Qabs_Qlt_condition in Y1. unfold a in *. lra. } set (b := y + eps) in *. assert (Pb : 0 < b) by lra.
  setoid_replace (1 / b - 1 / a) with ((v - y) / (a * b)) by (unfold a, b; field; unfold a, b in *; split; lra).
  assert (Pab : 0 < a * b) by (apply Qmult_lt_0_compat; assumption). unfold Qdiv. rewrite Qabs_Qmult, (Qabs_pos (/ (a * b))) by (apply Qlt_le_weak, Qinv_lt_0_compat, Pab).
  apply Qlt_shift_div_r; [exact Pab|]. rewrite Qabs_Qminus. eapply Qlt_trans; [exact Y2|]. assert (X : a * e * (a * (1#4)) < a * e * b). { apply Qmult_lt_l; [apply Qmult_lt_0_compat; assumption|lra]. }
  setoid_replace (a * a * e * (1#4)) with (a * e * (a * (1#4))) by ring. setoid_replace (e * (a * b)) with (a * e * b) by ring. exact X.
Qed.
Lemma continuous_comp f g : continuous f -> continuous g -> continuous (fun v => f (g v)).
Proof. intros F G v e He. destruct (F (g v) e He) as (d & Pd & H). destruct (G v d Pd) as (d' & Pd' & H'). exists d'. split; [exact Pd'|]. intros y Hy. apply H, H', Hy. Qed.
(** ** a saturating quantizer with two integer bits gives at most 4; floor to binary places never reaches 1/3 *)
Lemma sat_le f x : (0 <= f)%Z -> base_call RND SAT false true 2 f x <= 4.
Proof.
  intros Hf. unfold base_call. cbv zeta. destruct (0 <? kz true + 2 + f)%Z; [|discriminate]. change (stateless RND SAT false true 2 f x) with (overflow SAT true 2 f (round_f RND f x)). cbn [overflow]. unfold clip.
  eapply Qle_trans; [apply Q.le_min_r|]. change (pow2 2) with 4. pose proof (pow2_pos (- f)). lra.
Qed.
Lemma third_not n : (Z.of_nat n >= 0)%Z -> ~ (3 * Qfloor ((1#3) * pow2 (Z.of_nat n)) = 2 ^ Z.of_nat n)%Z.
Proof.
  intros _ H. assert (M : forall m, ((2 ^ Z.of_nat m) mod 3 <> 0)%Z).
  { induction m as [|m IH]; [discriminate|]. rewrite Nat2Z.inj_succ, Z.pow_succ_r by lia. intros X. apply IH. pose proof (Z.mod_pos_bound (2 ^ Z.of_nat m) 3 ltac:(lia)). rewrite Z.mul_mod in X by lia.
    assert (Y : ((2 ^ Z.of_nat m) mod 3 = 0 \/ (2 ^ Z.of_nat m) mod 3 = 1 \/ (2 ^ Z.of_nat m) mod 3 = 2)%Z) by lia. destruct Y as [Y|[Y|Y]]; rewrite Y in X; try discriminate; exact Y. }
  apply (M n). rewrite <- H, Z.mul_comm. apply Z_mod_mult.
Qed.
Lemma third_below n : base_call TRN SAT false true (Z.of_nat n + 2) (Z.of_nat n) (1#3) < 1#3.
Proof.
  destruct (fine_value TRN SAT (Z.of_nat n + 2) (Z.of_nat n) (1#3)) as (E & _); [lia|lia| |].
  { change (Qabs (1#3)) with (1#3). eapply Qle_trans; [|apply (pow2_le 2); lia]. discriminate. }
  rewrite E. unfold round_f. cbn [rnd_int]. set (N := Z.of_nat n). pose proof (third_not n ltac:(lia)) as D. fold N in D. pose proof (Qfloor_le ((1#3) * pow2 N)) as F. set (m := Qfloor ((1#3) * pow2 N)) in *.
  pose proof (pow2_pos (- N)) as P. pose proof (pow2_opp_mul N) as M. assert (L : inject_Z m < (1#3) * pow2 N).
  { apply Qle_lteq in F as [F|F]; [exact F|exfalso]. apply D. rewrite (pow2_inject N ltac:(unfold N; lia)) in F. assert (X : inject_Z (3 * m) == inject_Z (2 ^ N)) by (rewrite inject_Z_mult, F; change (inject_Z 3) with 3; ring). exact (proj1 (inject_Z_injective _ _) X). }
  assert (X : inject_Z m * pow2 (- N) < (1#3) * pow2 N * pow2 (- N)) by (apply Qmult_lt_r; assumption). setoid_replace ((1#3) * pow2 N * pow2 (- N)) with (1#3) in X by (rewrite <- Qmult_assoc, M; ring). exact X.
Qed.
Lemma not_tends a l d : 0 < d -> (forall n, d <= Qabs (a n - l)) -> ~ tends a l.
Proof. intros Hd H T. destruct (T d Hd) as (N & K). specialize (K N (Nat.le_refl N)). specialize (H N). lra. Qed.
