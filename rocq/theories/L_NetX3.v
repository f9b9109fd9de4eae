(** The array operations, traced. *)
From Coq Require Import String.
From Verif Require Import Num M_Fixed M_State M_Wrapper M_Mapper S_Mapper L_Mapper M_Contr M_Ebops L_Ebops M_Pow2 M_Patch S_Patch M_Ops M_Mirror S_Mirror L_Mirror M_Trace L_Trace L_Lift M_Table S_Table M_Softmax L_Softmax M_Attn M_Net S_Net M_NetX S_NetX L_Ops L_Net L_Net2 L_Net3 L_Net5 L_NetX1 L_NetX2 S_Ops.
Local Open Scope list_scope.

Lemma holds_of n b y z : batch_of n y -> (2 <= List.length (shape y))%nat -> same_tensor (sample b y) z -> holds n b y z.
Proof. intros (s & E) L S. split; [|exact S]. rewrite E in L. destruct s as [|d s]; [cbn [List.length] in L; lia|]. exists d, s. exact E. Qed.
Lemma holds_rank n b x v : holds n b x v -> (2 <= List.length (shape x))%nat /\ List.length (shape x) = S (List.length (shape v)).
Proof. intros H. pose proof H as ((d & s & E) & _). rewrite (holds_shape _ _ _ _ _ _ H E), E. cbn [List.length]. lia. Qed.
Lemma join_length s : forall t r, join_shape s t = Some r -> List.length r = List.length s /\ List.length r = List.length t.
Proof.
  induction s as [|d s IH]; intros [|e t] r H; cbn [join_shape] in H; try discriminate; [apply some_inj in H; subst r; split; reflexivity|].
  destruct (join_dim d e); [|discriminate]. cbn [bind] in H. destruct (join_shape s t) as [q|] eqn:J; [|discriminate]. cbn [bind] in H. apply some_inj in H. subst r. destruct (IH _ _ J). cbn [List.length]. lia.
Qed.
Lemma binary_rank f x y z : np_binary f x y = Some z -> List.length (shape z) = Nat.max (List.length (shape x)) (List.length (shape y)).
Proof.
  unfold np_binary. set (k := Nat.max _ _). destruct (join_shape (lpad k (shape x)) (lpad k (shape y))) as [r|] eqn:J; [|discriminate]. cbn [bind]. intros H. apply some_inj in H. subst z. cbn [shape].
  apply join_length in J as (J & _). rewrite J. unfold lpad. rewrite app_length, repeat_length. unfold k. lia.
Qed.
Lemma arith_holds f n b x y vx vy z : (forall a b c d, a == b -> c == d -> f a c == f b d) -> (b < n)%nat -> holds n b x vx -> holds n b y vy -> List.length (shape x) = List.length (shape y) -> np_binary f x y = Some z ->
  exists w, np_binary f vx vy = Some w /\ holds n b z w.
Proof.
  intros P Hb Hx Hy L H. destruct (arith_traced f n x y z (batch_in_of _ _ (proj1 Hx)) (batch_in_of _ _ (proj1 Hy)) L H) as (B & T). destruct (T b Hb) as (w0 & E0 & S0). unfold replay_arith in E0.
  destruct (binary_same f _ _ _ _ _ P (proj2 Hx) (proj2 Hy) E0) as (w & Ew & Sw). exists w. split; [exact Ew|]. apply holds_of; [exact B| |exact (st_trans _ _ _ S0 Sw)].
  rewrite (binary_rank _ _ _ _ H). pose proof (holds_rank _ _ _ _ Hx). lia.
Qed.
Lemma arith_fn_ext a x y u v : x == y -> u == v -> arith_fn a x u == arith_fn a y v.
Proof. intros E F. destruct a; cbn [arith_fn]; [apply Qplus_comp|unfold Qminus; apply Qplus_comp; [|apply Qopp_comp]|apply Qmult_comp|apply Q.max_compat|apply Q.min_compat]; assumption. Qed.

(** ** quantizers and tables keep the shape *)
Lemma quant_call_shape n q x y : traceable_quant q -> batch_in n x -> quant_call q x = Some y -> shape y = shape x.
Proof.
  intros (Sc & W & ha & oa & bu & het & wsh & B & T) (d & sh & Ex) H. unfold quant_call in H. rewrite Ex. destruct (built_batch _ _ _ _ _ _ B) as [w' ->]. destruct (q_s q) as [s|s].
  - destruct T as ((Hk & Hi & Hf) & Wi & Wf). rewrite (quantizer_infer_ext (q_w q) _ _ x (fun x => kif_infer_base (q_c q) (q_hom q) s x W)) in H.
    exact (proj1 (mirror_base (q_w q) (q_c q) (M_Mapper.t_k s) (tmap round_even (M_Mapper.t_i s)) (tmap round_even (M_Mapper.t_f s)) x y w' n (d :: sh) Sc Hk Hi Hf Ex Wi Wf H)).
  - destruct T as ((Hk & Hb' & Hi) & Wi & Wf). rewrite (quantizer_infer_ext (q_w q) _ _ x (fun x => kbi_infer_base (q_c q) (q_hom q) s x W)) in H.
    exact (proj1 (mirror_base (q_w q) (q_c q) (u_k s) (tmap round_even (u_i s)) (tmap2 Z.sub (tmap round_even (u_b s)) (tmap round_even (u_i s))) x y w' n (d :: sh) Sc Hk Hi Hb' Ex Wi Wf H)).
Qed.
(** a lookup table with its quantizers *)
Definition lut (iq : option quant) (f : Q -> Q) (oq : quant) : layer := LQ (match iq with Some q => Some (QSingle q) | None => None end) CLut (AFn f) (Some oq).
Lemma lut_traced n b iq f oq x v y : (b < n)%nat -> (forall q, iq = Some q -> traceable_quant q) -> traceable_quant oq -> (forall p q, p == q -> f p == f q) -> holds n b x v ->
  final1 (keras_layer (lut iq f oq) [VArr x] []) = Some y -> exists z, final1 (replay_layer (lut iq f oq) [VArr v] []) = Some z /\ holds n b y z /\ shape y = shape x.
Proof.
  intros Hb Ti To P Hx H. unfold final1 in *. destruct (keras_layer (lut iq f oq) [VArr x] []) as [d|] eqn:K; [|discriminate]. cbn [bind] in H.
  destruct (assoc "final"%string d) as [fin|] eqn:A; [|discriminate]. cbn [bind] in H. destruct fin as [|y0 [|]]; try discriminate. apply some_inj in H. subst y0.
  assert (T : traceable_layer (lut iq f oq)).
  { cbn [lut traceable_layer]. split; [|split; [exact I|split; [intros q E; apply some_inj in E; subst q; exact To|split; [reflexivity|exact P]]]]. intros q E. destruct iq as [q0|]; [|discriminate]. apply some_inj in E. subst q. exact (Ti q0 eq_refl). }
  destruct (layer_traced n b (lut iq f oq) [VArr x] [] d [y] [VArr v] [] Hb T K A) as (d' & fin' & K' & A' & F).
  { constructor; [constructor; exact Hx|constructor]. } { constructor. }
  rewrite K'. cbn [bind]. rewrite A'. cbn [bind]. inversion F as [|? z ? ? Hz F']; subst. inversion F'; subst. exists z. split; [reflexivity|]. split; [exact Hz|].
  unfold keras_layer, lut in K. cbn [one_arg bind training_off core_call] in K.
  assert (G : exists x1, match iq with Some q => quant_call q x | None => Some x end = Some x1 /\ quant_call oq (tmap (act_fn (AFn f)) x1) = Some y).
  { destruct iq as [q|]; cbn [iq_call] in K.
    - destruct (quant_call q x) as [x1|]; [|discriminate]. cbn [bind core_call] in K. destruct (quant_call oq (tmap (act_fn (AFn f)) x1)) as [y1|] eqn:E; [|discriminate]. cbn [bind] in K. apply some_inj in K. subst d.
      cbn [assoc] in A. rewrite String.eqb_refl in A. injection A as <-. exists x1. split; [reflexivity|exact E].
    - cbn [bind core_call] in K. destruct (quant_call oq (tmap (act_fn (AFn f)) x)) as [y1|] eqn:E; [|discriminate]. cbn [bind] in K. apply some_inj in K. subst d.
      cbn [assoc] in A. rewrite String.eqb_refl in A. injection A as <-. exists x. split; [reflexivity|exact E]. }
  destruct G as (x1 & E1 & E2). assert (S1 : shape x1 = shape x).
  { destruct iq as [q|]; [exact (quant_call_shape n q x x1 (Ti q eq_refl) (proj1 Hx) E1)|apply some_inj in E1; subst x1; reflexivity]. }
  rewrite (quant_call_shape n oq _ y To) with (2 := E2); [exact S1|]. destruct (proj1 Hx) as (d0 & s0 & E0). exists d0, s0. cbn [tmap shape]. congruence.
Qed.

(** ** softmax *)
Lemma sample_newaxis v : same_tensor (sample 0 (newaxis v)) v.
Proof. split; [reflexivity|]. intros i _. reflexivity. Qed.
Lemma newaxis_holds n b x v : holds n b x v -> holds 1 0 (newaxis v) v.
Proof. intros H. pose proof H as ((d & s & E) & _). split; [exists d, s; cbn [newaxis shape]; rewrite (holds_shape _ _ _ _ _ _ H E); reflexivity|apply sample_newaxis]. Qed.
Lemma first_sample x n s : shape x = S n :: s -> exists y, first x = Some y /\ same_tensor (sample 0 x) y.
Proof. intros E. unfold first. rewrite E. eexists. split; [reflexivity|]. split; [cbn [sample shape]; rewrite E; reflexivity|]. intros i _. reflexivity. Qed.
Lemma first_holds n b x m : batch_in 1 x -> first x = Some m -> holds n b x m -> holds 1 0 x m.
Proof. intros B E (_ & _). split; [exact B|]. pose proof B as (d & s & Ex). destruct (first_sample x 0 (d :: s) Ex) as (y & Ey & Sy). rewrite E in Ey. apply some_inj in Ey. subst y. exact Sy. Qed.
Lemma keep_length axes : forall sh a, List.length (keep_shape_from a axes sh) = List.length sh.
Proof. induction sh as [|d sh IH]; intros a; [reflexivity|]. cbn [keep_shape_from List.length]. rewrite IH. reflexivity. Qed.
Lemma reduce_holds f axes n b x v : (forall l l', Forall2 Qeq l l' -> f l == f l') -> (b < n)%nat -> memb 0 axes = false -> holds n b x v ->
  exists m, first (np_reduce f axes true (newaxis v)) = Some m /\ holds n b (np_reduce f axes true x) m /\ batch_in 1 (np_reduce f axes true (newaxis v)).
Proof.
  intros P Hb M Hx. destruct (right_then (replay_reduction f axes true) n b x v _ Hb (reduce_traced f axes true n x (batch_in_of _ _ (proj1 Hx)) M)) with (2 := proj2 Hx) as (m & Em & Sm).
  { intros u u' z Su Eu. unfold replay_reduction in *. exact (st_first _ _ _ (reduce_same f axes true _ _ P (st_newaxis _ _ Su)) Eu). }
  exists m. split; [exact Em|]. split.
  - apply holds_of; [|unfold np_reduce; cbn [reduce_keep shape]; rewrite keep_length; apply (holds_rank _ _ _ _ Hx)|exact Sm]. exact (proj1 (reduce_traced f axes true n x (batch_in_of _ _ (proj1 Hx)) M)).
  - pose proof Hx as ((d & s & Ex) & _). unfold batch_in, np_reduce. cbn [reduce_keep shape newaxis]. rewrite (holds_shape _ _ _ _ _ _ Hx Ex). cbn [keep_shape_from]. rewrite M. eexists. eexists. reflexivity.
Qed.
Lemma binary_newaxis f X Y vx vy z : (forall a b c d, a == b -> c == d -> f a c == f b d) -> holds 1 0 X vx -> holds 1 0 Y vy -> List.length (shape vx) = List.length (shape vy) -> np_binary f vx vy = Some z ->
  exists W w, np_binary f X Y = Some W /\ first W = Some w /\ same_tensor z w.
Proof.
  intros P HX HY L H. pose proof HX as ((d & s & EX) & _). pose proof HY as ((e & t & EY) & _). pose proof (holds_shape _ _ _ _ _ _ HX EX) as Ex. pose proof (holds_shape _ _ _ _ _ _ HY EY) as Ey.
  assert (G : exists W, np_binary f X Y = Some W).
  { unfold np_binary in *. rewrite EX, EY. rewrite Ex, Ey in *. rewrite L in H. rewrite Nat.max_id in H. change (List.length (1%nat :: d :: s)) with (S (List.length (d :: s))). rewrite L. change (List.length (1%nat :: e :: t)) with (S (List.length (e :: t))).
    rewrite Nat.max_id. rewrite (lpad_eq (List.length (e :: t)) (d :: s)) in H by (symmetry; exact L). rewrite lpad_id in H.
    rewrite (lpad_eq (S (List.length (e :: t))) (1%nat :: d :: s)) by (cbn [List.length] in *; lia). rewrite (lpad_eq (S (List.length (e :: t))) (1%nat :: e :: t)) by reflexivity.
    rewrite join_same_head. destruct (join_shape (d :: s) (e :: t)); [|discriminate]. cbn [bind]. eexists. reflexivity. }
  destruct G as (W & EW). destruct (arith_holds f 1 0 X Y vx vy W P (Nat.lt_0_1) HX HY) with (2 := EW) as (w & Ew & Hw); [rewrite EX, EY; cbn [List.length]; rewrite Ex, Ey in L; cbn [List.length] in L; lia|].
  rewrite H in Ew. apply some_inj in Ew. subst w. exists W. pose proof Hw as ((d' & s' & E') & S'). destruct (first_sample W 0 (d' :: s') E') as (w & Fw & Sw). exists w. split; [exact EW|]. split; [exact Fw|]. exact (st_trans _ _ _ (st_sym _ _ S') Sw).
Qed.
Lemma qmax_Forall2 l l' : Forall2 Qeq l l' -> qmax_of l == qmax_of l'.
Proof.
  induction 1 as [|a a' l l' E F IH]; [reflexivity|]. destruct F as [|c c' l l' E' F']; [cbn [qmax_of]; exact E|]. cbn [qmax_of] in *. apply Q.max_compat; [exact E|exact IH].
Qed.
Lemma qsum_F2 l l' : Forall2 Qeq l l' -> qsum l == qsum l'.
Proof. induction 1 as [|a a' l l' E F IH]; [reflexivity|]. cbn [qsum fold_right]. apply Qplus_comp; [exact E|exact IH]. Qed.
Lemma Qminus_ext' a b c d : a == b -> c == d -> a - c == b - d.
Proof. intros -> ->. reflexivity. Qed.
Lemma Qmult_ext' a b c d : a == b -> c == d -> a * c == b * d.
Proof. intros -> ->. reflexivity. Qed.
Lemma softmax_traced n b s x v y : (b < n)%nat -> traceable_op (OSoftmax s) -> holds n b x v -> keras_softmax s x = Some y -> exists z, replay_softmax_layer s v = Some z /\ holds n b y z.
Proof.
  intros Hb (N0 & Tei & Teo & Tii & Tio & Pe & Pi) Hx H. apply memb_false in N0. unfold keras_softmax in H. unfold replay_softmax_layer. cbv zeta.
  assert (G : exists x1 v1 w1, (if sx_stable s then np_binary Qminus (np_reduce qmax_of (sx_axes s) true x) x else Some x) = Some x1 /\ (if sx_stable s then np_binary Qminus (np_reduce qmax_of (sx_axes s) true (newaxis v)) (newaxis v) else Some (newaxis v)) = Some w1 /\ first w1 = Some v1 /\ holds n b x1 v1 /\ List.length (shape x1) = List.length (shape x)).
  { destruct (sx_stable s).
    - destruct (np_binary Qminus (np_reduce qmax_of (sx_axes s) true x) x) as [x1|] eqn:E; [|discriminate]. destruct (reduce_holds qmax_of (sx_axes s) n b x v qmax_Forall2 Hb N0 Hx) as (m & Fm & Hm & B1).
      assert (Lr : List.length (shape (np_reduce qmax_of (sx_axes s) true x)) = List.length (shape x)) by (unfold np_reduce; cbn [reduce_keep shape]; apply keep_length).
      destruct (arith_holds Qminus n b _ x m v x1 Qminus_ext' Hb Hm Hx Lr E) as (w & Ew & Hw).
      assert (HM : holds 1 0 (np_reduce qmax_of (sx_axes s) true (newaxis v)) m).
      { split; [exact B1|]. pose proof B1 as (d & s0 & E1). destruct (first_sample _ 0 (d :: s0) E1) as (m' & Fm' & Sm'). rewrite Fm in Fm'. apply some_inj in Fm'. subst m'. exact Sm'. }
      destruct (binary_newaxis Qminus _ _ m v w Qminus_ext' HM (newaxis_holds _ _ _ _ Hx)) with (2 := Ew) as (W & w' & EW & Fw & Sw).
      { pose proof (holds_rank _ _ _ _ Hm). pose proof (holds_rank _ _ _ _ Hx). lia. }
      exists x1, w', W. split; [reflexivity|]. split; [exact EW|]. split; [exact Fw|]. split; [exact (holds_right _ _ _ _ _ Hw Sw)|]. rewrite (binary_rank _ _ _ _ E), Lr. lia.
    - exists x. destruct (first_sample (newaxis v) 0 (shape v) eq_refl) as (v1 & F1 & S1). exists v1, (newaxis v). split; [reflexivity|]. split; [reflexivity|]. split; [exact F1|]. split; [|reflexivity].
      apply (holds_right n b x v); [exact Hx|]. exact (st_trans _ _ _ (st_sym _ _ (sample_newaxis v)) S1). }
  destruct G as (x1 & v1 & w1 & E1 & E2 & F1 & H1 & L1). rewrite E1 in H. rewrite E2. cbn [bind] in *. rewrite F1. cbn [bind].
  destruct (final1 (keras_layer (exp_table s) [VArr x1] [])) as [e|] eqn:Ke; [|discriminate]. cbn [bind] in H.
  destruct (lut_traced n b (sx_exp_iq s) (sx_exp s) (sx_exp_oq s) x1 v1 e Hb Tei Teo Pe H1 Ke) as (ze & Ze & He & Se). change (exp_table s) with (lut (sx_exp_iq s) (sx_exp s) (sx_exp_oq s)). rewrite Ze. cbn [bind].
  destruct (reduce_holds qsum (sx_axes s) n b e ze qsum_F2 Hb N0 He) as (sm & Fs & Hs & _). rewrite Fs. cbn [bind].
  destruct (final1 (keras_layer (inv_table s) [VArr (np_reduce qsum (sx_axes s) true e)] [])) as [dv|] eqn:Ki; [|discriminate]. cbn [bind] in H.
  destruct (lut_traced n b (Some (sx_inv_iq s)) (sx_inv s) (sx_inv_oq s) (np_reduce qsum (sx_axes s) true e) sm dv Hb) with (5 := Ki) as (zd & Zd & Hd & Sd); [intros q E; apply some_inj in E; subst q; exact Tii|exact Tio|exact Pi|exact Hs|].
  change (inv_table s) with (lut (Some (sx_inv_iq s)) (sx_inv s) (sx_inv_oq s)). rewrite Zd. cbn [bind].
  apply (arith_holds Qmult n b e dv ze zd y Qmult_ext' Hb He Hd); [|exact H]. rewrite Sd. unfold np_reduce. cbn [reduce_keep shape]. rewrite keep_length. reflexivity.
Qed.

(** ** leaky activations *)
Lemma join_sub_eq s t r : join_shape s t = Some r -> r = s -> forall i, valid_index s i -> valid_index t (bcast_index t i).
Proof. intros J -> i V. exact (proj2 (join_valid _ _ _ _ J V)). Qed.
Lemma second_same (f : Q -> Q -> Q) n b x v alpha y t : (b < n)%nat -> holds n b x v -> (List.length (shape alpha) < List.length (shape x))%nat -> np_binary f x alpha = Some y -> shape y = shape x ->
  np_binary (fun _ a => a) (newaxis v) alpha = Some t -> shape t = 1%nat :: shape v /\ forall i, valid_index (shape v) i -> at_ y (b :: i) = f (at_ x (b :: i)) (at_ t (0%nat :: i)).
Proof.
  intros Hb Hx L H Es Ht. pose proof Hx as ((d & s & Ex) & _). pose proof (holds_shape _ _ _ _ _ _ Hx Ex) as Ev. rewrite Ex in L. cbn [List.length] in L. assert (L' : (List.length (shape alpha) <= List.length (d :: s))%nat) by (cbn [List.length]; lia).
  rewrite (const_binary f x alpha n (d :: s) Ex L') in H. rewrite (const_binary (fun _ a => a) (newaxis v) alpha 1 (d :: s)) in Ht; [|cbn [newaxis shape]; rewrite Ev; reflexivity|exact L'].
  destruct (join_shape (d :: s) (lpad (List.length (d :: s)) (shape alpha))) as [r|] eqn:J; [|discriminate]. cbn [bind] in *. apply some_inj in H. apply some_inj in Ht. subst y t. cbn [shape at_] in *. rewrite Ex in Es. injection Es as Es. subst r.
  split; [rewrite Ev; reflexivity|]. intros i Vi. rewrite Ev in Vi. f_equal.
  - rewrite bcast_valid; [reflexivity|]. constructor; assumption.
  - unfold bcast_at. rewrite (lpad_S (List.length (d :: s)) (shape alpha) L'). cbn [bcast_index]. reflexivity.
Qed.
Lemma replay_relu_ext low f th neg neg' maxv x x' : neg == neg' -> x == x' -> replay_relu low f th neg maxv x == replay_relu low f th neg' maxv x'.
Proof.
  intros En Ex. unfold replay_relu. cbv zeta. replace (Qeq_bool neg 0) with (Qeq_bool neg' 0) by (rewrite En; reflexivity). destruct (Qeq_bool th 0 && Qeq_bool neg' 0 && _)%bool; [unfold relu; apply Q.max_compat; [reflexivity|exact Ex]|].
  destruct (qlt_b _ 0); [|destruct maxv; [apply Q.min_compat; [exact Ex|reflexivity]|exact Ex]]. unfold msb_mux. set (sh := if Qeq_bool th 0 then 0 else _).
  assert (E : qlt_b (x - sh) 0 = qlt_b (x' - sh) 0) by (unfold qlt_b; rewrite Ex; reflexivity).
  rewrite E. destruct (qlt_b (x' - sh) 0); [rewrite En, Ex; reflexivity|]. destruct maxv; [apply Q.min_compat; [exact Ex|reflexivity]|exact Ex].
Qed.
Lemma leaky_traced n b alpha maxv x v y low (f : Q -> Q -> Q) : (b < n)%nat -> holds n b x v -> (List.length (shape alpha) < List.length (shape x))%nat -> np_binary f x alpha = Some y -> shape y = shape x ->
  (forall i, valid_index (shape v) i -> low i <= at_ v i) -> (forall lo a p, lo <= p -> replay_relu lo 0 0 a maxv p == f p a) ->
  exists z, replay_leaky low alpha maxv v = Some z /\ holds n b y z.
Proof.
  intros Hb Hx L H Es Low P. unfold replay_leaky.
  assert (G : exists t, np_binary (fun _ a => a) (newaxis v) alpha = Some t).
  { pose proof Hx as ((d & s & Ex) & _). pose proof (holds_shape _ _ _ _ _ _ Hx Ex) as Ev. assert (L' : (List.length (shape alpha) <= List.length (d :: s))%nat) by (rewrite Ex in L; cbn [List.length] in *; lia).
    rewrite (const_binary f x alpha n (d :: s) Ex L') in H. rewrite (const_binary (fun _ a => a) (newaxis v) alpha 1 (d :: s)); [|cbn [newaxis shape]; rewrite Ev; reflexivity|exact L'].
    destruct (join_shape _ _); [|discriminate]. cbn [bind]. eexists. reflexivity. }
  destruct G as (t & Et). rewrite Et. cbn [bind]. destruct (second_same f n b x v alpha y t Hb Hx L H Es Et) as (St & At). rewrite St. rewrite (proj2 (nat_list_eqb_eq _ _) eq_refl).
  eexists. split; [reflexivity|]. split; [destruct (proj1 Hx) as (d & s & E); exists d, s; congruence|]. pose proof (proj2 Hx) as (Sv & Av). split; [cbn [sample shape] in *; congruence|]. cbn [sample shape at_] in *. intros i Vi.
  rewrite Es, Sv in Vi. rewrite (At i Vi). rewrite <- (P (low i)).
  - apply replay_relu_ext; [reflexivity|]. apply Av. rewrite Sv. exact Vi.
  - rewrite (Av i); [apply Low, Vi|rewrite Sv; exact Vi].
Qed.
Lemma relu0_replay low neg maxv x : (forall m, maxv = Some m -> 0 <= m) -> low <= x -> replay_relu low 0 0 neg maxv x == keras_relu 0 neg maxv x.
Proof.
  intros M0 Lx. unfold replay_relu, keras_relu. cbv zeta. change (Qeq_bool 0 0) with true. cbn [andb].
  destruct (Qeq_bool neg 0) eqn:En; cbn [andb].
  - apply Qeq_bool_iff in En. destruct maxv as [v|]; [|reflexivity]. pose proof (M0 v eq_refl) as Hv. unfold msb_mux. destruct (qlt_b (low - 0) 0) eqn:E1.
    + destruct (qlt_b (x - 0) 0) eqn:E2.
      * apply qlt_b_spec in E2. rewrite En. rewrite (relu_neg x) by lra. unfold clip. rewrite Q.max_l by lra. rewrite Q.min_l by lra. ring.
      * apply qlt_b_false in E2. rewrite (relu_pos x) by lra. unfold clip. rewrite (Q.max_l x 0) by lra. reflexivity.
    + apply qlt_b_false in E1. rewrite (relu_pos x) by lra. unfold clip. rewrite (Q.max_l x 0) by lra. reflexivity.
  - assert (X : forall y, y == (match maxv with Some m0 => clip 0 m0 (relu x) | None => relu x end) - neg * relu (- x) -> 0 <= x -> (match maxv with Some m0 => Qmin x m0 | None => x end) == y).
    { intros y -> Hx. rewrite (relu_neg (- x)) by lra. destruct maxv as [v|]; [unfold clip; rewrite (relu_pos x Hx); rewrite (Q.max_l x 0) by lra; ring|]. rewrite (relu_pos x Hx). ring. }
    assert (Y : x <= 0 -> (x - 0) * neg == (match maxv with Some m0 => clip 0 m0 (relu x) | None => relu x end) - neg * relu (- x)).
    { intros Hx. rewrite (relu_pos (- x)) by lra. destruct maxv as [v|].
      - unfold clip. pose proof (M0 v eq_refl). rewrite (relu_neg x Hx). rewrite (Q.max_l 0 0) by lra. rewrite Q.min_l by lra. ring.
      - rewrite (relu_neg x Hx). ring. }
    unfold msb_mux. destruct (qlt_b (low - 0) 0) eqn:E1.
    + destruct (qlt_b (x - 0) 0) eqn:E2; [apply qlt_b_spec in E2; apply Y; lra|apply qlt_b_false in E2; apply X; [reflexivity|lra]].
    + apply qlt_b_false in E1. apply X; [reflexivity|lra].
Qed.
