(** Lemmas for C64: values, signs and monotonicity of the EBOPs computation with gradients. *)
From Verif Require Import Num M_Fixed M_State M_Mapper S_Mapper L_Mapper M_Contr M_Ebops S_Ebops L_Ebops M_Cebops M_Grad L_Grad.

Lemma dsum_v p l : dv (g_sum (d_arith p) l) = qsum (map dv l).
Proof. induction l as [|x l IH]; [reflexivity|]. cbn [map g_sum fold_right d_arith a_add d_add dv qsum]. fold (qsum (map dv l)). rewrite <- IH. reflexivity. Qed.
Lemma dsum_g p l v : dg (g_sum (d_arith p) l) v = qsum (map (fun d => dg d v) l).
Proof. induction l as [|x l IH]; [reflexivity|]. cbn [map g_sum fold_right d_arith a_add d_add dg qsum]. fold (qsum (map (fun d => dg d v) l)). rewrite <- IH. reflexivity. Qed.

Lemma accum_form axes (b : tensor Q) :
  g_accum q_arith axes b == qsum (map (fun g => qsum (collect axes b g) - min_of (collect axes b g)) (indices (keep_shape_from 0 axes (shape b)))).
Proof.
  unfold g_accum. change (a_sub q_arith) with Qminus. change (g_tsum q_arith b) with (tsum b). change (g_tsum q_arith (g_min_over q_arith axes b)) with (tsum (min_over axes b)).
  unfold tsum at 1. rewrite (qsum_partition (keep axes) (at_ b) (indices (shape b)) (indices (keep_shape_from 0 axes (shape b))) (NoDup_indices _)).
  2:{ intros a Ha. apply in_indices. apply in_indices in Ha. apply keep_valid. exact Ha. }
  unfold tsum, min_over, reduce_keep. cbn [shape at_]. unfold Qminus. rewrite qsum_plus. unfold collect. apply Qplus_inj_l.
  set (m := fun g : index => min_of (map (at_ b) (filter (fun idx => index_eqb (keep axes idx) g) (indices (shape b))))).
  transitivity (- qsum (map m (indices (keep_shape_from 0 axes (shape b))))); [reflexivity|].
  transitivity (qsum (map (fun g => - m g) (indices (keep_shape_from 0 axes (shape b))))); [|reflexivity].
  rewrite (qsum_ext (fun g => - m g) (fun g => (-(1)) * m g)) by (intros; lra). rewrite qsum_scale. lra.
Qed.

(** ** Values *)
Definition Vr (q : Q) (d : dual) : Prop := q == dv d.
Lemma minl_V l l' : Forall2 Vr l l' -> Vr (a_minl q_arith l) (d_minl l').
Proof.
  intros H. unfold Vr, d_minl. cbn [dv]. assert (E : Forall2 Qeq l (map dv l')) by (induction H; cbn [map]; constructor; assumption).
  clear H. destruct E as [|x y m m' Hx Hm]; [reflexivity|]. cbn [a_minl q_arith]. revert x y Hx.
  induction Hm as [|u w m m' Hu _ IH]; intros x y Hx; cbn [qmin_list fold_left]; [exact Hx|].
  apply IH. rewrite Hx, Hu. reflexivity.
Qed.
Lemma collect_rel {A B} (R : A -> B -> Prop) axes t t' g : trel R t t' -> Forall2 R (collect axes t g) (collect axes t' g).
Proof. intros [H1 H2]. unfold collect. rewrite H1. induction (filter _ _); cbn [map]; constructor; auto. Qed.

Section Inst.
  Context (p : par).
  Lemma V_add x x' y y' : Vr x x' -> Vr y y' -> Vr (x + y) (d_add x' y'). Proof. unfold Vr. cbn [dv d_add]. intros -> ->. reflexivity. Qed.
  Lemma V_mul x x' y y' : Vr x x' -> Vr y y' -> Vr (x * y) (d_mul x' y'). Proof. unfold Vr. cbn [dv d_mul]. intros -> ->. reflexivity. Qed.
  Lemma V_sub x x' y y' : Vr x x' -> Vr y y' -> Vr (x - y) (d_sub x' y'). Proof. unfold Vr. cbn [dv d_sub]. intros -> ->. reflexivity. Qed.
  Lemma V_min x x' y y' : Vr x x' -> Vr y y' -> Vr (Qmin x y) (d_min2 p x' y').
  Proof. unfold Vr. cbn [dv d_min2]. intros -> ->. reflexivity. Qed.
  Lemma V_max x x' y y' : Vr x x' -> Vr y y' -> Vr (Qmax x y) (d_max2 p x' y').
  Proof. unfold Vr. cbn [dv d_max2]. intros -> ->. reflexivity. Qed.
  Lemma V_exp x x' : Vr x x' -> Vr (pow2 (Qfloor x)) (d_exp2 p x'). Proof. unfold Vr. cbn [dv d_exp2]. intros ->. reflexivity. Qed.
  Lemma V_tsum t t' : trel Vr t t' -> Vr (g_tsum q_arith t) (g_tsum (d_arith p) t').
  Proof. apply tsum_rel; [reflexivity|apply V_add]. Qed.
  Lemma V_accum axes t t' : trel Vr t t' -> Vr (g_accum q_arith axes t) (g_accum (d_arith p) axes t').
  Proof.
    intros H. unfold g_accum. apply V_sub; [apply V_tsum, H|]. apply V_tsum. unfold g_min_over, reduce_keep. split; cbn [shape at_]; [rewrite (proj1 H); reflexivity|].
    intros i. apply minl_V, collect_rel, H.
  Qed.
  Lemma fold_rel {A B} (R : A -> B -> Prop) f g i rest rest' : (forall x x' y y', R x x' -> R y y' -> R (f x y) (g x' y')) ->
    Forall2 (trel R) rest rest' -> forall a a', R a a' ->
    R (fold_left f (map (fun b : tensor A => at_ b i) rest) a) (fold_left g (map (fun b : tensor B => at_ b i) rest') a').
  Proof. intros Hf. induction 1 as [|x y l l' [_ Hx] _ IH]; intros a a' Ha; cbn [map fold_left]; [exact Ha|]. apply IH, Hf; auto. Qed.
  Lemma V_excl idx b0 b0' rest rest' : trel Vr b0 b0' -> Forall2 (trel Vr) rest rest' ->
    Vr (Qminus (g_sum q_arith (map (fun i => fold_left Qplus (map (fun b => at_ b i) (b0 :: rest)) 0) idx))
               (g_sum q_arith (map (fun i => fold_left Qmin (map (fun b => at_ b i) rest) (at_ b0 i)) idx)))
       (d_sub (g_sum (d_arith p) (map (fun i => fold_left d_add (map (fun b => at_ b i) (b0' :: rest')) (d_cst 0)) idx))
              (g_sum (d_arith p) (map (fun i => fold_left (d_min2 p) (map (fun b => at_ b i) rest') (at_ b0' i)) idx))).
  Proof.
    intros H0 Hr. apply V_sub; (apply (gsum_rel q_arith (d_arith p) Vr); [reflexivity|apply V_add|]); intros i _.
    - apply (fold_rel Vr Qplus d_add); [apply V_add|constructor; assumption|reflexivity].
    - apply (fold_rel Vr Qmin (d_min2 p)); [apply V_min|exact Hr|apply H0].
  Qed.
  Theorem value_rel l qs qs' : pf_ok l -> Forall2 (trel Vr) qs qs' -> orel Vr (g_ebops q_arith l qs) (g_ebops (d_arith p) l qs').
  Proof.
    apply layer_rel; [intros x x' H; exact H|reflexivity|intros c _; reflexivity|apply V_add|apply V_mul|apply V_max|apply V_exp|apply V_accum|apply V_excl].
  Qed.
End Inst.

(** ** Signs *)
Definition par_ok (p : par) : Prop := 0 <= p_tie p /\ p_tie p <= 1 /\ 0 <= p_ln2 p.
Definition Pr (q : Q) (d : dual) : Prop := q == dv d /\ 0 <= dv d /\ forall v, 0 <= dg d v.
Lemma Pr_V q d : Pr q d -> Vr q d. Proof. intros [H _]. exact H. Qed.
Lemma share_bounds p a b : par_ok p -> 0 <= share p a b /\ share p a b <= 1.
Proof. intros (H1 & H2 & _). unfold share. destruct (Qeq_bool a b); [split; assumption|]. destruct (Qle_bool a b); split; lra. Qed.
Lemma qsum_filter_le {A} (f : A -> Q) (c : A -> bool) l : (forall a, In a l -> 0 <= f a) -> qsum (map f (filter c l)) <= qsum (map f l).
Proof.
  induction l as [|x l IH]; intros H; [apply Qle_refl|]. cbn [filter]. assert (0 <= f x) by (apply H; left; reflexivity).
  assert (qsum (map f (filter c l)) <= qsum (map f l)) by (apply IH; intros; apply H; right; assumption).
  destruct (c x); cbn [map]; rewrite ?qsum_cons; lra.
Qed.
Lemma div_le_self a n : 0 <= a -> a / nQ n <= a.
Proof.
  intros H. destruct n; [unfold Qdiv; change (/ nQ 0) with 0; lra|]. apply Qle_shift_div_r; [apply nQ_pos; lia|].
  assert (1 <= nQ (S n)). { unfold nQ. change 1 with (inject_Z 1). rewrite <- Zle_Qle. lia. } nra.
Qed.
Lemma minl_g l v : (forall d, In d l -> 0 <= dg d v) -> 0 <= dg (d_minl l) v /\ dg (d_minl l) v <= qsum (map (fun d => dg d v) l).
Proof.
  intros H. unfold d_minl. cbn [dg]. set (ties := filter _ l).
  assert (H0 : 0 <= qsum (map (fun d => dg d v) ties)). { apply qsum_nonneg. intros d Hd. apply filter_In in Hd. apply H, Hd. }
  split.
  - unfold Qdiv. apply mulnn; [exact H0|apply inv_nonneg].
  - eapply Qle_trans; [apply div_le_self, H0|]. apply qsum_filter_le. exact H.
Qed.
Lemma min2_g p a b v : par_ok p -> 0 <= dg a v -> 0 <= dg b v -> 0 <= dg (d_min2 p a b) v /\ dg (d_min2 p a b) v <= dg a v + dg b v.
Proof.
  intros Hp Ha Hb. cbn [d_min2 dg]. destruct (share_bounds p (dv a) (dv b) Hp) as [H1 H2]. set (s := share p (dv a) (dv b)) in *. clearbody s.
  assert (0 <= s * dg a v) by (apply mulnn; assumption). assert (0 <= (1 - s) * dg b v) by (apply mulnn; lra).
  assert (0 <= (1 - s) * dg a v) by (apply mulnn; lra). assert (0 <= s * dg b v) by (apply mulnn; lra). split; lra.
Qed.
Lemma fold_min_g p l v : par_ok p -> (forall d, In d l -> 0 <= dg d v) -> forall a, 0 <= dg a v ->
  0 <= dg (fold_left (d_min2 p) l a) v /\ dg (fold_left (d_min2 p) l a) v <= dg a v + qsum (map (fun d => dg d v) l).
Proof.
  intros Hp. induction l as [|x l IH]; intros Hl a Ha; cbn [fold_left map]; [split; [exact Ha|change (qsum []) with 0; lra]|].
  rewrite qsum_cons. assert (Hx : 0 <= dg x v) by (apply Hl; left; reflexivity). destruct (min2_g p a x v Hp Ha Hx) as [H1 H2].
  destruct (IH (fun d Hd => Hl d (or_intror Hd)) _ H1) as [H3 H4]. split; [exact H3|]. lra.
Qed.
Lemma fold_add_g l v : forall a, dg (fold_left d_add l a) v == dg a v + qsum (map (fun d => dg d v) l).
Proof.
  induction l as [|x l IH]; intros a; cbn [fold_left map]; [change (qsum []) with 0; lra|]. rewrite IH, qsum_cons. cbn [d_add dg]. lra.
Qed.
Lemma fold_add_v l : forall a, dv (fold_left d_add l a) == dv a + qsum (map dv l).
Proof.
  induction l as [|x l IH]; intros a; cbn [fold_left map]; [change (qsum []) with 0; lra|]. rewrite IH, qsum_cons. cbn [d_add dv]. lra.
Qed.

Section Sign.
  Context (p : par) (Hp : par_ok p).
  Lemma P_cst c : 0 <= c -> Pr c (d_cst c). Proof. intros H. split; [reflexivity|]. split; [exact H|]. intros v. apply Qle_refl. Qed.
  Lemma P_add x x' y y' : Pr x x' -> Pr y y' -> Pr (x + y) (d_add x' y').
  Proof.
    intros (E1 & V1 & G1) (E2 & V2 & G2). repeat split; cbn [d_add dv dg]; [rewrite E1, E2; reflexivity|lra|].
    intros v. specialize (G1 v). specialize (G2 v). lra.
  Qed.
  Lemma P_mul x x' y y' : Pr x x' -> Pr y y' -> Pr (x * y) (d_mul x' y').
  Proof.
    intros (E1 & V1 & G1) (E2 & V2 & G2). repeat split; cbn [d_mul dv dg]; [rewrite E1, E2; reflexivity|apply mulnn; assumption|].
    intros v. specialize (G1 v). specialize (G2 v).
    assert (0 <= dg x' v * dv y') by (apply mulnn; assumption). assert (0 <= dv x' * dg y' v) by (apply mulnn; assumption). lra.
  Qed.
  Lemma P_max x x' y y' : Pr x x' -> Pr y y' -> Pr (Qmax x y) (d_max2 p x' y').
  Proof.
    intros (E1 & V1 & G1) (E2 & V2 & G2). repeat split; cbn [d_max2 dv dg]; [rewrite E1, E2; reflexivity| |].
    - pose proof (Q.le_max_l (dv x') (dv y')). lra.
    - intros v. specialize (G1 v). specialize (G2 v). destruct (share_bounds p (dv y') (dv x') Hp) as [H1 H2].
      assert (0 <= share p (dv y') (dv x') * dg x' v) by (apply mulnn; assumption).
      assert (0 <= (1 - share p (dv y') (dv x')) * dg y' v) by (apply mulnn; lra). lra.
  Qed.
  Lemma P_exp x x' : Pr x x' -> Pr (pow2 (Qfloor x)) (d_exp2 p x').
  Proof.
    intros (E1 & V1 & G1). repeat split; cbn [d_exp2 dv dg]; [rewrite E1; reflexivity|apply Qlt_le_weak, pow2_pos|].
    intros v. apply mulnn; [|apply G1]. apply mulnn; [apply Qlt_le_weak, pow2_pos|apply Hp].
  Qed.
  Lemma P_accum axes t t' : trel Pr t t' -> Pr (g_accum q_arith axes t) (g_accum (d_arith p) axes t').
  Proof.
    intros H. assert (V : Vr (g_accum q_arith axes t) (g_accum (d_arith p) axes t')) by (apply V_accum; eapply trel_impl; [|exact H]; intros a b; apply Pr_V).
    split; [exact V|]. split.
    - unfold Vr in V. rewrite <- V, accum_form. apply qsum_nonneg. intros g _.
      assert (Hc : forall x, In x (collect axes t g) -> 0 <= x).
      { intros x Hx. unfold collect in Hx. apply in_map_iff in Hx. destruct Hx as (i & <- & _). destruct (proj2 H i) as (E & E' & _). lra. }
      destruct (collect axes t g) as [|x l]; [cbn; discriminate|]. apply smm_nonneg; [apply Hc; left; reflexivity|intros; apply Hc; right; assumption].
    - intros v. unfold g_accum. change (a_sub (d_arith p)) with d_sub. cbn [d_sub dg]. unfold g_tsum. rewrite !dsum_g, !map_map.
      rewrite (qsum_partition (keep axes) (fun i => dg (at_ t' i) v) (indices (shape t')) (indices (keep_shape_from 0 axes (shape t'))) (NoDup_indices _)).
      2:{ intros a Ha. apply in_indices. apply in_indices in Ha. apply keep_valid. exact Ha. }
      unfold g_min_over, reduce_keep. cbn [shape at_].
      assert (L : qsum (map (fun x => dg (a_minl (d_arith p) (collect axes t' x)) v) (indices (keep_shape_from 0 axes (shape t'))))
                  <= qsum (map (fun g => qsum (map (fun i => dg (at_ t' i) v) (filter (fun a => index_eqb (keep axes a) g) (indices (shape t'))))) (indices (keep_shape_from 0 axes (shape t'))))).
      { apply qsum_le. intros g _. cbn [d_arith a_minl].
        eapply Qle_trans; [apply minl_g|].
        - intros d Hd. unfold collect in Hd. apply in_map_iff in Hd. destruct Hd as (i & <- & _). apply (proj2 H i).
        - unfold collect. rewrite map_map. apply Qle_refl. }
      lra.
  Qed.
  Lemma P_excl idx b0 b0' rest rest' : trel Pr b0 b0' -> Forall2 (trel Pr) rest rest' ->
    Pr (Qminus (g_sum q_arith (map (fun i => fold_left Qplus (map (fun b => at_ b i) (b0 :: rest)) 0) idx))
               (g_sum q_arith (map (fun i => fold_left Qmin (map (fun b => at_ b i) rest) (at_ b0 i)) idx)))
       (d_sub (g_sum (d_arith p) (map (fun i => fold_left d_add (map (fun b => at_ b i) (b0' :: rest')) (d_cst 0)) idx))
              (g_sum (d_arith p) (map (fun i => fold_left (d_min2 p) (map (fun b => at_ b i) rest') (at_ b0' i)) idx))).
  Proof.
    intros H0 Hr.
    assert (V : Vr (Qminus (g_sum q_arith (map (fun i => fold_left Qplus (map (fun b => at_ b i) (b0 :: rest)) 0) idx))
               (g_sum q_arith (map (fun i => fold_left Qmin (map (fun b => at_ b i) rest) (at_ b0 i)) idx)))
       (d_sub (g_sum (d_arith p) (map (fun i => fold_left d_add (map (fun b => at_ b i) (b0' :: rest')) (d_cst 0)) idx))
              (g_sum (d_arith p) (map (fun i => fold_left (d_min2 p) (map (fun b => at_ b i) rest') (at_ b0' i)) idx)))).
    { apply V_excl; [eapply trel_impl; [|exact H0]; intros a b; apply Pr_V|]. clear -Hr. induction Hr; constructor; [|assumption].
      eapply trel_impl; [|eassumption]. intros a b; apply Pr_V. }
    assert (Gr : forall i d, In d (map (fun b => at_ b i) rest') -> 0 <= dv d /\ forall v, 0 <= dg d v).
    { intros i d Hd. apply in_map_iff in Hd. destruct Hd as (b & <- & Hb). clear -Hr Hb. induction Hr as [|x y l l' [_ Hx] _ IH]; [destruct Hb|].
      destruct Hb as [<-|Hb]; [destruct (Hx i) as (_ & E1 & E2); split; assumption|apply IH, Hb]. }
    assert (G0 : forall i, 0 <= dv (at_ b0' i) /\ forall v, 0 <= dg (at_ b0' i) v) by (intros i; destruct (proj2 H0 i) as (_ & E1 & E2); split; assumption).
    split; [exact V|]. split.
    - cbn [d_sub dv]. rewrite !dsum_v, !map_map.
      assert (L : qsum (map (fun x => dv (fold_left (d_min2 p) (map (fun b => at_ b x) rest') (at_ b0' x))) idx)
                  <= qsum (map (fun x => dv (fold_left d_add (map (fun b => at_ b x) (b0' :: rest')) (d_cst 0))) idx)).
      { apply qsum_le. intros i _. rewrite fold_add_v. cbn [map d_cst dv]. rewrite qsum_cons.
        assert (M : forall l a, 0 <= dv a -> (forall d, In d l -> 0 <= dv d) -> dv (fold_left (d_min2 p) l a) <= dv a).
        { clear. induction l as [|x l IH]; intros a Ha Hl; cbn [fold_left]; [apply Qle_refl|].
          assert (0 <= dv x) by (apply Hl; left; reflexivity).
          assert (H2 : 0 <= dv (d_min2 p a x)) by (cbn [d_min2 dv]; apply Q.min_glb; assumption).
          specialize (IH (d_min2 p a x) H2 (fun d Hd => Hl d (or_intror Hd))). eapply Qle_trans; [exact IH|]. cbn [d_min2 dv]. apply Q.le_min_l. }
        specialize (M (map (fun b => at_ b i) rest') (at_ b0' i) (proj1 (G0 i)) (fun d Hd => proj1 (Gr i d Hd))).
        assert (S0 : 0 <= qsum (map dv (map (fun b => at_ b i) rest'))) by (apply qsum_nonneg; intros d Hd; apply (Gr i d Hd)). lra. }
      lra.
    - intros v. cbn [d_sub dg]. rewrite !dsum_g, !map_map.
      assert (L : qsum (map (fun x => dg (fold_left (d_min2 p) (map (fun b => at_ b x) rest') (at_ b0' x)) v) idx)
                  <= qsum (map (fun x => dg (fold_left d_add (map (fun b => at_ b x) (b0' :: rest')) (d_cst 0)) v) idx)).
      { apply qsum_le. intros i _. rewrite fold_add_g. cbn [map d_cst dg]. rewrite qsum_cons.
        destruct (fold_min_g p (map (fun b => at_ b i) rest') v Hp (fun d Hd => proj2 (Gr i d Hd) v) (at_ b0' i) (proj2 (G0 i) v)) as [_ M]. lra. }
      lra.
  Qed.
  Theorem sign_rel l qs qs' : pf_ok l -> Forall2 (trel Pr) qs qs' -> orel Pr (g_ebops q_arith l qs) (g_ebops (d_arith p) l qs').
  Proof.
    apply layer_rel; [intros x x' H; exact H|apply P_cst, Qle_refl|exact P_cst|apply P_add|apply P_mul|apply P_max|apply P_exp|apply P_accum|apply P_excl].
  Qed.
End Sign.

(** ** Monotonicity *)
Definition Mr (a b : Q) : Prop := 0 <= a /\ a <= b.
Lemma M_mul x x' y y' : Mr x x' -> Mr y y' -> Mr (x * y) (x' * y').
Proof.
  intros [H1 H2] [H3 H4]. split; [apply mulnn; assumption|].
  apply Qle_trans with (x * y'); [rewrite (Qmult_comm x y), (Qmult_comm x y'); apply Qmult_le_compat_r; assumption|apply Qmult_le_compat_r; lra].
Qed.
Lemma M_accum axes t t' : trel Mr t t' -> Mr (g_accum q_arith axes t) (g_accum q_arith axes t').
Proof.
  intros H. unfold Mr. rewrite !accum_form. rewrite <- (proj1 H).
  assert (Hc : forall g, Forall2 Mr (collect axes t g) (collect axes t' g)) by (intros g; apply collect_rel, H).
  split.
  - apply qsum_nonneg. intros g _. specialize (Hc g). destruct Hc as [|x y l l' [Hx _] Hl]; [cbn; discriminate|]. apply smm_nonneg; [exact Hx|].
    clear -Hl. induction Hl as [|a b l l' [Ha _] _ IH]; intros x Hx; [destruct Hx|]. destruct Hx as [<-|Hx]; [exact Ha|apply IH, Hx].
  - apply qsum_le. intros g _. specialize (Hc g). destruct Hc as [|x y l l' [_ Hx] Hl]; [apply Qle_refl|]. cbn [min_of]. apply smm_mono; [exact Hx|].
    clear -Hl. induction Hl as [|a b l l' [_ Ha] _ IH]; constructor; assumption.
Qed.
Lemma M_excl idx b0 b0' rest rest' : trel Mr b0 b0' -> Forall2 (trel Mr) rest rest' ->
  Mr (Qminus (g_sum q_arith (map (fun i => fold_left Qplus (map (fun b => at_ b i) (b0 :: rest)) 0) idx))
             (g_sum q_arith (map (fun i => fold_left Qmin (map (fun b => at_ b i) rest) (at_ b0 i)) idx)))
     (Qminus (g_sum q_arith (map (fun i => fold_left Qplus (map (fun b => at_ b i) (b0' :: rest')) 0) idx))
             (g_sum q_arith (map (fun i => fold_left Qmin (map (fun b => at_ b i) rest') (at_ b0' i)) idx))).
Proof.
  intros H0 Hr.
  assert (F : forall (b : tensor Q) r, Qminus (g_sum q_arith (map (fun i => fold_left Qplus (map (fun b => at_ b i) (b :: r)) 0) idx))
             (g_sum q_arith (map (fun i => fold_left Qmin (map (fun b => at_ b i) r) (at_ b i)) idx))
             == qsum (map (fun i => qsum (at_ b i :: map (fun b => at_ b i) r) - qmin_list (at_ b i) (map (fun b => at_ b i) r)) idx)).
  { intros b r. unfold Qminus. rewrite qsum_plus. change (g_sum q_arith) with qsum.
    rewrite (qsum_ext (fun i => fold_left Qplus (map (fun b => at_ b i) (b :: r)) 0) (fun i => qsum (at_ b i :: map (fun b => at_ b i) r))).
    2:{ intros i _. rewrite fold_plus. cbn [map]. lra. }
    apply Qplus_inj_l.
    rewrite (qsum_ext (fun i => - qmin_list (at_ b i) (map (fun b => at_ b i) r)) (fun i => (-(1)) * qmin_list (at_ b i) (map (fun b => at_ b i) r))) by (intros; lra).
    rewrite qsum_scale. unfold qmin_list. lra. }
  assert (Hc : forall i, Forall2 Mr (map (fun b => at_ b i) rest) (map (fun b => at_ b i) rest')).
  { intros i. clear -Hr. induction Hr as [|x y l l' [_ Hx] _ IH]; cbn [map]; constructor; auto. }
  unfold Mr. rewrite !F. split.
  - apply qsum_nonneg. intros i _. specialize (Hc i). apply smm_nonneg; [apply (proj2 H0 i)|].
    induction Hc as [|a b l l' [Ha _] _ IH]; intros x Hx; [destruct Hx|]. destruct Hx as [<-|Hx]; [exact Ha|apply IH, Hx].
  - apply qsum_le. intros i _. apply smm_mono; [apply (proj2 H0 i)|]. specialize (Hc i).
    induction Hc as [|a b l l' [_ Ha] _ IH]; constructor; assumption.
Qed.
Theorem mono_rel l qs qs' : pf_ok l -> Forall2 (trel Mr) qs qs' -> orel Mr (g_ebops q_arith l qs) (g_ebops q_arith l qs').
Proof.
  apply layer_rel.
  - intros x x' H. exact H.
  - split; apply Qle_refl.
  - intros c H. split; [exact H|apply Qle_refl].
  - intros x x' y y' [H1 H2] [H3 H4]. unfold Mr. cbn [q_arith a_add]. split; lra.
  - apply M_mul.
  - intros x x' y y' [H1 H2] [H3 H4]. split; cbn [q_arith a_max2]; [pose proof (Q.le_max_l x y); lra|apply Q.max_le_compat; assumption].
  - intros x x' [H1 H2]. split; cbn [q_arith a_exp2]; [apply Qlt_le_weak, pow2_pos|apply pow2_le, floor_mono, H2].
  - apply M_accum.
  - apply M_excl.
Qed.
