(** Lemmas for C64: MonoL1 drives widths to their lower bound; the gradient is the marginal cost; pruned groups. *)
From Verif Require Import Num M_Fixed M_State M_Mapper S_Mapper L_Mapper M_Contr M_Ebops S_Ebops L_Ebops M_Cebops M_Grad S_Grad L_Grad L_Grad2 L_Grad3.

Lemma index_eqb_eq (a b : index) : index_eqb a b = true <-> a = b.
Proof. unfold index_eqb. destruct (list_eq_dec Nat.eq_dec a b); split; congruence. Qed.

(** ** Optimizers *)
Lemma sgd_descending lr : 0 <= lr -> descending (sgd lr).
Proof. intros H [|g h] F; cbn [sgd]; [apply Qle_refl|]. inversion F; subst. apply mulnn; assumption. Qed.
Lemma velocity_nonneg m h : 0 <= m -> Forall (fun g => 0 <= g) h -> 0 <= velocity m h.
Proof. intros Hm. induction 1; cbn [velocity]; [apply Qle_refl|]. pose proof (mulnn m (velocity m l) Hm IHForall). lra. Qed.
Lemma momentum_descending lr m : 0 <= lr -> 0 <= m -> descending (sgd_momentum lr m).
Proof. intros H Hm h F. unfold sgd_momentum. apply mulnn; [exact H|]. apply velocity_nonneg; assumption. Qed.

(** ** MonoL1 *)
Lemma opt_step_value p lr factor beta l s s' k n g q w lo : backend_ok p -> factor_ok l -> 0 <= lr -> 0 <= factor -> 0 <= beta -> inv s ->
  opt_step p (sgd lr) factor beta l s = Some s' -> nth_error (ts_qs s) k = Some q -> trainable q n = true -> lower (tq_c q n) = Some lo ->
  value_of (ts_qs s) (k, n, g) = Some w ->
  exists q' w', nth_error (ts_qs s') k = Some q' /\ same_kind q' q /\ value_of (ts_qs s') (k, n, g) = Some w' /\ w' <= Qmax (w - lr * tq_l1 q n) (inject_Z lo) /\ inject_Z lo <= w'.
Proof.
  intros Hp Hl Hlr Hf Hb [HW HH]. unfold opt_step. destruct (d_ebops p l (ts_qs s)) as [d|] eqn:E; [|discriminate]. cbn [bind].
  intros Es Hq Ht Hlo Hv. match type of Es with Some ?x = _ => assert (E' : s' = x) by congruence end. subst s'. cbn [ts_qs].
  unfold value_of in *. rewrite Hq in Hv. destruct (weight q n) as [t|] eqn:Ew; [|discriminate]. assert (w = at_ t g) by congruence. subst w.
  rewrite number_nth, Hq. cbn [Nat.add]. set (u := upd_q _ q). exists u.
  assert (Eu : weight u n = Some (upd_w q n (fun g => sgd lr (map (fun gr : var -> Q => gr (k, n, g)) (loss_grad factor beta (ts_qs s) d :: ts_hist s))) t)).
  { unfold u. rewrite (upd_weight _ q n t Ew). reflexivity. }
  rewrite Eu. eexists. split; [reflexivity|]. split; [apply upd_same|]. split; [reflexivity|]. unfold upd_w. rewrite Ht. cbn [at_ map sgd]. split; [|apply lower_le, Hlo].
  eapply Qle_trans; [apply lower_upd, Hlo|]. apply Q.max_le_compat; [|apply Qle_refl].
  assert (G : 0 <= dg d (k, n, g)). { apply (d_ebops_sign p l (ts_qs s) d Hp Hl); [|exact E]. eapply Forall_impl; [|exact HW]. intros; apply well_set_b; assumption. }
  assert (G2 : 0 <= dg d (k, n, g) * factor * beta) by (apply mulnn; [apply mulnn; assumption|assumption]).
  unfold loss_grad, nth_tq. rewrite Hq.
  assert (lr * tq_l1 q n <= lr * (dg d (k, n, g) * factor * beta + tq_l1 q n)).
  { pose proof (mulnn lr _ Hlr G2). lra. }
  lra.
Qed.
Lemma train_l1 p lr factor beta l es lo c : backend_ok p -> factor_ok l -> 0 <= lr -> 0 <= factor -> 0 <= beta -> forall s s' k n g q w, inv s ->
  train p (sgd lr) factor beta l s es = Some s' -> nth_error (ts_qs s) k = Some q -> trainable q n = true -> lower (tq_c q n) = Some lo -> lr * tq_l1 q n == c ->
  value_of (ts_qs s) (k, n, g) = Some w -> inject_Z lo <= w ->
  exists w', value_of (ts_qs s') (k, n, g) = Some w' /\ w' <= Qmax (w - nQ (n_steps es) * c) (inject_Z lo) /\ inject_Z lo <= w'.
Proof.
  intros Hp Hl Hlr Hf Hb. induction es as [|e es IH]; intros s s' k n g q w Hi; cbn [train].
  - intros E Hq Ht Hlo Hc Hv Hw. assert (s' = s) by congruence. subst s'. exists w. split; [exact Hv|]. split; [|exact Hw].
    apply Qle_trans with (w - nQ (n_steps []) * c); [|apply Q.le_max_l]. change (nQ (n_steps [])) with 0. lra.
  - destruct e as [slot i'|]; cbn [train_event].
    + cbn [bind]. intros E Hq Ht Hlo Hc Hv Hw.
      assert (Hn : n_steps (EData slot i' :: es) = n_steps es) by reflexivity. rewrite Hn.
      set (qs1 := set_nth_q slot (fun q => set_i q i') (ts_qs s)) in *.
      assert (Q1 : exists q1, nth_error qs1 k = Some q1 /\ le_tr q1 q /\ weight q1 n = weight q n).
      { unfold qs1, set_nth_q. rewrite number_nth, Hq. cbn [Nat.add]. destruct (k =? slot)%nat; [|exists q; split; [reflexivity|]; split; [apply le_tr_refl|reflexivity]].
        exists (set_i q i'). split; [reflexivity|]. split; [apply set_i_le|]. unfold set_i. destruct (is_wrap (tq_om q)) eqn:Ew; [|reflexivity].
        unfold trainable in Ht. unfold weight in *. cbn [tq_w]. destruct (tq_w q), n; try reflexivity; rewrite Ew in Ht; discriminate. }
      destruct Q1 as (q1 & Hq1 & [K1 _] & W1). pose proof K1 as (_ & _ & Kc & Kl & _).
      apply (IH _ _ k n g q1 w) in E; cbn [ts_qs].
      * exact E.
      * destruct Hi as [H1 H2]. split; cbn [ts_qs ts_hist]; [|exact H2]. unfold qs1, set_nth_q. apply F_number. intros k' q' Hq'.
        rewrite Forall_forall in H1. destruct (k' =? slot)%nat; [apply set_i_well|]; apply H1, Hq'.
      * exact Hq1.
      * rewrite (same_kind_trainable q1 q n K1). exact Ht.
      * rewrite Kc. exact Hlo.
      * rewrite Kl. exact Hc.
      * unfold value_of in *. rewrite Hq1, W1. rewrite Hq in Hv. exact Hv.
      * exact Hw.
    + destruct (opt_step p (sgd lr) factor beta l s) as [s1|] eqn:E1; cbn [bind]; [|discriminate]. intros E Hq Ht Hlo Hc Hv Hw.
      destruct (opt_step_inv p (sgd lr) factor beta l s s1 Hp (sgd_descending lr Hlr) Hl Hf Hb Hi E1) as (I1 & _ & _).
      destruct (opt_step_value p lr factor beta l s s1 k n g q w lo Hp Hl Hlr Hf Hb Hi E1 Hq Ht Hlo Hv) as (q1 & w1 & Hq1 & K1 & Hv1 & Hle & Hge).
      pose proof K1 as (_ & _ & Kc & Kl & _).
      destruct (IH s1 s' k n g q1 w1 I1 E Hq1) as (w' & Hv' & Hle' & Hge'); [rewrite (same_kind_trainable q1 q n K1); exact Ht|rewrite Kc; exact Hlo|rewrite Kl; exact Hc|exact Hv1|exact Hge|].
      exists w'. split; [exact Hv'|]. split; [|exact Hge'].
      assert (Hn : nQ (n_steps (EStep :: es)) == 1 + nQ (n_steps es)).
      { unfold n_steps. cbn [filter length]. unfold nQ. rewrite Nat2Z.inj_succ. unfold Z.succ. rewrite injZ_add. change (inject_Z 1) with 1. ring. }
      rewrite Hn. rewrite Hc in Hle. eapply Qle_trans; [exact Hle'|]. apply Q.max_lub; [|apply Q.le_max_r].
      destruct (Q.max_spec (w - c) (inject_Z lo)) as [[A B]|[A B]]; rewrite B in Hle.
      * apply Qle_trans with (inject_Z lo); [|apply Q.le_max_r].
        assert (0 <= c). { rewrite <- Hc. apply mulnn; [exact Hlr|]. apply nth_error_In in Hq. destruct Hi as [HW _]. rewrite Forall_forall in HW. apply (HW q Hq). }
        assert (0 <= nQ (n_steps es) * c) by (apply mulnn; [apply nQ_ge|assumption]). lra.
      * apply Qle_trans with (w - (1 + nQ (n_steps es)) * c); [|apply Q.le_max_l].
        assert (Hx : (1 + nQ (n_steps es)) * c == c + nQ (n_steps es) * c) by ring. rewrite Hx. lra.
Qed.
Lemma train_l1_lower p lr factor beta l es s s' k n g q w lo N : backend_ok p -> factor_ok l -> 0 <= lr -> 0 <= factor -> 0 <= beta ->
  Forall well_set (ts_qs s) -> ts_hist s = [] -> train p (sgd lr) factor beta l s es = Some s' -> nth_error (ts_qs s) k = Some q -> trainable q n = true ->
  lower (tq_c q n) = Some lo -> value_of (ts_qs s) (k, n, g) = Some w -> w - inject_Z lo <= nQ N * (lr * tq_l1 q n) -> (N <= n_steps es)%nat ->
  exists w', value_of (ts_qs s') (k, n, g) = Some w' /\ w' == inject_Z lo.
Proof.
  intros Hp Hl Hlr Hf Hb HW Hh E Hq Ht Hlo Hv HN Hn. assert (Hi : inv s) by (split; [exact HW|rewrite Hh; constructor]).
  assert (Wq : well_set q) by (apply nth_error_In in Hq; rewrite Forall_forall in HW; apply HW, Hq).
  assert (Hw : inject_Z lo <= w).
  { unfold value_of in Hv. rewrite Hq in Hv. destruct (weight q n) as [t|] eqn:Ew; [|discriminate]. assert (w = at_ t g) by congruence. subst w.
    destruct Wq as (W & _). rewrite <- (W n t g Ew Ht). apply lower_le, Hlo. }
  destruct (train_l1 p lr factor beta l es lo (lr * tq_l1 q n) Hp Hl Hlr Hf Hb s s' k n g q w Hi E Hq Ht Hlo (Qeq_refl _) Hv Hw) as (w' & Hv' & H1 & H2).
  exists w'. split; [exact Hv'|]. apply Qle_antisym; [|exact H2].
  assert (C : 0 <= lr * tq_l1 q n) by (apply mulnn; [exact Hlr|apply Wq]).
  assert (nQ N <= nQ (n_steps es)) by (unfold nQ; rewrite <- Zle_Qle; lia).
  assert (nQ N * (lr * tq_l1 q n) <= nQ (n_steps es) * (lr * tq_l1 q n)) by (apply Qmult_le_compat_r; assumption).
  eapply Qle_trans; [exact H1|]. apply Q.max_lub; [|apply Qle_refl]. lra.
Qed.

(** ** The EBOPs are those of M_Ebops and M_Cebops *)
Definition bits_t (q : qbits) : tensor Q := tmap2 (fun k b => inject_Z (q_bits (qb_om q) k b)) (qb_k q) (qb_b q).
Lemma g_all_bits qs sh : all_bits qs sh = g_all (map bits_t qs) sh.
Proof. induction qs as [|q qs IH]; cbn [all_bits g_all map]; [reflexivity|]. rewrite IH. reflexivity. Qed.
Lemma bind_assoc {A B C} (x : option A) (f : A -> option B) (g : B -> option C) : bind (bind x f) g = bind x (fun a => bind (f a) g).
Proof. destruct x; reflexivity. Qed.
Lemma bind_ext {A B} (x : option A) (f g : A -> option B) : (forall a, f a = g a) -> bind x f = bind x g.
Proof. intros H. destruct x; [apply H|reflexivity]. Qed.
Lemma gru_same steps fe units ra pf iq sq kq rkq rhq praq paq bq :
  gru_ebops steps fe units ra pf iq sq kq rkq rhq praq paq bq =
  g_gru q_arith steps fe units ra pf (bits_t iq) (bits_t sq) (bits_t kq) (bits_t rkq) (bits_t rhq) (bits_t praq) (bits_t paq) (option_map bits_t bq).
Proof.
  unfold gru_ebops, gru_cell_ebops, g_gru.
  rewrite bind_assoc. apply bind_ext. intros x1. rewrite bind_assoc. apply bind_ext. intros x2. rewrite bind_assoc. apply bind_ext. intros x3.
  rewrite bind_assoc. apply bind_ext. intros x4. rewrite bind_assoc. apply bind_ext. intros x5. rewrite bind_assoc. apply bind_ext. intros x6.
  destruct bq as [bq|]; cbn [option_map]; rewrite ?bind_assoc; [apply bind_ext; intros x7|]; rewrite ?bind_assoc; cbn [bind]; rewrite ?bind_assoc; apply bind_ext; intros x8; destruct ra; reflexivity.
Qed.
Lemma ebops_with_g l qs : ebops_with l qs = g_ebops q_arith l (map bits_t qs).
Proof.
  destruct l.
  8: { cbn [ebops_with g_ebops]. unfold maximum_ebops, excl_max_ebops, g_maximum, g_excl_max. rewrite g_all_bits. reflexivity. }
  7: { cbn [ebops_with g_ebops]. unfold add_ebops, excl_max_ebops, g_add, g_excl_max. rewrite g_all_bits. reflexivity. }
  7: { cbn [ebops_with g_ebops]. unfold multiply_ebops, g_multiply. rewrite g_all_bits. reflexivity. }
  all: destruct qs as [|q0 [|q1 [|q2 [|q3 [|q4 [|q5 [|q6 [|q7 [|q8 qs]]]]]]]]]; cbn [map ebops_with g_ebops]; try reflexivity.
  - apply gru_same.
  - apply gru_same.
Qed.
Lemma ebops_same l qs : ebops l qs = ebops_with l (map to_qbits qs).
Proof. rewrite ebops_with_g. unfold ebops. rewrite map_map. reflexivity. Qed.

(** ** The gradient as marginal cost *)
Section Marginal.
  Context (p : par) (s0 : nat) (n0 : wname) (g0 : index).
  Let v0 : var := (s0, n0, g0).
  Definition Ar (q : Q) (d : dual) : Prop := q == dv d + dg d v0.
  Definition Cr (q : Q) (d : dual) : Prop := q == dv d /\ dg d v0 == 0.
  Definition Sr (k : nat) (q : Q) (d : dual) : Prop := Ar q d /\ (k <> s0 -> Cr q d).
  Lemma A_0 : Ar 0 (d_cst 0). Proof. unfold Ar. cbn [d_cst dv dg]. ring. Qed.
  Lemma A_add x x' y y' : Ar x x' -> Ar y y' -> Ar (x + y) (d_add x' y').
  Proof. unfold Ar. cbn [d_add dv dg]. intros -> ->. ring. Qed.
  Lemma A_sc c x x' : 0 <= c -> Ar x x' -> Ar (g_scale q_arith c x) (g_scale (d_arith p) c x').
  Proof. intros _. unfold Ar, g_scale. cbn [q_arith d_arith a_mul a_cst d_mul d_cst dv dg]. intros ->. ring. Qed.
  Lemma S_mul j k : j <> k -> forall x x' y y', Sr j x x' -> Sr k y y' -> Ar (x * y) (d_mul x' y').
  Proof.
    intros Hjk x x' y y' [A1 C1] [A2 C2]. unfold Ar, Cr in *. cbn [d_mul dv dg]. destruct (Nat.eq_dec j s0) as [E|E].
    - assert (E2 : k <> s0) by congruence. destruct (C2 E2) as [V2 G2]. rewrite A1, V2, G2. ring.
    - destruct (C1 E) as [V1 G1]. rewrite A2, V1, G1. ring.
  Qed.
  Lemma S_A k t u : trel (Sr k) t u -> trel Ar t u. Proof. apply trel_impl. intros a b H. apply H. Qed.

  Lemma index_eqb_refl g : index_eqb g g = true. Proof. apply index_eqb_eq. reflexivity. Qed.
  Lemma index_eqb_sym g h : index_eqb g h = index_eqb h g.
  Proof.
    destruct (index_eqb g h) eqn:E, (index_eqb h g) eqn:E2; try reflexivity.
    - apply index_eqb_eq in E. subst. rewrite index_eqb_refl in E2. discriminate.
    - apply index_eqb_eq in E2. subst. rewrite index_eqb_refl in E. discriminate.
  Qed.
  Lemma var_other k n g : k <> s0 -> var_eqb v0 (k, n, g) = false.
  Proof. intros H. unfold var_eqb, v0. destruct (Nat.eqb_spec s0 k); [congruence|]. reflexivity. Qed.
  Lemma var_same n g : var_eqb v0 (s0, n, g) = (wname_eqb n0 n && index_eqb g0 g)%bool.
  Proof. unfold var_eqb, v0. rewrite Nat.eqb_refl. reflexivity. Qed.
  Lemma other_S k q : k <> s0 -> trel (Sr k) (bits_t (to_qbits q)) (d_bits k q).
  Proof.
    intros Hk. destruct (d_bits_V k q) as [H V]. split; [exact H|]. intros g.
    assert (C : Cr (at_ (bits_t (to_qbits q)) g) (at_ (d_bits k q) g)).
    { split; [exact (V g)|]. unfold d_bits. cbn [tmap2 at_]. assert (G : dg (at_ (d_b k q) g) v0 == 0).
      { unfold d_b. destruct (tq_w q); cbn [tmap tmap2 at_ d_var d_round dg d_relu d_add]; rewrite !var_other by exact Hk; [reflexivity|]. destruct (Qle_bool _ _); reflexivity. }
      destruct (tq_om q); cbn [d_add d_cst dg]; rewrite G; ring. }
    split; [|intros _; exact C]. destruct C as [C1 C2]. unfold Ar. rewrite C1, C2. ring.
  Qed.
  Lemma own_S q : acts q n0 g0 -> trel (Sr s0) (bits_t (add_bits 1 (to_qbits q) g0)) (d_bits s0 q).
  Proof.
    intros Ha. destruct (d_bits_V s0 q) as [H V]. split; [exact H|]. intros g. split; [|congruence]. specialize (V g). unfold Vr in V.
    unfold Ar. rewrite <- V. unfold q_bits_t, bits_t, add_bits. cbn [tmap2 at_ qb_om qb_k qb_b].
    assert (G : dg (at_ (d_bits s0 q) g) v0 == inject_Z (if index_eqb g g0 then 1 else 0)).
    { assert (G : dg (at_ (d_b s0 q) g) v0 == inject_Z (if index_eqb g g0 then 1 else 0)).
      { unfold d_b. unfold acts in Ha. destruct (tq_w q) as [b i|i f]; cbn [tmap tmap2 at_ d_var d_round dg d_relu d_add dv]; rewrite !var_same; rewrite (index_eqb_sym g0 g).
        - destruct n0; try contradiction. cbn [wname_eqb andb]. destruct (index_eqb g g0); reflexivity.
        - destruct (index_eqb g g0) eqn:Eg.
          + apply index_eqb_eq in Eg. subst g. destruct (Qle_bool _ _) eqn:El.
            * apply Qle_bool_iff in El. rewrite <- injZ_add in El. change 0 with (inject_Z 0) in El. rewrite <- Zle_Qle in El. destruct n0; try contradiction; lia.
            * destruct n0; try contradiction; reflexivity.
          + rewrite !Bool.andb_false_r. destruct (Qle_bool _ _); reflexivity. }
      unfold d_bits. cbn [tmap2 at_]. destruct (tq_om q); cbn [d_add d_cst dg]; rewrite G; ring. }
    rewrite G. cbn [to_qbits qb_om qb_k qb_b]. destruct (tq_om q); cbn [q_bits]; rewrite <- injZ_add; apply inject_Z_injective; ring.
  Qed.
  Lemma slot_S q k : (k = s0 -> acts q n0 g0) -> trel (Sr k) (bits_t (if (k =? s0)%nat then add_bits 1 (to_qbits q) g0 else to_qbits q)) (d_bits k q).
  Proof.
    intros H. destruct (Nat.eqb_spec k s0) as [E|E]; [subst k; apply own_S, H; reflexivity|apply other_S, E].
  Qed.

  Lemma marginal_rel l qs : product_layer l -> (forall q, nth_error qs s0 = Some q -> acts q n0 g0) ->
    orel Ar (ebops_with l (add_bits_at 1 s0 g0 (map to_qbits qs))) (d_ebops p l qs).
  Proof.
    intros Hl Ha. rewrite ebops_with_g. unfold d_ebops, add_bits_at.
    assert (S0 : forall k q, nth_error qs k = Some q -> trel (Sr k) (bits_t (if (k =? s0)%nat then add_bits 1 (to_qbits q) g0 else to_qbits q)) (d_bits k q)).
    { intros k q Hk. apply slot_S. intros ->. apply Ha, Hk. }
    destruct l; try contradiction; destruct qs as [|q0 [|q1 [|q2 [|q3 [|q4 qs]]]]]; cbn [map number_from g_ebops orel]; try exact I.
    all: try pose proof (S0 0%nat _ eq_refl) as T0; try pose proof (S0 1%nat _ eq_refl) as T1; try pose proof (S0 2%nat _ eq_refl) as T2; try pose proof (S0 3%nat _ eq_refl) as T3; clear S0 Ha.
    - apply (dense_rel q_arith (d_arith p) Ar A_0 A_add A_sc (Sr 0) (Sr 1) (S_mul 0 1 ltac:(discriminate))); [assumption|assumption|exact I].
    - apply (dense_rel q_arith (d_arith p) Ar A_0 A_add A_sc (Sr 0) (Sr 1) (S_mul 0 1 ltac:(discriminate))); [assumption|assumption|cbn [orel]; eapply S_A; eassumption].
    - apply (einsum_dense_rel q_arith (d_arith p) Ar A_0 A_add A_sc (Sr 0) (Sr 1) (S_mul 0 1 ltac:(discriminate))); [assumption|assumption|exact I].
    - apply (einsum_dense_rel q_arith (d_arith p) Ar A_0 A_add A_sc (Sr 0) (Sr 1) (S_mul 0 1 ltac:(discriminate))); [assumption|assumption|cbn [orel fst snd]; split; [reflexivity|eapply S_A; eassumption]].
    - apply (gconv_rel q_arith (d_arith p) Ar A_0 A_add A_sc (Sr 0) (Sr 1) (S_mul 0 1 ltac:(discriminate))); [assumption|assumption|exact I].
    - apply (gconv_rel q_arith (d_arith p) Ar A_0 A_add A_sc (Sr 0) (Sr 1) (S_mul 0 1 ltac:(discriminate))); [assumption|assumption|cbn [orel]; eapply S_A; eassumption].
    - apply (bn_rel q_arith (d_arith p) Ar A_0 A_add A_sc (Sr 0) (Sr 1) (S_mul 0 1 ltac:(discriminate))); [assumption|assumption|eapply S_A; eassumption].
    - apply (mha_rel q_arith (d_arith p) Ar A_0 A_add A_sc (Sr 0) (Sr 1) (Sr 2) (Sr 3)); [apply S_mul; discriminate|apply S_mul; discriminate|assumption..].
  Qed.
End Marginal.
Lemma marginal p l qs s n g d : product_layer l -> (forall q, nth_error qs s = Some q -> acts q n g) -> d_ebops p l qs = Some d ->
  exists e e', ebops l qs = Some e /\ ebops_with l (add_bits_at 1 s g (map to_qbits qs)) = Some e' /\ dg d (s, n, g) == e' - e.
Proof.
  intros Hl Ha E. assert (Hf : factor_ok l) by (destruct l; try contradiction; exact I).
  pose proof (d_ebops_value p l qs Hf) as V. pose proof (marginal_rel p s n g l qs Hl Ha) as M. rewrite E in V, M.
  destruct (ebops l qs) as [e|]; cbn [orel] in V; [|contradiction]. destruct (ebops_with l _) as [e'|]; cbn [orel] in M; [|contradiction].
  exists e, e'. split; [reflexivity|]. split; [reflexivity|]. unfold Ar in M. unfold Vr in V. rewrite M, V. ring.
Qed.

(** ** No gradient reaches a pruned group *)
Section Pruned.
  Context (p : par) (s0 : nat) (n0 : wname) (g0 : index).
  Definition Zr (_ : Q) (d : dual) : Prop := dg d (s0, n0, g0) == 0.
  Lemma Z_add x x' y y' : Zr x x' -> Zr y y' -> Zr (x + y) (d_add x' y'). Proof. unfold Zr. cbn [d_add dg]. intros -> ->. reflexivity. Qed.
  Lemma Z_sub x x' y y' : Zr x x' -> Zr y y' -> Zr (x - y) (d_sub x' y'). Proof. unfold Zr. cbn [d_sub dg]. intros -> ->. reflexivity. Qed.
  Lemma Z_mul x x' y y' : Zr x x' -> Zr y y' -> Zr (x * y) (d_mul x' y'). Proof. unfold Zr. cbn [d_mul dg]. intros -> ->. ring. Qed.
  Lemma Z_min x x' y y' : Zr x x' -> Zr y y' -> Zr (Qmin x y) (d_min2 p x' y'). Proof. unfold Zr. cbn [d_min2 dg]. intros -> ->. ring. Qed.
  Lemma Z_max x x' y y' : Zr x x' -> Zr y y' -> Zr (Qmax x y) (d_max2 p x' y'). Proof. unfold Zr. cbn [d_max2 dg]. intros -> ->. ring. Qed.
  Lemma Z_exp x x' : Zr x x' -> Zr (pow2 (Qfloor x)) (d_exp2 p x'). Proof. unfold Zr. cbn [d_exp2 dg]. intros ->. ring. Qed.
  Lemma Z_minl l : (forall d, In d l -> dg d (s0, n0, g0) == 0) -> dg (d_minl l) (s0, n0, g0) == 0.
  Proof.
    intros H. unfold d_minl. cbn [dg]. match goal with |- qsum (map _ ?f) / _ == 0 => assert (E : qsum (map (fun d => dg d (s0, n0, g0)) f) == 0) end.
    { assert (H' : forall d, In d (filter (fun d => Qeq_bool (dv d) (a_minl q_arith (map dv l))) l) -> dg d (s0, n0, g0) == 0) by (intros d Hd; apply filter_In in Hd; apply H, Hd).
      revert H'. generalize (filter (fun d => Qeq_bool (dv d) (a_minl q_arith (map dv l))) l). clear. intros l H. induction l as [|x l IH]; cbn [map qsum fold_right]; [reflexivity|].
      rewrite (H x (or_introl eq_refl)). fold (qsum (map (fun d => dg d (s0, n0, g0)) l)). rewrite IH; [reflexivity|]. intros d Hd. apply H. right. exact Hd. }
    rewrite E. unfold Qdiv. ring.
  Qed.
  Lemma Z_accum axes t t' : trel Zr t t' -> Zr (g_accum q_arith axes t) (g_accum (d_arith p) axes t').
  Proof.
    intros H. unfold g_accum. apply Z_sub.
    - apply (tsum_rel q_arith (d_arith p) Zr); [reflexivity|exact Z_add|exact H].
    - apply (tsum_rel q_arith (d_arith p) Zr); [reflexivity|exact Z_add|]. destruct H as [H1 H2]. unfold g_min_over, reduce_keep. split; [cbn [shape]; rewrite H1; reflexivity|].
      intros i. cbn [at_]. unfold Zr. cbn [d_arith a_minl]. apply Z_minl. intros d Hd.
      pose proof (collect_rel Zr axes t t' i (conj H1 H2)) as C. clear -C Hd. induction C; [destruct Hd|]. destruct Hd as [<-|Hd]; [assumption|auto].
  Qed.
  Lemma Z_excl idx b0 b0' rest rest' : trel Zr b0 b0' -> Forall2 (trel Zr) rest rest' ->
    Zr (a_sub q_arith (g_sum q_arith (map (fun i => fold_left (a_add q_arith) (map (fun b => at_ b i) (b0 :: rest)) (a_cst q_arith 0)) idx))
                (g_sum q_arith (map (fun i => fold_left (a_min2 q_arith) (map (fun b => at_ b i) rest) (at_ b0 i)) idx)))
      (a_sub (d_arith p) (g_sum (d_arith p) (map (fun i => fold_left (a_add (d_arith p)) (map (fun b => at_ b i) (b0' :: rest')) (a_cst (d_arith p) 0)) idx))
                (g_sum (d_arith p) (map (fun i => fold_left (a_min2 (d_arith p)) (map (fun b => at_ b i) rest') (at_ b0' i)) idx))).
  Proof.
    intros [H0 H1] HR. apply Z_sub; (apply (gsum_rel q_arith (d_arith p) Zr); [reflexivity|exact Z_add|]; intros i _).
    - apply (fold_rel Zr); [exact Z_add| |reflexivity]. constructor; [split; assumption|exact HR].
    - apply (fold_rel Zr); [exact Z_min|exact HR|apply H1].
  Qed.
  Lemma Z_bits k q : (k = s0 -> pruned q g0) -> trel Zr (q_bits_t q) (d_bits k q).
  Proof.
    intros H. split; [reflexivity|]. intros g. unfold Zr, d_bits. cbn [tmap2 at_].
    assert (G : dg (at_ (d_b k q) g) (s0, n0, g0) == 0).
    { destruct (Nat.eq_dec k s0) as [E|E].
      - specialize (H E). subst k. unfold pruned in H. unfold d_b. destruct (tq_w q) as [b i|i f]; [contradiction|].
        cbn [tmap2 at_ d_var d_round dg d_relu d_add dv]. destruct (Qle_bool _ _) eqn:El; [reflexivity|].
        assert (Hn : index_eqb g0 g = false).
        { destruct (index_eqb g0 g) eqn:Eg; [|reflexivity]. apply index_eqb_eq in Eg. subst g. exfalso.
          assert (Qle_bool (inject_Z (round_even (at_ i g0)) + inject_Z (round_even (at_ f g0))) 0 = true); [|congruence].
          apply Qle_bool_iff. rewrite <- injZ_add. change 0 with (inject_Z 0). rewrite <- Zle_Qle. exact H. }
        rewrite !var_same, Hn, !Bool.andb_false_r. reflexivity.
      - unfold d_b. destruct (tq_w q); cbn [tmap tmap2 at_ d_var d_round dg d_relu d_add]; rewrite !var_other by exact E; [reflexivity|]. destruct (Qle_bool _ _); reflexivity. }
    destruct (tq_om q); cbn [d_add d_cst dg]; rewrite G; ring.
  Qed.
End Pruned.
Lemma pruned_stuck p l qs s n g q d : factor_ok l -> nth_error qs s = Some q -> pruned q g -> d_ebops p l qs = Some d -> dg d (s, n, g) == 0.
Proof.
  intros Hl Hq Hp E. assert (R : orel (Zr s n g) (ebops l qs) (d_ebops p l qs)).
  { unfold ebops, d_ebops. apply (layer_rel q_arith (d_arith p) (Zr s n g) (Zr s n g)).
    - intros x x' H. exact H.
    - reflexivity.
    - intros c _. reflexivity.
    - apply Z_add.
    - apply Z_mul.
    - apply Z_max.
    - apply Z_exp.
    - apply Z_accum.
    - apply Z_excl.
    - exact Hl.
    - assert (G : forall l' k, (forall j q', nth_error l' j = Some q' -> (k + j)%nat = s -> pruned q' g) -> Forall2 (trel (Zr s n g)) (map q_bits_t l') (number_from d_bits k l')).
      { induction l' as [|a l' IH]; intros k H; cbn [map number_from]; constructor.
        - apply Z_bits. intros ->. apply (H 0%nat a eq_refl). lia.
        - apply IH. intros j q' Hj Hk. apply (H (S j) q' Hj). lia. }
      apply G. intros j q' Hj Hk. cbn [Nat.add] in Hk. subst j. assert (q' = q) by congruence. subst. exact Hp. }
  rewrite E in R. destruct (ebops l qs); cbn [orel] in R; [exact R|contradiction].
Qed.

(** ** Training does not fail *)
Lemma same_kind_ebops p l qs' qs : factor_ok l -> Forall2 same_kind qs' qs -> orel (fun _ _ => True) (ebops l qs') (d_ebops p l qs).
Proof.
  intros Hl H. unfold ebops, d_ebops. apply (layer_rel q_arith (d_arith p) (fun _ _ => True) (fun _ _ => True)); auto.
  generalize 0%nat. induction H as [|a b x y Hab _ IH]; intros k; cbn [map number_from]; constructor; [|apply IH].
  split; [|intros; exact I]. destruct Hab as (_ & Hk & _). unfold q_bits_t, d_bits. cbn [tmap2 shape]. rewrite Hk. reflexivity.
Qed.
Lemma same_kind_sym a b : same_kind a b -> same_kind b a.
Proof. unfold same_kind. intros (A1 & A2 & A3 & A4 & A5). destruct (tq_w a), (tq_w b); try contradiction; destruct A5; repeat split; congruence. Qed.
Lemma F2_sym {A} (R : A -> A -> Prop) x y : (forall a b, R a b -> R b a) -> Forall2 R x y -> Forall2 R y x.
Proof. intros H. induction 1; constructor; auto. Qed.
Lemma set_i_same q i' : same_kind (set_i q i') q. Proof. apply set_i_le. Qed.
Lemma train_total p opt factor beta l es qs0 e : factor_ok l -> ebops l qs0 = Some e -> forall s, Forall2 same_kind (ts_qs s) qs0 ->
  exists s', train p opt factor beta l s es = Some s'.
Proof.
  intros Hl He. induction es as [|ev es IH]; intros s Hs; cbn [train]; [exists s; reflexivity|].
  destruct ev as [slot i'|]; cbn [train_event bind].
  - apply IH. cbn [ts_qs]. eapply F2_trans; [apply same_kind_trans| |exact Hs]. unfold set_nth_q. apply F2_number. intros k q _.
    destruct (k =? slot)%nat; [apply set_i_same|apply same_kind_refl].
  - unfold opt_step. pose proof (same_kind_ebops p l qs0 (ts_qs s) Hl (F2_sym _ _ _ same_kind_sym Hs)) as R. rewrite He in R.
    destruct (d_ebops p l (ts_qs s)) as [d|]; cbn [orel] in R; [|contradiction]. cbn [bind]. apply IH. cbn [ts_qs].
    eapply F2_trans; [apply same_kind_trans| |exact Hs]. apply F2_number. intros k q _. apply upd_same.
Qed.

(** ** In the form of P_Grad *)
Lemma marginal_price p l qs s n g q d : product_layer l -> nth_error qs s = Some q -> acts q n g -> d_ebops p l qs = Some d ->
  exists e e', ebops_with l (map to_qbits qs) = Some e /\ ebops_with l (add_bits_at 1 s g (map to_qbits qs)) = Some e' /\ dg d (s, n, g) == e' - e.
Proof.
  intros Hl Hq Ha E. rewrite <- ebops_same. apply (marginal p); [exact Hl| |exact E]. intros q' Hq'. assert (q' = q) by congruence. subst. exact Ha.
Qed.
Lemma train_runs p opt factor beta l qs es e : factor_ok l -> ebops_with l (map to_qbits qs) = Some e ->
  exists s', train p opt factor beta l (mk_tstate qs []) es = Some s'.
Proof. intros Hl E. rewrite <- ebops_same in E. apply (train_total p opt factor beta l es qs e Hl E). apply F2_refl. apply same_kind_refl. Qed.
Lemma widths_shrink p opt factor beta l qs es s' v w w' : backend_ok p -> descending opt -> factor_ok l -> 0 <= factor -> 0 <= beta -> Forall well_set qs ->
  train p opt factor beta l (mk_tstate qs []) es = Some s' -> is_trainable qs v -> value_of qs v = Some w -> value_of (ts_qs s') v = Some w' -> w' <= w.
Proof.
  intros Hp Ho Hl Hf Hb HW E Ht Hv Hv'. assert (Hi : inv (mk_tstate qs [])) by (split; [exact HW|constructor]).
  destruct (train_inv p opt factor beta l es Hp Ho Hl Hf Hb _ _ Hi E) as [_ L]. eapply le_tr_value; eassumption.
Qed.
Lemma ebops_shrink p opt factor beta l qs es s' e : backend_ok p -> descending opt -> factor_ok l -> 0 <= factor -> 0 <= beta -> Forall well_set qs ->
  Forall (data_free qs) es -> train p opt factor beta l (mk_tstate qs []) es = Some s' -> ebops_with l (map to_qbits qs) = Some e ->
  exists e', ebops_with l (map to_qbits (ts_qs s')) = Some e' /\ e' <= e.
Proof.
  intros Hp Ho Hl Hf Hb HW HF E Ee. rewrite <- ebops_same in *. exact (train_ebops p opt factor beta l es (mk_tstate qs []) s' e Hp Ho Hl Hf Hb HW eq_refl HF E Ee).
Qed.
Lemma l1_reaches p lr factor beta l qs es s' k n g q w lo N : backend_ok p -> factor_ok l -> 0 <= lr -> 0 <= factor -> 0 <= beta -> Forall well_set qs ->
  train p (sgd lr) factor beta l (mk_tstate qs []) es = Some s' -> nth_error qs k = Some q -> trainable q n = true ->
  lower (tq_c q n) = Some lo -> value_of qs (k, n, g) = Some w -> w - inject_Z lo <= nQ N * (lr * tq_l1 q n) -> (N <= n_steps es)%nat ->
  exists w', value_of (ts_qs s') (k, n, g) = Some w' /\ w' == inject_Z lo.
Proof.
  intros Hp Hl Hlr Hf Hb HW E Hq Ht Hlo Hv HN Hn. exact (train_l1_lower p lr factor beta l es (mk_tstate qs []) s' k n g q w lo N Hp Hl Hlr Hf Hb HW eq_refl E Hq Ht Hlo Hv HN Hn).
Qed.
Lemma sgd_qualifies lr : 0 <= lr -> descending (sgd lr) /\ forall m, 0 <= m -> descending (sgd_momentum lr m).
Proof. intros H. split; [apply sgd_descending, H|]. intros m Hm. apply momentum_descending; assumption. Qed.
Lemma d_ebops_reports p l qs : factor_ok l ->
  match ebops_with l (map to_qbits qs), d_ebops p l qs with Some e, Some d => dv d == e | None, None => True | _, _ => False end.
Proof.
  intros Hl. rewrite <- ebops_same. pose proof (d_ebops_value p l qs Hl) as V. destruct (ebops l qs), (d_ebops p l qs); cbn [orel] in V; try contradiction; [|exact I].
  unfold Vr in V. symmetry. exact V.
Qed.
