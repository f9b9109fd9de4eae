(** Lemmas for C64: quantizers, optimizer steps and histories. *)
From Verif Require Import Num M_Fixed M_State M_Mapper S_Mapper L_Mapper M_Contr M_Ebops S_Ebops L_Ebops M_Cebops M_Grad S_Grad L_Grad L_Grad2.

(** ** The bits of one quantizer *)
Lemma relu_Z a b : inject_Z (Z.max 0 (a + b)) == Qmax 0 (inject_Z a + inject_Z b).
Proof.
  rewrite <- injZ_add. change 0 with (inject_Z 0). destruct (Z.max_spec 0 (a + b)) as [[H ->]|[H ->]].
  - rewrite Q.max_r; [reflexivity|rewrite <- Zle_Qle; lia].
  - rewrite Q.max_l; [reflexivity|rewrite <- Zle_Qle; lia].
Qed.
Lemma d_b_v s q g : dv (at_ (d_b s q) g) == inject_Z (at_ (qb_b (to_qbits q)) g).
Proof.
  unfold d_b, to_qbits. cbn [qb_b]. destruct (tq_w q); cbn [tmap tmap2 at_ d_var d_round dv d_relu d_add]; [reflexivity|].
  unfold kif_b. rewrite relu_Z. reflexivity.
Qed.
Lemma d_bits_V s q : trel Vr (q_bits_t q) (d_bits s q).
Proof.
  split; [reflexivity|]. intros g. unfold Vr, q_bits_t, d_bits. cbn [tmap2 at_]. destruct (tq_om q); cbn [q_bits d_add d_cst dv]; rewrite ?injZ_add, d_b_v; reflexivity.
Qed.
Definition b_ok (q : tq) : Prop := match tq_w q with KBI b _ => forall g, 0 <= at_ b g | KIF _ _ => True end.
Lemma round_even_nonneg x : 0 <= x -> (0 <= round_even x)%Z.
Proof. intros H. change 0%Z with (round_even (inject_Z 0)) . apply round_even_mono. exact H. Qed.
Lemma b_nonneg q g : b_ok q -> (0 <= at_ (qb_b (to_qbits q)) g)%Z.
Proof.
  unfold b_ok, to_qbits. cbn [qb_b]. destruct (tq_w q); cbn [tmap tmap2 at_]; intros H; [apply round_even_nonneg, H|]. unfold kif_b. lia.
Qed.
Lemma var_01 v w : 0 <= (if var_eqb v w then 1 else 0). Proof. destruct (var_eqb v w); lra. Qed.
Lemma d_bits_P s q : b_ok q -> trel Pr (q_bits_t q) (d_bits s q).
Proof.
  intros H. destruct (d_bits_V s q) as [S V]. split; [exact S|]. intros g. split; [apply V|]. split.
  - assert (V' := V g). unfold Vr in V'. rewrite <- V'. unfold q_bits_t. cbn [tmap2 at_]. change 0 with (inject_Z 0). rewrite <- Zle_Qle. apply q_bits_nonneg, b_nonneg, H.
  - intros v. unfold d_bits. cbn [tmap2 at_].
    assert (E : 0 <= dg (at_ (d_b s q) g) v).
    { unfold d_b. destruct (tq_w q); cbn [tmap tmap2 at_ d_var d_round dg d_relu d_add]; [apply var_01|].
      destruct (Qle_bool _ _); [apply Qle_refl|]. pose proof (var_01 v (s, WI, g)). pose proof (var_01 v (s, WF, g)). lra. }
    destruct (tq_om q); cbn [d_add d_cst dg]; lra.
Qed.

Lemma number_rel {A B C} (R : B -> C -> Prop) (f : A -> B) (h : nat -> A -> C) l : (forall s a, In a l -> R (f a) (h s a)) -> forall s,
  Forall2 R (map f l) (number_from h s l).
Proof.
  induction l as [|a l IH]; intros H s; cbn [map number_from]; constructor; [apply H; left; reflexivity|].
  apply IH. intros s' a' Ha. apply H. right. exact Ha.
Qed.
Lemma number_length {A B} (h : nat -> A -> B) l : forall s, length (number_from h s l) = length l.
Proof. induction l as [|a l IH]; intros s; cbn [number_from length]; [reflexivity|]. rewrite IH. reflexivity. Qed.
Lemma number_nth {A B} (h : nat -> A -> B) l : forall s k, nth_error (number_from h s l) k = match nth_error l k with Some a => Some (h (s + k)%nat a) | None => None end.
Proof.
  induction l as [|a l IH]; intros s [|k]; cbn [number_from nth_error]; try reflexivity; [rewrite Nat.add_0_r; reflexivity|].
  rewrite IH. replace (s + S k)%nat with (S s + k)%nat by lia. reflexivity.
Qed.

Lemma d_ebops_value p l qs : factor_ok l -> orel Vr (ebops l qs) (d_ebops p l qs).
Proof. intros Hl. apply value_rel; [exact Hl|]. apply number_rel. intros s q _. apply d_bits_V. Qed.
Lemma d_ebops_sign p l qs d : backend_ok p -> factor_ok l -> Forall b_ok qs -> d_ebops p l qs = Some d -> forall v, 0 <= dg d v.
Proof.
  intros Hp Hl H E. assert (R : orel Pr (ebops l qs) (d_ebops p l qs)).
  { apply sign_rel; [exact Hp|exact Hl|]. apply number_rel. intros s q Hq. apply d_bits_P. rewrite Forall_forall in H. apply H, Hq. }
  rewrite E in R. destruct (ebops l qs); cbn [orel] in R; [apply R|contradiction].
Qed.

(** ** Constraints *)
Lemma apply_c_comp c x y : x == y -> apply_c c x == apply_c c y.
Proof. intros H. destruct c as [[lo hi|v|lo|hi]|]; cbn [apply_c]; unfold clip; rewrite ?H; reflexivity. Qed.
Lemma apply_c_mono c x y : x <= y -> apply_c c x <= apply_c c y.
Proof.
  intros H. destruct c as [[lo hi|v|lo|hi]|]; cbn [apply_c]; unfold clip.
  - apply Q.min_le_compat; [apply Q.max_le_compat; [exact H|apply Qle_refl]|apply Qle_refl].
  - apply Qle_refl.
  - apply Q.max_le_compat; [exact H|apply Qle_refl].
  - apply Q.min_le_compat; [exact H|apply Qle_refl].
  - exact H.
Qed.
Lemma apply_c_idem c x : apply_c c (apply_c c x) == apply_c c x.
Proof.
  destruct c as [[lo hi|v|lo|hi]|]; cbn [apply_c]; unfold clip; try reflexivity.
  - set (l := inject_Z lo). set (h := inject_Z hi). clearbody l h.
    destruct (Qlt_le_dec h l) as [H|H].
    + assert (E : forall y, Qmin (Qmax y l) h == h). { intros y. apply Q.min_r. pose proof (Q.le_max_r y l). lra. } rewrite !E. reflexivity.
    + assert (H1 : l <= Qmin (Qmax x l) h) by (apply Q.min_glb; [apply Q.le_max_r|exact H]).
      rewrite (Q.max_l _ _ H1). apply Q.min_l. apply Q.le_min_r.
  - apply Q.max_l. apply Q.le_max_r.
  - apply Q.min_l. apply Q.le_min_r.
Qed.

(** ** One optimizer step *)
(** same configuration and structure *)
Definition same_kind (q q' : tq) : Prop :=
  tq_om q = tq_om q' /\ tq_k q = tq_k q' /\ tq_c q = tq_c q' /\ tq_l1 q = tq_l1 q' /\
  match tq_w q, tq_w q' with
  | KBI b i, KBI b' i' => shape b = shape b' /\ shape i = shape i'
  | KIF i f, KIF i' f' => shape i = shape i' /\ shape f = shape f'
  | _, _ => False
  end.
(** trainable weights of q' are at most those of q *)
Definition le_tr (q' q : tq) : Prop :=
  same_kind q' q /\ forall n t' t g, weight q' n = Some t' -> weight q n = Some t -> trainable q n = true -> at_ t' g <= at_ t g.
(** the widths of q' are at most those of q *)
Definition le_bits (q' q : tq) : Prop :=
  same_kind q' q /\ match tq_w q', tq_w q with
                    | KBI b' _, KBI b _ => forall g, at_ b' g <= at_ b g
                    | KIF i' f', KIF i f => forall g, at_ i' g <= at_ i g /\ at_ f' g <= at_ f g
                    | _, _ => False
                    end.
Lemma same_kind_refl q : same_kind q q.
Proof. unfold same_kind. destruct (tq_w q); repeat split; reflexivity. Qed.
Lemma same_kind_trans a b c : same_kind a b -> same_kind b c -> same_kind a c.
Proof.
  unfold same_kind. intros (A1 & A2 & A3 & A4 & A5) (B1 & B2 & B3 & B4 & B5). destruct (tq_w a), (tq_w b), (tq_w c); try contradiction;
  destruct A5, B5; repeat split; congruence.
Qed.
Lemma same_kind_trainable a b n : same_kind a b -> trainable a n = trainable b n.
Proof.
  intros (A1 & A2 & A3 & A4 & A5). unfold trainable, weight. rewrite A1. destruct (tq_w a), (tq_w b); try contradiction; destruct n; reflexivity.
Qed.
Lemma same_kind_weight a b n : same_kind a b -> weight a n = None <-> weight b n = None.
Proof. intros (A1 & A2 & A3 & A4 & A5). unfold weight. destruct (tq_w a), (tq_w b); try contradiction; destruct n; split; congruence. Qed.
Lemma le_tr_refl q : le_tr q q.
Proof. split; [apply same_kind_refl|]. intros n t' t g H1 H2 _. rewrite H1 in H2. assert (t' = t) by congruence. subst. apply Qle_refl. Qed.
Lemma le_tr_trans a b c : le_tr a b -> le_tr b c -> le_tr a c.
Proof.
  intros [K1 L1] [K2 L2]. split; [eapply same_kind_trans; eassumption|]. intros n ta tc g Ha Hc Ht.
  destruct (weight b n) as [tb|] eqn:Hb; [|apply (same_kind_weight b c n K2) in Hb; congruence].
  apply Qle_trans with (at_ tb g); [eapply L1; eauto; rewrite (same_kind_trainable b c n K2); exact Ht|eapply L2; eauto].
Qed.
Lemma le_bits_refl q : le_bits q q.
Proof. split; [apply same_kind_refl|]. destruct (tq_w q); intros; [apply Qle_refl|split; apply Qle_refl]. Qed.
Lemma le_bits_trans a b c : le_bits a b -> le_bits b c -> le_bits a c.
Proof.
  intros [K1 L1] [K2 L2]. split; [eapply same_kind_trans; eassumption|]. destruct (tq_w a), (tq_w b), (tq_w c); try contradiction.
  - intros g. eapply Qle_trans; [apply L1|apply L2].
  - intros g. destruct (L1 g), (L2 g). split; eapply Qle_trans; eassumption.
Qed.

Lemma upd_same step q : same_kind (upd_q step q) q.
Proof.
  unfold same_kind, upd_q. cbn [tq_om tq_k tq_c tq_l1 tq_w]. repeat split. destruct (tq_w q); unfold upd_w; destruct (trainable q _), (trainable q _); split; reflexivity.
Qed.
Lemma upd_weight step q n t : weight q n = Some t -> weight (upd_q step q) n = Some (upd_w q n (step n) t).
Proof.
  unfold weight, upd_q. cbn [tq_w]. destruct (tq_w q), n; intros E; try discriminate; congruence.
Qed.
Lemma upd_le step q : well_set q -> (forall n g, 0 <= step n g) -> le_tr (upd_q step q) q /\ le_bits (upd_q step q) q.
Proof.
  intros (W & _) Hs.
  assert (L : forall n t g, weight q n = Some t -> at_ (upd_w q n (step n) t) g <= at_ t g).
  { intros n t g Hw. unfold upd_w. destruct (trainable q n) eqn:T; [|apply Qle_refl]. cbn [at_].
    rewrite <- (W n t g Hw T) at 2. apply apply_c_mono. pose proof (Hs n g). lra. }
  split; (split; [apply upd_same|]).
  - intros n t' t g H1 H2 _. rewrite (upd_weight step q n t H2) in H1. assert (t' = upd_w q n (step n) t) by congruence. subst. apply L, H2.
  - assert (L' := L). unfold upd_q. cbn [tq_w]. unfold weight in L'. destruct (tq_w q).
    + intros g. apply (L' WB). reflexivity.
    + intros g. split; [apply (L' WI)|apply (L' WF)]; reflexivity.
Qed.
Lemma upd_well_set step q : well_set q -> well_set (upd_q step q).
Proof.
  intros (W1 & W2 & W3). unfold well_set. cbn [upd_q tq_l1 tq_c]. repeat split; [| |exact W3].
  - intros n t g Hw Ht. rewrite (same_kind_trainable _ _ n (upd_same step q)) in Ht.
    destruct (weight q n) as [t0|] eqn:E; [|apply (same_kind_weight _ _ n (upd_same step q)) in E; rewrite E in Hw; discriminate].
    pose proof (upd_weight step q n t0 E) as E'. unfold upd_q in Hw, E'. rewrite Hw in E'. assert (E2 : t = upd_w q n (step n) t0) by congruence. subst t.
    unfold upd_w. rewrite Ht. cbn [at_]. apply apply_c_idem.
  - unfold upd_q. cbn [tq_w]. destruct (tq_w q) as [b i|i f] eqn:E; [|exact I]. destruct W2 as [W2 W2']. split; [|exact W2'].
    intros g. unfold upd_w. destruct (trainable q WB); [cbn [at_]; apply W2'|apply W2].
Qed.
Lemma well_set_b q : well_set q -> b_ok q.
Proof. intros (_ & W & _). unfold b_ok. destruct (tq_w q); [apply W|exact I]. Qed.

Lemma le_bits_M q' q : le_bits q' q -> b_ok q' -> trel Mr (q_bits_t q') (q_bits_t q).
Proof.
  intros [K L] H. pose proof K as (K1 & K2 & _). split; [unfold q_bits_t; cbn [tmap2 shape]; rewrite K2; reflexivity|]. intros g.
  unfold q_bits_t. cbn [tmap2 at_]. rewrite K1, K2. split.
  - change 0 with (inject_Z 0). rewrite <- Zle_Qle. apply q_bits_nonneg, b_nonneg, H.
  - rewrite <- Zle_Qle. assert (E : (at_ (qb_b (to_qbits q')) g <= at_ (qb_b (to_qbits q)) g)%Z).
    { unfold to_qbits. cbn [qb_b]. destruct (tq_w q'), (tq_w q); try contradiction; cbn [tmap tmap2 at_].
      - apply round_even_mono, L.
      - destruct (L g) as [L1 L2]. apply round_even_mono in L1, L2. unfold kif_b. lia. }
    destruct (tq_om q); cbn [q_bits]; lia.
Qed.
Lemma ebops_le l qs' qs e' e : factor_ok l -> Forall2 le_bits qs' qs -> Forall b_ok qs' -> ebops l qs' = Some e' -> ebops l qs = Some e -> e' <= e.
Proof.
  intros Hl H Hb E' E. assert (R : orel Mr (ebops l qs') (ebops l qs)).
  { apply mono_rel; [exact Hl|]. clear -H Hb. induction H as [|a b l l' Hab _ IH]; cbn [map]; constructor.
    - apply le_bits_M; [exact Hab|]. inversion Hb; assumption.
    - apply IH. inversion Hb; assumption. }
  rewrite E, E' in R. apply R.
Qed.
Lemma ebops_def l qs' qs : factor_ok l -> Forall2 le_bits qs' qs -> Forall b_ok qs' -> ebops l qs' = None <-> ebops l qs = None.
Proof.
  intros Hl H Hb. assert (R : orel Mr (ebops l qs') (ebops l qs)).
  { apply mono_rel; [exact Hl|]. clear -H Hb. induction H as [|a b l l' Hab _ IH]; cbn [map]; constructor.
    - apply le_bits_M; [exact Hab|]. inversion Hb; assumption.
    - apply IH. inversion Hb; assumption. }
  destruct (ebops l qs'), (ebops l qs); cbn [orel] in R; try contradiction; split; congruence.
Qed.

(** invariant of a training history *)
Definition inv (s : tstate) : Prop := Forall well_set (ts_qs s) /\ Forall (fun gr => forall v, 0 <= gr v) (ts_hist s).
Lemma grad_nonneg p l factor beta qs d : backend_ok p -> factor_ok l -> 0 <= factor -> 0 <= beta -> Forall well_set qs -> d_ebops p l qs = Some d ->
  forall v, 0 <= loss_grad factor beta qs d v.
Proof.
  intros Hp Hl Hf Hb HW E [[s n] g]. unfold loss_grad.
  assert (G : 0 <= dg d (s, n, g)). { apply (d_ebops_sign p l qs d Hp Hl); [|exact E]. eapply Forall_impl; [|exact HW]. intros; apply well_set_b; assumption. }
  assert (0 <= dg d (s, n, g) * factor * beta) by (apply mulnn; [apply mulnn; assumption|assumption]).
  unfold nth_tq. destruct (nth_error qs s) as [q|] eqn:En; [|lra].
  assert (0 <= tq_l1 q n). { apply nth_error_In in En. rewrite Forall_forall in HW. apply (HW q En). } lra.
Qed.
Lemma F2_number {A} (R : A -> A -> Prop) (h : nat -> A -> A) (l : list A) : (forall k a, In a l -> R (h k a) a) -> forall s, Forall2 R (number_from h s l) l.
Proof.
  induction l as [|a l IH]; intros H s; cbn [number_from]; constructor; [apply H; left; reflexivity|]. apply IH. intros k b Hb. apply H. right. exact Hb.
Qed.
Lemma F_number {A} (P : A -> Prop) (h : nat -> A -> A) (l : list A) : (forall k a, In a l -> P (h k a)) -> forall s, Forall P (number_from h s l).
Proof.
  induction l as [|a l IH]; intros H s; cbn [number_from]; constructor; [apply H; left; reflexivity|]. apply IH. intros k b Hb. apply H. right. exact Hb.
Qed.
Lemma opt_step_inv p opt factor beta l s s' : backend_ok p -> descending opt -> factor_ok l -> 0 <= factor -> 0 <= beta -> inv s ->
  opt_step p opt factor beta l s = Some s' -> inv s' /\ Forall2 le_tr (ts_qs s') (ts_qs s) /\ Forall2 le_bits (ts_qs s') (ts_qs s).
Proof.
  intros Hp Ho Hl Hf Hb [HW HH]. unfold opt_step. destruct (d_ebops p l (ts_qs s)) as [d|] eqn:E; [|discriminate]. cbn [bind].
  pose proof (grad_nonneg p l factor beta (ts_qs s) d Hp Hl Hf Hb HW E) as HG.
  set (h := loss_grad factor beta (ts_qs s) d :: ts_hist s). assert (Hh : Forall (fun gr => forall v, 0 <= gr v) h) by (constructor; assumption). clearbody h.
  intros Es. match type of Es with Some ?x = _ => assert (E' : s' = x) by congruence end. subst s'. cbn [ts_qs ts_hist].
  assert (Hstep : forall k n g, 0 <= opt (map (fun gr : var -> Q => gr (k, n, g)) h)).
  { intros k n g. apply Ho. clear -Hh. induction Hh; cbn [map]; constructor; auto. }
  rewrite Forall_forall in HW. split; [|split].
  - split; cbn [ts_qs ts_hist]; [|exact Hh]. apply F_number. intros k q Hq. apply upd_well_set, HW, Hq.
  - apply F2_number. intros k q Hq. apply upd_le; [apply HW, Hq|]. intros n g. apply Hstep.
  - apply F2_number. intros k q Hq. apply upd_le; [apply HW, Hq|]. intros n g. apply Hstep.
Qed.
Lemma set_i_le q i' : le_tr (set_i q i') q.
Proof.
  unfold set_i. destruct (is_wrap (tq_om q)) eqn:Ew; [|apply le_tr_refl]. split.
  - unfold same_kind. cbn [tq_om tq_k tq_c tq_l1 tq_w]. repeat split. destruct (tq_w q); split; reflexivity.
  - intros n t' t g H1 H2 Ht. unfold trainable in Ht. rewrite H2, Ew in Ht. unfold weight in *. cbn [tq_w] in H1. destruct (tq_w q), n; try discriminate;
    match type of H1 with Some ?a = _ => assert (t' = a) by congruence end; match type of H2 with Some ?a = _ => assert (t = a) by congruence end; subst; apply Qle_refl.
Qed.
Lemma set_i_well q i' : well_set q -> well_set (set_i q i').
Proof.
  intros (W1 & W2 & W3). unfold set_i. destruct (is_wrap (tq_om q)) eqn:Ew; [|repeat split; assumption].
  unfold well_set. cbn [tq_w tq_c tq_l1]. repeat split; [| |exact W3].
  - intros n t g Hw Ht. unfold trainable in Ht. rewrite Hw in Ht. cbn [tq_om] in Ht. rewrite Ew in Ht.
    unfold weight in Hw. cbn [tq_w] in Hw. destruct n; try discriminate Ht.
    + apply (W1 WB t g); [unfold weight; destruct (tq_w q); [exact Hw|discriminate]|]. unfold trainable, weight. destruct (tq_w q); [reflexivity|discriminate].
    + apply (W1 WF t g); [unfold weight; destruct (tq_w q); [discriminate|exact Hw]|]. unfold trainable, weight. destruct (tq_w q); [discriminate|reflexivity].
  - destruct (tq_w q); [exact W2|exact I].
Qed.
Lemma F2_refl {A} (R : A -> A -> Prop) l : (forall a, R a a) -> Forall2 R l l. Proof. intros H. induction l; constructor; auto. Qed.
Lemma F2_trans {A} (R : A -> A -> Prop) : (forall a b c, R a b -> R b c -> R a c) -> forall x y z, Forall2 R x y -> Forall2 R y z -> Forall2 R x z.
Proof. intros HT x y z H. revert z. induction H; intros z H2; inversion H2; subst; constructor; eauto. Qed.

Lemma train_inv p opt factor beta l es : backend_ok p -> descending opt -> factor_ok l -> 0 <= factor -> 0 <= beta -> forall s s', inv s ->
  train p opt factor beta l s es = Some s' -> inv s' /\ Forall2 le_tr (ts_qs s') (ts_qs s).
Proof.
  intros Hp Ho Hl Hf Hb. induction es as [|e es IH]; intros s s' Hi; cbn [train].
  - intros E. assert (s' = s) by congruence. subst. split; [exact Hi|]. apply F2_refl. apply le_tr_refl.
  - destruct e as [slot i'|]; cbn [train_event].
    + cbn [bind]. intros E. apply IH in E.
      * destruct E as [E1 E2]. split; [exact E1|]. eapply F2_trans; [apply le_tr_trans|exact E2|]. cbn [ts_qs]. unfold set_nth_q. apply F2_number.
        intros k q _. destruct (k =? slot)%nat; [apply set_i_le|apply le_tr_refl].
      * destruct Hi as [H1 H2]. split; cbn [ts_qs ts_hist]; [|exact H2]. unfold set_nth_q. apply F_number. intros k q Hq.
        rewrite Forall_forall in H1. destruct (k =? slot)%nat; [apply set_i_well|]; apply H1, Hq.
    + destruct (opt_step p opt factor beta l s) as [s1|] eqn:E1; cbn [bind]; [|discriminate]. intros E.
      destruct (opt_step_inv p opt factor beta l s s1 Hp Ho Hl Hf Hb Hi E1) as (I1 & L1 & _). destruct (IH _ _ I1 E) as [I2 L2].
      split; [exact I2|]. eapply F2_trans; [apply le_tr_trans|exact L2|exact L1].
Qed.
Lemma le_tr_value qs' qs v w' w : Forall2 le_tr qs' qs -> is_trainable qs v -> value_of qs' v = Some w' -> value_of qs v = Some w -> w' <= w.
Proof.
  destruct v as [[s n] g]. intros H. revert s. induction H as [|a b l l' Hab _ IH]; intros [|s] (q & Hq & Ht); cbn [nth_error] in Hq; try discriminate.
  - assert (q = b) by congruence. subst q. unfold value_of. cbn [nth_error]. destruct (weight a n) as [ta|] eqn:Ea, (weight b n) as [tb|] eqn:Eb; try discriminate.
    intros H1 H2. assert (w' = at_ ta g) by congruence. assert (w = at_ tb g) by congruence. subst. destruct Hab as [_ Hab]. eapply Hab; eassumption.
  - intros H1 H2. apply (IH s); [exists q; split; assumption|exact H1|exact H2].
Qed.

(** training without data dependent widths *)
Lemma set_i_bits q i' : match tq_w q with KBI _ _ => True | KIF _ _ => tq_om q <> WRAP end -> le_bits (set_i q i') q.
Proof.
  intros H. unfold set_i. destruct (is_wrap (tq_om q)) eqn:Ew; [|apply le_bits_refl].
  unfold le_bits, same_kind. cbn [tq_om tq_k tq_c tq_l1 tq_w]. destruct (tq_w q) as [b i|i f].
  - repeat split. intros g. apply Qle_refl.
  - destruct (tq_om q); try discriminate. congruence.
Qed.
Lemma data_free_same qs' qs e : Forall2 same_kind qs' qs -> data_free qs e -> data_free qs' e.
Proof.
  destruct e as [s i'|]; [|intros; exact I]. intros H. unfold data_free. revert s. induction H as [|a b l l' Hab _ IH]; intros [|s]; cbn [nth_error]; try (intros; exact I).
  - destruct Hab as (K1 & _ & _ & _ & K5). rewrite K1. destruct (tq_w a), (tq_w b); try contradiction; intros; assumption.
  - apply IH.
Qed.
Lemma F2_kind qs' qs : Forall2 le_bits qs' qs -> Forall2 same_kind qs' qs.
Proof. induction 1; constructor; [|assumption]. apply H. Qed.
Lemma train_bits p opt factor beta l es : backend_ok p -> descending opt -> factor_ok l -> 0 <= factor -> 0 <= beta -> forall s s', inv s ->
  Forall (data_free (ts_qs s)) es -> train p opt factor beta l s es = Some s' -> inv s' /\ Forall2 le_bits (ts_qs s') (ts_qs s).
Proof.
  intros Hp Ho Hl Hf Hb. induction es as [|e es IH]; intros s s' Hi HF; cbn [train].
  - intros E. assert (s' = s) by congruence. subst. split; [exact Hi|]. apply F2_refl. apply le_bits_refl.
  - inversion HF as [|? ? HFe HFes]; subst.
    assert (Next : forall s1, inv s1 -> Forall2 le_bits (ts_qs s1) (ts_qs s) -> train p opt factor beta l s1 es = Some s' -> inv s' /\ Forall2 le_bits (ts_qs s') (ts_qs s)).
    { intros s1 I1 L1 E. destruct (IH s1 s' I1) as [I2 L2]; [|exact E|].
      - eapply Forall_impl; [|exact HFes]. intros e' He'. eapply data_free_same; [apply F2_kind, L1|exact He'].
      - split; [exact I2|]. eapply F2_trans; [apply le_bits_trans|exact L2|exact L1]. }
    destruct e as [slot i'|]; cbn [train_event].
    + cbn [bind]. apply Next; cbn [ts_qs ts_hist].
      * destruct Hi as [H1 H2]. split; cbn [ts_qs ts_hist]; [|exact H2]. unfold set_nth_q. apply F_number. intros k q Hq.
        rewrite Forall_forall in H1. destruct (k =? slot)%nat; [apply set_i_well|]; apply H1, Hq.
      * unfold set_nth_q. unfold data_free in HFe.
        assert (G : forall qs k0, (match nth_error qs slot with Some q => match tq_w q with KBI _ _ => True | KIF _ _ => tq_om q <> WRAP end | None => True end) ->
                    Forall2 le_bits (number_from (fun k q => if (k =? k0 + slot)%nat then set_i q i' else q) k0 qs) qs).
        { clear. intros qs. revert slot. induction qs as [|q qs IH]; intros slot k0 H; cbn [number_from]; constructor.
          - destruct (Nat.eqb_spec k0 (k0 + slot)) as [E|E]; [|apply le_bits_refl]. assert (slot = 0%nat) by lia. subst. cbn [nth_error] in H. apply set_i_bits, H.
          - destruct slot as [|slot].
            + rewrite Nat.add_0_r. clear IH H. assert (Hk : forall k, (k0 < k)%nat -> Forall2 le_bits (number_from (fun k1 q0 => if (k1 =? k0)%nat then set_i q0 i' else q0) k qs) qs).
              { induction qs as [|q1 qs IHq]; intros k Hk; cbn [number_from]; constructor; [destruct (Nat.eqb_spec k k0); [lia|apply le_bits_refl]|apply IHq; lia]. }
              apply Hk. lia.
            + replace (k0 + S slot)%nat with (S k0 + slot)%nat by lia. apply IH. exact H. }
        specialize (G (ts_qs s) 0%nat HFe). exact G.
    + destruct (opt_step p opt factor beta l s) as [s1|] eqn:E1; cbn [bind]; [|discriminate].
      destruct (opt_step_inv p opt factor beta l s s1 Hp Ho Hl Hf Hb Hi E1) as (I1 & _ & L1). apply Next; assumption.
Qed.
Lemma train_ebops p opt factor beta l es s s' e : backend_ok p -> descending opt -> factor_ok l -> 0 <= factor -> 0 <= beta ->
  Forall well_set (ts_qs s) -> ts_hist s = [] -> Forall (data_free (ts_qs s)) es -> train p opt factor beta l s es = Some s' ->
  ebops l (ts_qs s) = Some e -> exists e', ebops l (ts_qs s') = Some e' /\ e' <= e.
Proof.
  intros Hp Ho Hl Hf Hb HW Hh HF E Ee. assert (Hi : inv s) by (split; [exact HW|rewrite Hh; constructor]).
  destruct (train_bits p opt factor beta l es Hp Ho Hl Hf Hb s s' Hi HF E) as [[I1 _] L].
  assert (B : Forall b_ok (ts_qs s')) by (eapply Forall_impl; [|exact I1]; intros; apply well_set_b; assumption).
  destruct (ebops l (ts_qs s')) as [e'|] eqn:E'; [|apply (ebops_def l _ _ Hl L B) in E'; congruence].
  exists e'. split; [reflexivity|]. eapply ebops_le; eassumption.
Qed.

(** ** MonoL1 *)
Lemma lower_le c lo w : lower c = Some lo -> inject_Z lo <= apply_c c w.
Proof.
  destruct c as [[a b|v|a|b]|]; cbn [lower apply_c]; try discriminate.
  - destruct (Z.leb_spec a b); [|discriminate]. intros E. assert (a = lo) by congruence. subst. unfold clip. apply Q.min_glb; [apply Q.le_max_r|]. rewrite <- Zle_Qle. exact H.
  - intros E. assert (a = lo) by congruence. subst. apply Q.le_max_r.
Qed.
Lemma lower_upd c lo w : lower c = Some lo -> apply_c c w <= Qmax w (inject_Z lo).
Proof.
  destruct c as [[a b|v|a|b]|]; cbn [lower apply_c]; try discriminate.
  - destruct (Z.leb_spec a b); [|discriminate]. intros E. assert (a = lo) by congruence. subst. unfold clip. apply Q.le_min_l.
  - intros E. assert (a = lo) by congruence. subst. apply Qle_refl.
Qed.
