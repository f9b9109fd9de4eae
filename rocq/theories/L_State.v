(** Proofs about the stateful quantizers. *)
From Verif Require Import Num M_Fixed S_State S_Fixed L_Fixed M_State.

Lemma absmax_bound xs m x : absmax xs = Some m -> In x xs -> Qabs x <= m.
Proof.
  revert m. induction xs as [|y ys IH]; cbn [absmax]; intros m E Hin; [destruct Hin|].
  injection E as E. destruct Hin as [->|Hin].
  - destruct (absmax ys) as [m'|]; subst m; [apply Q.le_max_l|lra].
  - destruct (absmax ys) as [m'|] eqn:E'.
    + subst m. specialize (IH m' eq_refl Hin). pose proof (Q.le_max_r (Qabs y) m'). lra.
    + destruct ys; [destruct Hin|discriminate].
Qed.

Lemma absmax_attained xs m : absmax xs = Some m -> exists x, In x xs /\ Qabs x == m.
Proof.
  revert m. induction xs as [|y ys IH]; cbn [absmax]; intros m E; [discriminate|].
  injection E as E. destruct (absmax ys) as [m'|] eqn:E'.
  - destruct (IH m' eq_refl) as (x & Hx & Ex). subst m.
    destruct (Q.max_spec (Qabs y) m') as [[_ H]|[_ H]].
    + exists x. split; [right; exact Hx|]. rewrite H. exact Ex.
    + exists y. split; [left; reflexivity|]. rewrite H. reflexivity.
  - subst m. exists y. split; [left; reflexivity|reflexivity].
Qed.

Lemma absmax_nonneg xs m : absmax xs = Some m -> 0 <= m.
Proof.
  intros E. destruct (absmax_attained xs m E) as (x & _ & Ex). rewrite <- Ex. apply Qabs_nonneg.
Qed.

Lemma absmax_none xs : absmax xs = None -> xs = [].
Proof. destruct xs; [reflexivity|discriminate]. Qed.

Lemma any_neg_spec xs : any_neg xs = true <-> exists x, In x xs /\ x < 0.
Proof.
  unfold any_neg. rewrite existsb_exists. split; intros (x & Hx & H); exists x; split; auto.
  - apply negb_true_iff in H. destruct (Qlt_le_dec x 0) as [L|L]; [exact L|].
    apply Qle_bool_iff in L. congruence.
  - apply negb_true_iff. destruct (Qle_bool 0 x) eqn:E; [|reflexivity].
    apply Qle_bool_iff in E. lra.
Qed.

Lemma apply_c_cz c z : apply_c c (inject_Z z) == inject_Z (apply_cz c z).
Proof.
  assert (Mx : forall a b, Qmax (inject_Z a) (inject_Z b) == inject_Z (Z.max a b)).
  { intros a b. destruct (Z.max_spec a b) as [[H ->]|[H ->]].
    - apply Q.max_r. apply (proj2 (injZ_le _ _)). lia.
    - apply Q.max_l. apply (proj2 (injZ_le _ _)). lia. }
  assert (Mn : forall a b, Qmin (inject_Z a) (inject_Z b) == inject_Z (Z.min a b)).
  { intros a b. destruct (Z.min_spec a b) as [[H ->]|[H ->]].
    - apply Q.min_l. apply (proj2 (injZ_le _ _)). lia.
    - apply Q.min_r. apply (proj2 (injZ_le _ _)). lia. }
  destruct c as [[lo hi|v|lo|hi]|]; cbn [apply_c apply_cz]; unfold clip; rewrite ?Mx, ?Mn; reflexivity.
Qed.

Lemma apply_cz_mono c a b : (a <= b)%Z -> (apply_cz c a <= apply_cz c b)%Z.
Proof. destruct c as [[lo hi|v|lo|hi]|]; cbn [apply_cz]; lia. Qed.

Lemma apply_cz_idem c a : apply_cz c (apply_cz c a) = apply_cz c a.
Proof. destruct c as [[lo hi|v|lo|hi]|]; cbn [apply_cz]; lia. Qed.

Lemma apply_cz_max c a b : apply_cz c (Z.max a b) = Z.max (apply_cz c a) (apply_cz c b).
Proof. destruct c as [[lo hi|v|lo|hi]|]; cbn [apply_cz]; lia. Qed.

(** ** KIF tracing *)

(** A width that covers the magnitude of a rounded value makes inference equal to rounding. *)
Lemma kif_infer_ok rm k i f x :
  Qabs (round_f rm f x) + pow2 (- f) <= pow2 i ->
  (round_f rm f x < 0 -> k = true) ->
  base_call rm WRAP false k i f x == round_f rm f x.
Proof.
  intros Hi Hk. set (r := round_f rm f x) in *.
  pose proof (pow2_pos (- f)) as P.
  destruct (Z_lt_le_dec 0 (kz k + i + f)) as [W|W].
  - apply inference_in_range; [exact W|]. fold r. unfold q_max, q_min. cbn [symmetric].
    pose proof (Qle_Qabs r) as A. pose proof (Qle_Qabs (- r)) as B. rewrite Qabs_opp in B.
    split; [|lra]. destruct k; cbn [kz]; change (inject_Z 1) with 1; change (inject_Z 0) with 0; [lra|].
    destruct (Qlt_le_dec r 0) as [L|L]; [specialize (Hk L); discriminate|]. lra.
  - rewrite base_call_npos by exact W.
    (* no bits: the value must be zero *)
    assert (Hif : (i + f <= 0)%Z) by (destruct k; cbn [kz] in W; lia).
    assert (pow2 i <= pow2 (- f)) by (apply pow2_le; lia).
    assert (Hr : Qabs r == 0) by (pose proof (Qabs_nonneg r); lra).
    pose proof (Qle_Qabs r). pose proof (Qle_Qabs (- r)) as B. rewrite Qabs_opp in B. lra.
Qed.

Lemma round_even_Z z : round_even (inject_Z z) = z.
Proof. apply round_even_inject. Qed.

(** covers f i k xs: width i and sign k suffice for every element of xs at fraction width f *)
Definition covers (rm : rmode) (f i : Z) (k : bool) (xs : list Q) : Prop :=
  forall x, In x xs ->
    Qabs (round_f rm f x) + pow2 (- f) <= pow2 i /\ (round_f rm f x < 0 -> k = true).

Lemma covers_mono rm f i i' k k' xs :
  covers rm f i k xs -> (i <= i')%Z -> (k = true -> k' = true) -> covers rm f i' k' xs.
Proof.
  intros H Hi Hk x Hx. destruct (H x Hx) as [A B]. split; [|auto].
  pose proof (pow2_le _ _ Hi). lra.
Qed.

Lemma minimal_i_xf_covers rm f xs m i k :
  absmax (map (round_f rm f) xs) = Some m -> (minimal_i_xf m f <= i)%Z ->
  (any_neg (map (round_f rm f) xs) = true -> k = true) -> covers rm f i k xs.
Proof.
  intros E Hi Hk x Hx. pose proof (absmax_nonneg _ _ E) as Hm. pose proof (pow2_pos (- f)) as P.
  assert (Hin : In (round_f rm f x) (map (round_f rm f) xs)) by (apply in_map, Hx).
  split.
  - pose proof (absmax_bound _ _ _ E Hin) as B.
    assert (A : m + pow2 (- f) <= pow2 i) by (apply ceil_log2_le; [lra|exact Hi]). lra.
  - intros L. apply Hk. apply any_neg_spec. eauto.
Qed.

(** the constraint never reduces the width needed by a batch *)
Definition kif_uncut (c : qconf) (f : Z) (xs : list Q) : Prop :=
  forall m, absmax (map (round_f (c_rm c) f) xs) = Some m ->
            (minimal_i_xf m f <= apply_cz (c_ic c) (minimal_i_xf m f))%Z.


Lemma kif_trace_step c s xs s' out : wrap_trainable c -> kif_call c Trace s xs = Some (s', out) ->
  exists m, absmax (map (round_f (c_rm c) (kif_fz s)) xs) = Some m /\
  out = map (round_f (c_rm c) (kif_fz s)) xs /\
  kif_f s' = kif_f s /\
  kif_iz s' = Z.max (kif_iz s) (apply_cz (c_ic c) (minimal_i_xf m (kif_fz s))) /\
  kif_i s' = inject_Z (kif_iz s') /\
  kif_k s' = kif_k s || any_neg (map (round_f (c_rm c) (kif_fz s)) xs).
Proof.
  intros [Ho Ht]. unfold kif_call. rewrite Ho, Ht. cbn [is_wrap andb].
  destruct (absmax _) as [m|] eqn:E; [|discriminate]. intros H; injection H as H1 H2.
  exists m. subst s' out.
  set (I := Z.max _ _).
  assert (EI : kif_iz (mk_kif (kif_k s || any_neg (map (round_f (c_rm c) (kif_fz s)) xs)) (inject_Z I) (kif_f s)) = I)
    by apply round_even_Z.
  rewrite EI. repeat split.
Qed.

Lemma kif_run_trace_inv c s batches s' outs : wrap_trainable c ->
  kif_run c s (map (fun b => (Trace, b)) batches) = Some (s', outs) ->
  kif_f s' = kif_f s /\ (kif_iz s <= kif_iz s')%Z /\ (kif_k s = true -> kif_k s' = true) /\
  outs = map (map (round_f (c_rm c) (kif_fz s))) batches.
Proof.
  intros Hc. revert s outs. induction batches as [|b bs IH]; cbn [map kif_run]; intros s outs H.
  - injection H as -> <-. repeat split; auto. lia.
  - destruct (kif_call c Trace s b) as [[s1 out]|] eqn:E; [|discriminate].
    destruct (kif_run c s1 _) as [[s2 outs2]|] eqn:E2; [|discriminate].
    injection H as -> <-.
    destruct (kif_trace_step _ _ _ _ _ Hc E) as (m & Em & Eo & Ef & Ei & Eii & Ek).
    destruct (IH _ _ E2) as (If & Ii & Ik & Io).
    assert (Efz : kif_fz s1 = kif_fz s) by (unfold kif_fz; rewrite Ef; reflexivity).
    repeat split.
    + congruence.
    + lia.
    + intros K. apply Ik. rewrite Ek, K. reflexivity.
    + rewrite Io, Eo, Efz. reflexivity.
Qed.

Lemma kif_run_trace_covers c s batches s' outs : wrap_trainable c ->
  (forall b, In b batches -> kif_uncut c (kif_fz s) b) ->
  kif_run c s (map (fun b => (Trace, b)) batches) = Some (s', outs) ->
  forall b, In b batches -> covers (c_rm c) (kif_fz s) (kif_iz s') (kif_k s') b.
Proof.
  intros Hc. revert s outs. induction batches as [|b0 bs IH]; cbn [map kif_run]; intros s outs Hu H b Hb; [destruct Hb|].
  destruct (kif_call c Trace s b0) as [[s1 out]|] eqn:E; [|discriminate].
  destruct (kif_run c s1 _) as [[s2 outs2]|] eqn:E2; [|discriminate].
  injection H as -> <-.
  destruct (kif_trace_step _ _ _ _ _ Hc E) as (m & Em & Eo & Ef & Ei & Eii & Ek).
  assert (Efz : kif_fz s1 = kif_fz s) by (unfold kif_fz; rewrite Ef; reflexivity).
  destruct Hb as [->|Hb].
  - destruct (kif_run_trace_inv _ _ _ _ _ Hc E2) as (If & Ii & Ik & Io).
    apply covers_mono with (i := kif_iz s1) (k := kif_k s1); [|exact Ii|exact Ik].
    apply minimal_i_xf_covers with (m := m); [exact Em| |].
    + pose proof (Hu b (or_introl eq_refl) m Em). lia.
    + intros N. rewrite Ek, N. apply orb_true_r.
  - rewrite <- Efz. apply (IH s1 outs2); auto. intros b' Hb'. rewrite Efz. apply Hu. right. exact Hb'.
Qed.

Lemma Forall2_map_l {A B} (P : B -> B -> Prop) (g h : A -> B) xs :
  (forall x, In x xs -> P (g x) (h x)) -> Forall2 P (map g xs) (map h xs).
Proof.
  intros H. induction xs as [|x xs IH]; constructor; [apply H; left; reflexivity|].
  apply IH. intros y Hy. apply H. right. exact Hy.
Qed.

(** C07, full form *)
Lemma kif_calibrated c reset s batches s' outs : wrap_trainable c ->
  (forall b, In b batches -> kif_uncut c (kif_fz s) b) ->
  kif_trace c reset s batches = Some (s', outs) ->
  kif_fz s' = kif_fz s /\
  outs = map (map (round_f (c_rm c) (kif_fz s))) batches /\
  forall xs, In xs batches ->
    exists s'' out, kif_call c Infer s' xs = Some (s'', out) /\ s'' = s' /\
      Forall2 Qeq out (map (round_f (c_rm c) (kif_fz s)) xs).
Proof.
  intros Hc Hu H. unfold kif_trace in H.
  set (s0 := if reset then kif_reset c s else s) in *.
  assert (Ef : kif_f s0 = kif_f s).
  { unfold s0. destruct reset; [|reflexivity]. unfold kif_reset. destruct (_ && _); reflexivity. }
  assert (Efz : kif_fz s0 = kif_fz s) by (unfold kif_fz; rewrite Ef; reflexivity).
  destruct (kif_run_trace_inv _ _ _ _ _ Hc H) as (If & Ii & Ik & Io).
  assert (Efz' : kif_fz s' = kif_fz s) by (unfold kif_fz; rewrite If, Ef; reflexivity).
  split; [exact Efz'|]. split; [rewrite Io, Efz; reflexivity|].
  intros xs Hxs. 
  assert (C : covers (c_rm c) (kif_fz s) (kif_iz s') (kif_k s') xs).
  { rewrite <- Efz. eapply kif_run_trace_covers; eauto. intros b Hb. rewrite Efz. apply Hu, Hb. }
  destruct Hc as [Ho Ht]. unfold kif_call. rewrite Ho, Ht. cbn [is_wrap andb is_train].
  eexists. eexists. split; [reflexivity|]. split; [reflexivity|].
  rewrite Efz'. destruct (c_weight c).
  - apply Forall2_map_l. intros x _. reflexivity.
  - apply Forall2_map_l. intros x Hx. destruct (C x Hx) as [A B]. apply kif_infer_ok; assumption.
Qed.

(** ** C09 (KIF): the calibration result depends only on the samples *)
Definition rmag (rm : rmode) (f : Z) (x : Q) : Z := minimal_i_xf (Qabs (round_f rm f x)) f.

Lemma minimal_i_xf_mono x y f : 0 <= x -> x <= y -> (minimal_i_xf x f <= minimal_i_xf y f)%Z.
Proof. intros H1 H2. pose proof (pow2_pos (- f)). apply ceil_log2_mono; lra. Qed.

(** characterisation of the final width as the least upper bound of the per-sample needs *)
Lemma kif_run_trace_lub c s batches s' outs : wrap_trainable c ->
  kif_run c s (map (fun b => (Trace, b)) batches) = Some (s', outs) ->
  (forall J, (kif_iz s' <= J)%Z <->
     (kif_iz s <= J)%Z /\ forall x, In x (concat batches) ->
       (apply_cz (c_ic c) (rmag (c_rm c) (kif_fz s) x) <= J)%Z) /\
  (kif_k s' = true <-> kif_k s = true \/ exists x, In x (concat batches) /\ round_f (c_rm c) (kif_fz s) x < 0).
Proof.
  intros Hc. revert s outs. induction batches as [|b bs IH]; cbn [map kif_run concat]; intros s outs H.
  - injection H as -> <-. split.
    + intros J. split; [intros HJ; split; [exact HJ|intros x []]|tauto].
    + split; [auto|]. intros [K|(x & [] & _)]. exact K.
  - destruct (kif_call c Trace s b) as [[s1 out]|] eqn:E; [|discriminate].
    destruct (kif_run c s1 _) as [[s2 outs2]|] eqn:E2; [|discriminate].
    injection H as -> <-.
    destruct (kif_trace_step _ _ _ _ _ Hc E) as (m & Em & Eo & Ef & Ei & Eii & Ek).
    assert (Efz : kif_fz s1 = kif_fz s) by (unfold kif_fz; rewrite Ef; reflexivity).
    destruct (IH _ _ E2) as [II IK]. rewrite Efz in II, IK. split.
    + intros J. rewrite II, Ei. split.
      * intros [A B]. split; [lia|]. intros x Hx. apply in_app_iff in Hx. destruct Hx as [Hx|Hx]; [|auto].
        apply Z.le_trans with (apply_cz (c_ic c) (minimal_i_xf m (kif_fz s))); [|lia].
        apply apply_cz_mono. apply minimal_i_xf_mono; [apply Qabs_nonneg|].
        eapply absmax_bound; [exact Em|]. apply in_map, Hx.
      * intros [A B]. split.
        -- apply Z.max_lub; [exact A|].
           destruct (absmax_attained _ _ Em) as (r & Hr & Er).
           apply in_map_iff in Hr. destruct Hr as (x & <- & Hx).
           specialize (B x ltac:(apply in_app_iff; left; exact Hx)).
           replace (minimal_i_xf m (kif_fz s)) with (rmag (c_rm c) (kif_fz s) x); [exact B|].
           unfold rmag, minimal_i_xf. apply ceil_log2_comp; [|rewrite Er; reflexivity].
           pose proof (Qabs_nonneg (round_f (c_rm c) (kif_fz s) x)). pose proof (pow2_pos (- kif_fz s)). lra.
        -- intros x Hx. apply B. apply in_app_iff. right. exact Hx.
    + rewrite IK, Ek, orb_true_iff, any_neg_spec. split.
      * intros [[K|(r & Hr & L)]|(x & Hx & L)].
        -- left. exact K.
        -- right. apply in_map_iff in Hr. destruct Hr as (x & <- & Hx). exists x. split; [apply in_app_iff; auto|exact L].
        -- right. exists x. split; [apply in_app_iff; auto|exact L].
      * intros [K|(x & Hx & L)]; [left; left; exact K|]. apply in_app_iff in Hx. destruct Hx as [Hx|Hx].
        -- left. right. exists (round_f (c_rm c) (kif_fz s) x). split; [apply in_map, Hx|exact L].
        -- right. eauto.
Qed.

Lemma kif_run_trace_i_int c s batches s' outs : wrap_trainable c -> batches <> [] ->
  kif_run c s (map (fun b => (Trace, b)) batches) = Some (s', outs) -> kif_i s' = inject_Z (kif_iz s').
Proof.
  intros Hc. revert s outs. induction batches as [|b bs IH]; cbn [map kif_run]; intros s outs Hne H; [congruence|].
  destruct (kif_call c Trace s b) as [[s1 out]|] eqn:E; [|discriminate].
  destruct (kif_run c s1 _) as [[s2 outs2]|] eqn:E2; [|discriminate].
  injection H as -> <-. destruct bs as [|b' bs].
  - cbn in E2. injection E2 as <- <-. destruct (kif_trace_step _ _ _ _ _ Hc E) as (m & _ & _ & _ & _ & Eii & _). exact Eii.
  - eapply IH; [discriminate|exact E2].
Qed.

Lemma le_iff_eq a b : (forall J, (a <= J)%Z <-> (b <= J)%Z) -> a = b.
Proof. intros H. apply Z.le_antisymm; [apply H|apply (H a)]; lia. Qed.

Lemma kif_order_independent c reset s bs1 bs2 s1 s2 o1 o2 : wrap_trainable c ->
  (forall x, In x (concat bs1) <-> In x (concat bs2)) ->
  (bs1 = [] <-> bs2 = []) ->
  kif_trace c reset s bs1 = Some (s1, o1) -> kif_trace c reset s bs2 = Some (s2, o2) -> s1 = s2.
Proof.
  intros Hc Hs Hn H1 H2. unfold kif_trace in *. set (s0 := if reset then kif_reset c s else s) in *.
  destruct bs1 as [|b1 bs1].
  - rewrite (proj1 Hn eq_refl) in H2. cbn in H1, H2. congruence.
  - assert (N2 : bs2 <> []) by (intros ->; destruct Hn as [_ Hn]; specialize (Hn eq_refl); discriminate).
    destruct (kif_run_trace_lub _ _ _ _ _ Hc H1) as [I1 K1].
    destruct (kif_run_trace_lub _ _ _ _ _ Hc H2) as [I2 K2].
    destruct (kif_run_trace_inv _ _ _ _ _ Hc H1) as (F1 & _).
    destruct (kif_run_trace_inv _ _ _ _ _ Hc H2) as (F2 & _).
    assert (N1 : b1 :: bs1 <> []) by discriminate.
    pose proof (kif_run_trace_i_int _ _ _ _ _ Hc N1 H1) as J1.
    pose proof (kif_run_trace_i_int _ _ _ _ _ Hc N2 H2) as J2.
    assert (Ei : kif_iz s1 = kif_iz s2).
    { apply le_iff_eq. intros J. rewrite I1, I2. split; intros [A B]; split; auto; intros x Hx; apply B, Hs, Hx. }
    assert (Ek : kif_k s1 = kif_k s2).
    { apply eq_true_iff_eq. rewrite K1, K2.
      split; (intros [K|(x & Hx & L)]; [left; exact K|right; exists x; split; [apply Hs, Hx|exact L]]). }
    destruct s1 as [k1 i1 f1], s2 as [k2 i2 f2]. cbn [kif_k kif_i kif_f] in *. subst. rewrite J1, J2, Ei. congruence.
Qed.

(** ** C10: minimality *)
Lemma kif_reset_minimal c s batches s' outs J : wrap_trainable c ->
  (kif_fz s < 1000000000)%Z -> batches <> [] ->
  kif_trace c true s batches = Some (s', outs) ->
  apply_cz (c_ic c) J = J -> (J < kif_iz s')%Z ->
  exists x, In x (concat batches) /\ ~ fits_width (c_rm c) J (kif_fz s) x.
Proof.
  intros Hc Hf Hne H HJ HJs. unfold kif_trace in H.
  assert (R : kif_reset c s = mk_kif false (inject_Z (-1000000000)) (kif_f s)).
  { unfold kif_reset. destruct Hc as [-> ->]. reflexivity. }
  rewrite R in H.
  destruct (kif_run_trace_lub _ _ _ _ _ Hc H) as [L _].
  assert (Efz : kif_fz (mk_kif false (inject_Z (-1000000000)) (kif_f s)) = kif_fz s) by reflexivity.
  assert (Eiz : kif_iz (mk_kif false (inject_Z (-1000000000)) (kif_f s)) = (-1000000000)%Z) by reflexivity.
  rewrite Efz, Eiz in L.
  set (f := kif_fz s) in *. set (I := kif_iz s') in *.
  assert (Ex : exists x0, In x0 (concat batches)).
  { destruct batches as [|b bs]; [congruence|]. cbn [map kif_run] in H.
    destruct (kif_call c Trace _ b) as [[s1 o1]|] eqn:E; [|discriminate].
    destruct (kif_trace_step _ _ _ _ _ Hc E) as (m & Em & _).
    destruct b as [|x b]; [discriminate|]. exists x. left. reflexivity. }
  assert (Low : forall x, (- f <= rmag (c_rm c) f x)%Z).
  { intros x. unfold rmag, minimal_i_xf. rewrite <- (ceil_log2_pow2 (- f)).
    apply ceil_log2_mono; [apply pow2_pos|]. pose proof (Qabs_nonneg (round_f (c_rm c) f x)).
    rewrite ceil_log2_pow2. lra. }
  assert (Fit : forall x, fits_width (c_rm c) J f x <-> (rmag (c_rm c) f x <= J)%Z).
  { intros x. unfold fits_width, rmag, minimal_i_xf. pose proof (Qabs_nonneg (round_f (c_rm c) f x)).
    pose proof (pow2_pos (- f)). rewrite ceil_log2_le by lra. split; intros; lra. }
  destruct (Exists_dec (fun x => (J < rmag (c_rm c) f x)%Z) (concat batches)
             ltac:(intros x; destruct (Z_lt_le_dec J (rmag (c_rm c) f x)); [left|right]; lia)) as [E|NE].
  - apply Exists_exists in E. destruct E as (x & Hx & HI). exists x. split; [exact Hx|]. rewrite Fit. lia.
  - exfalso. assert (Hall : forall x, In x (concat batches) -> (rmag (c_rm c) f x <= J)%Z).
    { intros x Hx. destruct (Z_lt_le_dec J (rmag (c_rm c) f x)) as [G|G]; [|exact G].
      exfalso. apply NE. apply Exists_exists. eauto. }
    assert (I <= J)%Z; [|lia]. apply L. split.
    + destruct Ex as (x0 & Hx0). specialize (Hall x0 Hx0). specialize (Low x0). lia.
    + intros x Hx. rewrite <- HJ. apply apply_cz_mono, Hall, Hx.
Qed.

Lemma kif_trace_nonempty c s batches s' outs : wrap_trainable c ->
  kif_run c s (map (fun b => (Trace, b)) batches) = Some (s', outs) -> Forall (fun b => b <> []) batches.
Proof.
  intros Hc. revert s outs. induction batches as [|b bs IH]; cbn [map kif_run]; intros s outs H; constructor.
  - destruct (kif_call c Trace s b) as [[s1 o1]|] eqn:E; [|discriminate].
    destruct (kif_trace_step _ _ _ _ _ Hc E) as (m & Em & _). intros ->. discriminate.
  - destruct (kif_call c Trace s b) as [[s1 o1]|] eqn:E; [|discriminate].
    destruct (kif_run c s1 _) as [[s2 o2]|] eqn:E2; [|discriminate]. injection H as -> <-. eapply IH, E2.
Qed.

Lemma concat_nil_nonempty (bs : list (list Q)) : Forall (fun b => b <> []) bs -> concat bs = [] -> bs = [].
Proof.
  intros F E. destruct bs as [|b bs]; [reflexivity|]. inversion F as [|? ? Hb _]; subst.
  cbn [concat] in E. apply app_eq_nil in E. destruct E; congruence.
Qed.

Lemma kif_order_independent_perm c reset s bs1 bs2 s1 s2 o1 o2 : wrap_trainable c ->
  (forall x, In x (concat bs1) <-> In x (concat bs2)) ->
  kif_trace c reset s bs1 = Some (s1, o1) -> kif_trace c reset s bs2 = Some (s2, o2) -> s1 = s2.
Proof.
  intros Hc Hs H1 H2. eapply kif_order_independent; eauto. unfold kif_trace in *.
  apply kif_trace_nonempty in H1; [|exact Hc]. apply kif_trace_nonempty in H2; [|exact Hc].
  assert (Z0 : forall l : list Q, (forall x, ~ In x l) -> l = []) by (intros [|a l] H; [reflexivity|destruct (H a); left; reflexivity]).
  split; intros ->; (apply concat_nil_nonempty; [assumption|]; apply Z0; intros x Hx; apply Hs in Hx; destruct Hx).
Qed.

(** ** KBI *)
Lemma minimal_i_xb_spec m b i : (0 < b)%Z -> 0 <= m -> (minimal_i_xb m b <= i)%Z <->
  m + keras_eps <= pow2 i * (1 - pow2 (- b) + keras_eps).
Proof.
  intros Hb Hm. unfold minimal_i_xb. apply Z.ltb_lt in Hb as Hb'. rewrite Hb'.
  assert (pow2 (- b) <= 1#2) by (change (1#2) with (pow2 (-1)); apply pow2_le; lia).
  assert (0 < keras_eps) by reflexivity.
  set (D := 1 - pow2 (- b) + keras_eps). assert (HD : 0 < D) by (unfold D; lra).
  assert (E : (m + keras_eps) / D * D == m + keras_eps) by (field; lra).
  assert (Hpos : 0 < (m + keras_eps) / D) by (apply Qlt_shift_div_l; lra).
  rewrite ceil_log2_le by exact Hpos. split; intros H1.
  - rewrite <- E. apply Qmult_le_compat_r; lra.
  - apply Qle_shift_div_r; [exact HD|]. exact H1.
Qed.

Lemma minimal_i_xb_mono x y b : 0 <= x -> x <= y -> (minimal_i_xb x b <= minimal_i_xb y b)%Z.
Proof.
  intros Hx H. destruct (Z_lt_le_dec 0 b) as [Hb|Hb].
  - apply minimal_i_xb_spec; [exact Hb|exact Hx|].
    assert (A : y + keras_eps <= pow2 (minimal_i_xb y b) * (1 - pow2 (- b) + keras_eps)) by (apply minimal_i_xb_spec; [exact Hb|lra|lia]).
    lra.
  - unfold minimal_i_xb. destruct (Z.ltb_spec 0 b); lia.
Qed.

Lemma minimal_i_xb_comp x y b : 0 <= x -> x == y -> minimal_i_xb x b = minimal_i_xb y b.
Proof. intros Hx E. apply Z.le_antisymm; apply minimal_i_xb_mono; lra. Qed.

(** with at most 22 bits the slack introduced by epsilon is below half a step *)
Lemma kbi_scaled_bound m b i : (0 < b <= 22)%Z -> 0 <= m -> (minimal_i_xb m b <= i)%Z ->
  m * pow2 (b - i) < inject_Z (2 ^ b) - (1#2).
Proof.
  intros Hb Hm H. apply (minimal_i_xb_spec m b i ltac:(lia) Hm) in H.
  pose proof (pow2_pos (b - i)) as P. pose proof (pow2_pos i) as P2.
  assert (E1 : pow2 i * pow2 (b - i) == pow2 b) by (rewrite <- pow2_add; replace (i + (b - i))%Z with b by lia; reflexivity).
  assert (E2 : pow2 b * pow2 (- b) == 1) by apply pow2_opp_mul.
  assert (E3 : pow2 b <= 4194304#1) by (change (4194304#1) with (pow2 22); apply pow2_le; lia).
  rewrite <- pow2_inject by lia.
  assert (K : keras_eps == 1#10000000) by reflexivity.
  assert (A : (m + keras_eps) * pow2 (b - i) <= pow2 b * (1 - pow2 (- b) + keras_eps)).
  { rewrite <- E1. setoid_replace (pow2 i * pow2 (b - i) * (1 - pow2 (- b) + keras_eps))
      with (pow2 i * (1 - pow2 (- b) + keras_eps) * pow2 (b - i)) by ring.
    apply Qmult_le_compat_r; lra. }
  assert (B : pow2 b * (1 - pow2 (- b) + keras_eps) == pow2 b - 1 + pow2 b * keras_eps) by (setoid_replace (pow2 b * (1 - pow2 (- b) + keras_eps)) with (pow2 b - pow2 b * pow2 (- b) + pow2 b * keras_eps) by ring; rewrite E2; ring).
  rewrite B in A. rewrite K in A. nra.
Qed.

Lemma rnd_int_upper rm y n : y < inject_Z n - (1#2) -> (rnd_int rm y <= n - 1)%Z.
Proof.
  intros H. destruct rm; cbn [rnd_int].
  - assert (Qfloor y < n)%Z by (apply floor_lt_Z; lra). lia.
  - assert (Qfloor (y + (1#2)) < n)%Z by (apply floor_lt_Z; lra). lia.
  - unfold round_even. assert (Qfloor (y + (1#2)) < n)%Z by (apply floor_lt_Z; lra).
    destruct (_ && _); lia.
Qed.

Lemma rnd_int_lower rm y n : inject_Z n <= y -> (n <= rnd_int rm y)%Z.
Proof. intros H. rewrite <- (rnd_int_inject rm n). apply rnd_int_mono, H. Qed.

Lemma rnd_int_neg_mono rm y y' : y' <= y -> (rnd_int rm y < 0)%Z -> (rnd_int rm y' < 0)%Z.
Proof. intros H Hn. pose proof (rnd_int_mono rm y' y H). lia. Qed.

Lemma round_f_neg rm f x : round_f rm f x < 0 <-> (rnd_int rm (x * pow2 f) < 0)%Z.
Proof.
  unfold round_f. pose proof (pow2_pos (- f)). change 0%Z with 0%Z. split; intros Hn.
  - apply (proj1 (injZ_lt _ _)). change (inject_Z 0) with 0. nra.
  - apply (proj2 (injZ_lt _ _)) in Hn. change (inject_Z 0) with 0 in Hn. nra.
Qed.

(** a negative rounding at a coarse step is negative at every finer step *)
Lemma round_f_neg_finer rm f f' x : (f <= f')%Z -> round_f rm f x < 0 -> round_f rm f' x < 0.
Proof.
  intros Hf H. apply round_f_neg. apply round_f_neg in H.
  pose proof (pow2_pos f) as P. pose proof (pow2_le _ _ Hf) as Le.
  destruct (Qlt_le_dec x 0) as [L|L].
  - eapply rnd_int_neg_mono; [|exact H]. nra.
  - exfalso. assert (0 <= rnd_int rm (x * pow2 f))%Z; [|lia].
    apply rnd_int_lower. change (inject_Z 0) with 0. nra.
Qed.

Lemma kbi_infer_ok rm k b i x m : (0 < b <= 22)%Z ->
  Qabs x <= m -> 0 <= m -> (minimal_i_xb m b <= i)%Z ->
  (round_f rm (b - i) x < 0 -> k = true) ->
  base_call rm WRAP false k i (b - i) x == round_f rm (b - i) x.
Proof.
  intros Hb Hx Hm Hi Hk.
  pose proof (kbi_scaled_bound m b i Hb Hm Hi) as B.
  assert (W : (0 < kz k + i + (b - i))%Z) by (destruct k; cbn [kz]; lia).
  pose proof (pow2_pos (b - i)) as P.
  pose proof (Qle_Qabs x) as A1. pose proof (Qle_Qabs (- x)) as A2. rewrite Qabs_opp in A2.
  rewrite (base_call_pos rm WRAP k i (b - i) x W). replace (i + (b - i))%Z with b by lia.
  rewrite overflow_code_id; [reflexivity|lia|].
  unfold code_lo, code_hi. split.
  - destruct k.
    + apply rnd_int_lower. rewrite injZ_opp. nra.
    + destruct (Z_lt_le_dec (rnd_int rm (x * pow2 (b - i))) 0) as [N|N]; [|exact N].
      apply round_f_neg in N. specialize (Hk N). discriminate.
  - apply rnd_int_upper. nra.
Qed.


Lemma kbi_trace_step c s xs s' out : wrap_trainable c -> kbi_call c Trace s xs = Some (s', out) ->
  exists m, absmax xs = Some m /\
  kbi_b s' = kbi_b s /\
  kbi_iz s' = apply_cz (c_ic c) (Z.max (kbi_iz s) (minimal_i_xb m (kbi_bz s))) /\
  kbi_i s' = inject_Z (kbi_iz s') /\
  out = map (round_f (c_rm c) (kbi_bz s - kbi_iz s')) xs /\
  kbi_k s' = kbi_k s || (any_neg out && (0 <? kbi_bz s)%Z).
Proof.
  intros [Ho Ht]. unfold kbi_call. rewrite Ho, Ht. cbn [is_wrap andb].
  destruct (absmax xs) as [m|] eqn:E; [|discriminate]. intros H; injection H as H1 H2.
  exists m. subst s' out. set (I := apply_cz _ _).
  assert (EI : forall k b, kbi_iz (mk_kbi k b (inject_Z I)) = I) by (intros; apply round_even_Z).
  rewrite EI. repeat split.
Qed.

Definition kbi_covers (rm : rmode) (b i : Z) (k : bool) (xs : list Q) : Prop :=
  forall x, In x xs -> (exists m, 0 <= m /\ Qabs x <= m /\ (minimal_i_xb m b <= i)%Z) /\
                       (round_f rm (b - i) x < 0 -> k = true).

Lemma leaves_room_spec c z : leaves_room c z -> (z <= apply_cz c z)%Z.
Proof.
  unfold leaves_room. destruct c as [[lo hi|v|lo|hi]|]; cbn [upper_bound apply_cz]; intros H; try (specialize (H _ eq_refl)); lia.
Qed.

Lemma kbi_run_trace_mono c s batches s' outs : wrap_trainable c -> apply_cz (c_ic c) (kbi_iz s) = kbi_iz s ->
  kbi_run c s (map (fun b => (Trace, b)) batches) = Some (s', outs) ->
  kbi_b s' = kbi_b s /\ (kbi_iz s <= kbi_iz s')%Z /\ (kbi_k s = true -> kbi_k s' = true).
Proof.
  intros Hc. revert s outs. induction batches as [|b0 bs IH]; cbn [map kbi_run]; intros s outs Hi H.
  - injection H as -> <-. split; [reflexivity|]. split; [lia|auto].
  - destruct (kbi_call c Trace s b0) as [[s1 out]|] eqn:E; [|discriminate].
    destruct (kbi_run c s1 _) as [[s2 outs2]|] eqn:E2; [|discriminate].
    injection H as -> <-.
    destruct (kbi_trace_step _ _ _ _ _ Hc E) as (m & Em & Eb & Ei & Eii & Eo & Ek).
    destruct (IH s1 outs2 ltac:(rewrite Ei; apply apply_cz_idem) E2) as (Ib & Ii & Ik).
    split; [congruence|]. split.
    + rewrite Ei, apply_cz_max, Hi in Ii. lia.
    + intros K; apply Ik; rewrite Ek, K; reflexivity.
Qed.

Definition kbi_room (c : qconf) (b : Z) (xs : list Q) : Prop :=
  forall x, In x xs -> leaves_room (c_ic c) (minimal_i_xb (Qabs x) b).

Lemma kbi_run_trace_covers c s batches s' outs : wrap_trainable c -> (0 < kbi_bz s)%Z ->
  (forall b, In b batches -> kbi_room c (kbi_bz s) b) ->
  kbi_run c s (map (fun b => (Trace, b)) batches) = Some (s', outs) ->
  kbi_b s' = kbi_b s /\
  forall b, In b batches -> kbi_covers (c_rm c) (kbi_bz s) (kbi_iz s') (kbi_k s') b.
Proof.
  intros Hc. revert s outs. induction batches as [|b0 bs IH]; cbn [map kbi_run]; intros s outs Hb Hu H.
  - injection H as -> <-. split; [reflexivity|]. intros ? [].
  - destruct (kbi_call c Trace s b0) as [[s1 out]|] eqn:E; [|discriminate].
    destruct (kbi_run c s1 _) as [[s2 outs2]|] eqn:E2; [|discriminate].
    injection H as -> <-.
    destruct (kbi_trace_step _ _ _ _ _ Hc E) as (m & Em & Eb & Ei & Eii & Eo & Ek).
    assert (Ebz : kbi_bz s1 = kbi_bz s) by (unfold kbi_bz; rewrite Eb; reflexivity).
    destruct (kbi_run_trace_mono _ _ _ _ _ Hc ltac:(rewrite Ei; apply apply_cz_idem) E2) as (_ & Ii & Ik).
    destruct (IH s1 outs2 ltac:(lia)) as (Ib & Ic); [|exact E2|].
    { intros b Hb'. rewrite Ebz. apply Hu. right. exact Hb'. }
    assert (Hge : (minimal_i_xb m (kbi_bz s) <= kbi_iz s1)%Z).
    { rewrite Ei, apply_cz_max. destruct (absmax_attained _ _ Em) as (x & Hx & Ex).
      assert (Eq : minimal_i_xb m (kbi_bz s) = minimal_i_xb (Qabs x) (kbi_bz s)).
      { symmetry. apply minimal_i_xb_comp; [apply Qabs_nonneg|exact Ex]. }
      rewrite Eq. pose proof (leaves_room_spec _ _ (Hu b0 (or_introl eq_refl) x Hx)). lia. }
    split; [congruence|].
    intros b H x H0. split.
    + destruct H as [->|Hb']; [|destruct (Ic b Hb' x H0) as [M _]; rewrite Ebz in M; exact M].
      exists m. split; [eapply absmax_nonneg; exact Em|]. split; [eapply absmax_bound; eauto|]. lia.
    + destruct H as [->|Hb'].
      * intros N. apply Ik. rewrite Ek.
        assert (N1 : round_f (c_rm c) (kbi_bz s - kbi_iz s1) x < 0).
        { eapply round_f_neg_finer; [|exact N]. lia. }
        assert (AN : any_neg out = true).
        { apply any_neg_spec. rewrite Eo. exists (round_f (c_rm c) (kbi_bz s - kbi_iz s1) x). split; [apply in_map, H0|exact N1]. }
        rewrite AN. apply Z.ltb_lt in Hb. rewrite Hb. apply orb_true_r.
      * destruct (Ic b Hb' x H0) as [_ M]. rewrite Ebz in M. exact M.
Qed.

Lemma kbi_calibrated c reset s batches s' outs : wrap_trainable c ->
  (0 < kbi_bz s <= 22)%Z ->
  (forall b, In b batches -> kbi_room c (kbi_bz s) b) ->
  kbi_trace c reset s batches = Some (s', outs) ->
  kbi_bz s' = kbi_bz s /\
  forall xs, In xs batches ->
    exists s'' out, kbi_call c Infer s' xs = Some (s'', out) /\ s'' = s' /\
      Forall2 Qeq out (map (round_f (c_rm c) (kbi_fz s')) xs).
Proof.
  intros Hc Hb Hu H. unfold kbi_trace in H.
  set (s0 := if reset then kbi_reset c s else s) in *.
  assert (Eb : kbi_b s0 = kbi_b s).
  { unfold s0. destruct reset; [|reflexivity]. unfold kbi_reset. destruct (_ && _); reflexivity. }
  assert (Ebz : kbi_bz s0 = kbi_bz s) by (unfold kbi_bz; rewrite Eb; reflexivity).
  assert (Hb0 : (0 < kbi_bz s0)%Z) by lia.
  rewrite <- Ebz in Hu.
  destruct (kbi_run_trace_covers _ _ _ _ _ Hc Hb0 Hu H) as (Ib & Ic).
  assert (Ebz' : kbi_bz s' = kbi_bz s) by (unfold kbi_bz; rewrite Ib, Eb; reflexivity).
  split; [exact Ebz'|]. intros xs Hxs. specialize (Ic xs Hxs). rewrite Ebz in Ic.
  destruct Hc as [Ho Ht]. unfold kbi_call. rewrite Ho, Ht. cbn [is_wrap andb is_train].
  eexists. eexists. split; [reflexivity|]. split; [reflexivity|].
  assert (Bs : Forall2 Qeq (map (base_call (c_rm c) WRAP false (kbi_k s') (kbi_iz s') (kbi_fz s')) xs) (map (round_f (c_rm c) (kbi_fz s')) xs)).
  { apply Forall2_map_l. intros x Hx. destruct (Ic x Hx) as [(m & M1 & M2 & M3) N].
    unfold kbi_fz. rewrite Ebz'. eapply kbi_infer_ok; eauto. }
  destruct (c_weight c); [|exact Bs].
  destruct (c_rm c); try exact Bs. apply Forall2_map_l. intros x _. reflexivity.
Qed.

(** a channel with no bits is pruned by calibration *)
Lemma kbi_pruned c s batches s' outs : wrap_trainable c -> c_weight c = false -> c_ic c = None ->
  (kbi_bz s <= 0)%Z -> batches <> [] ->
  kbi_trace c true s batches = Some (s', outs) ->
  kbi_k s' = false /\ forall xs, exists out, kbi_call c Infer s' xs = Some (s', out) /\ Forall (fun y => y == 0) out.
Proof.
  intros Hc Hw Hic Hb Hne H. unfold kbi_trace in H.
  assert (R : kbi_reset c s = mk_kbi false (kbi_b s) (inject_Z (-1000000000))).
  { unfold kbi_reset. destruct Hc as [-> ->]. reflexivity. }
  rewrite R in H. set (s0 := mk_kbi false (kbi_b s) (inject_Z (-1000000000))) in *.
  assert (K : forall bs s1 s2 o, (kbi_bz s1 <= 0)%Z -> kbi_k s1 = false ->
     kbi_run c s1 (map (fun b => (Trace, b)) bs) = Some (s2, o) -> kbi_k s2 = false /\ kbi_bz s2 = kbi_bz s1).
  { induction bs as [|b bs IH]; cbn [map kbi_run]; intros s1 s2 o Hb1 Hk1 H1.
    - injection H1 as -> <-. auto.
    - destruct (kbi_call c Trace s1 b) as [[s3 o3]|] eqn:E; [|discriminate].
      destruct (kbi_run c s3 _) as [[s4 o4]|] eqn:E2; [|discriminate]. injection H1 as -> <-.
      destruct (kbi_trace_step _ _ _ _ _ Hc E) as (m & Em & Eb & Ei & Eii & Eo & Ek).
      assert (Ebz : kbi_bz s3 = kbi_bz s1) by (unfold kbi_bz; rewrite Eb; reflexivity).
      destruct (IH s3 s2 o4) as [I1 I2]; [lia| |exact E2|split; [exact I1|lia]].
      rewrite Ek, Hk1. destruct (Z.ltb_spec 0 (kbi_bz s1)); [lia|]. apply andb_false_r. }
  destruct (K _ s0 _ _ Hb eq_refl H) as [K1 K2].
  assert (K2' : kbi_bz s' = kbi_bz s) by exact K2.
  split; [exact K1|]. intros xs. destruct Hc as [Ho Ht]. unfold kbi_call. rewrite Ho, Ht, Hw. cbn [is_wrap andb is_train].
  eexists. split; [reflexivity|]. apply Forall_forall. intros y Hy. apply in_map_iff in Hy. destruct Hy as (x & <- & _).
  rewrite base_call_npos; [reflexivity|]. rewrite K1. unfold kbi_fz. cbn [kz]. lia.
Qed.

(** ** C09 for KBI: the integer width *)
Definition bmag (b : Z) (x : Q) : Z := minimal_i_xb (Qabs x) b.

Lemma kbi_run_trace_lub c s batches s' outs : wrap_trainable c -> apply_cz (c_ic c) (kbi_iz s) = kbi_iz s ->
  kbi_run c s (map (fun b => (Trace, b)) batches) = Some (s', outs) ->
  kbi_b s' = kbi_b s /\ apply_cz (c_ic c) (kbi_iz s') = kbi_iz s' /\
  (forall J, (kbi_iz s' <= J)%Z <->
     (kbi_iz s <= J)%Z /\ forall x, In x (concat batches) -> (apply_cz (c_ic c) (bmag (kbi_bz s) x) <= J)%Z).
Proof.
  intros Hc. revert s outs. induction batches as [|b bs IH]; cbn [map kbi_run concat]; intros s outs Hi H.
  - injection H as -> <-. split; [reflexivity|]. split; [exact Hi|].
    intros J. split; [intros HJ; split; [exact HJ|intros x []]|tauto].
  - destruct (kbi_call c Trace s b) as [[s1 out]|] eqn:E; [|discriminate].
    destruct (kbi_run c s1 _) as [[s2 outs2]|] eqn:E2; [|discriminate].
    injection H as -> <-.
    destruct (kbi_trace_step _ _ _ _ _ Hc E) as (m & Em & Eb & Ei & Eii & Eo & Ek).
    assert (Ebz : kbi_bz s1 = kbi_bz s) by (unfold kbi_bz; rewrite Eb; reflexivity).
    destruct (IH s1 outs2 ltac:(rewrite Ei; apply apply_cz_idem) E2) as (Ib & Ii & IJ).
    split; [congruence|]. split; [exact Ii|]. intros J. rewrite IJ, Ebz, Ei, apply_cz_max, Hi. split.
    + intros [A B]. split; [lia|]. intros x Hx. apply in_app_iff in Hx. destruct Hx as [Hx|Hx]; [|auto].
      apply Z.le_trans with (apply_cz (c_ic c) (minimal_i_xb m (kbi_bz s))); [|lia].
      apply apply_cz_mono. apply minimal_i_xb_mono; [apply Qabs_nonneg|]. eapply absmax_bound; eauto.
    + intros [A B]. split.
      * apply Z.max_lub; [exact A|]. destruct (absmax_attained _ _ Em) as (x & Hx & Ex).
        specialize (B x ltac:(apply in_app_iff; left; exact Hx)).
        replace (minimal_i_xb m (kbi_bz s)) with (bmag (kbi_bz s) x); [exact B|].
        unfold bmag. apply minimal_i_xb_comp; [apply Qabs_nonneg|exact Ex].
      * intros x Hx. apply B. apply in_app_iff. right. exact Hx.
Qed.

(** once a batch was traced the starting width needs no condition *)
Lemma kbi_run_trace_first c s b bs s' outs : wrap_trainable c ->
  kbi_run c s (map (fun b => (Trace, b)) (b :: bs)) = Some (s', outs) ->
  kbi_b s' = kbi_b s /\ b <> [] /\
  (forall J, (kbi_iz s' <= J)%Z <->
     (apply_cz (c_ic c) (kbi_iz s) <= J)%Z /\ forall x, In x (concat (b :: bs)) -> (apply_cz (c_ic c) (bmag (kbi_bz s) x) <= J)%Z).
Proof.
  intros Hc H. cbn [map kbi_run] in H. destruct (kbi_call c Trace s b) as [[s1 out]|] eqn:E; [|discriminate].
  destruct (kbi_run c s1 _) as [[s2 outs2]|] eqn:E2; [|discriminate]. injection H as -> <-.
  destruct (kbi_trace_step _ _ _ _ _ Hc E) as (m & Em & Eb & Ei & Eii & Eo & Ek).
  assert (Ebz : kbi_bz s1 = kbi_bz s) by (unfold kbi_bz; rewrite Eb; reflexivity).
  destruct (kbi_run_trace_lub c s1 bs s' outs2 Hc ltac:(rewrite Ei; apply apply_cz_idem) E2) as (Ib & Ii & IJ).
  split; [congruence|]. split; [intros ->; discriminate|]. intros J. rewrite IJ, Ebz, Ei, apply_cz_max. cbn [concat]. split.
  - intros [A B]. split; [lia|]. intros x Hx. apply in_app_iff in Hx. destruct Hx as [Hx|Hx]; [|auto].
    apply Z.le_trans with (apply_cz (c_ic c) (minimal_i_xb m (kbi_bz s))); [|lia].
    apply apply_cz_mono. apply minimal_i_xb_mono; [apply Qabs_nonneg|]. eapply absmax_bound; eauto.
  - intros [A B]. split.
    + apply Z.max_lub; [exact A|]. destruct (absmax_attained _ _ Em) as (x & Hx & Ex).
      specialize (B x ltac:(apply in_app_iff; left; exact Hx)).
      replace (minimal_i_xb m (kbi_bz s)) with (bmag (kbi_bz s) x); [exact B|].
      unfold bmag. apply minimal_i_xb_comp; [apply Qabs_nonneg|exact Ex].
    + intros x Hx. apply B. apply in_app_iff. right. exact Hx.
Qed.
Lemma kbi_width_order_independent c reset s bs1 bs2 s1 s2 o1 o2 : wrap_trainable c ->
  (forall x, In x (concat bs1) <-> In x (concat bs2)) ->
  kbi_trace c reset s bs1 = Some (s1, o1) -> kbi_trace c reset s bs2 = Some (s2, o2) ->
  kbi_iz s1 = kbi_iz s2 /\ kbi_bz s1 = kbi_bz s2.
Proof.
  intros Hc Hs H1 H2. unfold kbi_trace in *. set (s0 := if reset then kbi_reset c s else s) in *.
  assert (X : forall b bs s' o, kbi_run c s0 (map (fun b => (Trace, b)) (b :: bs)) = Some (s', o) -> exists x, In x (concat (b :: bs))).
  { intros b bs s' o H. destruct (kbi_run_trace_first _ _ _ _ _ _ Hc H) as (_ & N & _). destruct b as [|x b]; [congruence|].
    exists x. left. reflexivity. }
  destruct bs1 as [|b1 bs1], bs2 as [|b2 bs2].
  - cbn in H1, H2. split; congruence.
  - destruct (X _ _ _ _ H2) as [x Hx]. apply Hs in Hx. destruct Hx.
  - destruct (X _ _ _ _ H1) as [x Hx]. apply Hs in Hx. destruct Hx.
  - destruct (kbi_run_trace_first _ _ _ _ _ _ Hc H1) as (B1 & _ & J1).
    destruct (kbi_run_trace_first _ _ _ _ _ _ Hc H2) as (B2 & _ & J2). split.
    + apply le_iff_eq. intros J. rewrite J1, J2. split; intros [A B]; split; auto; intros x Hx; apply B, Hs, Hx.
    + unfold kbi_bz. congruence.
Qed.

(** ** C11: constraint invariant for KBI *)
Lemma clip_bounds lo hi w : lo <= hi -> lo <= clip lo hi w /\ clip lo hi w <= hi.
Proof.
  intros H. unfold clip. split; [|apply Q.le_min_r]. apply Q.min_glb; [apply Q.le_max_r|exact H].
Qed.

Lemma apply_c_satisfies c w : well_formed c -> satisfies c (apply_c c w).
Proof.
  destruct c as [[lo hi|v|lo|hi]|]; cbn [well_formed satisfies apply_c]; intros H; try tauto; try reflexivity.
  - apply clip_bounds. apply (proj2 (injZ_le _ _)). exact H.
  - apply Q.le_max_r.
  - apply Q.le_min_r.
Qed.

Lemma satisfies_comp c w w' : w == w' -> satisfies c w -> satisfies c w'.
Proof. intros E. destruct c as [[lo hi|v|lo|hi]|]; cbn [satisfies]; rewrite ?E; auto. Qed.

Lemma apply_cz_satisfies c z : well_formed c -> satisfies c (inject_Z (apply_cz c z)).
Proof. intros H. eapply satisfies_comp; [apply apply_c_cz|]. apply apply_c_satisfies, H. Qed.

Lemma kbi_call_constraint c m s xs s' out : wrap_trainable c -> well_formed (c_ic c) -> m <> Infer ->
  kbi_call c m s xs = Some (s', out) -> satisfies (c_ic c) (kbi_i s').
Proof.
  intros [Ho Ht] Hw Hm. unfold kbi_call. rewrite Ho, Ht. cbn [is_wrap andb].
  destruct m; [congruence| |]; (destruct (absmax xs) as [x|]; [|discriminate]); intros H; injection H as <- _; cbn [kbi_i].
  - apply apply_c_satisfies, Hw.
  - apply apply_cz_satisfies, Hw.
Qed.

Lemma kbi_call_infer_state c s xs s' out : kbi_call c Infer s xs = Some (s', out) -> s' = s.
Proof. unfold kbi_call. destruct (_ && _); intros H; congruence. Qed.

(** after any history the last non-inference call decides; a satisfying start stays satisfying *)
Lemma kbi_run_constraint c h : wrap_trainable c -> well_formed (c_ic c) ->
  forall s s' outs, kbi_run c s h = Some (s', outs) ->
  satisfies (c_ic c) (kbi_i s) \/ (exists m xs, In (m, xs) h /\ m <> Infer) -> satisfies (c_ic c) (kbi_i s').
Proof.
  intros Hc Hw. induction h as [|[m xs] h IH]; cbn [kbi_run]; intros s s' outs H.
  - injection H as <- _. intros [A|(m & xs & [] & _)]. exact A.
  - destruct (kbi_call c m s xs) as [[s1 o1]|] eqn:E; [|discriminate].
    destruct (kbi_run c s1 h) as [[s2 o2]|] eqn:E2; [|discriminate]. injection H as <- _.
    intros A. apply (IH s1 s2 o2 E2).
    assert (D : m = Infer \/ m <> Infer) by (destruct m; [left|right|right]; congruence). destruct D as [->|D].
    + apply kbi_call_infer_state in E. subst s1. destruct A as [A|(m & xs' & [A|A] & B)]; [left; exact A| |right; eauto].
      injection A as <- _. congruence.
    + left. eapply kbi_call_constraint; eauto.
Qed.

(** ** C12 *)
Lemma decayed_max_ge i d m : m <= decayed_max i d m.
Proof. destruct d; cbn [decayed_max]; [apply Q.le_max_r|lra]. Qed.

Lemma round_even_ge_Z z w : inject_Z z <= w -> (z <= round_even w)%Z.
Proof. intros H. rewrite <- (round_even_inject z). apply round_even_mono, H. Qed.

Lemma kif_train_infer c s xs s' out : wrap_trainable c -> kif_k s = true ->
  kif_call c Train s xs = Some (s', out) ->
  exists out', kif_call c Infer s' xs = Some (s', out') /\ Forall2 Qeq out' out.
Proof.
  intros [Ho Ht] Hk. unfold kif_call. rewrite Ho, Ht. cbn [is_wrap andb is_train].
  destruct (absmax _) as [m|] eqn:E; [|discriminate]. intros H; injection H as <- <-.
  eexists. split; [reflexivity|]. set (s1 := mk_kif _ _ _).
  assert (Ef : kif_fz s1 = kif_fz s) by reflexivity. rewrite Ef.
  destruct (c_weight c); [apply Forall2_map_l; reflexivity|].
  apply Forall2_map_l. intros x Hx. 
  assert (C : covers (c_rm c) (kif_fz s) (kif_iz s1) true xs).
  { eapply minimal_i_xf_covers; [exact E| |reflexivity]. apply round_even_ge_Z. apply decayed_max_ge. }
  destruct (C x Hx) as [A B]. apply kif_infer_ok; [exact A|]. intros _. exact Hk.
Qed.

Lemma kbi_train_infer c s xs s' out : wrap_trainable c -> kbi_k s = true -> (0 < kbi_bz s <= 22)%Z ->
  kbi_room c (kbi_bz s) xs ->
  kbi_call c Train s xs = Some (s', out) ->
  exists out', kbi_call c Infer s' xs = Some (s', out') /\ Forall2 Qeq out' out.
Proof.
  intros [Ho Ht] Hk Hb Hr. unfold kbi_call. rewrite Ho, Ht. cbn [is_wrap andb is_train].
  destruct (absmax xs) as [m|] eqn:E; [|discriminate]. intros H; injection H as <- <-.
  set (s1 := mk_kbi _ _ _). eexists. split; [reflexivity|].
  assert (B : Forall2 Qeq (map (base_call (c_rm c) WRAP false (kbi_k s1) (kbi_iz s1) (kbi_fz s1)) xs) (map (round_f (c_rm c) (kbi_fz s1)) xs)).
  { apply Forall2_map_l. intros x Hx. apply (kbi_infer_ok _ _ (kbi_bz s) (kbi_iz s1) x m).
    - exact Hb.
    - eapply absmax_bound; eauto.
    - eapply absmax_nonneg; eauto.
    - apply round_even_ge_Z. cbn [kbi_i s1].
      destruct (absmax_attained _ _ E) as (x0 & Hx0 & Ex).
      assert (Eq : minimal_i_xb m (kbi_bz s) = minimal_i_xb (Qabs x0) (kbi_bz s)).
      { symmetry. apply minimal_i_xb_comp; [apply Qabs_nonneg|exact Ex]. }
      specialize (Hr x0 Hx0). rewrite <- Eq in Hr.
      pose proof (decayed_max_ge (kbi_i s) (c_decay c) (inject_Z (minimal_i_xb m (kbi_bz s)))) as G.
      revert Hr G. generalize (decayed_max (kbi_i s) (c_decay c) (inject_Z (minimal_i_xb m (kbi_bz s)))).
      generalize (minimal_i_xb m (kbi_bz s)). intros z w.
      unfold leaves_room. destruct (c_ic c) as [[lo hi|v|lo|hi]|]; cbn [upper_bound apply_c]; intros R G; try (specialize (R _ eq_refl)).
      + unfold clip. apply Q.min_glb; [|apply (proj2 (injZ_le _ _)); exact R].
        pose proof (Q.le_max_l w (inject_Z lo)). lra.
      + apply (proj2 (injZ_le _ _)). exact R.
      + pose proof (Q.le_max_l w (inject_Z lo)). lra.
      + apply Q.min_glb; [lra|]. apply (proj2 (injZ_le _ _)); exact R.
      + exact G.
    - intros _. exact Hk. }
  destruct (c_weight c); [|exact B].
  destruct (c_rm c); try exact B. apply Forall2_map_l. reflexivity.
Qed.

(** ** Restatements with the conditions of S_State *)
Lemma kbi_reachable_room c b xs : (0 < b)%Z -> Forall (kbi_reachable c b) xs -> kbi_room c b xs.
Proof.
  intros Hb F x Hx hi Hhi. apply minimal_i_xb_spec; [exact Hb|apply Qabs_nonneg|].
  rewrite Forall_forall in F. exact (F x Hx hi Hhi).
Qed.

Lemma kif_reachable_uncut c f xs : Forall (kif_reachable c f) xs -> kif_uncut c f xs.
Proof.
  intros F m Em. destruct (absmax_attained _ _ Em) as (y & Hy & Ey). apply in_map_iff in Hy. destruct Hy as (x & <- & Hx).
  rewrite Forall_forall in F. specialize (F x Hx). apply leaves_room_spec. intros hi Hhi. specialize (F hi Hhi).
  unfold fits_width in F. unfold minimal_i_xf. pose proof (pow2_pos (- f)). pose proof (absmax_nonneg _ _ Em).
  apply ceil_log2_le; [lra|]. lra.
Qed.

Lemma kif_calibrated' c reset s batches s' outs : wrap_trainable c ->
  Forall (Forall (kif_reachable c (kif_fz s))) batches ->
  kif_trace c reset s batches = Some (s', outs) ->
  kif_fz s' = kif_fz s /\
  outs = map (map (round_f (c_rm c) (kif_fz s))) batches /\
  forall xs, In xs batches ->
    exists out, kif_call c Infer s' xs = Some (s', out) /\
      Forall2 Qeq out (map (round_f (c_rm c) (kif_fz s)) xs).
Proof.
  intros Hc F H. destruct (kif_calibrated c reset s batches s' outs Hc) as (A & B & C); [|exact H|].
  - intros b Hb. apply kif_reachable_uncut. rewrite Forall_forall in F. auto.
  - split; [exact A|]. split; [exact B|]. intros xs Hx. destruct (C xs Hx) as (s'' & out & D & -> & G). eauto.
Qed.

Lemma kbi_calibrated' c reset s batches s' outs : wrap_trainable c ->
  (0 < kbi_bz s <= 22)%Z ->
  Forall (Forall (kbi_reachable c (kbi_bz s))) batches ->
  kbi_trace c reset s batches = Some (s', outs) ->
  kbi_bz s' = kbi_bz s /\
  forall xs, In xs batches ->
    exists out, kbi_call c Infer s' xs = Some (s', out) /\
      Forall2 Qeq out (map (round_f (c_rm c) (kbi_fz s')) xs).
Proof.
  intros Hc Hb F H. destruct (kbi_calibrated c reset s batches s' outs Hc Hb) as (A & B); [|exact H|].
  - intros b Hb'. apply kbi_reachable_room; [lia|]. rewrite Forall_forall in F. auto.
  - split; [exact A|]. intros xs Hx. destruct (B xs Hx) as (s'' & out & D & -> & G). eauto.
Qed.

Lemma kbi_train_infer' c s xs s' out : wrap_trainable c -> kbi_k s = true -> (0 < kbi_bz s <= 22)%Z ->
  Forall (kbi_reachable c (kbi_bz s)) xs ->
  kbi_call c Train s xs = Some (s', out) ->
  exists out', kbi_call c Infer s' xs = Some (s', out') /\ Forall2 Qeq out' out.
Proof. intros Hc Hk Hb F H. eapply kbi_train_infer; eauto. apply kbi_reachable_room; [lia|exact F]. Qed.

(** the calibrated format also has room for the rounded value and, if negative, a sign bit *)
Lemma kif_calibrated_fits c reset s batches s' outs : wrap_trainable c ->
  Forall (Forall (kif_reachable c (kif_fz s))) batches ->
  kif_trace c reset s batches = Some (s', outs) ->
  forall x, In x (concat batches) ->
    fits_width (c_rm c) (kif_iz s') (kif_fz s') x /\ (round_f (c_rm c) (kif_fz s') x < 0 -> kif_k s' = true).
Proof.
  intros Hc F H x Hx. unfold kif_trace in H. set (s0 := if reset then kif_reset c s else s) in *.
  assert (Ef : kif_fz s0 = kif_fz s) by (unfold s0, kif_reset; destruct reset; [|reflexivity]; destruct (_ && _); reflexivity).
  apply in_concat in Hx. destruct Hx as (b & Hb & Hx).
  destruct (kif_run_trace_inv _ _ _ _ _ Hc H) as (Ef' & _).
  assert (Efz : kif_fz s' = kif_fz s) by (unfold kif_fz in *; congruence).
  assert (U : forall b, In b batches -> kif_uncut c (kif_fz s0) b).
  { intros b' Hb'. rewrite Ef. apply kif_reachable_uncut. rewrite Forall_forall in F. auto. }
  destruct (kif_run_trace_covers _ _ _ _ _ Hc U H b Hb x Hx) as [A B]. rewrite Efz. rewrite Ef in A, B.
  split; [unfold fits_width; lra|exact B].
Qed.

(** ** C11 for KIF: tracing and inference keep the constraint *)
Lemma satisfies_round c w : satisfies c w -> satisfies c (inject_Z (round_even w)).
Proof.
  assert (G : forall z, inject_Z z <= w -> inject_Z z <= inject_Z (round_even w)).
  { intros z H. rewrite <- Zle_Qle. apply round_even_ge_Z, H. }
  assert (L : forall z, w <= inject_Z z -> inject_Z (round_even w) <= inject_Z z).
  { intros z H. rewrite <- Zle_Qle. rewrite <- (round_even_inject z). apply round_even_mono, H. }
  destruct c as [[lo hi|v|lo|hi]|]; cbn [satisfies]; [|intros H; apply Qle_antisym; [apply L; lra|apply G; lra]| | |tauto].
  - intros [A B]. split; [apply G, A|apply L, B].
  - apply G.
  - apply L.
Qed.
Lemma satisfies_max c a b : satisfies c (inject_Z a) -> satisfies c (inject_Z b) -> satisfies c (inject_Z (Z.max a b)).
Proof. destruct (Z.max_spec a b) as [[_ ->]|[_ ->]]; auto. Qed.
Lemma kif_run_keeps c h : wrap_trainable c -> well_formed (c_ic c) -> Forall (fun p => fst p <> Train) h ->
  forall s s' outs, kif_run c s h = Some (s', outs) -> satisfies (c_ic c) (kif_i s) -> satisfies (c_ic c) (kif_i s').
Proof.
  intros Hc W F. induction F as [|[m xs] h Hm F IH]; cbn [kif_run]; intros s s' outs H S0; [congruence|].
  destruct (kif_call c m s xs) as [[s1 o1]|] eqn:E; [|discriminate].
  destruct (kif_run c s1 h) as [[s2 o2]|] eqn:E2; [|discriminate]. injection H as -> <-. apply (IH _ _ _ E2). clear IH E2.
  destruct m; [|contradiction (Hm eq_refl)|].
  - destruct Hc as [Ho Ht]. unfold kif_call in E. rewrite Ho, Ht in E. cbn [is_wrap andb] in E. injection E as <- _. exact S0.
  - destruct (kif_trace_step _ _ _ _ _ Hc E) as (mm & _ & _ & _ & Ei & Eii & _). rewrite Eii, Ei. apply satisfies_max.
    + apply satisfies_round, S0.
    + apply apply_cz_satisfies, W.
Qed.
Lemma kif_trace_constraint c s batches s' outs : wrap_trainable c -> well_formed (c_ic c) -> above_reset (c_ic c) -> batches <> [] ->
  kif_trace c true s batches = Some (s', outs) -> satisfies (c_ic c) (kif_i s').
Proof.
  intros Hc W A Nn H. unfold kif_trace in H. destruct batches as [|b bs]; [congruence|]. cbn [map kif_run] in H.
  destruct (kif_call c Trace _ b) as [[s1 o1]|] eqn:E; [|discriminate].
  destruct (kif_run c s1 _) as [[s2 o2]|] eqn:E2; [|discriminate]. injection H as -> <-.
  apply (kif_run_keeps c _ Hc W) in E2; [exact E2| |].
  - apply Forall_forall. intros p Hp. apply in_map_iff in Hp. destruct Hp as (x & <- & _). discriminate.
  - destruct (kif_trace_step _ _ _ _ _ Hc E) as (mm & _ & _ & _ & Ei & Eii & _). rewrite Eii, Ei.
    assert (R : kif_iz (kif_reset c s) = (-1000000000)%Z).
    { unfold kif_reset, kif_iz. destruct Hc as [-> ->]. cbn [is_wrap andb kif_i]. apply round_even_inject. }
    rewrite R. pose proof (apply_cz_satisfies (c_ic c) (minimal_i_xf mm (kif_fz (kif_reset c s))) W) as Sz.
    set (z := apply_cz (c_ic c) _) in *. destruct (Z.max_spec (-1000000000) z) as [[_ ->]|[Hz ->]]; [exact Sz|].
    destruct (c_ic c) as [[lo hi|v|lo|hi]|]; cbn [satisfies above_reset well_formed] in *; rewrite <- ?Zle_Qle in *; try lia; try exact I.
    assert (z = v) by (apply inject_Z_injective; exact Sz). apply inject_Z_injective. lia.
Qed.

(** ** C08: 22 bits is the most *)
Lemma kbi_wide b : (24 <= b)%Z -> minimal_i_xb 1048576 b = 20%Z.
Proof.
  intros Hb. unfold minimal_i_xb. destruct (Z.ltb_spec 0 b); [|lia].
  assert (P1 : 0 < pow2 (- b)) by apply pow2_pos.
  assert (P2 : pow2 (- b) <= pow2 (-24)) by (apply pow2_le; lia).
  change (pow2 (-24)) with (1 # 16777216) in P2. unfold keras_eps.
  apply ceil_log2_unique.
  - apply Qlt_shift_div_l; lra.
  - apply Qle_shift_div_r; [lra|]. change (pow2 20) with (1048576 # 1). lra.
  - change (pow2 (20 - 1)) with (524288 # 1). apply Qlt_shift_div_l; lra.
Qed.
Lemma kbi_wide_overflows c s : wrap_trainable c -> c_weight c = false -> c_ic c = None -> (24 <= kbi_bz s)%Z ->
  exists s' outs out, kbi_trace c true s [[1048576]] = Some (s', outs) /\ kbi_call c Infer s' [1048576] = Some (s', out) /\
    ~ Forall2 Qeq out (map (round_f (c_rm c) (kbi_fz s')) [1048576]).
Proof.
  intros Hc Hw Hi Hb. pose proof Hc as [Ho Ht]. unfold kbi_trace. cbn [map kbi_run].
  set (s0 := kbi_reset c s).
  assert (B0 : kbi_bz s0 = kbi_bz s) by (unfold s0, kbi_reset; rewrite Ho, Ht; reflexivity).
  assert (I0 : kbi_iz s0 = (-1000000000)%Z) by (unfold s0, kbi_reset; rewrite Ho, Ht; apply round_even_inject).
  destruct (kbi_call c Trace s0 [1048576]) as [[s1 o1]|] eqn:E.
  2:{ unfold kbi_call in E. rewrite Ho, Ht in E. discriminate. }
  exists s1, [o1]. destruct (kbi_trace_step _ _ _ _ _ Hc E) as (m & Em & Eb & Ei & Eii & Eo & Ek).
  cbn in Em. injection Em as <-.
  assert (I1 : kbi_iz s1 = 20%Z).
  { rewrite Ei, Hi, B0, I0. cbn [apply_cz]. change (Qabs 1048576) with 1048576. rewrite (kbi_wide _ Hb). reflexivity. }
  assert (B1 : kbi_bz s1 = kbi_bz s) by (rewrite <- B0; unfold kbi_bz; rewrite Eb; reflexivity).
  eexists. split; [reflexivity|]. split.
  - unfold kbi_call. rewrite Ho, Ht, Hw. cbn [is_wrap andb map is_train]. reflexivity.
  - cbn [map]. rewrite I1.
    assert (Hf : kbi_fz s1 = (kbi_bz s - 20)%Z) by (unfold kbi_fz; rewrite I1, B1; reflexivity). rewrite Hf.
    assert (R : round_f (c_rm c) (kbi_bz s - 20) 1048576 == 1048576).
    { apply (round_f_fix _ _ (2 ^ (kbi_bz s))%Z). rewrite <- pow2_inject by lia. rewrite <- pow2_add.
      replace (kbi_bz s + - (kbi_bz s - 20))%Z with 20%Z by lia. reflexivity. }
    destruct (inference_between (c_rm c) WRAP (kbi_k s1) 20 (kbi_bz s - 20) 1048576) as [_ U]; [destruct (kbi_k s1); cbn [kz]; lia|].
    set (y := base_call (c_rm c) WRAP false (kbi_k s1) 20 (kbi_bz s - 20) 1048576) in *.
    intros F. inversion F as [|? ? ? ? A _].
    assert (U2 : 1048576 <= q_max 20 (kbi_bz s - 20)) by (rewrite <- R at 1; rewrite <- A; exact U).
    unfold q_max in U2. change (pow2 20) with (1048576 # 1) in U2. pose proof (pow2_pos (- (kbi_bz s - 20))). lra.
Qed.
