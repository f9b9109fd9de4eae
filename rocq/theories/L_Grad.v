(** Lemmas for C64: two runs of an EBOPs computation, on related numbers, give related results. *)
From Verif Require Import Num M_Fixed M_State M_Mapper M_Contr M_Ebops M_Cebops M_Grad.

Definition orel {A B} (R : A -> B -> Prop) (x : option A) (y : option B) : Prop :=
  match x, y with Some a, Some b => R a b | None, None => True | _, _ => False end.
Definition trel {A B} (R : A -> B -> Prop) (t : tensor A) (u : tensor B) : Prop :=
  shape t = shape u /\ forall i, R (at_ t i) (at_ u i).
Lemma orel_bind {A B C D} (R : A -> B -> Prop) (S : C -> D -> Prop) x y f g :
  orel R x y -> (forall a b, R a b -> orel S (f a) (g b)) -> orel S (bind x f) (bind y g).
Proof. destruct x, y; cbn; try contradiction; auto. Qed.
Lemma orel_impl {A B} (R S : A -> B -> Prop) x y : (forall a b, R a b -> S a b) -> orel R x y -> orel S x y.
Proof. destruct x, y; cbn; auto. Qed.
Lemma broadcast_rel {A B} (R : A -> B -> Prop) t u sh : trel R t u ->
  orel (fun a b => trel R a b /\ shape a = sh) (broadcast_to t sh) (broadcast_to u sh).
Proof.
  intros [H1 H2]. unfold broadcast_to. rewrite H1. destruct (bcast_ok _ _); cbn; [|exact I].
  repeat split. intros i. apply H2.
Qed.
Lemma trel_impl {A B} (R S : A -> B -> Prop) t u : (forall a b, R a b -> S a b) -> trel R t u -> trel S t u.
Proof. intros H [H1 H2]. split; auto. Qed.

Section Sums.
  Context {A B : Type} (NA : arith A) (NB : arith B) (RC : A -> B -> Prop).
  Context (H0 : RC (a_cst NA 0) (a_cst NB 0)).
  Context (Hadd : forall x x' y y', RC x x' -> RC y y' -> RC (a_add NA x y) (a_add NB x' y')).
  Context (Hsc : forall c x x', 0 <= c -> RC x x' -> RC (g_scale NA c x) (g_scale NB c x')).

  Lemma csum_rel {I} (f : I -> A) (g : I -> B) l : (forall i, In i l -> RC (f i) (g i)) ->
    RC (csum (a_cst NA 0) (a_add NA) (map f l)) (csum (a_cst NB 0) (a_add NB) (map g l)).
  Proof.
    induction l as [|x l IH]; intros H; [exact H0|]. cbn [map csum fold_right]. apply Hadd; [apply H; left; reflexivity|].
    apply IH. intros i Hi. apply H. right. exact Hi.
  Qed.
  Lemma gsum_rel {I} (f : I -> A) (g : I -> B) l : (forall i, In i l -> RC (f i) (g i)) ->
    RC (g_sum NA (map f l)) (g_sum NB (map g l)).
  Proof. exact (csum_rel f g l). Qed.
  Lemma gsum_app_rel x x' y y' : RC (g_sum NA x) (g_sum NB x') -> Forall2 RC y y' -> RC (g_sum NA (y ++ x)) (g_sum NB (y' ++ x')).
  Proof. intros H. induction 1; cbn [app g_sum fold_right]; [exact H|]. apply Hadd; assumption. Qed.
  Lemma gsum_flat_rel {I} (f : I -> list A) (g : I -> list B) l : (forall i, In i l -> Forall2 RC (f i) (g i)) ->
    RC (g_sum NA (flat_map f l)) (g_sum NB (flat_map g l)).
  Proof.
    induction l as [|x l IH]; intros H; [exact H0|]. cbn [flat_map]. apply gsum_app_rel; [|apply H; left; reflexivity].
    apply IH. intros i Hi. apply H. right. exact Hi.
  Qed.
  Lemma tsum_rel t t' : trel RC t t' -> RC (g_tsum NA t) (g_tsum NB t').
  Proof. intros [H1 H2]. unfold g_tsum. rewrite H1. apply gsum_rel. auto. Qed.
  Lemma inv_nonneg n : 0 <= / nQ n.
  Proof. unfold nQ. destruct n; [discriminate|]. apply Qlt_le_weak, Qinv_lt_0_compat. reflexivity. Qed.
  Lemma nQ_ge n : 0 <= nQ n.
  Proof. unfold nQ. change 0 with (inject_Z 0). rewrite <- Zle_Qle. lia. Qed.
  Lemma mean_rel t t' : trel RC t t' -> RC (g_mean NA t) (g_mean NB t').
  Proof. intros H. unfold g_mean. rewrite (proj1 H). apply Hsc; [apply inv_nonneg|apply tsum_rel, H]. Qed.
  Lemma factor_nonneg pf n : 0 <= dense_factor pf n.
  Proof. unfold dense_factor. change 0 with (inject_Z 0). rewrite <- Zle_Qle. destruct (Z.ltb_spec pf 0); lia. Qed.
  Lemma conv_factor_nonneg pf n : 0 <= conv_factor pf n.
  Proof. unfold conv_factor. change 0 with (inject_Z 0). rewrite <- Zle_Qle. destruct (Z.leb_spec pf 0); lia. Qed.
  Lemma mulnn a b : 0 <= a -> 0 <= b -> 0 <= a * b. Proof. intros. nra. Qed.

  Section Contractions.
  Context (RA RB : A -> B -> Prop).
  Context (Hmul : forall x x' y y', RA x x' -> RB y y' -> RC (a_mul NA x y) (a_mul NB x' y')).

  Lemma matmul_rel n x x' k k' idx : (forall i, RA (x i) (x' i)) -> (forall i, RB (k i) (k' i)) ->
    RC (matmul (a_cst NA 0) (a_add NA) (a_mul NA) n x k idx) (matmul (a_cst NB 0) (a_add NB) (a_mul NB) n x' k' idx).
  Proof. intros Hx Hk. unfold matmul. apply csum_rel. intros i _. apply Hmul; auto. Qed.
  Lemma sum_over_rel dims ls (F : (nat -> nat) -> A) (G : (nat -> nat) -> B) : (forall e, RC (F e) (G e)) -> forall e,
    RC (sum_over (a_cst NA 0) (a_add NA) dims ls F e) (sum_over (a_cst NB 0) (a_add NB) dims ls G e).
  Proof. intros H. induction ls as [|l ls IH]; intros e; cbn [sum_over]; [apply H|]. apply csum_rel. intros v _. apply IH. Qed.
  Lemma einsum_rel dims li lk lo x x' k k' idx : (forall i, RA (x i) (x' i)) -> (forall i, RB (k i) (k' i)) ->
    RC (einsum (a_cst NA 0) (a_add NA) (a_mul NA) dims li lk lo x k idx) (einsum (a_cst NB 0) (a_add NB) (a_mul NB) dims li lk lo x' k' idx).
  Proof. intros Hx Hk. unfold einsum. apply sum_over_rel. intros e. apply Hmul; auto. Qed.
  Lemma map_rel {I} (f : I -> A) (g : I -> B) l : (forall i, In i l -> RC (f i) (g i)) -> Forall2 RC (map f l) (map g l).
  Proof.
    induction l as [|x l IH]; intros H; cbn [map]; constructor; [apply H; left; reflexivity|].
    apply IH. intros i Hi. apply H. right. exact Hi.
  Qed.
  Lemma conv_rel pad cs ci co x x' k k' idx o : (forall i, RA (x i) (x' i)) -> (forall i, RB (k i) (k' i)) ->
    RC (conv (a_cst NA 0) (a_add NA) (a_mul NA) pad cs ci co x k idx o) (conv (a_cst NB 0) (a_add NB) (a_mul NB) pad cs ci co x' k' idx o).
  Proof.
    intros Hx Hk. unfold conv. apply gsum_flat_rel. intros t _. apply map_rel. intros j _.
    destruct (c_positions pad cs idx t); [apply Hmul; auto|exact H0].
  Qed.

  Lemma dense_rel sh units pf iq iq' kq kq' bq bq' : trel RA iq iq' -> trel RB kq kq' -> orel (trel RC) bq bq' ->
    orel RC (g_dense NA sh units pf iq kq bq) (g_dense NB sh units pf iq' kq' bq').
  Proof.
    intros Hi Hk Hb. unfold g_dense.
    apply (orel_bind _ _ _ _ _ _ (broadcast_rel RA iq iq' sh Hi)). intros bi bi' [[_ Bi] _].
    apply (orel_bind _ _ _ _ _ _ (broadcast_rel RB kq kq' _ Hk)). intros bk bk' [[_ Bk] _].
    apply (orel_bind RC).
    - assert (E : RC (g_tsum NA (mk_tensor (removelast sh ++ [units]) (matmul (a_cst NA 0) (a_add NA) (a_mul NA) (last sh 0%nat) (at_ bi) (at_ bk))))
                     (g_tsum NB (mk_tensor (removelast sh ++ [units]) (matmul (a_cst NB 0) (a_add NB) (a_mul NB) (last sh 0%nat) (at_ bi') (at_ bk'))))).
      { apply tsum_rel. split; [reflexivity|]. intros i. apply matmul_rel; assumption. }
      destruct bq, bq'; cbn [orel] in Hb; try contradiction; [|exact E].
      apply (orel_bind _ _ _ _ _ _ (broadcast_rel RC _ _ [units] Hb)). intros bb bb' [Bb _]. cbn [orel].
      apply Hadd; [exact E|]. apply Hsc; [apply mulnn; apply nQ_ge|]. apply mean_rel, Bb.
    - intros a b H. cbn [orel]. apply Hsc; [apply inv_nonneg|]. apply Hsc; [apply factor_nonneg|exact H].
  Qed.
  Lemma einsum_dense_rel li lk lo sh ksh osh pf iq iq' kq kq' bq bq' : trel RA iq iq' -> trel RB kq kq' ->
    orel (fun a b => fst a = fst b /\ trel RC (snd a) (snd b)) bq bq' ->
    orel RC (g_einsum_dense NA li lk lo sh ksh osh pf iq kq bq) (g_einsum_dense NB li lk lo sh ksh osh pf iq' kq' bq').
  Proof.
    intros Hi Hk Hb. unfold g_einsum_dense.
    apply (orel_bind _ _ _ _ _ _ (broadcast_rel RA iq iq' sh Hi)). intros bi bi' [[_ Bi] _].
    apply (orel_bind _ _ _ _ _ _ (broadcast_rel RB kq kq' _ Hk)). intros bk bk' [[_ Bk] _].
    apply (orel_bind RC).
    - pose proof (einsum_rel (einsum_dims li sh lk ksh) li lk [] (at_ bi) (at_ bi') (at_ bk) (at_ bk') [] Bi Bk) as E.
      destruct bq as [[bsh b]|], bq' as [[bsh' b']|]; cbn [orel fst snd] in Hb; try contradiction; [|exact E]. destruct Hb as [<- Hb].
      apply (orel_bind _ _ _ _ _ _ (broadcast_rel RC _ _ bsh Hb)). intros bb bb' [Bb _]. cbn [orel].
      apply Hadd; [exact E|]. apply Hsc; [apply nQ_ge|]. apply mean_rel, Bb.
    - intros a b H. cbn [orel]. apply Hsc; [apply inv_nonneg|]. apply Hsc; [apply factor_nonneg|exact H].
  Qed.
  Lemma gconv_rel pad cs g ci co pf iq iq' kq kq' bq bq' : trel RA iq iq' -> trel RB kq kq' -> orel (trel RC) bq bq' ->
    orel RC (g_conv NA pad cs g ci co pf iq kq bq) (g_conv NB pad cs g ci co pf iq' kq' bq').
  Proof.
    intros Hi Hk Hb. unfold g_conv.
    apply (orel_bind _ _ _ _ _ _ (broadcast_rel RA iq iq' _ Hi)). intros bi bi' [[_ Bi] _].
    apply (orel_bind _ _ _ _ _ _ (broadcast_rel RB kq kq' _ Hk)). intros bk bk' [[_ Bk] _].
    match goal with |- context [g_scale NA ?c (g_sum NA ?a)] => match goal with |- context [g_scale NB _ (g_sum NB ?b)] =>
      assert (E : RC (g_scale NA c (g_sum NA a)) (g_scale NB c (g_sum NB b))) end end.
    { apply Hsc; [apply mulnn; [apply conv_factor_nonneg|apply inv_nonneg]|]. apply gsum_flat_rel. intros i _. apply map_rel. intros o _. apply conv_rel; assumption. }
    destruct bq, bq'; cbn [orel] in Hb; try contradiction; [|exact E].
    apply (orel_bind _ _ _ _ _ _ (broadcast_rel RC _ _ _ Hb)). intros bb bb' [Bb _]. cbn [orel].
    apply Hadd; [exact E|]. apply Hsc; [apply nQ_ge|]. apply mean_rel, Bb.
  Qed.
  Lemma bn_rel sh axis iq iq' kq kq' bq bq' : trel RA iq iq' -> trel RB kq kq' -> trel RC bq bq' ->
    orel RC (g_bn NA sh axis iq kq bq) (g_bn NB sh axis iq' kq' bq').
  Proof.
    intros Hi Hk Hb. unfold g_bn.
    apply (orel_bind _ _ _ _ _ _ (broadcast_rel RA iq iq' _ Hi)). intros bi bi' [[_ Bi] _].
    apply (orel_bind _ _ _ _ _ _ (broadcast_rel RB kq kq' _ Hk)). intros bk bk' [[_ Bk] _].
    apply (orel_bind _ _ _ _ _ _ (broadcast_rel RC _ _ _ Hb)). intros bb bb' [Bb _]. cbn [orel].
    apply Hadd; [apply gsum_rel; intros; apply Hmul; auto|]. apply Hsc; [apply nQ_ge|]. apply mean_rel, Bb.
  Qed.
  Lemma total_einsum_rel li lk x x' k k' : trel RA x x' -> trel RB k k' ->
    orel RC (g_total_einsum NA li lk x k) (g_total_einsum NB li lk x' k').
  Proof.
    intros [Hx Bx] [Hk Bk]. unfold g_total_einsum. rewrite Hx, Hk. destruct (einsum_fits _ _ _ _); cbn [orel]; [|exact I].
    apply einsum_rel; assumption.
  Qed.
  Lemma sum_matmul_rel x x' k k' lead n u : trel RA x x' -> trel RB k k' ->
    RC (g_sum_matmul NA x k lead n u) (g_sum_matmul NB x' k' lead n u).
  Proof. intros [_ Bx] [_ Bk]. apply tsum_rel. split; [reflexivity|]. intros i. apply matmul_rel; assumption. Qed.
  End Contractions.

  Lemma mha_rel (Rq Rk Rv Ra : A -> B -> Prop) axes heads dq d2 qs ks vs pf bq bq' bk bk' bv bv' ba ba' :
    (forall x x' y y', Rq x x' -> Rk y y' -> RC (a_mul NA x y) (a_mul NB x' y')) ->
    (forall x x' y y', Ra x x' -> Rv y y' -> RC (a_mul NA x y) (a_mul NB x' y')) ->
    trel Rq bq bq' -> trel Rk bk bk' -> trel Rv bv bv' -> trel Ra ba ba' ->
    orel RC (g_mha NA axes heads dq d2 qs ks vs pf bq bk bv ba) (g_mha NB axes heads dq d2 qs ks vs pf bq' bk' bv' ba').
  Proof.
    intros M1 M2 Hq Hk Hv Ha. unfold g_mha.
    apply (orel_bind _ _ _ _ _ _ (broadcast_rel Rq _ _ _ Hq)). intros x1 y1 [B1 _].
    apply (orel_bind _ _ _ _ _ _ (broadcast_rel Rk _ _ _ Hk)). intros x2 y2 [B2 _].
    apply (orel_bind _ _ _ _ _ _ (broadcast_rel Rv _ _ _ Hv)). intros x3 y3 [B3 _].
    apply (orel_bind _ _ _ _ _ _ (broadcast_rel Ra _ _ _ Ha)). intros x4 y4 [B4 _].
    apply (orel_bind RC); [apply (total_einsum_rel Rq Rk); assumption|]. intros e e' He.
    apply (orel_bind RC); [apply (total_einsum_rel Ra Rv); assumption|]. intros e2 e2' He2. cbn [orel].
    destruct (Z.ltb_spec 0 pf); [apply Hsc; [change 0 with (inject_Z 0); rewrite <- Zle_Qle; lia|]|]; apply Hadd; assumption.
  Qed.
End Sums.

(** layers whose operands all stand in the same relation *)
Definition pf_ok (l : layer) : Prop :=
  match l with LSimpleRNN _ _ _ pf | LGRU _ _ _ _ pf => (-1 <= pf)%Z | _ => True end.

Section Uniform.
  (** RB: relation of the operands (bits of the quantizers); R: of all results *)
  Context {A B : Type} (NA : arith A) (NB : arith B) (RB R : A -> B -> Prop).
  Context (HB : forall x x', RB x x' -> R x x').
  Context (HB0 : RB (a_cst NA 0) (a_cst NB 0)).
  Context (Hcst : forall c, 0 <= c -> R (a_cst NA c) (a_cst NB c)).
  Context (Hadd : forall x x' y y', R x x' -> R y y' -> R (a_add NA x y) (a_add NB x' y')).
  Context (Hmul : forall x x' y y', R x x' -> R y y' -> R (a_mul NA x y) (a_mul NB x' y')).
  Context (Hmax : forall x x' y y', R x x' -> R y y' -> R (a_max2 NA x y) (a_max2 NB x' y')).
  Context (Hexp : forall x x', RB x x' -> R (a_exp2 NA x) (a_exp2 NB x')).
  Context (Haccum : forall axes t t', trel R t t' -> R (g_accum NA axes t) (g_accum NB axes t')).
  Context (Hexcl : forall idx b0 b0' rest rest', trel R b0 b0' -> Forall2 (trel R) rest rest' ->
    R (a_sub NA (g_sum NA (map (fun i => fold_left (a_add NA) (map (fun b => at_ b i) (b0 :: rest)) (a_cst NA 0)) idx))
                (g_sum NA (map (fun i => fold_left (a_min2 NA) (map (fun b => at_ b i) rest) (at_ b0 i)) idx)))
      (a_sub NB (g_sum NB (map (fun i => fold_left (a_add NB) (map (fun b => at_ b i) (b0' :: rest')) (a_cst NB 0)) idx))
                (g_sum NB (map (fun i => fold_left (a_min2 NB) (map (fun b => at_ b i) rest') (at_ b0' i)) idx)))).

  Lemma u0 : R (a_cst NA 0) (a_cst NB 0). Proof. apply Hcst. apply Qle_refl. Qed.
  Lemma usc c x x' : 0 <= c -> R x x' -> R (g_scale NA c x) (g_scale NB c x').
  Proof. intros Hc H. unfold g_scale. apply Hmul; [exact H|apply Hcst, Hc]. Qed.
  Local Hint Resolve u0 usc : core.
  Ltac bcast H := apply (orel_bind _ _ _ _ _ _ (broadcast_rel R _ _ _ H)); let a := fresh "x" in let b := fresh "y" in let E := fresh "P" in intros a b [E _].

  Lemma all_rel sh qs qs' : Forall2 (trel R) qs qs' -> orel (Forall2 (trel R)) (g_all qs sh) (g_all qs' sh).
  Proof.
    induction 1 as [|q q' qs qs' Hq _ IH]; cbn [g_all]; [constructor|]. bcast Hq.
    apply (orel_bind _ _ _ _ _ _ IH). intros bs bs' Hbs. cbn [orel]. constructor; assumption.
  Qed.
  Lemma excl_rel sh qs qs' : Forall2 (trel R) qs qs' -> orel R (g_excl_max NA sh qs) (g_excl_max NB sh qs').
  Proof.
    intros H. unfold g_excl_max. apply (orel_bind _ _ _ _ _ _ (all_rel sh qs qs' H)). intros bs bs' Hbs.
    destruct Hbs; cbn [orel]; [exact I|]. apply Hexcl; assumption.
  Qed.
  Lemma fold_mul_rel i rest rest' : Forall2 (trel R) rest rest' -> forall a a', R a a' ->
    R (fold_left (a_mul NA) (map (fun b => at_ b i) rest) a) (fold_left (a_mul NB) (map (fun b => at_ b i) rest') a').
  Proof. induction 1 as [|x y l l' [_ Hx] _ IH]; intros a a' Ha; cbn [map fold_left]; [exact Ha|]. apply IH, Hmul; auto. Qed.

  Lemma softmax_rel axes sh stable pf iq iq' ei ei' eo eo' io io' : orel (trel RB) iq iq' -> trel R ei ei' -> trel R eo eo' -> trel R io io' ->
    orel R (g_softmax NA axes sh stable pf iq ei eo io) (g_softmax NB axes sh stable pf iq' ei' eo' io').
  Proof.
    intros Hi Hei Heo Hio. unfold g_softmax.
    apply (orel_bind (trel RB)).
    { destruct iq, iq'; cbn [orel] in Hi; try contradiction.
      - eapply orel_impl; [|apply (broadcast_rel RB _ _ sh Hi)]. intros a b [H _]. exact H.
      - cbn [orel]. split; [reflexivity|]. intros i. cbn [at_]. exact HB0. }
    intros ib ib' Hib. assert (HibR : trel R ib ib') by (eapply trel_impl; [exact HB|exact Hib]). bcast Heo. bcast Hio.
    apply (orel_bind R).
    { destruct stable; [|apply u0]. destruct iq, iq'; cbn [orel] in Hi; try contradiction; [cbn [orel]; apply tsum_rel; auto|].
      bcast Hei. cbn [orel]. apply tsum_rel; auto. }
    intros s s' Hs. cbn [orel]. apply usc.
    { apply mulnn; [|apply inv_nonneg]. destruct (Z.ltb_spec 0 pf); [change 0 with (inject_Z 0); rewrite <- Zle_Qle; lia|apply nQ_ge]. }
    assert (E : R (a_add NA (a_add NA s (g_accum NA axes x)) (g_sum NA (map (fun i => a_mul NA (at_ x i) (at_ x0 (bcast_index (accum_shape axes sh) i))) (indices sh))))
                  (a_add NB (a_add NB s' (g_accum NB axes y)) (g_sum NB (map (fun i => a_mul NB (at_ y i) (at_ y0 (bcast_index (accum_shape axes sh) i))) (indices sh))))).
    { apply Hadd; [apply Hadd; [exact Hs|apply Haccum; exact P]|]. apply gsum_rel; auto. intros i _. apply Hmul; [apply P|apply P0]. }
    destruct stable; [exact E|]. apply Hadd; [exact E|]. apply usc; [discriminate|]. apply gsum_rel; auto. intros i _.
    apply Hmul; [apply Hexp, Hib|apply P].
  Qed.
  Lemma rnn_factor_nonneg pf n : (-1 <= pf)%Z -> 0 <= rnn_factor pf n.
  Proof. intros H. unfold rnn_factor. change 0 with (inject_Z 0). rewrite <- Zle_Qle. destruct (Z.eqb_spec pf (-1)); lia. Qed.
  Lemma simple_rel steps fe units pf iq iq' kq kq' rkq rkq' st st' bq bq' : (-1 <= pf)%Z ->
    trel R iq iq' -> trel R kq kq' -> trel R rkq rkq' -> trel R st st' -> orel (trel R) bq bq' ->
    orel R (g_simple_rnn NA steps fe units pf iq kq rkq st bq) (g_simple_rnn NB steps fe units pf iq' kq' rkq' st' bq').
  Proof.
    intros Hpf Hi Hk Hr Hs Hb. unfold g_simple_rnn. apply (orel_bind R); [|intros a b H; cbn [orel]; apply usc; [apply rnn_factor_nonneg, Hpf|exact H]].
    unfold g_simple_cell. bcast Hi. bcast Hk. bcast Hs. bcast Hr.
    match goal with |- context [a_add NA ?a ?b] => match goal with |- context [a_add NB ?c ?d] => assert (E : R (a_add NA a b) (a_add NB c d)) end end.
    { apply Hadd; apply (sum_matmul_rel NA NB R) with (RA := R) (RB := R); auto. }
    destruct bq, bq'; cbn [orel] in Hb; try contradiction; [|exact E].
    bcast Hb. cbn [orel]. apply Hadd; [exact E|]. apply usc; [apply nQ_ge|]. apply mean_rel; auto.
  Qed.
  Lemma gru_rel steps fe units ra pf iq iq' sq sq' kq kq' rkq rkq' rhq rhq' praq praq' paq paq' bq bq' : (-1 <= pf)%Z ->
    trel R iq iq' -> trel R sq sq' -> trel R kq kq' -> trel R rkq rkq' -> trel R rhq rhq' -> trel R praq praq' -> trel R paq paq' -> orel (trel R) bq bq' ->
    orel R (g_gru NA steps fe units ra pf iq sq kq rkq rhq praq paq bq) (g_gru NB steps fe units ra pf iq' sq' kq' rkq' rhq' praq' paq' bq').
  Proof.
    intros Hpf Hi Hs Hk Hr Hh Hpr Hpa Hb. unfold g_gru.
    bcast Hs. bcast Hi. bcast Hk. bcast Hr. bcast Hh. bcast Hpr.
    apply (orel_bind R).
    { destruct bq, bq'; cbn [orel] in Hb; try contradiction; [|apply u0]. bcast Hb. cbn [orel]. destruct ra; [apply tsum_rel; auto|apply P5]. }
    intros bb bb' Hbb. bcast Hpa. cbn [orel]. apply usc; [apply rnn_factor_nonneg, Hpf|].
    assert (SM : forall a a' b b' lead n u, trel R a a' -> trel R b b' -> R (g_sum_matmul NA a b lead n u) (g_sum_matmul NB a' b' lead n u)).
    { intros. apply (sum_matmul_rel NA NB R) with (RA := R) (RB := R); auto. }
    repeat apply Hadd; auto.
    - destruct ra; apply SM; auto.
    - destruct ra.
      + apply gsum_rel; auto. intros j _. apply Hmul; [apply P4|apply P3].
      + apply Hadd.
        * apply SM; [exact P3|]. split; [reflexivity|]. intros i. cbn [at_]. destruct i as [|a [|b [|]]]; try apply u0. apply P2.
        * apply gsum_rel; auto. intros j _. apply Hmul; [apply P4|apply P].
    - apply gsum_rel; auto. intros j _. apply Hmul; [apply P4|]. apply Hadd; [apply P5|apply P].
  Qed.

  Theorem layer_rel l qs qs' : pf_ok l -> Forall2 (trel RB) qs qs' -> orel R (g_ebops NA l qs) (g_ebops NB l qs').
  Proof.
    intros Hpf HRB. assert (H : Forall2 (trel R) qs qs') by (clear -HRB HB; induction HRB; constructor; [eapply trel_impl; [exact HB|eassumption]|assumption]).
    assert (LL : forall sh iq iq' oq oq', trel RB iq iq' -> trel R oq oq' -> orel R (g_lut NA sh iq oq) (g_lut NB sh iq' oq')).
    { intros sh iq iq' oq oq' Hi Ho. unfold g_lut. apply (orel_bind _ _ _ _ _ _ (broadcast_rel RB _ _ _ Hi)). intros a b [Pi _]. bcast Ho. cbn [orel]. apply usc; [discriminate|].
      apply gsum_rel; auto. intros i _. apply Hmul; [apply Hexp, Pi|apply P]. }
    destruct l; cbn [g_ebops].
    8: { (* LMaximum *) unfold g_maximum. apply (orel_bind _ _ _ _ _ _ (excl_rel sh qs qs' H)). intros e e' He. cbn [orel].
      apply Hmul; [apply Hcst; discriminate|exact He]. }
    7: { unfold g_add. apply (orel_bind _ _ _ _ _ _ (excl_rel sh qs qs' H)). intros e e' He. cbn [orel]. apply usc; [discriminate|exact He]. }
    7: { unfold g_multiply. apply (orel_bind _ _ _ _ _ _ (all_rel sh qs qs' H)). intros bs bs' Hbs. destruct Hbs as [|b0 b0' r r' [_ Hb] Hr]; cbn [orel]; [exact I|].
      apply gsum_rel; auto. intros i _. apply fold_mul_rel; auto. }
    all: clear H; rename HRB into H; assert (TR : forall t u, trel RB t u -> trel R t u) by (intros t u; apply trel_impl; exact HB).
    all: repeat match goal with H : Forall2 _ ?a ?b |- _ => is_var a; destruct H as [|? ? ? ? ?Hq H]; cbn [g_ebops orel]; try exact I end.
    all: try exact I.
    - apply (dense_rel NA NB R) with (RA := R) (RB := R); cbn; auto.
    - apply (dense_rel NA NB R) with (RA := R) (RB := R); cbn; auto.
    - apply (einsum_dense_rel NA NB R) with (RA := R) (RB := R); cbn; auto.
    - apply (einsum_dense_rel NA NB R) with (RA := R) (RB := R); cbn; auto.
    - apply (gconv_rel NA NB R) with (RA := R) (RB := R); cbn; auto.
    - apply (gconv_rel NA NB R) with (RA := R) (RB := R); cbn; auto.
    - apply (bn_rel NA NB R) with (RA := R) (RB := R); cbn; auto.
    - apply (mha_rel NA NB R) with (Rq := R) (Rk := R) (Rv := R) (Ra := R); auto.
    - (* LSum *) unfold g_qsum. apply TR in Hq; bcast Hq. cbn [orel]. apply usc; [discriminate|]. apply Haccum. exact P.
    - unfold g_subtract. apply TR in Hq; bcast Hq. apply TR in Hq0; bcast Hq0. cbn [orel]. apply gsum_rel; auto. intros i _. apply Hmax; [apply P|apply P0].
    - unfold g_pool. apply TR in Hq; bcast Hq. cbn [orel]. apply usc; [apply inv_nonneg|]. apply usc; [apply conv_factor_nonneg|].
      apply tsum_rel; auto.
    - apply LL; auto.
    - apply softmax_rel; cbn; auto.
    - apply softmax_rel; cbn; auto.
    - apply simple_rel; cbn; auto.
    - apply simple_rel; cbn; auto.
    - apply gru_rel; cbn; auto.
    - apply gru_rel; cbn; auto.
  Qed.
End Uniform.
