(** Lemmas for C61: layers over two arithmetics, one refining the other. *)
From Coq Require Import Permutation.
From Verif Require Import Num M_Fixed L_Fixed M_State M_Wrapper M_Mapper S_Mapper L_Mapper M_Contr M_Ebops L_Ebops M_Pow2 M_Patch L_Patch M_Ops L_Ops M_Mirror L_Mirror M_Trace L_Trace M_Net S_Net L_Net L_Net2 L_Net3 L_Net4 L_Net5 M_Causal L_Causal M_Calib S_Ops S_Calib L_Calib L_Calib2 M_FloatNet S_FloatNet L_FloatNum L_FloatQuant.
Local Open Scope list_scope.

Definition teq (t t' : term) : Prop := match t, t' with Val c, Val c' => c == c' | Mul a b, Mul a' b' => a == a' /\ b == b' | _, _ => False end.
(** what [A] computes, [B] computes too, on equal values *)
Definition refines (A B : arith) : Prop :=
  (forall i l l' v, Forall2 teq l l' -> a_sum A i l = Some v -> exists v', a_sum B i l' = Some v' /\ v == v') /\
  (forall x x' v, x == x' -> a_rnd A x = Some v -> exists v', a_rnd B x' = Some v' /\ v == v') /\
  (forall rm om k i f x x' v, x == x' -> a_quant A rm om k i f x = Some v -> exists v', a_quant B rm om k i f x' = Some v' /\ v == v').

(** ** the checked arithmetic refines binary32 and the exact arithmetic *)
Lemma teq_vals l l' : Forall2 teq l l' -> Forall2 Qeq (map tval l) (map tval l').
Proof.
  induction 1 as [|t t' l l' H _ IH]; cbn [map]; constructor; [|exact IH]. destruct t, t'; cbn [teq tval] in *; try contradiction; [exact H|]. destruct H as [-> ->]. reflexivity.
Qed.
Lemma fits_comp e l l' : Forall2 Qeq l l' -> fits e l -> fits e l'.
Proof.
  intros F (H1 & H2 & H3). split; [exact H1|]. split.
  - clear H3. induction F as [|x y l l' E F IH]; [constructor|]. inversion H2; subst. constructor; [rewrite <- E; assumption|apply IH; assumption].
  - eapply Qle_trans; [|exact H3]. clear - F. induction F as [|x y l l' E F IH]; [apply Qle_refl|]. cbn [map]. rewrite !qsum_cons. rewrite E. lra.
Qed.
Lemma fits_perm e l l' : Permutation l l' -> fits e l -> fits e l'.
Proof.
  intros P (H1 & H2 & H3). split; [exact H1|]. split; [exact (Permutation_Forall P H2)|]. rewrite <- (qsum_perm _ _ (Permutation_map Qabs P)). exact H3.
Qed.
Lemma checked_float ord : (forall i l, Permutation (fterms (ord i l)) l) -> refines checked_arith (float_arith ord).
Proof.
  intros P. split; [|split].
  - intros i l l' v F H. cbn [a_sum checked_arith float_arith] in *. cbv zeta in H. destruct (sum_fits (map tval l)) eqn:S; [|discriminate]. apply some_inj in H. subst v.
    destruct (sum_fits_spec _ S) as (e & Fe). pose proof (teq_vals _ _ F) as FV. apply (fits_comp e _ _ FV) in Fe.
    pose proof (Permutation_map tval (Permutation_sym (P i l'))) as PV. apply (fits_perm e _ _ PV) in Fe.
    destruct (feval_exact e _ Fe) as (v' & E & V). exists v'. split; [exact E|]. rewrite V, <- (qsum_perm _ _ PV). apply qsum_Forall2, FV.
  - intros x x' v E H. cbn [a_rnd checked_arith float_arith] in *. destruct (carried 24 x) eqn:C; [|discriminate]. apply some_inj in H. subst v.
    destruct (fl_carried' x x' C (Qeq_sym _ _ E)) as (v' & F & V). exists v'. split; [exact F|]. symmetry. exact V.
  - intros rm om k i f x x' v E H. cbn [a_quant checked_arith float_arith] in *. destruct (quant_fits rm om k i f x) eqn:C; [|discriminate]. apply some_inj in H. subst v.
    destruct (quant_exact rm om k i f x x' C (Qeq_sym _ _ E)) as (v' & F & V). exists v'. split; [exact F|]. symmetry. exact V.
Qed.
Lemma checked_exact : refines checked_arith exact_arith.
Proof.
  split; [|split].
  - intros i l l' v F H. cbn [a_sum checked_arith exact_arith] in *. cbv zeta in H. destruct (sum_fits (map tval l)); [|discriminate]. apply some_inj in H. subst v.
    eexists. split; [reflexivity|]. apply qsum_Forall2, teq_vals, F.
  - intros x x' v E H. cbn [a_rnd checked_arith exact_arith] in *. destruct (carried 24 x); [|discriminate]. apply some_inj in H. subst v. eexists. split; [reflexivity|exact E].
  - intros rm om k i f x x' v E H. cbn [a_quant checked_arith exact_arith] in *. destruct (quant_fits rm om k i f x); [|discriminate]. apply some_inj in H. subst v. eexists. split; [reflexivity|].
    apply base_call_Proper. exact E.
Qed.

(** ** arrays of related elements *)
Definition gsame {A B} (R : A -> B -> Prop) (x : tensor A) (y : tensor B) : Prop := shape x = shape y /\ forall i, valid_index (shape x) i -> R (at_ x i) (at_ y i).
Definition osame (u v : option Q) : Prop := forall a, u = Some a -> exists b, v = Some b /\ a == b.
Lemma tall_spec t y : tall t = Some y -> shape y = shape t /\ forall i, valid_index (shape t) i -> at_ t i = Some (at_ y i).
Proof.
  unfold tall. destruct (forallb _ _) eqn:E; [|discriminate]. intros H. apply some_inj in H. subst y. split; [reflexivity|]. cbn [at_]. intros i Vi. rewrite forallb_forall in E. apply in_indices in Vi. specialize (E i Vi).
  destruct (at_ t i); [reflexivity|discriminate].
Qed.
Lemma tall_same t t' y : gsame osame t t' -> tall t = Some y -> exists y', tall t' = Some y' /\ same_tensor y y'.
Proof.
  intros (S & A) H. destruct (tall_spec _ _ H) as (Sy & Ay). unfold tall. destruct (forallb _ (indices (shape t'))) eqn:E.
  - eexists. split; [reflexivity|]. split; [cbn [shape]; congruence|]. rewrite Sy. cbn [at_]. intros i Vi. destruct (A i Vi _ (Ay i Vi)) as (b & -> & Q). exact Q.
  - exfalso. assert (T : forallb (fun g => match at_ t' g with Some _ => true | None => false end) (indices (shape t')) = true); [|congruence].
    apply forallb_forall. intros i Hi. apply in_indices in Hi. rewrite <- S in Hi. destruct (A i Hi _ (Ay i Hi)) as (b & -> & _). reflexivity.
Qed.
Lemma sum_terms_same A B t t' y : refines A B -> gsame (Forall2 teq) t t' -> sum_terms A t = Some y -> exists y', sum_terms B t' = Some y' /\ same_tensor y y'.
Proof. intros (R & _ & _) (S & T). apply tall_same. split; [exact S|]. cbn [shape at_]. intros i Vi a E. exact (R i _ _ a (T i Vi) E). Qed.
Lemma trnd_same A B f x x' y : refines A B -> (forall a b, a == b -> f a == f b) -> same_tensor x x' -> trnd A f x = Some y -> exists y', trnd B f x' = Some y' /\ same_tensor y y'.
Proof. intros (_ & R & _) P (S & T). apply tall_same. split; [exact S|]. cbn [shape at_ tmap]. intros i Vi a E. exact (R _ _ a (P _ _ (T i Vi)) E). Qed.

(** ** quantizers *)
Lemma quant_in_same A B q x x' y : refines A B -> same_tensor x x' -> quant_in A q x = Some y -> exists y', quant_in B q x' = Some y' /\ same_tensor y y'.
Proof.
  intros R S. unfold quant_in. destruct (c_weight (q_c q)); [discriminate|].
  set (P := match w_scaler (q_w q) with Some s => trnd A (fun x => x / s) x | None => Some x end).
  destruct P as [u|] eqn:EP; [|discriminate]. cbn [bind]. subst P.
  assert (H1 : exists u', match w_scaler (q_w q) with Some s => trnd B (fun x => x / s) x' | None => Some x' end = Some u' /\ same_tensor u u').
  { destruct (w_scaler (q_w q)); [refine (trnd_same A B _ x x' u R _ S EP); intros a b ->; reflexivity|]. apply some_inj in EP. subst u. exists x'. auto. }
  destruct H1 as (u' & -> & Su). cbn [bind]. destruct (match q_s q with inl s => kif_widths s | inr s => kbi_widths s end) as [[k i] f]. rewrite <- (proj1 Su).
  destruct (broadcast_to k (shape u)) as [kx|]; [|discriminate]. cbn [bind]. destruct (broadcast_to i (shape u)) as [ix|]; [|discriminate]. cbn [bind]. destruct (broadcast_to f (shape u)) as [fx|]; [|discriminate]. cbn [bind].
  set (T := mk_tensor (shape u) _). set (T' := mk_tensor (shape u) (fun j => a_quant B _ _ _ _ _ _)).
  assert (GT : gsame osame T T') by (split; [reflexivity|]; intros j Vj a E; exact (proj2 (proj2 R) _ _ _ _ _ _ _ a (proj2 Su j Vj) E)).
  destruct (tall T) as [v|] eqn:ET; [|discriminate]. cbn [bind]. destruct (tall_same _ _ _ GT ET) as (v' & -> & Sv). cbn [bind].
  set (P := match w_scaler (q_w q) with Some s => trnd A (fun x => x * s) v | None => Some v end).
  destruct P as [w|] eqn:EP2; [|discriminate]. cbn [bind]. subst P.
  assert (H2 : exists w', match w_scaler (q_w q) with Some s => trnd B (fun x => x * s) v' | None => Some v' end = Some w' /\ same_tensor w w').
  { destruct (w_scaler (q_w q)); [refine (trnd_same A B _ v v' w R _ Sv EP2); intros a b ->; reflexivity|]. apply some_inj in EP2. subst w. exists v'. auto. }
  destruct H2 as (w' & -> & Sw). cbn [bind]. destruct (w_affine (q_w q)) as [[a b]|].
  - apply (sum_terms_same A B _ _ _ R). split; [exact (proj1 Sw)|]. cbn [tmap shape at_]. intros j Vj. apply Forall2_cons; [split; [exact (proj2 Sw j Vj)|reflexivity]|]. apply Forall2_cons; [cbn [teq]; reflexivity|constructor].
  - intros H. apply some_inj in H. subst y. exists w'. auto.
Qed.
Lemma map2o_same A B qs : refines A B -> forall xs xs' ys, Forall2 same_tensor xs xs' -> map2o qs (quant_in A) xs = Some ys -> exists ys', map2o qs (quant_in B) xs' = Some ys' /\ Forall2 same_tensor ys ys'.
Proof.
  intros R. induction qs as [|q qs IH]; intros xs xs' ys F H; [cbn [map2o] in *; apply some_inj in H; subst; exists []; split; [reflexivity|constructor]|].
  destruct F as [|x x' xs xs' S F]; cbn [map2o] in *; [apply some_inj in H; subst; exists []; split; [reflexivity|constructor]|].
  destruct (quant_in A q x) as [y|] eqn:E; [|discriminate]. cbn [bind] in H. destruct (quant_in_same A B q x x' y R S E) as (y' & -> & Sy). cbn [bind].
  destruct (map2o qs (quant_in A) xs) as [zs|] eqn:E2; [|discriminate]. cbn [bind] in H. apply some_inj in H. subst ys. destruct (IH xs xs' zs F E2) as (zs' & -> & Sz). cbn [bind]. eexists. split; [reflexivity|constructor; assumption].
Qed.
Lemma iq_in_same A B iq x x' y : refines A B -> same_inputs x x' -> iq_in A iq x = Some y -> exists y', iq_in B iq x' = Some y' /\ same_inputs y y'.
Proof.
  intros R S H. destruct iq as [q|qs], x as [x|xs], x' as [x'|xs']; cbn [iq_in same_inputs] in *; try discriminate; try contradiction.
  - destruct (quant_in A q x) as [z|] eqn:E; [|discriminate]. cbn [bind] in H. apply some_inj in H. subst y. destruct (quant_in_same A B q x x' z R S E) as (z' & -> & Sz). cbn [bind]. eexists. split; [reflexivity|exact Sz].
  - rewrite <- (Forall2_len _ _ _ S). destruct (_ =? _)%nat; [|discriminate]. destruct (map2o qs (quant_in A) xs) as [zs|] eqn:E; [|discriminate]. cbn [bind] in H. apply some_inj in H. subst y.
    destruct (map2o_same A B qs R xs xs' zs S E) as (zs' & -> & Sz). cbn [bind]. eexists. split; [reflexivity|exact Sz].
Qed.

(** ** the terms of a contraction *)
Lemma app_teq l l' m m' : Forall2 teq l l' -> Forall2 teq m m' -> Forall2 teq (l ++ m) (l' ++ m').
Proof. apply Forall2_app. Qed.
Lemma csum_teq {X} (f g : X -> list term) l : (forall a, In a l -> Forall2 teq (f a) (g a)) -> Forall2 teq (csum [] (@app term) (map f l)) (csum [] (@app term) (map g l)).
Proof. induction l as [|a l IH]; intros H; cbn [map csum fold_right]; [constructor|]. apply Forall2_app; [apply H; left; reflexivity|apply IH; intros b Hb; apply H; right; exact Hb]. Qed.
Lemma matmul_terms_same x x' k t : same_tensor x x' -> matmul_terms x k = Some t -> exists t', matmul_terms x' k = Some t' /\ gsame (Forall2 teq) t t'.
Proof.
  intros (Sx & Ax). unfold matmul_terms. rewrite <- Sx. destruct (shape k) as [|c [|u [|? ?]]] eqn:Ek; try discriminate.
  destruct (negb (nat_list_eqb (shape x) []) && _) eqn:E; [|discriminate]. intros H. apply some_inj in H. subst t. eexists. split; [reflexivity|]. split; [reflexivity|]. cbn [shape at_]. intros i Vi.
  apply andb_true_iff in E as (E1 & E2). apply Nat.eqb_eq in E2. assert (N : shape x <> []) by (intros X; rewrite X in E1; discriminate). apply valid_snoc_inv in Vi as (V1 & V2).
  unfold matmul. apply csum_teq. intros j Hj. apply in_seq in Hj. constructor; [|constructor]. cbn [teq]. split; [|reflexivity].
  apply Ax. rewrite (last_split _ N), E2. apply valid_snoc; [exact V1|lia].
Qed.
Lemma sum_over_teq dims F F' : forall ls e, (forall e', (forall m, ~ In m ls -> e' m = e m) -> (forall m, In m ls -> (e' m < dims m)%nat) -> Forall2 teq (F e') (F' e')) ->
  Forall2 teq (sum_over [] (@app term) dims ls F e) (sum_over [] (@app term) dims ls F' e).
Proof.
  induction ls as [|l ls IH]; intros e H; cbn [sum_over].
  - apply H; [reflexivity|intros m []].
  - apply csum_teq. intros v Hv. apply in_seq in Hv. apply IH. intros e' H1 H2. apply H.
    + intros m Hm. rewrite H1; [|intros X; apply Hm; right; exact X]. unfold upd. destruct (Nat.eqb_spec m l) as [->|]; [exfalso; apply Hm; left; reflexivity|reflexivity].
    + intros m [<-|Hm]; [|exact (H2 m Hm)]. destruct (in_dec Nat.eq_dec l ls) as [I|N]; [exact (H2 l I)|]. rewrite (H1 l N). unfold upd. rewrite Nat.eqb_refl. lia.
Qed.
Lemma einsum_terms_same li lk lo x x' k t : same_tensor x x' -> einsum_terms li lk lo x k = Some t -> exists t', einsum_terms li lk lo x' k = Some t' /\ gsame (Forall2 teq) t t'.
Proof.
  intros (Sx & Ax). unfold einsum_terms. cbv zeta. rewrite <- Sx. set (dims := label_dims li (shape x) lk (shape k)).
  destruct ((length li =? length (shape x))%nat && (length lk =? length (shape k))%nat && _) eqn:E; [|discriminate]. intros H. apply some_inj in H. subst t. eexists. split; [reflexivity|].
  apply andb_true_iff in E as (E & E3). apply andb_true_iff in E as (E1 & E2). apply Nat.eqb_eq in E1, E2. rewrite forallb_app in E3. apply andb_true_iff in E3 as (E3 & E4).
  apply forallb_dims in E3; [|exact E1]. apply forallb_dims in E4; [|exact E2]. split; [reflexivity|]. cbn [shape at_]. intros i Vi. unfold einsum. apply sum_over_teq. intros e H1 H2.
  assert (B : forall l, In l (li ++ lk) -> (e l < dims l)%nat).
  { intros l Hl. destruct (in_dec Nat.eq_dec l (contracted li lk lo)) as [I|N]; [exact (H2 l I)|]. rewrite (H1 l N). apply bind_lt; [exact Vi|].
    destruct (memb l lo) eqn:M; [apply memb_In, M|]. exfalso. apply N. unfold contracted. apply filter_In. rewrite M. split; [|reflexivity]. unfold all_labels. apply nodup_In, Hl. }
  constructor; [|constructor]. cbn [teq]. split; [|reflexivity]. apply Ax. rewrite <- E3; apply valid_map; intros l Hl; apply B, in_or_app; left; exact Hl.
Qed.
Lemma conv_terms_same pad cs g ci co x x' k t : same_tensor x x' -> conv_terms pad cs g ci co k x = Some t -> exists t', conv_terms pad cs g ci co k x' = Some t' /\ gsame (Forall2 teq) t t'.
Proof.
  intros (Sx & Ax). unfold conv_terms. rewrite <- Sx. destruct (shape x) as [|n s] eqn:Ex; [discriminate|]. unfold conv_fits.
  destruct (nat_list_eqb s _ && nat_list_eqb (shape k) _) eqn:F; [|discriminate]. apply andb_true_iff in F as (F1 & F2). apply nat_list_eqb_eq in F1, F2.
  intros H. apply some_inj in H. subst t. eexists. split; [reflexivity|]. split; [reflexivity|]. cbn [shape at_]. intros i Vi. inversion Vi as [|b ? i' ? Hb Vi']; subst. cbn [hd tl].
  apply valid_snoc_inv in Vi' as (Vo & Vc). unfold conv.
  induction (indices (map c_k cs)) as [|t ts IH]; [constructor|]. cbn [flat_map]. unfold csum in *. rewrite !fold_right_app.
  assert (G : forall L (z z' : list term), Forall2 teq z z' -> (forall c, In c L -> (c < ci)%nat) ->
    Forall2 teq (fold_right (@app term) z (map (fun c => match c_positions pad cs (removelast i') t with Some p => [Mul (at_ x (b :: tl (0%nat :: p ++ [(last i' 0%nat / co * ci + c)%nat]))) (at_ k (t ++ [c; last i' 0%nat]))] | None => [] end) L))
                (fold_right (@app term) z' (map (fun c => match c_positions pad cs (removelast i') t with Some p => [Mul (at_ x' (b :: tl (0%nat :: p ++ [(last i' 0%nat / co * ci + c)%nat]))) (at_ k (t ++ [c; last i' 0%nat]))] | None => [] end) L))).
  { induction L as [|c L IHL]; intros z z' Z HL; cbn [map fold_right]; [exact Z|]. apply Forall2_app; [|apply IHL; [exact Z|intros d Hd; apply HL; right; exact Hd]].
    specialize (HL c (or_introl eq_refl)). destruct (c_positions pad cs (removelast i') t) as [p|] eqn:Hp; [|constructor]. constructor; [|constructor]. cbn [teq]. split; [|reflexivity].
    assert (Hco : (0 < co)%nat) by (destruct co; lia). apply Ax. cbn [tl]. constructor; [exact Hb|]. apply valid_snoc; [exact (c_positions_valid _ _ _ _ _ Hp)|].
    assert (last i' 0 / co < g)%nat by (apply Nat.div_lt_upper_bound; lia). nia. }
  apply G; [exact IH|]. intros c Hc. apply in_seq in Hc. lia.
Qed.
Lemma gbcast_same {A B} (R : A -> B -> Prop) n x y i : gsame R x y -> valid_index (shape x) (skipn (n - length (shape x)) (bcast_index (lpad n (shape x)) i)) -> R (gbcast_at n x i) (gbcast_at n y i).
Proof. intros (S & T) V. unfold gbcast_at. rewrite <- S. apply T, V. Qed.
Lemma gbinary_same {A B C A' B' C'} (RA : A -> A' -> Prop) (RB : B -> B' -> Prop) (RC : C -> C' -> Prop) (f : A -> B -> C) (g : A' -> B' -> C') x x' y y' t :
  (forall a a' b b', RA a a' -> RB b b' -> RC (f a b) (g a' b')) -> gsame RA x x' -> gsame RB y y' -> gbinary f x y = Some t -> exists t', gbinary g x' y' = Some t' /\ gsame RC t t'.
Proof.
  intros P Sx Sy. pose proof (proj1 Sx) as Ex. pose proof (proj1 Sy) as Ey. unfold gbinary. cbv zeta. rewrite <- Ex, <- Ey. set (n := Nat.max _ _).
  destruct (join_shape (lpad n (shape x)) (lpad n (shape y))) as [sh|] eqn:J; [|discriminate]. cbn [bind]. intros H. apply some_inj in H. subst t.
  eexists. split; [reflexivity|]. split; [reflexivity|]. cbn [shape at_]. intros i Hi. destruct (join_valid _ _ _ _ J Hi) as (V1 & V2). unfold lpad in V1 at 1. unfold lpad in V2 at 1.
  apply valid_app_r in V1, V2. rewrite repeat_length in V1, V2. apply P; apply gbcast_same; assumption.
Qed.
Lemma greduce_same axes kd x x' : same_tensor x x' -> gsame (Forall2 teq) (greduce (map Val) axes kd x) (greduce (map Val) axes kd x').
Proof.
  intros (E & H). assert (C : forall g, Forall2 teq (map Val (collect axes x g)) (map Val (collect axes x' g))).
  { intros g. unfold collect. rewrite <- E. assert (V : forall i, In i (filter (fun idx => index_eqb (keep axes idx) g) (indices (shape x))) -> at_ x i == at_ x' i).
    { intros i Hi. apply filter_In in Hi. apply H, in_indices, Hi. }
    induction (filter _ _) as [|i l IH]; [constructor|]. cbn [map]. constructor; [apply V; left; reflexivity|apply IH; intros j Hj; apply V; right; exact Hj]. }
  unfold greduce. cbv zeta. destruct kd; (split; [cbn [shape reduce_keep]; rewrite E; reflexivity|]); intros i _; cbn [reduce_keep at_]; rewrite <- ?E; apply C.
Qed.
Lemma pool_terms_same pad cs ch x x' t : same_tensor x x' -> pool_terms pad cs ch x = Some t -> exists t', pool_terms pad cs ch x' = Some t' /\ gsame (Forall2 teq) t t'.
Proof.
  intros (Sx & Ax). unfold pool_terms. rewrite <- Sx. destruct (shape x) as [|n s] eqn:Ex; [discriminate|]. destruct (nat_list_eqb s _) eqn:F; [|discriminate]. apply nat_list_eqb_eq in F.
  intros H. apply some_inj in H. subst t. eexists. split; [reflexivity|]. split; [reflexivity|]. cbn [shape at_]. intros i Vi. inversion Vi as [|b ? i' ? Hb Vi']; subst. cbn [hd tl].
  apply valid_snoc_inv in Vi' as (Vo & Vc). unfold window. induction (indices (map c_k cs)) as [|t ts IH]; [constructor|]. cbn [flat_map]. rewrite !map_app. apply Forall2_app; [|exact IH].
  destruct (c_positions pad cs (removelast i') t) as [p|] eqn:Hp; [|constructor]. constructor; [|constructor]. cbn [teq tl]. apply Ax. constructor; [exact Hb|]. apply valid_snoc; [exact (c_positions_valid _ _ _ _ _ Hp)|exact Vc].
Qed.
Lemma mean_in_same A B t t' y : refines A B -> gsame (Forall2 teq) t t' -> mean_in A t = Some y -> exists y', mean_in B t' = Some y' /\ same_tensor y y'.
Proof.
  intros R G. unfold mean_in. destruct (sum_terms A t) as [s|] eqn:E; [|discriminate]. cbn [bind]. destruct (sum_terms_same A B t t' s R G E) as (s' & E' & Ss). rewrite E'. cbn [bind].
  destruct (tall_spec _ _ E) as (Es & _). cbn [shape] in Es. apply tall_same. split; [exact (proj1 G)|]. cbn [shape at_]. intros i Vi a H. destruct R as (_ & R & _). refine (R _ _ a _ H).
  rewrite (Forall2_len _ _ _ (proj2 G i Vi)). assert (Q : at_ s i == at_ s' i) by (apply (proj2 Ss); rewrite Es; exact Vi). rewrite Q. reflexivity.
Qed.
Lemma same_gsame x y : same_tensor x y -> gsame Qeq x y. Proof. exact (fun H => H). Qed.
Lemma bias_terms_same t t' b u : gsame (Forall2 teq) t t' -> bias_terms t b = Some u -> exists u', bias_terms t' b = Some u' /\ gsame (Forall2 teq) u u'.
Proof.
  intros G. destruct b as [b|]; cbn [bias_terms]; [|intros H; apply some_inj in H; subst u; exists t'; auto].
  apply (gbinary_same (Forall2 teq) Qeq (Forall2 teq)); [|exact G|apply same_gsame, st_refl]. intros l l' c c' H E. apply Forall2_app; [exact H|]. constructor; [exact E|constructor].
Qed.
Lemma bin_in_same A B op a a' b b' : refines A B -> a == a' -> b == b' -> osame (bin_in A op a b) (bin_in B op a' b').
Proof.
  intros (_ & R & _) Ea Eb v H. pose proof (bin_ext op a a' b b' Ea Eb) as E. destruct op; cbn [bin_in] in *; try exact (R _ _ v E H); apply some_inj in H; subst v; eexists; (split; [reflexivity|exact E]).
Qed.
Lemma fold_in_same A B op : refines A B -> forall xs xs' acc acc' y, Forall2 same_tensor xs xs' -> same_tensor acc acc' -> fold_in A op acc xs = Some y ->
  exists y', fold_in B op acc' xs' = Some y' /\ same_tensor y y'.
Proof.
  intros R xs xs' acc acc' y F. revert acc acc' y. induction F as [|x x' xs xs' S F IH]; intros acc acc' y Sa H; cbn [fold_in] in *.
  - apply some_inj in H. subst y. exists acc'. auto.
  - destruct (gbinary (bin_in A op) acc x) as [t|] eqn:E; [|discriminate]. cbn [bind] in H.
    destruct (gbinary_same Qeq Qeq osame _ (bin_in B op) acc acc' x x' t (fun a a' b b' Ha Hb => bin_in_same A B op a a' b b' R Ha Hb) Sa S E) as (t' & -> & G). cbn [bind].
    destruct (tall t) as [r|] eqn:T; [|discriminate]. cbn [bind] in H. destruct (tall_same _ _ _ G T) as (r' & -> & Sr). cbn [bind]. exact (IH _ _ _ Sr H).
Qed.
Lemma merge_in_same A B op xs xs' y : refines A B -> Forall2 same_tensor xs xs' -> merge_in A op xs = Some y -> exists y', merge_in B op xs' = Some y' /\ same_tensor y y'.
Proof.
  intros R S. unfold merge_in. rewrite <- (Forall2_len _ _ _ S). destruct (merge_arity op (length xs)); [|discriminate]. rewrite (max_ndim_shapes _ _ (sames_shapes _ _ S)).
  assert (F : Forall2 same_tensor (map (expand_to (max_ndim xs')) xs) (map (expand_to (max_ndim xs')) xs')).
  { generalize (max_ndim xs'). intros n. induction S; cbn [map]; constructor; [apply expand_same|]; assumption. }
  destruct F as [|u v us vs Su Sus]; [discriminate|]. destruct (fold_in A op u us) as [r|] eqn:E; [|discriminate]. cbn [bind]. destruct (fold_in_same A B op R _ _ _ _ _ Sus Su E) as (r' & -> & Sr). cbn [bind].
  destruct op; try (intros H; apply some_inj in H; subst y; exists r'; auto). apply (trnd_same A B); [exact R|intros a b ->; reflexivity|exact Sr].
Qed.

Lemma core_in_same A B c x x' y : refines A B -> same_inputs x x' -> core_in A c x = Some y -> exists y', core_in B c x' = Some y' /\ same_tensor y y'.
Proof.
  intros R S H. assert (Sh : forall a b, same_tensor a b -> shape b = shape a) by (intros a b (E & _); congruence).
  destruct c as [q|k b|li lk lo k b|pad cs g ci co k b|sh sc off|ndim axes kd scale|pad cs ch|pad cs ch|op|sh| | |]; destruct x as [x|xs], x' as [x'|xs']; cbn [core_in same_inputs] in *; try discriminate; try contradiction.
  - exact (quant_in_same A B q x x' y R S H).
  - destruct (matmul_terms x k) as [t|] eqn:E; [|discriminate]. cbn [bind] in H. destruct (matmul_terms_same _ _ _ _ S E) as (t' & -> & G). cbn [bind].
    destruct (bias_terms t b) as [u|] eqn:E2; [|discriminate]. cbn [bind] in H. destruct (bias_terms_same _ _ _ _ G E2) as (u' & -> & G2). cbn [bind]. exact (sum_terms_same A B _ _ _ R G2 H).
  - destruct (einsum_terms li lk lo x k) as [t|] eqn:E; [|discriminate]. cbn [bind] in H. destruct (einsum_terms_same _ _ _ _ _ _ _ S E) as (t' & -> & G). cbn [bind].
    destruct (bias_terms t b) as [u|] eqn:E2; [|discriminate]. cbn [bind] in H. destruct (bias_terms_same _ _ _ _ G E2) as (u' & -> & G2). cbn [bind]. exact (sum_terms_same A B _ _ _ R G2 H).
  - destruct (conv_terms pad cs g ci co k x) as [t|] eqn:E; [|discriminate]. cbn [bind] in H. destruct (conv_terms_same _ _ _ _ _ _ _ _ _ S E) as (t' & -> & G). cbn [bind].
    destruct (bias_terms t b) as [u|] eqn:E2; [|discriminate]. cbn [bind] in H. destruct (bias_terms_same _ _ _ _ G E2) as (u' & -> & G2). cbn [bind]. exact (sum_terms_same A B _ _ _ R G2 H).
  - rewrite (Sh _ _ S). destruct (length (shape x) =? length sh)%nat; [|discriminate]. destruct (batchnorm_terms sh sc off x) as [t|] eqn:E; [|discriminate]. cbn [bind] in H.
    assert (G : exists t', batchnorm_terms sh sc off x' = Some t' /\ gsame (Forall2 teq) t t').
    { unfold batchnorm_terms in *. destruct (np_reshape sh sc) as [s1|]; [|discriminate]. cbn [bind] in *. destruct (np_reshape sh off) as [o1|]; [|discriminate]. cbn [bind] in *.
      destruct (gbinary (fun a b => [Mul a b]) x s1) as [r|] eqn:E1; [|discriminate]. cbn [bind] in E.
      destruct (gbinary_same Qeq Qeq (Forall2 teq) (fun a b : Q => [Mul a b]) (fun a b : Q => [Mul a b]) x x' s1 s1 r) with (2 := S) (4 := E1) as (r' & -> & Gr); [intros a a' b b' Ha Hb; constructor; [split; assumption|constructor]|apply same_gsame, st_refl|].
      cbn [bind]. exact (bias_terms_same r r' (Some o1) t Gr E). }
    destruct G as (t' & -> & G). cbn [bind]. exact (sum_terms_same A B _ _ _ R G H).
  - rewrite (Sh _ _ S). destruct (length (shape x) =? ndim)%nat; [|discriminate]. destruct (sum_terms A _) as [s|] eqn:E; [|discriminate]. cbn [bind] in H.
    destruct (sum_terms_same A B _ _ _ R (greduce_same axes kd x x' S) E) as (s' & -> & Ss). cbn [bind]. apply (trnd_same A B _ s s'); [exact R|intros a b ->; reflexivity|exact Ss|exact H].
  - destruct (pool_terms pad cs ch x) as [t|] eqn:E; [|discriminate]. cbn [bind] in H. destruct (pool_terms_same _ _ _ _ _ _ S E) as (t' & -> & G). cbn [bind]. exact (mean_in_same A B _ _ _ R G H).
  - refine (pool_same (max_pool pad cs) pad cs ch x x' y _ S H). intros f g o c. apply max_pool_same.
  - exact (merge_in_same A B _ _ _ _ R S H).
  - rewrite (Sh _ _ S). destruct (nprod sh =? _)%nat; [|discriminate]. unfold keras_reshape in *. rewrite (Sh _ _ S). destruct (shape x); [discriminate|]. exact (reshape_same _ _ _ _ S H).
  - unfold keras_flatten in *. rewrite (Sh _ _ S). destruct (shape x); [discriminate|]. exact (reshape_same _ _ _ _ S H).
  - apply some_inj in H. subst y. eexists. split; [reflexivity|]. apply st_tmap; [exact relu_ext|exact S].
  - apply some_inj in H. subst y. exists x'. auto.
Qed.

(** ** the exact arithmetic is the arithmetic of M_Net *)
Notation hsum := (fun l => qsum (map tval l)).
Definition term_sum (l : list term) (q : Q) : Prop := qsum (map tval l) == q.
Lemma hsum_app a b : hsum (a ++ b) == hsum a + hsum b.
Proof. cbn beta. rewrite map_app. apply qsum_app. Qed.
Lemma csum_h {X} (f : X -> list term) (g : X -> Q) l : (forall a, In a l -> term_sum (f a) (g a)) -> term_sum (csum [] (@app term) (map f l)) (csum 0 Qplus (map g l)).
Proof.
  induction l as [|a l IH]; intros H; cbn [map csum fold_right]; [reflexivity|]. unfold term_sum. rewrite hsum_app. apply Qplus_comp; [apply H; left; reflexivity|apply IH; intros b Hb; apply H; right; exact Hb].
Qed.
Lemma sum_over_h dims F F' : (forall e, term_sum (F e) (F' e)) -> forall ls e, term_sum (sum_over [] (@app term) dims ls F e) (sum_over 0 Qplus dims ls F' e).
Proof. intros H. induction ls as [|l ls IH]; intros e; cbn [sum_over]; [apply H|]. apply csum_h. intros v _. apply IH. Qed.
Lemma prod_h a b : term_sum [Mul a b] (a * b). Proof. unfold term_sum. cbn [map tval]. rewrite qsum1. reflexivity. Qed.
Lemma tall_some (t : tensor (list term)) (f : list term -> Q) y : tall (mk_tensor (shape t) (fun i => Some (f (at_ t i)))) = Some y -> same_tensor y (mk_tensor (shape t) (fun i => f (at_ t i))).
Proof. intros H. destruct (tall_spec _ _ H) as (E & A). cbn [shape at_] in *. split; [exact E|]. rewrite E. cbn [at_]. intros i Vi. specialize (A i Vi). apply some_inj in A. rewrite A. reflexivity. Qed.
Lemma exact_sum t y z : gsame term_sum t z -> sum_terms exact_arith t = Some y -> same_tensor y z.
Proof.
  intros (S & T) H. destruct (tall_spec _ _ H) as (E & A). cbn [shape at_ a_sum exact_arith] in *. split; [congruence|]. rewrite E. intros i Vi. specialize (A i Vi). apply some_inj in A. rewrite <- A. apply T, Vi.
Qed.
Lemma exact_rnd f x y : trnd exact_arith f x = Some y -> same_tensor y (tmap f x).
Proof. intros H. destruct (tall_spec _ _ H) as (E & A). cbn [shape at_ a_rnd exact_arith tmap] in *. split; [exact E|]. rewrite E. cbn [tmap at_]. intros i Vi. specialize (A i Vi). apply some_inj in A. rewrite <- A. reflexivity. Qed.
Lemma matmul_terms_exact x k t : matmul_terms x k = Some t -> exists y, keras_matmul x k = Some y /\ gsame term_sum t y.
Proof.
  unfold matmul_terms, keras_matmul. destruct (shape k) as [|c [|u [|? ?]]]; try discriminate. destruct (_ && _); [|discriminate]. intros H. apply some_inj in H. subst t. eexists. split; [reflexivity|]. split; [reflexivity|].
  cbn [shape at_]. intros i _. unfold matmul. apply csum_h. intros j _. apply prod_h.
Qed.
Lemma einsum_terms_exact li lk lo x k t : einsum_terms li lk lo x k = Some t -> exists y, np_einsum li lk lo x k = Some y /\ gsame term_sum t y.
Proof.
  unfold einsum_terms, np_einsum. cbv zeta. destruct (_ && _); [|discriminate]. intros H. apply some_inj in H. subst t. eexists. split; [reflexivity|]. split; [reflexivity|].
  cbn [shape at_]. intros i _. unfold einsum. apply sum_over_h. intros e. apply prod_h.
Qed.
Lemma conv_terms_exact pad cs g ci co k x t : conv_terms pad cs g ci co k x = Some t -> exists y, keras_conv pad cs g ci co k x = Some y /\ gsame term_sum t y.
Proof.
  unfold conv_terms, keras_conv. destruct (shape x) as [|n s]; [discriminate|]. destruct (conv_fits _ _ _ _ _ _); [|discriminate]. intros H. apply some_inj in H. subst t. eexists. split; [reflexivity|]. split; [reflexivity|].
  cbn [shape at_]. intros i _. unfold conv. assert (F : forall A B (a : A -> list term) (b : A -> Q) (tt : B -> list A) L, (forall z u, In z L -> In u (tt z) -> True) -> True) by trivial. clear F.
  set (f := fun t ci0 => match c_positions pad cs (removelast (tl i)) t with Some p => [Mul (at_ x (hd 0%nat i :: tl (0%nat :: p ++ [last (tl i) 0%nat / co * ci + ci0]%nat))) (at_ k (t ++ [ci0; last (tl i) 0%nat]))] | None => [] end).
  set (f' := fun t ci0 => match c_positions pad cs (removelast (tl i)) t with Some p => at_ x (hd 0%nat i :: tl (0%nat :: p ++ [last (tl i) 0%nat / co * ci + ci0]%nat)) * at_ k (t ++ [ci0; last (tl i) 0%nat]) | None => 0 end).
  assert (FF : forall t c, term_sum (f t c) (f' t c)) by (intros t c; unfold f, f'; destruct (c_positions pad cs (removelast (tl i)) t); [apply prod_h|reflexivity]).
  change (term_sum (csum [] (@app term) (flat_map (fun t => map (f t) (seq 0 ci)) (indices (map c_k cs)))) (csum 0 Qplus (flat_map (fun t => map (f' t) (seq 0 ci)) (indices (map c_k cs))))).
  clearbody f f'. induction (indices (map c_k cs)) as [|t ts IH]; [reflexivity|]. cbn [flat_map]. unfold csum in *. rewrite !fold_right_app.
  revert IH. generalize (fold_right (@app term) [] (flat_map (fun t0 => map (f t0) (seq 0 ci)) ts)) (fold_right Qplus 0 (flat_map (fun t0 => map (f' t0) (seq 0 ci)) ts)). intros z z' Z.
  induction (seq 0 ci) as [|c L IHL]; cbn [map fold_right]; [exact Z|]. unfold term_sum. rewrite hsum_app. apply Qplus_comp; [apply FF|exact IHL].
Qed.
Lemma bias_terms_exact t b u y : gsame term_sum t y -> bias_terms t b = Some u -> exists z, add_bias y b = Some z /\ gsame term_sum u z.
Proof.
  intros G. destruct b as [b|]; cbn [bias_terms add_bias]; [|intros H; apply some_inj in H; subst u; exists y; auto].
  intros H. change (np_binary Qplus y b) with (gbinary Qplus y b). apply (gbinary_same term_sum Qeq term_sum (fun l c => l ++ [Val c]) Qplus t y b b u); [|exact G|apply same_gsame, st_refl|exact H].
  intros l q c c' Hl Hc. unfold term_sum in *. rewrite hsum_app, Hl. cbn [map tval]. rewrite qsum1, Hc. reflexivity.
Qed.
Lemma reduce_exact axes kd x : gsame term_sum (greduce (map Val) axes kd x) (np_reduce qsum axes kd x).
Proof.
  assert (C : forall l, term_sum (map Val l) (qsum l)) by (intros l; unfold term_sum; rewrite map_map; cbn [tval]; rewrite map_id; reflexivity).
  unfold greduce, np_reduce. cbv zeta. destruct kd; (split; [reflexivity|]); intros i _; cbn [reduce_keep at_]; apply C.
Qed.
Lemma fold_in_exact op : forall xs acc acc' y, same_tensor acc acc' -> fold_in exact_arith op acc xs = Some y -> exists z, fold_binary (bin_op op) acc' xs = Some z /\ same_tensor y z.
Proof.
  induction xs as [|x xs IH]; intros acc acc' y S H; cbn [fold_in fold_binary] in *; [apply some_inj in H; subst y; exists acc'; auto|].
  destruct (gbinary (bin_in exact_arith op) acc x) as [t|] eqn:E; [|discriminate]. cbn [bind] in H. change (np_binary (bin_op op) acc' x) with (gbinary (bin_op op) acc' x).
  destruct (gbinary_same Qeq Qeq (fun o q => forall v, o = Some v -> v == q) (bin_in exact_arith op) (bin_op op) acc acc' x x t) with (2 := S) (4 := E) as (t' & -> & G); [|apply same_gsame, st_refl|].
  { intros a a' b b' Ha Hb v Hv. rewrite <- (bin_ext op a a' b b' Ha Hb). destruct op; cbn [bin_in a_rnd exact_arith] in Hv; apply some_inj in Hv; subst v; reflexivity. }
  cbn [bind]. destruct (tall t) as [r|] eqn:T; [|discriminate]. cbn [bind] in H. destruct (tall_spec _ _ T) as (Er & Ar). apply (IH r t' y); [|exact H].
  split; [rewrite Er; exact (proj1 G)|]. rewrite Er. intros i Vi. apply (proj2 G i Vi). apply Ar, Vi.
Qed.
Lemma quant_exact_call q x y : quant_in exact_arith q x = Some y -> exists z, quant_call q x = Some z /\ same_tensor y z.
Proof.
  unfold quant_in. destruct (c_weight (q_c q)) eqn:W; [discriminate|]. unfold quant_call, quantizer_infer.
  set (P := match w_scaler (q_w q) with Some s => trnd exact_arith (fun x => x / s) x | None => Some x end).
  destruct P as [u|] eqn:EP; [|discriminate]. cbn [bind]. subst P. set (u0 := match w_scaler (q_w q) with Some s => tmap (fun x => x / s) x | None => x end).
  assert (Su : same_tensor u u0). { unfold u0. destruct (w_scaler (q_w q)); [apply exact_rnd, EP|apply some_inj in EP; subst u; apply st_refl]. }
  assert (C : (match q_s q with inl s => kif_infer (q_c q) (q_hom q) s | inr s => kbi_infer (q_c q) (q_hom q) s end) u0 =
              let '(k, i, f) := match q_s q with inl s => kif_widths s | inr s => kbi_widths s end in base_tcall (q_c q) false k i f u0).
  { destruct (q_s q) as [s|s]; [rewrite (kif_infer_base _ _ _ _ W)|rewrite (kbi_infer_base _ _ _ _ W)]; reflexivity. }
  rewrite C. clear C. destruct (match q_s q with inl s => kif_widths s | inr s => kbi_widths s end) as [[k i] f]. unfold base_tcall. rewrite <- (proj1 Su).
  destruct (broadcast_to k (shape u)) as [kx|]; [|discriminate]. cbn [bind]. destruct (broadcast_to i (shape u)) as [ix|]; [|discriminate]. cbn [bind]. destruct (broadcast_to f (shape u)) as [fx|]; [|discriminate]. cbn [bind].
  destruct (tall _) as [v|] eqn:ET; [|discriminate]. cbn [bind]. destruct (tall_spec _ _ ET) as (Ev & Av). cbn [shape at_ a_quant exact_arith] in Ev, Av.
  set (v0 := mk_tensor (shape u) (fun j => base_call (c_rm (q_c q)) (c_om (q_c q)) false (at_ kx j) (at_ ix j) (at_ fx j) (at_ u0 j))).
  assert (Sv : same_tensor v v0). { split; [exact Ev|]. rewrite Ev. intros j Vj. specialize (Av j Vj). apply some_inj in Av. rewrite <- Av. cbn [v0 at_]. apply base_call_Proper. apply (proj2 Su j Vj). }
  set (P := match w_scaler (q_w q) with Some s => trnd exact_arith (fun x => x * s) v | None => Some v end).
  destruct P as [w|] eqn:EP2; [|discriminate]. cbn [bind]. subst P. set (w0 := match w_scaler (q_w q) with Some s => tmap (fun y => y * s) v0 | None => v0 end).
  assert (Sw : same_tensor w w0).
  { unfold w0. destruct (w_scaler (q_w q)); [|apply some_inj in EP2; subst w; exact Sv]. eapply st_trans; [apply exact_rnd, EP2|]. apply st_tmap; [intros a b ->; reflexivity|exact Sv]. }
  intros H. eexists. split; [reflexivity|]. fold w0. destruct (w_affine (q_w q)) as [[a b]|].
  - refine (exact_sum _ _ _ _ H). split; [exact (proj1 Sw)|]. cbn [tmap shape at_]. intros j Vj. unfold term_sum. cbn [map tval]. rewrite qsum_cons, qsum1, (proj2 Sw j Vj). reflexivity.
  - apply some_inj in H. subst y. exact Sw.
Qed.
Lemma map2o_exact qs : forall xs ys, map2o qs (quant_in exact_arith) xs = Some ys -> exists zs, map2o qs quant_call xs = Some zs /\ Forall2 same_tensor ys zs.
Proof.
  induction qs as [|q qs IH]; intros xs ys H; [cbn [map2o] in *; apply some_inj in H; subst; exists []; split; [reflexivity|constructor]|].
  destruct xs as [|x xs]; cbn [map2o] in *; [apply some_inj in H; subst; exists []; split; [reflexivity|constructor]|].
  destruct (quant_in exact_arith q x) as [y|] eqn:E; [|discriminate]. cbn [bind] in H. destruct (quant_exact_call q x y E) as (z & -> & Sz). cbn [bind].
  destruct (map2o qs (quant_in exact_arith) xs) as [ws|] eqn:E2; [|discriminate]. cbn [bind] in H. apply some_inj in H. subst ys. destruct (IH xs ws E2) as (zs & -> & Sw). cbn [bind]. eexists. split; [reflexivity|constructor; assumption].
Qed.
Lemma iq_exact iq x y : iq_in exact_arith iq x = Some y -> exists z, iq_call iq x = Some z /\ same_inputs y z.
Proof.
  destruct iq as [q|qs], x as [x|xs]; cbn [iq_in iq_call]; try discriminate.
  - destruct (quant_in exact_arith q x) as [u|] eqn:E; [|discriminate]. cbn [bind]. intros H. apply some_inj in H. subst y. destruct (quant_exact_call q x u E) as (z & -> & Sz). cbn [bind]. eexists. split; [reflexivity|exact Sz].
  - destruct (_ =? _)%nat; [|discriminate]. destruct (map2o qs (quant_in exact_arith) xs) as [us|] eqn:E; [|discriminate]. cbn [bind]. intros H. apply some_inj in H. subst y. destruct (map2o_exact qs xs us E) as (zs & -> & Sz). cbn [bind]. eexists. split; [reflexivity|exact Sz].
Qed.
Lemma core_exact c x y : core_in exact_arith c x = Some y -> exists z, core_call c x = Some z /\ same_tensor y z.
Proof.
  destruct c as [q|k b|li lk lo k b|pad cs g ci co k b|sh sc off|ndim axes kd scale|pad cs ch|pad cs ch|op|sh| | |]; destruct x as [x|xs]; cbn [core_in core_call]; try discriminate.
  - apply quant_exact_call.
  - destruct (matmul_terms x k) as [t|] eqn:E; [|discriminate]. cbn [bind]. destruct (matmul_terms_exact _ _ _ E) as (m & -> & G). cbn [bind]. destruct (bias_terms t b) as [u|] eqn:E2; [|discriminate]. cbn [bind].
    destruct (bias_terms_exact _ _ _ _ G E2) as (z & -> & G2). intros H. exists z. split; [reflexivity|]. exact (exact_sum _ _ _ G2 H).
  - destruct (einsum_terms li lk lo x k) as [t|] eqn:E; [|discriminate]. cbn [bind]. destruct (einsum_terms_exact _ _ _ _ _ _ E) as (m & -> & G). cbn [bind]. destruct (bias_terms t b) as [u|] eqn:E2; [|discriminate]. cbn [bind].
    destruct (bias_terms_exact _ _ _ _ G E2) as (z & -> & G2). intros H. exists z. split; [reflexivity|]. exact (exact_sum _ _ _ G2 H).
  - destruct (conv_terms pad cs g ci co k x) as [t|] eqn:E; [|discriminate]. cbn [bind]. destruct (conv_terms_exact _ _ _ _ _ _ _ _ E) as (m & -> & G). cbn [bind]. destruct (bias_terms t b) as [u|] eqn:E2; [|discriminate]. cbn [bind].
    destruct (bias_terms_exact _ _ _ _ G E2) as (z & -> & G2). intros H. exists z. split; [reflexivity|]. exact (exact_sum _ _ _ G2 H).
  - destruct (length (shape x) =? length sh)%nat; [|discriminate]. unfold batchnorm_terms, keras_batchnorm. destruct (np_reshape sh sc) as [s1|]; [|discriminate]. cbn [bind]. destruct (np_reshape sh off) as [o1|]; [|discriminate]. cbn [bind].
    destruct (gbinary (fun a b => [Mul a b]) x s1) as [r|] eqn:E1; [|discriminate]. cbn [bind]. change (np_binary Qmult x s1) with (gbinary Qmult x s1).
    destruct (gbinary_same Qeq Qeq term_sum (fun a b : Q => [Mul a b]) Qmult x x s1 s1 r) with (4 := E1) as (m & -> & G); [|apply same_gsame, st_refl|apply same_gsame, st_refl|].
    { intros a a' b b' Ha Hb. unfold term_sum. cbn [map tval]. rewrite qsum1, Ha, Hb. reflexivity. }
    cbn [bind]. destruct (gbinary (fun l c => l ++ [Val c]) r o1) as [u|] eqn:E2; [|discriminate]. cbn [bind]. destruct (bias_terms_exact r (Some o1) u m G E2) as (z & Ez & G2). cbn [add_bias] in Ez. rewrite Ez. intros H. exists z. split; [reflexivity|]. exact (exact_sum _ _ _ G2 H).
  - destruct (length (shape x) =? ndim)%nat; [|discriminate]. destruct (sum_terms exact_arith _) as [s|] eqn:E; [|discriminate]. cbn [bind]. intros H. eexists. split; [reflexivity|]. unfold layer_qsum.
    eapply st_trans; [apply exact_rnd, H|]. apply st_tmap; [intros a b ->; reflexivity|]. exact (exact_sum _ _ _ (reduce_exact axes kd x) E).
  - unfold pool_terms, keras_pool. destruct (shape x) as [|n s]; [discriminate|]. destruct (nat_list_eqb s _); [|discriminate]. cbn [bind]. unfold mean_in. intros H. eexists. split; [reflexivity|].
    destruct (sum_terms exact_arith _) as [u|] eqn:E; [|discriminate]. cbn [bind] in H. destruct (tall_spec _ _ E) as (Eu & Au). destruct (tall_spec _ _ H) as (Ey & Ay). cbn [shape at_ a_rnd a_sum exact_arith] in *.
    split; [exact Ey|]. rewrite Ey. cbn [at_]. intros i Vi. specialize (Au i Vi). specialize (Ay i Vi). apply some_inj in Au, Ay. rewrite <- Ay, <- Au. unfold avg_pool. rewrite !map_map. cbn [tval]. rewrite map_id, map_length. reflexivity.
  - intros H. exists y. split; [exact H|apply st_refl].
  - unfold merge_in, keras_merge. destruct (merge_arity op (length xs)); [|discriminate]. destruct (map _ xs) as [|u us]; [discriminate|]. destruct (fold_in exact_arith op u us) as [r|] eqn:E; [|discriminate]. cbn [bind].
    destruct (fold_in_exact op us u u r (st_refl _) E) as (z & -> & Sz). cbn [bind]. intros H. eexists. split; [reflexivity|]. destruct op; try (apply some_inj in H; subst y; exact Sz).
    eapply st_trans; [apply exact_rnd, H|]. apply st_tmap; [intros a b ->; reflexivity|exact Sz].
  - intros H. exists y. split; [exact H|apply st_refl].
  - intros H. exists y. split; [exact H|apply st_refl].
  - intros H. exists y. split; [exact H|apply st_refl].
  - intros H. exists y. split; [exact H|apply st_refl].
Qed.
