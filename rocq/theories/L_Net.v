From Coq Require Import String.
From Verif Require Import Num M_Fixed L_Fixed M_State M_Wrapper M_Mapper S_Mapper L_Mapper M_Contr M_Ebops L_Ebops M_Pow2 M_Patch S_Patch L_Patch M_Ops S_Ops L_Ops M_Mirror S_Mirror L_Mirror M_Trace S_Trace L_Trace M_Net S_Net L_Lift S_Ops.
Local Open Scope list_scope.

(** ** same_tensor *)
Lemma st_refl x : same_tensor x x.
Proof. split; [reflexivity|]. intros i _. reflexivity. Qed.
Lemma st_sym x y : same_tensor x y -> same_tensor y x.
Proof. intros (E & H). split; [symmetry; exact E|]. intros i Hi. symmetry. apply H. rewrite E. exact Hi. Qed.
Lemma st_trans x y z : same_tensor x y -> same_tensor y z -> same_tensor x z.
Proof. intros (E & H) (F & K). split; [congruence|]. intros i Hi. rewrite (H i Hi). apply K. rewrite <- E. exact Hi. Qed.
Lemma st_tmap f x y : (forall a b, a == b -> f a == f b) -> same_tensor x y -> same_tensor (tmap f x) (tmap f y).
Proof. intros P (E & H). split; [exact E|]. intros i Hi. cbn [tmap at_]. apply P, H, Hi. Qed.
Lemma st_newaxis x y : same_tensor x y -> same_tensor (newaxis x) (newaxis y).
Proof. intros (E & H). split; [cbn [newaxis shape]; rewrite E; reflexivity|]. intros i Hi. inversion Hi; subst. cbn [newaxis at_ tl]. apply H. assumption. Qed.
Lemma st_first x y x' : same_tensor x y -> first x = Some x' -> exists y', first y = Some y' /\ same_tensor x' y'.
Proof.
  intros (E & H). unfold first. rewrite <- E. destruct (shape x) as [|[|d] sh] eqn:Es; try discriminate. intros K. apply some_inj in K. subst x'.
  eexists. split; [reflexivity|]. split; [reflexivity|]. intros i Hi. cbn [at_]. apply H. constructor; [lia|exact Hi].
Qed.

(** ** broadcasting *)
Lemma join_valid s : forall t r idx, join_shape s t = Some r -> valid_index r idx -> valid_index s (bcast_index s idx) /\ valid_index t (bcast_index t idx).
Proof.
  induction s as [|d s IH]; intros [|e t] r idx J V; cbn [join_shape] in J; try discriminate.
  - injection J as <-. inversion V; subst. split; constructor.
  - destruct (join_dim d e) as [f|] eqn:Jd; [|discriminate]. cbn [bind] in J. destruct (join_shape s t) as [r'|] eqn:K; [|discriminate]. cbn [bind] in J. injection J as <-.
    inversion V as [|i ? idx' ? Hi V']; subst. destruct (IH _ _ _ K V') as (A & B). cbn [bcast_index]. unfold join_dim in Jd.
    destruct (Nat.eqb_spec d 1) as [->|D].
    + injection Jd as ->. split; constructor; auto. destruct (Nat.eqb_spec f 1); lia.
    + destruct (Nat.eqb_spec e 1) as [->|Ee]; cbn [orb] in Jd.
      * injection Jd as ->. split; constructor; auto.
      * destruct (Nat.eqb_spec d e) as [->|De]; [|discriminate]. injection Jd as ->. split; constructor; auto.
Qed.
Lemma valid_app_r s t idx : valid_index (s ++ t) idx -> valid_index t (skipn (length s) idx).
Proof. revert idx. induction s as [|d s IH]; intros idx H; [exact H|]. inversion H; subst. cbn [length skipn]. apply IH. assumption. Qed.
Lemma bcast_at_same n x y idx : same_tensor x y -> valid_index (lpad n (shape x)) (bcast_index (lpad n (shape x)) idx) -> bcast_at n x idx == bcast_at n y idx.
Proof.
  intros (E & H) V. unfold bcast_at. rewrite <- E. apply H. unfold lpad in V at 1. apply valid_app_r in V. rewrite repeat_length in V. exact V.
Qed.
Lemma binary_same f x y x' y' z : (forall a b c d, a == b -> c == d -> f a c == f b d) -> same_tensor x x' -> same_tensor y y' -> np_binary f x y = Some z ->
  exists z', np_binary f x' y' = Some z' /\ same_tensor z z'.
Proof.
  intros P Sx Sy. pose proof (proj1 Sx) as Ex. pose proof (proj1 Sy) as Ey. unfold np_binary. rewrite <- Ex, <- Ey. set (n := Nat.max _ _).
  destruct (join_shape (lpad n (shape x)) (lpad n (shape y))) as [sh|] eqn:J; [|discriminate]. cbn [bind]. intros H. apply some_inj in H. subst z.
  eexists. split; [reflexivity|]. split; [reflexivity|]. cbn [shape at_]. intros i Hi. destruct (join_valid _ _ _ _ J Hi) as (A & B). apply P; apply bcast_at_same; assumption.
Qed.

(** ** reshape *)
Lemma unflat_valid sh : forall p, (p < nprod sh)%nat -> valid_index sh (unflat sh p).
Proof.
  induction sh as [|d sh IH]; intros p H; [constructor|]. cbn [unflat]. rewrite nprod_cons in H. assert (nprod sh <> 0)%nat by nia. constructor.
  - apply Nat.div_lt_upper_bound; [assumption|]. rewrite Nat.mul_comm. exact H.
  - apply IH. apply Nat.mod_upper_bound. assumption.
Qed.
Lemma reshape_same sh x x' y : same_tensor x x' -> np_reshape sh x = Some y -> exists y', np_reshape sh x' = Some y' /\ same_tensor y y'.
Proof.
  intros (E & H). unfold np_reshape. rewrite <- E. destruct (Nat.eqb_spec (nprod sh) (nprod (shape x))) as [P|]; [|discriminate]. intros K. apply some_inj in K. subst y.
  eexists. split; [reflexivity|]. split; [reflexivity|]. cbn [shape at_]. intros i Hi. apply H. apply unflat_valid. rewrite <- P. apply flat_lt, Hi.
Qed.

(** ** reductions *)
Lemma reduce_same f axes kd x x' : (forall l l', Forall2 Qeq l l' -> f l == f l') -> same_tensor x x' -> same_tensor (np_reduce f axes kd x) (np_reduce f axes kd x').
Proof.
  intros P (E & H). assert (C : forall g, f (collect axes x g) == f (collect axes x' g)).
  { intros g. apply P. unfold collect. rewrite <- E. assert (V : forall i, In i (filter (fun idx => index_eqb (keep axes idx) g) (indices (shape x))) -> at_ x i == at_ x' i).
    { intros i Hi. apply filter_In in Hi. apply H, in_indices, Hi. }
    induction (filter _ _) as [|i l IH]; [constructor|]. cbn [map]. constructor; [apply V; left; reflexivity|apply IH; intros j Hj; apply V; right; exact Hj]. }
  unfold np_reduce. destruct kd; (split; [cbn [shape reduce_keep]; rewrite E; reflexivity|]); intros i _; cbn [reduce_keep at_]; rewrite <- ?E; apply C.
Qed.
Lemma qsum_Forall2 l l' : Forall2 Qeq l l' -> qsum l == qsum l'.
Proof. induction 1 as [|a b l l' Hab _ IH]; [reflexivity|]. rewrite !qsum_cons, Hab, IH. reflexivity. Qed.
Lemma qsum_layer_same axes kd scale v v' z : same_tensor v v' -> replay_qsum axes kd scale v = Some z -> exists z', replay_qsum axes kd scale v' = Some z' /\ same_tensor z z'.
Proof.
  intros S. unfold replay_qsum, replay_reduction. pose proof (reduce_same qsum axes kd _ _ qsum_Forall2 (st_newaxis _ _ S)) as R.
  destruct (first (np_reduce qsum axes kd (newaxis v))) as [r|] eqn:F; [|discriminate]. cbn [bind]. intros H. apply some_inj in H. subst z.
  destruct (st_first _ _ _ R F) as (r' & -> & S'). cbn [bind]. eexists. split; [reflexivity|]. apply st_tmap; [intros a b ->; reflexivity|exact S'].
Qed.

(** ** merging *)
Definition sames := Forall2 same_tensor.
Lemma sames_shapes xs ys : sames xs ys -> map shape xs = map shape ys.
Proof. induction 1 as [|x y xs ys (E & _) _ IH]; [reflexivity|]. cbn [map]. rewrite E, IH. reflexivity. Qed.
Lemma max_ndim_shapes xs ys : map shape xs = map shape ys -> max_ndim xs = max_ndim ys.
Proof. unfold max_ndim. rewrite <- !(map_map shape (@List.length nat)). intros ->. reflexivity. Qed.
Lemma foldj_valid ss : forall acc r idx, foldj (Some acc) ss = Some r -> valid_index r idx ->
  valid_index acc (bcast_index acc idx) /\ forall s, In s ss -> valid_index s (bcast_index s idx).
Proof.
  induction ss as [|s ss IH]; intros acc r idx F V.
  - cbn in F. injection F as ->. rewrite (bcast_valid _ _ V). split; [exact V|intros s []].
  - unfold foldj in F. cbn [fold_left bind] in F. destruct (join_shape acc s) as [t|] eqn:J.
    + destruct (IH t r idx F V) as (A & B). destruct (join_shape_leq _ _ _ J) as (L1 & L2). destruct (join_valid _ _ _ _ J A) as (C & D).
      rewrite (bcast_bcast _ _ L1) in C. rewrite (bcast_bcast _ _ L2) in D. split; [exact C|]. intros u [<-|Hu]; [exact D|apply B, Hu].
    + exfalso. change (foldj None ss = Some r) in F. rewrite foldj_None in F. discriminate.
Qed.
Lemma join_shapes_foldj n ss : join_shapes n ss = foldj (Some (repeat 1%nat n)) (map (lpad n) ss).
Proof. unfold join_shapes, foldj. generalize (Some (repeat 1%nat n)). induction ss as [|s ss IH]; intros acc; [reflexivity|]. cbn [map fold_left]. apply IH. Qed.
Lemma np_max_same l l' : Forall2 Qeq l l' -> np_max l == np_max l'.
Proof.
  intros [|a b m m' Hab F]; [reflexivity|]. cbn [np_max]. clear l l'. revert a b Hab. induction F as [|c d m m' Hcd F IH]; intros a b Hab; cbn [fold_left]; [exact Hab|].
  apply IH. rewrite Hab, Hcd. reflexivity.
Qed.
Lemma qprod_same l l' : Forall2 Qeq l l' -> qprod l == qprod l'.
Proof. induction 1 as [|a b l l' Hab _ IH]; [reflexivity|]. change (qprod (a :: l)) with (a * qprod l). change (qprod (b :: l')) with (b * qprod l'). rewrite Hab, IH. reflexivity. Qed.
Lemma nth_same k l l' : Forall2 Qeq l l' -> nth k l 0 == nth k l' 0.
Proof. intros F. revert k. induction F as [|a b l l' Hab F IH]; intros [|k]; cbn [nth]; try reflexivity; [exact Hab|apply IH]. Qed.
Lemma merge_fn_same op l l' : Forall2 Qeq l l' -> replay_merge_fn op l == replay_merge_fn op l'.
Proof.
  intros F. destruct op; cbn [replay_merge_fn].
  - apply qsum_Forall2, F.
  - rewrite (qsum_Forall2 _ _ F), (Forall2_len _ _ _ F). reflexivity.
  - rewrite (nth_same 0 _ _ F), (nth_same 1 _ _ F). reflexivity.
  - apply qprod_same, F.
  - apply np_max_same, F.
  - unfold np_min. rewrite (np_max_same (map Qopp l) (map Qopp l')); [reflexivity|]. induction F as [|a b l l' Hab _ IH]; constructor; [rewrite Hab; reflexivity|exact IH].
Qed.
Lemma merge_same op vs vs' z : sames vs vs' -> replay_merge op vs = Some z -> exists z', replay_merge op vs' = Some z' /\ same_tensor z z'.
Proof.
  intros S. unfold replay_merge. rewrite <- (Forall2_len _ _ _ S). destruct (merge_arity op (length vs)); [|discriminate].
  unfold broadcast_arrays. rewrite (max_ndim_shapes _ _ (sames_shapes _ _ S)). generalize (max_ndim vs'). intros n. rewrite (sames_shapes _ _ S).
  destruct (join_shapes n (map shape vs')) as [sh|] eqn:J; [|discriminate]. cbn [bind].
  assert (B : forall idx, valid_index sh idx -> Forall2 Qeq (map (fun x => bcast_at n x idx) vs) (map (fun x => bcast_at n x idx) vs')).
  { intros idx V. rewrite join_shapes_foldj in J. destruct (foldj_valid _ _ _ _ J V) as (_ & Hs). rewrite <- (sames_shapes _ _ S) in Hs. clear J. revert Hs.
    induction S as [|v v' vs vs' Sv Svs IH]; intros Hs; cbn [map]; [constructor|]. constructor.
    - apply bcast_at_same; [exact Sv|]. apply Hs. left. reflexivity.
    - apply IH. intros s Hs'. apply Hs. right. exact Hs'. }
  destruct S as [|v v' vs vs' Sv Svs]; [discriminate|]. cbn [map]. intros H. apply some_inj in H. subst z. eexists. split; [reflexivity|]. split; [reflexivity|].
  cbn [shape at_]. intros i Hi. apply merge_fn_same. specialize (B i Hi). cbn [map] in B. rewrite !map_map. cbn [at_]. exact B.
Qed.

(** ** quantizers *)
Lemma mirror_same q v v' z : same_tensor v v' -> quant_mirror q v = Some z -> exists z', quant_mirror q v' = Some z' /\ same_tensor z z'.
Proof.
  intros (E & H). unfold quant_mirror, mirror_with. destruct (match q_s q with inl s => kif_widths s | inr s => kbi_widths s end) as [[k i] f].
  unfold mirror_quantizer. set (sc := fun v => match w_scaler (q_w q) with Some s => tmap (fun x => x * (1 / s)) v | None => v end).
  change (match w_scaler (q_w q) with Some s => tmap (fun x => x * (1 / s)) v | None => v end) with (sc v). change (match w_scaler (q_w q) with Some s => tmap (fun x => x * (1 / s)) v' | None => v' end) with (sc v').
  assert (S : same_tensor (sc v) (sc v')). { unfold sc. destruct (w_scaler (q_w q)); [apply st_tmap; [intros a b ->; reflexivity|]|]; split; assumption. }
  clearbody sc. destruct S as (E' & H'). rewrite <- E'. cbv zeta.
  destruct (broadcast_to k (1%nat :: shape (sc v))) as [kx|]; [|discriminate]. destruct (broadcast_to i (1%nat :: shape (sc v))) as [ix|]; [|discriminate]. destruct (broadcast_to f (1%nat :: shape (sc v))) as [fx|]; [|discriminate].
  cbn [bind]. intros K. apply some_inj in K. subst z. eexists. split; [reflexivity|].
  assert (S : same_tensor (mk_tensor (shape (sc v)) (fun j => hw_quantize (c_rm (q_c q)) (c_om (q_c q)) (at_ kx (0%nat :: j)) (to_int8 (at_ ix (0%nat :: j))) (to_int8 (at_ fx (0%nat :: j))) (at_ (sc v) j)))
                          (mk_tensor (shape (sc v)) (fun j => hw_quantize (c_rm (q_c q)) (c_om (q_c q)) (at_ kx (0%nat :: j)) (to_int8 (at_ ix (0%nat :: j))) (to_int8 (at_ fx (0%nat :: j))) (at_ (sc v') j)))).
  { split; [reflexivity|]. cbn [shape at_]. intros j Hj. rewrite !hw_quantize_eq. apply base_call_Proper, H', Hj. }
  destruct (w_affine (q_w q)) as [[a b]|]; [apply st_tmap; [intros c d ->; reflexivity|]|]; exact S.
Qed.
Lemma quant_traced n b q x y v : (b < n)%nat -> traceable_quant q -> holds n b x v -> quant_call q x = Some y -> exists z, quant_mirror q v = Some z /\ holds n b y z.
Proof.
  intros Hb (Sc & W & ha & oa & bu & het & wsh & B & T) ((d & sh & Ex) & S) H. unfold quant_call in H.
  assert (G : shape y = n :: d :: sh /\ exists r, quant_mirror q (M_Mirror.sample b x) = Some r /\ shape r = d :: sh /\ forall j, valid_index (d :: sh) j -> at_ r j == at_ y (b :: j)).
  { destruct (built_batch _ _ _ _ _ _ B) as [w' ->]. unfold quant_mirror. destruct (q_s q) as [s|s].
    - destruct T as ((Hk & Hi & Hf) & Wi & Wf). rewrite (quantizer_infer_ext (q_w q) _ _ x (fun x => kif_infer_base (q_c q) (q_hom q) s x W)) in H.
      destruct (mirror_base (q_w q) (q_c q) (t_k s) (tmap round_even (t_i s)) (tmap round_even (t_f s)) x y w' n (d :: sh) Sc Hk Hi Hf Ex Wi Wf H) as (A & C). split; [exact A|exact (C b)].
    - destruct T as ((Hk & Hb' & Hi) & Wi & Wf). rewrite (quantizer_infer_ext (q_w q) _ _ x (fun x => kbi_infer_base (q_c q) (q_hom q) s x W)) in H.
      destruct (mirror_base (q_w q) (q_c q) (u_k s) (tmap round_even (u_i s)) (tmap2 Z.sub (tmap round_even (u_b s)) (tmap round_even (u_i s))) x y w' n (d :: sh) Sc Hk Hi Hb' Ex Wi Wf H) as (A & C). split; [exact A|exact (C b)]. }
  destruct G as (Sy & r & Er & Sr & Ar). change (M_Mirror.sample b x) with (sample b x) in Er.
  destruct (mirror_same q _ _ _ S Er) as (z & Ez & Sz). exists z. split; [exact Ez|]. split; [exists d, sh; exact Sy|].
  apply (st_trans _ r); [|exact Sz]. split; [cbn [sample shape]; rewrite Sy, Sr; reflexivity|]. intros i Vi. cbn [sample at_]. symmetry. apply Ar. cbn [sample shape] in Vi. rewrite Sy in Vi. exact Vi.
Qed.
