(** Lemmas for C56: building, batches, the ordinary einsum, what fails. *)
From Verif Require Import Num M_Fixed M_State M_Mapper S_Mapper L_Mapper M_Contr M_Ebops L_Ebops M_Patch L_Patch M_Ops L_Ops M_Cebops L_Cebops M_Table S_Table L_Table M_Trace L_Trace M_EinsumT.
From Verif Require Import S_Ops.
From Verif Require Import L_EinsumT L_EinsumT2 L_EinsumT3 L_EinsumT4.
From Verif Require Export S_EinsumT.
From Coq Require Import Permutation.
Notation qsum_ext := L_Ebops.qsum_ext.

Lemma opt_all_def {A B} (f : A -> option B) l : (forall x, In x l -> f x <> None) -> exists ys, opt_all (map f l) = Some ys.
Proof.
  induction l as [|x l IH]; intros H; [exists []; reflexivity|]. destruct IH as [ys E]; [intros y Hy; apply H; right; exact Hy|].
  specialize (H x (or_introl eq_refl)). cbn [map opt_all]. destruct (f x) as [y|]; [|congruence]. cbn [bind]. rewrite E. eexists. reflexivity.
Qed.
Lemma build_defined c dims ish : good_equation c -> length ish = length (t_li c) ->
  (forall a, (a < length ish)%nat -> ~ In (nth a (t_li c) 0%nat) (t_lo c) -> nth a ish None <> None) ->
  (t_bn c = true -> forall l, In l (norm_idxs c) -> In l (t_lw c) \/ In l (t_li c)) ->
  (t_bn c = true -> forall a, (a < length ish)%nat -> In (nth a (t_li c) 0%nat) (norm_idxs c) -> nth a ish None <> None) ->
  exists b, build_t c ish (map dims (t_lw c)) = Some b.
Proof.
  intros Heq Hlen Hct Hn1 Hn2. unfold build_t.
  assert (Hx : forallb (fun l => memb l (t_lo c)) (extra_idxs c) = true).
  { apply forallb_forall. intros l Hl. apply (extra_in c) in Hl. destruct Heq as (_ & _ & _ & _ & HW). apply memb_In. destruct (HW l (proj1 Hl)); [tauto|assumption]. }
  rewrite Hx. cbv zeta.
  assert (Ho : forallb (fun l => memb l (post_idxs c)) (t_lo c) = true) by (apply forallb_forall; intros l Hl; apply memb_In, (post_lo c Heq), Hl).
  rewrite Ho. set (psh := ish ++ _).
  destruct (opt_all_def (fun a => nth a psh None) (contract_axes c)) as [csh Ec].
  { intros a Ha. unfold contract_axes in Ha. apply filter_In in Ha. destruct Ha as [Ha Hb]. apply in_seq in Ha. unfold psh. rewrite app_nth1 by lia. apply Hct; [lia|]. apply negb_true_iff, memb_false in Hb. exact Hb. }
  rewrite Ec. cbn [bind].
  assert (Hw : forallb (fun l => memb l (presum_idxs c)) (t_lw c) = true) by (apply forallb_forall; intros l Hl; apply memb_In, lw_presum, Hl).
  rewrite Hw.
  assert (Hn : forall l, In l (if t_bn c then norm_idxs c else []) -> In l (presum_idxs c)).
  { intros l Hl. destruct (t_bn c); [|contradiction]. destruct (Hn1 eq_refl l Hl) as [H|H]; [apply lw_presum, H|apply in_or_app; left; exact H]. }
  replace (forallb (fun l => memb l (presum_idxs c)) (if t_bn c then norm_idxs c else [])) with true by (symmetry; apply forallb_forall; intros l Hl; apply memb_In, Hn, Hl).
  rewrite map_map.
  destruct (opt_all_def (fun l => nth (index_of l (presum_idxs c)) psh None) (if t_bn c then norm_idxs c else [])) as [bsh Eb].
  { intros l Hl. pose proof (Hn l Hl) as Hp. pose proof (index_of_lt _ _ Hp) as Hlt. pose proof (nth_index_of _ _ Hp) as Hnth. set (a := index_of l (presum_idxs c)) in *. clearbody a.
    unfold psh. destruct (Nat.lt_ge_cases a (length ish)) as [La|La].
    - rewrite app_nth1 by exact La. destruct (t_bn c); [|contradiction]. apply (Hn2 eq_refl a La). unfold presum_idxs in Hnth. rewrite app_nth1 in Hnth by lia. rewrite Hnth. exact Hl.
    - rewrite app_nth2 by exact La. unfold presum_idxs in Hlt. rewrite app_length in Hlt.
      assert (In (nth (a - length ish) (map (fun l => label_dim (t_lw c) (map dims (t_lw c)) l) (extra_idxs c)) None) (map (fun l => label_dim (t_lw c) (map dims (t_lw c)) l) (extra_idxs c))) as I by (apply nth_In; rewrite map_length; lia).
      apply in_map_iff in I. destruct I as (l' & E & Hl'). rewrite <- E. apply (extra_in c) in Hl'. rewrite label_dim_map by (apply Hl'). discriminate. }
  rewrite Eb. cbn [bind]. eexists. reflexivity.
Qed.

(** ** batches *)
Lemma keras_bias_ext (d d' : nat -> nat) lo ax : (forall a, In a ax -> d a = d' a) -> keras_bias_shape d lo ax = keras_bias_shape d' lo ax.
Proof. intros H. unfold keras_bias_shape. apply map_ext. intros a. destruct (memb a ax) eqn:E; [|reflexivity]. apply H, memb_In, E. Qed.
Lemma module_fits_ext c (d d' : nat -> nat) d_hl : (forall a, In a (t_lw c) -> d a = d' a) -> forall ls hin hout din, module_fits c d d_hl hin hout din ls -> module_fits c d' d_hl hin hout din ls.
Proof.
  intros H. assert (E : map d (t_lw c) = map d' (t_lw c)) by (apply map_ext_in; exact H).
  induction ls as [|l ls IH]; intros hin hout din HF; [exact HF|]. destruct ls as [|l' ls].
  - cbn [module_fits] in *. rewrite <- E. rewrite (keras_bias_ext d d' (presum_idxs c) (t_lw c) H) in HF. exact HF.
  - cbn [module_fits] in HF. destruct HF as (H1 & H2 & H3). fold (module_fits c d d_hl hout hin d_hl (l' :: ls)) in H3.
    cbn [module_fits]. split; [rewrite <- E; exact H1|]. split; [|apply (IH hout hin d_hl), H3].
    rewrite <- (keras_bias_ext (upd d hout d_hl) (upd d' hout d_hl)); [exact H2|]. intros a Ha. unfold upd. destruct (Nat.eqb_spec a hout) as [|Hn]; [reflexivity|].
    apply H. apply in_app_or in Ha. destruct Ha as [Ha|[Ha|[]]]; [exact Ha|congruence].
Qed.
Lemma norm_no_batch c l li ish ksh b : t_li c = l :: li -> build_t c (None :: ish) ksh = Some b -> t_bn c = true -> ~ In l (norm_idxs c).
Proof.
  intros El Hb T I. unfold build_t in Hb. destruct (forallb _ (extra_idxs c)); [|discriminate Hb]. cbv zeta in Hb. destruct (forallb _ (t_lo c)); [|discriminate Hb].
  destruct (opt_all (map _ (contract_axes c))); [|discriminate Hb]. cbn [bind] in Hb. destruct (forallb _ (t_lw c)); [|discriminate Hb]. rewrite T in Hb.
  destruct (forallb _ (norm_idxs c)); [|discriminate Hb].
  match type of Hb with (do bsh <- ?o; _) = _ => destruct o as [bsh|] eqn:Eb; [|discriminate Hb] end. apply opt_all_some in Eb. rewrite map_map in Eb.
  assert (J : In (nth (index_of l (presum_idxs c)) ((None :: ish) ++ map (fun l => label_dim (t_lw c) ksh l) (extra_idxs c)) None) (map Some bsh)).
  { rewrite <- Eb. apply in_map_iff. exists l. split; [reflexivity|exact I]. }
  unfold presum_idxs in J. rewrite El in J. cbn [app index_of] in J. rewrite Nat.eqb_refl in J. cbn [nth] in J. apply in_map_iff in J. destruct J as (k & E & _). discriminate E.
Qed.
Lemma good_upd L dims d_hl ish l li n : t_li (tl_conf L) = l :: li -> ~ In l (t_lw (tl_conf L)) -> good_layer L dims d_hl (None :: ish) -> good_layer L (upd dims l n) d_hl (None :: ish).
Proof.
  intros El Nl [Geq Gsz Gb Gl Gm Gbn Gp].
  assert (Ew : map (upd dims l n) (t_lw (tl_conf L)) = map dims (t_lw (tl_conf L))) by (apply map_upd_notin, Nl).
  assert (Nli : ~ In l li) by (destruct Geq as (N & _); rewrite El in N; apply NoDup_cons_iff in N; apply N).
  split; try assumption.
  - rewrite El in *. cbn [map] in *. inversion Gsz; subst. constructor; [left; reflexivity|]. rewrite map_upd_notin by exact Nli. assumption.
  - rewrite Ew. exact Gb.
  - apply (module_fits_ext _ dims); [|exact Gm]. intros a Ha. unfold upd. destruct (Nat.eqb_spec a l) as [->|]; [contradiction|reflexivity].
  - destruct (tl_bnorm L) as [bn|]; [|exact I]. destruct Gbn as (T & G1 & G2). pose proof (norm_no_batch _ _ _ _ _ _ El Gb T) as Nn.
    split; [exact T|]. rewrite map_upd_notin by exact Nn. split; assumption.
Qed.
Lemma sum_batch (dims dims' : nat -> nat) ls : (forall c, In c ls -> dims c = dims' c) -> forall F G (R : (nat -> nat) -> (nat -> nat) -> Prop),
  (forall e e' a v, R e e' -> In a ls -> R (upd e a v) (upd e' a v)) -> (forall e e', R e e' -> F e == G e') ->
  forall e e', R e e' -> sum_over 0 Qplus dims ls F e == sum_over 0 Qplus dims' ls G e'.
Proof.
  induction ls as [|l ls IH]; intros Hd F G R HR HF e e' He; [apply HF, He|]. cbn [sum_over]. change (csum 0 Qplus) with qsum. rewrite (Hd l (or_introl eq_refl)). apply qsum_ext. intros v _.
  apply (IH (fun c Hc => Hd c (or_intror Hc)) F G R); [intros f f' a w Hf Ha; apply HR; [exact Hf|right; exact Ha]|exact HF|]. apply HR; [exact He|left; reflexivity].
Qed.
Lemma table_sample L dims d_hl l li lo b x o n : good_equation (tl_conf L) -> (forall l', In l' (t_lw (tl_conf L)) -> l' <> l) -> (tl_bnorm L <> None -> ~ In l (norm_idxs (tl_conf L))) ->
  t_li (tl_conf L) = l :: li -> t_lo (tl_conf L) = l :: lo -> (forall p, Proper (Qeq ==> Qeq) (tl_toq L p)) -> Proper (Qeq ==> Qeq) (tl_act L) ->
  table_einsum L dims d_hl x (b :: o) == table_einsum L (upd dims l n) d_hl (one_sample b x) (0%nat :: o).
Proof.
  intros Geq Nl Nn Eli Elo Pt Pa. unfold table_einsum. apply Pa. rewrite Eli, Elo.
  set (c := tl_conf L) in *. assert (Nli : ~ In l li) by (destruct Geq as (N & _); rewrite Eli in N; apply NoDup_cons_iff in N; apply N).
  assert (Hls : forall a, In a (filter (fun l0 => negb (memb l0 (l :: lo))) (l :: li)) -> a <> l).
  { intros a Ha. apply filter_In in Ha. destruct Ha as [_ Ha]. apply negb_true_iff, memb_false in Ha. intros ->. apply Ha. left. reflexivity. }
  apply (sum_batch _ _ _) with (R := fun e e' => e l = b /\ e' l = 0%nat /\ forall a, a <> l -> e a = e' a).
  - intros a Ha. unfold upd. destruct (Nat.eqb_spec a l) as [->|]; [exfalso; apply (Hls l Ha); reflexivity|reflexivity].
  - intros e e' a v (R1 & R2 & R3) Ha. specialize (Hls a Ha). unfold upd. split; [destruct (Nat.eqb_spec l a); [congruence|exact R1]|]. split; [destruct (Nat.eqb_spec l a); [congruence|exact R2]|].
    intros a' Ha'. destruct (Nat.eqb_spec a' a); [reflexivity|apply R3, Ha'].
  - intros e e' (R1 & R2 & R3). unfold table_term. fold c.
    assert (M : forall K, ~ In l K -> map e K = map e' K) by (intros K HK; apply map_ext_in; intros a Ha; apply R3; intros ->; contradiction).
    assert (Nw : ~ In l (t_lw c)) by (intros I; apply (Nl l I); reflexivity).
    assert (Nx : ~ In l (li ++ extra_idxs c)) by (intros I; apply in_app_or in I; destruct I as [I|I]; [contradiction|apply (extra_in c) in I; apply Nw, I]).
    assert (Ep : tl (map e (presum_idxs c)) = tl (map e' (presum_idxs c))) by (unfold presum_idxs; rewrite Eli; cbn [app map tl]; apply M, Nx).
    assert (Ei : at_ (one_sample b x) (map e' (t_li c)) = at_ x (map e (t_li c))) by (unfold one_sample; cbn [at_]; rewrite Eli; cbn [map tl]; rewrite R1, (M li Nli); reflexivity).
    assert (Eb : bias_index c e = bias_index c e').
    { unfold bias_index. apply map_ext. intros a. destruct (memb a (t_lw c)) eqn:E; [|reflexivity]. apply R3. intros ->. apply memb_In in E. contradiction. }
    rewrite Ep, Ei, Eb, (M _ Nw). destruct (tl_bnorm L) as [bn|]; [|reflexivity]. rewrite (M (norm_idxs c)) by (apply Nn; discriminate). reflexivity.
  - cbn [bind_idx]. unfold upd. rewrite Nat.eqb_refl. split; [reflexivity|]. split; [reflexivity|]. intros a Ha. destruct (Nat.eqb_spec a l); [contradiction|reflexivity].
Qed.
Lemma traced_ok L dims d_hl ish act' quant vars codes xq x b y : batch_led (tl_conf L) -> good_layer L dims d_hl (None :: ish) -> bias_aligned (tl_conf L) ->
  (tl_bnorm L <> None -> norm_ordered (tl_conf L)) -> shape x = map dims (t_li (tl_conf L)) -> (b < hd 0%nat (shape x))%nat -> call_t L x = Some y ->
  traced_inputs L act' quant (1%nat :: tl (map dims (presum_idxs (tl_conf L)))) vars codes xq (one_sample b x) ->
  exists r, replay_t L act' quant (1%nat :: tl (map dims (presum_idxs (tl_conf L)))) vars xq = Some r /\ shape r = 1%nat :: tl (shape y) /\
    forall o, valid_index (tl (shape y)) o -> at_ r (0%nat :: o) == at_ y (b :: o).
Proof.
  intros (l & li & lo & Eli & Elo & Nw) G Hal Hno Hx Hb Hy T. destruct G as [Geq Gsz Gb Gl Gm Gbn Gp]. assert (G : good_layer L dims d_hl (None :: ish)) by (split; assumption).
  assert (G' := good_upd L dims d_hl ish l li 1 Eli Nw G).
  assert (Nli : ~ In l li) by (destruct Geq as (N & _); rewrite Eli in N; apply NoDup_cons_iff in N; apply N).
  assert (Nlo : ~ In l lo) by (destruct Geq as (_ & _ & N & _); rewrite Elo in N; apply NoDup_cons_iff in N; apply N).
  assert (Ep : 1%nat :: tl (map dims (presum_idxs (tl_conf L))) = map (upd dims l 1) (presum_idxs (tl_conf L))).
  { unfold presum_idxs. rewrite Eli. cbn [app map tl]. f_equal; [unfold upd; rewrite Nat.eqb_refl; reflexivity|]. symmetry. apply map_upd_notin.
    intros I. apply in_app_or in I. destruct I as [I|I]; [contradiction|]. apply (extra_in (tl_conf L)) in I. apply Nw, I. }
  rewrite Ep in T |- *. destruct T as [T1 T2 T3 T4 T5 T6].
  destruct (replay_ok L (upd dims l 1) d_hl (None :: ish) act' quant vars codes xq (one_sample b x) G' Hal T1 T2 T3 T4 T5 T6) as (r & Er & Sr & Vr).
  destruct (layer_ok L dims d_hl (None :: ish) x G Hno Hx) as (y' & Ey & Sy & Vy). rewrite Hy in Ey. apply some_inj in Ey. subst y'.
  exists r. split; [exact Er|]. rewrite Elo in Sr, Sy. cbn [map] in Sr, Sy. rewrite Sy. cbn [tl].
  assert (Sr' : shape r = 1%nat :: map dims lo) by (rewrite Sr, map_upd_notin by exact Nlo; unfold upd; rewrite Nat.eqb_refl; reflexivity).
  split; [exact Sr'|]. intros o Vo. rewrite Vr by (rewrite Sr'; constructor; [lia|exact Vo]).
  rewrite Vy by (rewrite Sy; constructor; [rewrite Hx, Eli in Hb; exact Hb|exact Vo]). symmetry. destruct Gp as (Pa & Pt & _). apply (table_sample L dims d_hl l li lo b x o 1%nat); try assumption.
  - intros l' Hl' ->. contradiction.
  - intros Hbn. destruct (tl_bnorm L) as [bn|]; [|congruence]. destruct Gbn as (Tb & _). exact (norm_no_batch _ _ _ _ _ _ Eli Gb Tb).
Qed.

(** ** without hidden layers, quantizers and normalization *)
Lemma plain_einsum L dims d_hl x w o : good_equation (tl_conf L) -> tl_module L = [mk_edense w None (fun v => v)] -> tl_bnorm L = None ->
  (forall p v, tl_iq L p v == v) -> (forall p v, tl_toq L p v == v) -> (forall v, tl_act L v == v) ->
  table_einsum L dims d_hl x o == einsum 0 Qplus Qmult dims (t_li (tl_conf L)) (t_lw (tl_conf L)) (t_lo (tl_conf L)) (at_ x) (fun k => at_ w (k ++ [0%nat])) o.
Proof.
  intros Geq Em Eb Hi Ht Ha. unfold table_einsum. rewrite Ha. set (c := tl_conf L) in *.
  unfold einsum. set (F := fun e : nat -> nat => at_ x (map e (t_li c)) * at_ w (map e (t_lw c) ++ [0%nat])).
  assert (HF : env_ext Qeq F) by (intros e e' H; unfold F; rewrite (map_ext e e' H (t_li c)), (map_ext e e' H (t_lw c)); reflexivity).
  rewrite (sum_over_perm dims F (contracted (t_li c) (t_lw c) (t_lo c)) (filter (fun l => negb (memb l (t_lo c))) (t_li c)) HF).
  - apply sum_over_F. intros e. unfold table_term. fold c. rewrite Eb, Em, Ht. cbn [entry_net ed_act ed_w ed_b seq map]. rewrite !qsum_cons. change (qsum []) with 0. rewrite Hi. unfold F. ring.
  - unfold contracted. apply NoDup_Permutation; [apply NoDup_filter; unfold all_labels; apply NoDup_nodup|apply NoDup_filter, Geq|].
    intros a. rewrite !filter_In. unfold all_labels. rewrite nodup_In, in_app_iff, negb_true_iff, memb_false. destruct Geq as (_ & _ & _ & _ & HW). split; [intros [[H|H] N]; split; try assumption|tauto].
    destruct (HW a H); [assumption|contradiction].
  - unfold contracted. apply NoDup_filter. unfold all_labels. apply NoDup_nodup.
Qed.
