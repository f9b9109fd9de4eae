(** Lemmas for C56: the layer computes the table einsum. *)
From Verif Require Import Num M_Fixed M_State M_Mapper S_Mapper L_Mapper M_Contr M_Ebops L_Ebops M_Patch L_Patch M_Ops L_Ops M_Cebops L_Cebops M_Table S_Table L_Table M_Trace L_Trace M_EinsumT.
From Verif Require Import S_Ops.
From Verif Require Import L_EinsumT.
From Verif Require Export S_EinsumT.
From Coq Require Import Permutation.
Notation qsum_ext := L_Ebops.qsum_ext.

Lemma so_valid (dims : nat -> nat) ls : forall F G (e : nat -> nat),
  (forall f, (forall c, In c ls -> (f c < dims c)%nat) -> (forall c, ~ In c ls -> f c = e c) -> F f == G f) ->
  sum_over 0 Qplus dims ls F e == sum_over 0 Qplus dims ls G e.
Proof.
  induction ls as [|l ls IH]; intros F G e H; [apply H; [intros c []|reflexivity]|].
  cbn [sum_over]. change (csum 0 Qplus) with qsum. apply qsum_ext. intros v Hv. apply in_seq in Hv. apply IH. intros f H1 H2. apply H.
  - intros c [<-|Hc]; [|apply H1, Hc]. destruct (in_dec Nat.eq_dec l ls) as [I|I]; [apply H1, I|]. rewrite (H2 l I). unfold upd. rewrite Nat.eqb_refl. lia.
  - intros c Hc. rewrite (H2 c) by (intros I; apply Hc; right; exact I). unfold upd. destruct (Nat.eqb_spec c l) as [->|]; [exfalso; apply Hc; left; reflexivity|reflexivity].
Qed.
Lemma nprod_ones m : nprod (repeat 1%nat m) = 1%nat.
Proof. induction m as [|m IH]; [reflexivity|]. cbn [repeat]. rewrite nprod_cons, IH. reflexivity. Qed.
Lemma flat_ones sh m : forall i, length i = length sh -> flat (sh ++ repeat 1%nat m) (i ++ repeat 0%nat m) = flat sh i.
Proof.
  induction sh as [|d sh IH]; intros [|i idx] H; try discriminate H.
  - cbn [app]. clear H. induction m as [|m IH]; [reflexivity|]. cbn [repeat flat]. rewrite IH. reflexivity.
  - cbn [app flat]. rewrite IH by (cbn in H; lia). rewrite nprod_app, nprod_ones, Nat.mul_1_r. reflexivity.
Qed.
Lemma bcast_index_app s t i j : length s = length i -> bcast_index (s ++ t) (i ++ j) = bcast_index s i ++ bcast_index t j.
Proof. revert i. induction s as [|d s IH]; intros [|a i] H; try discriminate H; [reflexivity|]. cbn [app bcast_index]. rewrite IH by (cbn in H; lia). reflexivity. Qed.
Lemma bcast_index_ones m : forall j, length j = m -> bcast_index (repeat 1%nat m) j = repeat 0%nat m.
Proof. induction m as [|m IH]; intros [|a j] H; try discriminate H; [reflexivity|]. cbn [repeat bcast_index Nat.eqb]. rewrite IH by (cbn in H; lia). reflexivity. Qed.
Lemma join_sub s t : Forall2 (fun d e : nat => e = 1%nat \/ e = d) s t -> join_shape s t = Some s.
Proof.
  induction 1 as [|d e s t H1 H2 IH]; [reflexivity|]. cbn [join_shape]. rewrite IH. unfold join_dim.
  destruct (Nat.eqb_spec d 1) as [->|Hd]; [destruct H1 as [-> | ->]; reflexivity|].
  destruct H1 as [-> | ->]; [reflexivity|]. rewrite Nat.eqb_refl, orb_true_r. reflexivity.
Qed.
(** a tensor whose axes are the letters [pre ++ suf], and one with the axes [suf] of which those outside [ax] have size 1 *)
Lemma binary_letters f (dims : nat -> nat) (ax pre suf : list nat) (y b : tensor Q) :
  shape y = map dims (pre ++ suf) -> shape b = map (fun l => if memb l ax then dims l else 1%nat) suf ->
  exists z, np_binary f y b = Some z /\ shape z = map dims (pre ++ suf) /\
    forall env, (forall l, In l (pre ++ suf) -> (env l < dims l)%nat) ->
      at_ z (map env (pre ++ suf)) = f (at_ y (map env (pre ++ suf))) (at_ b (map (fun l => if memb l ax then env l else 0%nat) suf)).
Proof.
  intros Hy Hb. unfold np_binary. set (n := Nat.max (length (shape y)) (length (shape b))).
  assert (Hn : n = length (pre ++ suf)) by (unfold n; rewrite Hy, Hb, !map_length, app_length; lia).
  assert (E1 : lpad n (shape y) = shape y) by (apply lpad_eq; rewrite Hn, Hy, map_length; reflexivity).
  assert (E2 : lpad n (shape b) = repeat 1%nat (length pre) ++ shape b).
  { unfold lpad. f_equal. f_equal. rewrite Hn, Hb, map_length, app_length. lia. }
  rewrite E1, E2. rewrite join_sub.
  - cbn [bind]. eexists. split; [reflexivity|]. cbn [shape at_]. split; [exact Hy|]. intros env He. f_equal.
    + rewrite Hn. replace (length (pre ++ suf)) with (length (map dims (pre ++ suf))) by apply map_length. apply bcast_at_valid; [exact Hy|]. apply env_valid, He.
    + unfold bcast_at. rewrite E2. f_equal. replace (n - length (shape b))%nat with (length pre) by (rewrite Hn, Hb, map_length, app_length; lia).
      rewrite map_app, bcast_index_app by (rewrite repeat_length, map_length; reflexivity). rewrite bcast_index_ones by apply map_length.
      replace (length pre) with (length (repeat 0%nat (length pre))) at 1 by apply repeat_length. rewrite skipn_app, skipn_all, Nat.sub_diag. cbn [skipn app].
      rewrite Hb. assert (He' : forall l, In l suf -> (env l < dims l)%nat) by (intros l Hl; apply He, in_or_app; right; exact Hl). clear - He'.
      induction suf as [|l suf IH]; [reflexivity|]. cbn [map bcast_index]. rewrite IH by (intros l' Hl'; apply He'; right; exact Hl'). f_equal.
      specialize (He' l (or_introl eq_refl)). destruct (memb l ax); [|reflexivity]. destruct (Nat.eqb_spec (dims l) 1); lia.
  - rewrite Hy, Hb, map_app. apply Forall2_app.
    + clear. induction pre as [|l pre IH]; [constructor|]. cbn [map length repeat]. constructor; [left; reflexivity|exact IH].
    + clear. induction suf as [|l suf IH]; [constructor|]. cbn [map]. constructor; [destruct (memb l ax); [right|left]; reflexivity|exact IH].
Qed.

Lemma memb_app l a b : memb l (a ++ b) = memb l a || memb l b.
Proof. unfold memb. apply existsb_app. Qed.
Lemma from_first_split ax lo : exists pre, lo = pre ++ from_first ax lo.
Proof. induction lo as [|l lo IH]; [exists []; reflexivity|]. cbn [from_first]. destruct (memb l ax); [exists []; reflexivity|]. destruct IH as [pre E]. exists (l :: pre). cbn [app]. rewrite <- E. reflexivity. Qed.
Lemma from_first_snoc ax lo h : ~ In h lo -> from_first (ax ++ [h]) (lo ++ [h]) = from_first ax lo ++ [h].
Proof.
  induction lo as [|l lo IH]; intros H.
  - cbn [app from_first]. rewrite memb_app. replace (memb h [h]) with true by (symmetry; apply memb_In; left; reflexivity). rewrite orb_true_r. reflexivity.
  - cbn [app from_first]. rewrite memb_app. replace (memb l [h]) with false by (symmetry; apply memb_false; intros [->|[]]; apply H; left; reflexivity). rewrite orb_false_r.
    destruct (memb l ax); [reflexivity|]. apply IH. intros I. apply H. right. exact I.
Qed.

(** ** one layer of the module *)
Lemma dense_ok (D : nat -> nat) (presum lw tail_ : list nat) (hin : nat) (l : edense) (x : tensor Q) :
  NoDup (presum ++ hin :: tail_) -> incl lw presum -> NoDup lw -> shape x = map D (presum ++ [hin]) -> shape (ed_w l) = map D (lw ++ hin :: tail_) ->
  match ed_b l with Some b => shape b = keras_bias_shape D (presum ++ tail_) (lw ++ tail_) | None => True end ->
  Proper (Qeq ==> Qeq) (ed_act l) ->
  exists y, einsum_dense_call (presum ++ [hin]) (lw ++ hin :: tail_) (presum ++ tail_) l x = Some y /\ shape y = map D (presum ++ tail_) /\
    forall env, (forall c, In c (presum ++ tail_) -> (env c < D c)%nat) ->
      at_ y (map env (presum ++ tail_)) ==
      ed_act l (qsum (map (fun d => at_ x (map env presum ++ [d]) * at_ (ed_w l) (map env lw ++ d :: map env tail_)) (seq 0 (D hin))) +
                match ed_b l with Some b => at_ b (map (fun c => if memb c (lw ++ tail_) then env c else 0%nat) (from_first (lw ++ tail_) (presum ++ tail_))) | None => 0 end).
Proof.
  intros N Iw Nw Hx Hw Hb Pa. unfold einsum_dense_call.
  assert (Nh : ~ In hin presum /\ ~ In hin tail_ /\ NoDup presum /\ NoDup tail_ /\ (forall c, In c presum -> ~ In c tail_)).
  { pose proof (NoDup_app_l _ _ N) as N1. pose proof (NoDup_app_r _ _ N) as N2. apply NoDup_cons_iff in N2. destruct N2 as [N2 N3].
    split; [intros I; apply (NoDup_app_disj _ _ hin N I); left; reflexivity|]. split; [exact N2|]. split; [exact N1|]. split; [exact N3|].
    intros c Hc Ht. apply (NoDup_app_disj _ _ c N Hc). right. exact Ht. }
  destruct Nh as (Nh1 & Nh2 & Np & Nt & Ndis).
  assert (Ld : forall L c, In c L -> label_dim L (map D L) c = Some (D c)) by (intros L c Hc; apply label_dim_map, Hc).
  assert (Fit : einsum_fits (presum ++ [hin]) (shape x) (lw ++ hin :: tail_) (shape (ed_w l)) = true).
  { unfold einsum_fits. rewrite Hx, Hw, !map_length, !Nat.eqb_refl. cbn [andb]. apply forallb_forall. intros c _.
    destruct (in_dec Nat.eq_dec c (presum ++ [hin])) as [I|I]; [rewrite (Ld _ _ I)|rewrite (label_dim_notin _ _ _ I); reflexivity].
    destruct (in_dec Nat.eq_dec c (lw ++ hin :: tail_)) as [J|J]; [rewrite (Ld _ _ J); apply Nat.eqb_refl|rewrite (label_dim_notin _ _ _ J); reflexivity]. }
  rewrite Fit. set (dims' := einsum_dims _ _ _ _).
  assert (Dd : forall c, In c (presum ++ hin :: tail_) -> dims' c = D c).
  { intros c Hc. unfold dims', einsum_dims. rewrite Hx, Hw. destruct (in_dec Nat.eq_dec c (presum ++ [hin])) as [I|I]; [rewrite (Ld _ _ I); reflexivity|].
    rewrite (label_dim_notin _ _ _ I). rewrite Ld; [reflexivity|]. apply in_app_or in Hc. apply in_or_app. right.
    destruct Hc as [Hc|[<-|Hc]]; [exfalso; apply I, in_or_app; left; exact Hc|left; reflexivity|right; exact Hc]. }
  assert (Em : map dims' (presum ++ tail_) = map D (presum ++ tail_)).
  { apply map_ext_in. intros c Hc. apply Dd. apply in_app_or in Hc. apply in_or_app. destruct Hc as [Hc|Hc]; [left; exact Hc|right; right; exact Hc]. }
  assert (Ec : contracted (presum ++ [hin]) (lw ++ hin :: tail_) (presum ++ tail_) = [hin]).
  { unfold contracted. apply filter_all_single.
    - apply NoDup_filter. unfold all_labels. apply NoDup_nodup.
    - apply filter_In. split; [unfold all_labels; apply nodup_In, in_or_app; left; apply in_or_app; right; left; reflexivity|].
      apply negb_true_iff, memb_false. intros I. apply in_app_or in I. destruct I; contradiction.
    - intros c Hc Hne. apply filter_In in Hc. destruct Hc as [Hc Hn]. apply negb_true_iff, memb_false in Hn. unfold all_labels in Hc. apply nodup_In in Hc.
      apply Hn. apply in_or_app. apply in_app_or in Hc. destruct Hc as [Hc|Hc]; apply in_app_or in Hc.
      + destruct Hc as [Hc|[Hc|[]]]; [left; exact Hc|congruence].
      + destruct Hc as [Hc|[Hc|Hc]]; [left; apply Iw, Hc|congruence|right; exact Hc]. }
  assert (Ev : forall env, at_ (mk_tensor (map dims' (presum ++ tail_)) (einsum 0 Qplus Qmult dims' (presum ++ [hin]) (lw ++ hin :: tail_) (presum ++ tail_) (at_ x) (at_ (ed_w l)))) (map env (presum ++ tail_)) ==
                 qsum (map (fun d => at_ x (map env presum ++ [d]) * at_ (ed_w l) (map env lw ++ d :: map env tail_)) (seq 0 (D hin)))).
  { intros env. cbn [at_]. unfold einsum. rewrite Ec. cbn [sum_over]. change (csum 0 Qplus) with qsum. rewrite Dd by (apply in_or_app; right; left; reflexivity).
    apply qsum_ext. intros v _. set (e := bind_idx _ _ _).
    assert (Ee : forall L, incl L (presum ++ tail_) -> map (upd e hin v) L = map env L).
    { intros L HL. apply map_ext_in. intros c Hc. unfold upd. destruct (Nat.eqb_spec c hin) as [->|Hn]; [exfalso; specialize (HL _ Hc); apply in_app_or in HL; destruct HL; contradiction|].
      unfold e. apply bind_env; [|apply HL, Hc]. apply NoDup_app_intro; assumption. }
    assert (Eh : upd e hin v hin = v) by (unfold upd; rewrite Nat.eqb_refl; reflexivity).
    rewrite !map_app. cbn [map]. rewrite Eh, (Ee presum), (Ee lw), (Ee tail_); [reflexivity|apply incl_appr, incl_refl| |apply incl_appl, incl_refl].
    intros c Hc. apply in_or_app. left. apply Iw, Hc. }
  destruct (ed_b l) as [b|].
  - destruct (from_first_split (lw ++ tail_) (presum ++ tail_)) as [pre Ep]. unfold keras_bias_shape in Hb. remember (from_first (lw ++ tail_) (presum ++ tail_)) as suf. clear Heqsuf.
    set (y0 := mk_tensor (map dims' (presum ++ tail_)) _) in *.
    destruct (binary_letters Qplus D (lw ++ tail_) pre suf y0 b) as (z & Ez & Sz & Vz); [rewrite <- Ep; unfold y0; exact Em|exact Hb|].
    rewrite Ez. cbn [bind]. eexists. split; [reflexivity|]. rewrite <- Ep in Sz, Vz. split; [exact Sz|]. intros env He. cbn [tmap at_]. rewrite (Vz env He). apply Pa.
    rewrite (Ev env). reflexivity.
  - cbn [bind]. eexists. split; [reflexivity|]. split; [exact Em|]. intros env He. cbn [tmap at_]. apply Pa. rewrite Qplus_0_r. exact (Ev env).
Qed.

Lemma entry_net_ext d_hl ls : (forall l, In l ls -> Proper (Qeq ==> Qeq) (ed_act l)) -> forall din kc bc v v', (forall d, (d < din)%nat -> v d == v' d) ->
  entry_net d_hl din ls kc bc v == entry_net d_hl din ls kc bc v'.
Proof.
  induction ls as [|l ls IH]; intros P din kc bc v v' H; [reflexivity|]. destruct ls as [|l' ls].
  - cbn [entry_net]. apply (P l (or_introl eq_refl)). apply Qplus_comp; [|reflexivity]. apply qsum_ext. intros d Hd. apply in_seq in Hd. rewrite (H d) by lia. reflexivity.
  - change (entry_net d_hl d_hl (l' :: ls) kc bc (fun e => ed_act l (qsum (map (fun d => v d * at_ (ed_w l) (kc ++ [d; e])) (seq 0 din)) + match ed_b l with Some b => at_ b (bc ++ [e]) | None => 0 end)) ==
            entry_net d_hl d_hl (l' :: ls) kc bc (fun e => ed_act l (qsum (map (fun d => v' d * at_ (ed_w l) (kc ++ [d; e])) (seq 0 din)) + match ed_b l with Some b => at_ b (bc ++ [e]) | None => 0 end))).
    apply IH; [intros x Hx; apply P; right; exact Hx|]. intros e _. apply (P l (or_introl eq_refl)). apply Qplus_comp; [|reflexivity].
    apply qsum_ext. intros d Hd. apply in_seq in Hd. rewrite (H d) by lia. reflexivity.
Qed.
Lemma map_upd_notin (dims : nat -> nat) h v L : ~ In h L -> map (upd dims h v) L = map dims L.
Proof. intros H. apply map_ext_in. intros c Hc. unfold upd. destruct (Nat.eqb_spec c h) as [->|]; [contradiction|reflexivity]. Qed.
Section Module.
  Context (c : tconf) (dims : nat -> nat) (d_hl : nat).
  Context (Heq : good_equation c).
  Let presum := presum_idxs c.
  Let Np : NoDup presum. Proof. apply presum_nodup, Heq. Qed.
  Let Nw : NoDup (t_lw c). Proof. apply Heq. Qed.
  Let Iw : incl (t_lw c) presum. Proof. apply lw_presum. Qed.
  Lemma module_ok ls : forall hin hout din x v, ~ In hin presum -> ~ In hout presum -> hin <> hout ->
    module_fits c dims d_hl hin hout din ls -> (forall l, In l ls -> Proper (Qeq ==> Qeq) (ed_act l)) ->
    shape x = map dims presum ++ [din] ->
    (forall env d, (forall l, In l presum -> (env l < dims l)%nat) -> (d < din)%nat -> at_ x (map env presum ++ [d]) == v env d) ->
    exists y, module_call presum (t_lw c) hin hout ls x = Some y /\ shape y = map dims presum /\
      forall env, (forall l, In l presum -> (env l < dims l)%nat) ->
        at_ y (map env presum) == entry_net d_hl din ls (map env (t_lw c)) (bias_index c env) (v env).
  Proof.
    induction ls as [|l ls IH]; intros hin hout din x v H1 H2 H3 HF HP Hx Hv; [contradiction HF|].
    assert (Wi : ~ In hin (t_lw c)) by (intros I; apply H1, Iw, I). assert (Wo : ~ In hout (t_lw c)) by (intros I; apply H2, Iw, I).
    destruct ls as [|l' ls].
    - cbn [module_fits] in HF. destruct HF as [Hw Hb]. cbn [module_call entry_net].
      destruct (dense_ok (upd dims hin din) presum (t_lw c) [] hin l x) as (y & Ey & Sy & Vy).
      + apply NoDup_app_intro; [exact Np|constructor; [intros []|constructor]|]. intros a Ha [<-|[]]. contradiction.
      + exact Iw.
      + exact Nw.
      + rewrite Hx, map_app. cbn [map]. rewrite map_upd_notin by exact H1. unfold upd. rewrite Nat.eqb_refl. reflexivity.
      + rewrite Hw, map_app. cbn [map]. rewrite map_upd_notin by exact Wi. unfold upd. rewrite Nat.eqb_refl. reflexivity.
      + destruct (ed_b l) as [b|]; [|exact I]. destruct Hb as [_ Hb]. rewrite Hb, !app_nil_r. unfold keras_bias_shape. apply map_ext_in. intros a Ha. unfold upd.
        destruct (Nat.eqb_spec a hin) as [->|]; [|reflexivity]. exfalso. apply H1. destruct (from_first_split (t_lw c) presum) as [pre Ep]. rewrite Ep. apply in_or_app. right. exact Ha.
      + apply HP. left. reflexivity.
      + rewrite !app_nil_r in *. exists y. split; [exact Ey|]. rewrite map_upd_notin in Sy by exact H1. split; [exact Sy|]. intros env He. rewrite Vy.
        * apply (HP l (or_introl eq_refl)). apply Qplus_comp.
          -- replace (upd dims hin din hin) with din by (unfold upd; rewrite Nat.eqb_refl; reflexivity). apply qsum_ext. intros d Hd. apply in_seq in Hd. cbn [map]. rewrite (Hv env d He) by lia. reflexivity.
          -- reflexivity.
        * intros a Ha. unfold upd. destruct (Nat.eqb_spec a hin) as [->|]; [contradiction|apply He, Ha].
    - cbn [module_fits] in HF. destruct HF as (Hw & Hb & HF). fold (module_fits c dims d_hl hout hin d_hl (l' :: ls)) in HF.
      change (module_call presum (t_lw c) hin hout (l :: l' :: ls) x) with
        (do y <- einsum_dense_call (presum ++ [hin]) (t_lw c ++ [hin; hout]) (presum ++ [hout]) l x; module_call presum (t_lw c) hout hin (l' :: ls) y).
      set (D := upd (upd dims hin din) hout d_hl).
      assert (Dp : forall L, incl L presum -> map D L = map dims L).
      { intros L HL. unfold D. rewrite map_upd_notin by (intros I; apply H2, HL, I). apply map_upd_notin. intros I. apply H1, HL, I. }
      assert (Di : D hin = din) by (unfold D, upd; destruct (Nat.eqb_spec hin hout); [contradiction|]; rewrite Nat.eqb_refl; reflexivity).
      assert (Do : D hout = d_hl) by (unfold D, upd; rewrite Nat.eqb_refl; reflexivity).
      destruct (dense_ok D presum (t_lw c) [hout] hin l x) as (y & Ey & Sy & Vy).
      + apply NoDup_app_intro; [exact Np|constructor; [intros [E|[]]; congruence|constructor; [intros []|constructor]]|]. intros a Ha [<-|[<-|[]]]; contradiction.
      + exact Iw.
      + exact Nw.
      + rewrite Hx, map_app. cbn [map]. rewrite Dp by apply incl_refl. rewrite Di. reflexivity.
      + rewrite Hw, map_app. cbn [map]. rewrite Dp by exact Iw. rewrite Di, Do. reflexivity.
      + destruct (ed_b l) as [b|]; [|exact I]. destruct Hb as [_ Hb]. rewrite Hb. fold presum. unfold keras_bias_shape. rewrite from_first_snoc by exact H2. apply map_ext_in. intros a Ha.
        destruct (memb a (t_lw c ++ [hout])); [|reflexivity]. unfold D, upd. destruct (Nat.eqb_spec a hout); [reflexivity|]. destruct (Nat.eqb_spec a hin) as [->|]; [|reflexivity].
        exfalso. apply in_app_or in Ha. destruct Ha as [Ha|[Ha|[]]]; [|congruence]. apply H1. destruct (from_first_split (t_lw c) presum) as [pre Ep]. rewrite Ep. apply in_or_app. right. exact Ha.
      + apply HP. left. reflexivity.
      + rewrite Ey. cbn [bind].
        apply (IH hout hin d_hl y (fun env e => ed_act l (qsum (map (fun d => v env d * at_ (ed_w l) (map env (t_lw c) ++ [d; e])) (seq 0 din)) + match ed_b l with Some b => at_ b (bias_index c env ++ [e]) | None => 0 end))); try assumption.
        * intros E. apply H3. congruence.
        * intros x' Hx'. apply HP. right. exact Hx'.
        * rewrite Sy, map_app, Dp by apply incl_refl. cbn [map]. rewrite Do. reflexivity.
        * intros env e He Hle. specialize (Vy (upd env hout e)). rewrite !map_app, (map_upd_notin env hout e presum H2), (map_upd_notin env hout e (t_lw c) Wo) in Vy. cbn [map] in Vy.
          replace (upd env hout e hout) with e in Vy by (unfold upd; rewrite Nat.eqb_refl; reflexivity). rewrite Vy.
          -- apply (HP l (or_introl eq_refl)). rewrite Di. apply Qplus_comp.
             ++ apply qsum_ext. intros d Hd. apply in_seq in Hd. rewrite (Hv env d He) by lia. reflexivity.
             ++ destruct (ed_b l) as [b|]; [|reflexivity]. rewrite from_first_snoc by exact H2. unfold bias_index. fold presum. rewrite map_app. cbn [map].
                rewrite memb_app. replace (memb hout [hout]) with true by (symmetry; apply memb_In; left; reflexivity). rewrite orb_true_r.
                replace (upd env hout e hout) with e by (unfold upd; rewrite Nat.eqb_refl; reflexivity).
                assert (Eq : map (fun a => if memb a (t_lw c ++ [hout]) then upd env hout e a else 0%nat) (from_first (t_lw c) presum) = map (fun a => if memb a (t_lw c) then env a else 0%nat) (from_first (t_lw c) presum)); [|rewrite Eq; reflexivity].
                apply map_ext_in. intros a Ha. assert (Ap : In a presum) by (destruct (from_first_split (t_lw c) presum) as [pre Ep]; rewrite Ep; apply in_or_app; right; exact Ha).
                assert (An : a <> hout) by (intros ->; contradiction). rewrite memb_app. replace (memb a [hout]) with false by (symmetry; apply memb_false; intros [E|[]]; congruence). rewrite orb_false_r.
                unfold upd. destruct (Nat.eqb_spec a hout); [contradiction|reflexivity].
          -- intros a Ha. unfold upd at 1. unfold D, upd. apply in_app_or in Ha. destruct (Nat.eqb_spec a hout) as [->|Hn]; [exact Hle|].
             destruct Ha as [Ha|[Ha|[]]]; [|congruence]. destruct (Nat.eqb_spec a hin) as [->|]; [contradiction|]. apply He, Ha.
  Qed.
End Module.

Lemma hidden_fresh c h h' : hidden_labels c = Some (h, h') -> ~ In h (presum_idxs c) /\ ~ In h' (presum_idxs c) /\ h <> h'.
Proof.
  unfold hidden_labels. intros H. destruct (filter _ (seq 0 52)) as [|a [|a' r]] eqn:E; try discriminate H. injection H as -> ->.
  assert (N : NoDup (h :: h' :: r)) by (rewrite <- E; apply NoDup_filter, seq_NoDup).
  assert (I : forall l, In l (h :: h' :: r) -> ~ In l (presum_idxs c)).
  { intros l Hl. rewrite <- E in Hl. apply filter_In in Hl. destruct Hl as [_ Hl]. apply andb_true_iff in Hl. destruct Hl as [Hl _]. apply negb_true_iff, memb_false in Hl. exact Hl. }
  split; [apply I; left; reflexivity|]. split; [apply I; right; left; reflexivity|]. intros ->. apply NoDup_cons_iff in N. destruct N as [N _]. apply N. left. reflexivity.
Qed.
