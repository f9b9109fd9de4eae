(** Lemmas for C56: broadcasting, normalization, the final sum. *)
From Verif Require Import Num M_Fixed M_State M_Mapper S_Mapper L_Mapper M_Contr M_Ebops L_Ebops M_Patch L_Patch M_Ops L_Ops M_Cebops L_Cebops M_Table S_Table L_Table M_Trace L_Trace M_EinsumT.
From Verif Require Import S_Ops.
From Verif Require Import L_EinsumT L_EinsumT2.
From Verif Require Export S_EinsumT.
From Coq Require Import Permutation.
Notation qsum_ext := L_Ebops.qsum_ext.

(** positions along the letters of [N] only *)
Lemma nprod_letters (dims : nat -> nat) N L : nprod (map (fun l => if memb l N then dims l else 1%nat) L) = nprod (map dims (filter (fun l => memb l N) L)).
Proof. induction L as [|l L IH]; [reflexivity|]. cbn [map filter]. rewrite nprod_cons, IH. destruct (memb l N); [reflexivity|]. lia. Qed.
Lemma flat_letters (dims env : nat -> nat) N L : flat (map (fun l => if memb l N then dims l else 1%nat) L) (map (fun l => if memb l N then env l else 0%nat) L) =
  flat (map dims (filter (fun l => memb l N) L)) (map env (filter (fun l => memb l N) L)).
Proof. induction L as [|l L IH]; [reflexivity|]. cbn [map filter flat]. rewrite IH, nprod_letters. destruct (memb l N); [reflexivity|]. reflexivity. Qed.
Lemma put_letters (dims : nat -> nat) (L : list nat) N : NoDup L -> incl N L -> forall sh, length sh = length L ->
  length (fold_left (fun sh ad => put_nth (fst ad) (snd ad) sh) (combine (map (fun l => index_of l L) N) (map dims N)) sh) = length L /\
  forall a, (a < length L)%nat -> nth a (fold_left (fun sh ad => put_nth (fst ad) (snd ad) sh) (combine (map (fun l => index_of l L) N) (map dims N)) sh) 0%nat =
    if memb (nth a L 0%nat) N then dims (nth a L 0%nat) else nth a sh 0%nat.
Proof.
  intros NL. induction N as [|l N IH]; intros HI sh Hs; [split; [exact Hs|reflexivity]|].
  cbn [map combine fold_left fst snd]. assert (Il : In l L) by (apply HI; left; reflexivity).
  destruct (IH (fun x Hx => HI x (or_intror Hx)) (put_nth (index_of l L) (dims l) sh)) as [E1 E2]; [rewrite put_nth_length; exact Hs|].
  split; [exact E1|]. intros a Ha. rewrite (E2 a Ha). rewrite nth_put by (rewrite Hs; apply index_of_lt, Il).
  change (memb (nth a L 0%nat) (l :: N)) with ((nth a L 0%nat =? l)%nat || memb (nth a L 0%nat) N).
  destruct (memb (nth a L 0%nat) N); [rewrite orb_true_r; reflexivity|]. rewrite orb_false_r.
  destruct (Nat.eqb_spec (nth a L 0%nat) l) as [<-|Hn].
  - rewrite index_of_nth by assumption. rewrite Nat.eqb_refl. reflexivity.
  - destruct (Nat.eqb_spec a (index_of l L)) as [->|]; [exfalso; apply Hn, nth_index_of, Il|reflexivity].
Qed.

Section Layer.
  Context (c : tconf) (dims : nat -> nat) (ish : list (option nat)) (b : tbuilt).
  Context (Heq : good_equation c) (Hsz : known_sizes ish (map dims (t_li c))) (Hb : build_t c ish (map dims (t_lw c)) = Some b).
  Let presum := presum_idxs c.
  Let Np : NoDup presum. Proof. apply presum_nodup, Heq. Qed.
  Definition inside (env : nat -> nat) : Prop := forall l, In l (presum_idxs c) -> (env l < dims l)%nat.

  Lemma spread_ok x : shape x = map dims (t_li c) ->
    exists xb, spread b x = Some xb /\ shape xb = map dims presum /\ forall env, inside env -> at_ xb (map env presum) = at_ x (map env (t_li c)).
  Proof.
    intros Hx. unfold spread. rewrite Hx, (reshape_shape_ok c dims ish b Hsz Hb), (presum_shape_ok c dims ish b Hsz Hb). unfold np_reshape.
    rewrite nprod_app, nprod_ones, Nat.mul_1_r, Hx, Nat.eqb_refl. cbn [bind]. unfold broadcast_to. cbn [shape at_].
    assert (Bok : bcast_ok (map dims (t_li c) ++ repeat 1%nat (length (extra_idxs c))) (map dims (presum_idxs c)) = true).
    { unfold presum_idxs. rewrite map_app. generalize (extra_idxs c) as ex. generalize (t_li c) as L0. intros L0 ex. induction L0 as [|l L IH].
      - cbn [map app]. clear. induction ex as [|e ex IH]; [reflexivity|]. cbn [map length repeat bcast_ok]. rewrite IH. reflexivity.
      - cbn [map app bcast_ok]. rewrite IH, Nat.eqb_refl, ?orb_true_r. reflexivity. }
    rewrite Bok. eexists. split; [reflexivity|]. split; [reflexivity|]. intros env He. cbn [at_].
    assert (He' : forall l, In l (t_li c) -> (env l < dims l)%nat) by (intros l Hl; apply He; unfold presum_idxs; apply in_or_app; left; exact Hl).
    unfold presum, presum_idxs. rewrite map_app, bcast_index_app by (rewrite !map_length; reflexivity). rewrite bcast_index_ones by apply map_length.
    rewrite bcast_valid by (apply env_valid, He'). rewrite flat_ones by (rewrite !map_length; reflexivity). rewrite unflat_flat by (apply env_valid, He'). reflexivity.
  Qed.

  Lemma bn_bshape_ok : t_bn c = true -> bn_bshape b = map (fun l => if memb l (norm_idxs c) then dims l else 1%nat) presum.
  Proof.
    intros T. destruct (build_inv c dims ish b Hsz Hb) as (_ & Es & _ & _ & _ & _ & Ea & Eb). destruct (Eb T) as [Hi En]. rewrite T in Ea. unfold bn_bshape. rewrite Ea, En, Es.
    assert (Hl : length (ish ++ map (fun l => Some (dims l)) (extra_idxs c)) = length presum).
    { unfold presum, presum_idxs. rewrite !app_length, map_length, (Forall2_len _ _ _ Hsz), map_length. reflexivity. }
    rewrite Hl. destruct (put_letters dims presum (norm_idxs c) Np Hi (repeat 1%nat (length presum))) as [E1 E2]; [apply repeat_length|]. fold presum in E1, E2 |- *.
    apply (nth_ext _ _ 0%nat 0%nat); [rewrite map_length; exact E1|]. intros a Ha. rewrite E1 in Ha. rewrite (E2 a Ha).
    rewrite (nth_indep (map _ presum) 0%nat ((fun l => if memb l (norm_idxs c) then dims l else 1%nat) 0%nat)) by (rewrite map_length; exact Ha).
    rewrite (map_nth (fun l => if memb l (norm_idxs c) then dims l else 1%nat)). destruct (memb (nth a presum 0%nat) (norm_idxs c)); [reflexivity|].
    clear - Ha. revert a Ha. induction (length presum) as [|n IH]; intros a Ha; [lia|]. destruct a as [|a]; [reflexivity|]. cbn [repeat nth]. apply IH. lia.
  Qed.
  Lemma bn_reshape_ok (t : tensor Q) : t_bn c = true -> norm_ordered c -> shape t = map dims (norm_idxs c) ->
    exists s, np_reshape (bn_bshape b) t = Some s /\ shape s = map (fun l => if memb l (norm_idxs c) then dims l else 1%nat) presum /\
      forall env, inside env -> at_ s (map (fun l => if memb l (norm_idxs c) then env l else 0%nat) presum) = at_ t (map env (norm_idxs c)).
  Proof.
    intros T Ho Ht. unfold np_reshape. rewrite (bn_bshape_ok T), nprod_letters, Ht. unfold norm_ordered in Ho. fold presum in Ho.
    rewrite <- Ho, Nat.eqb_refl. eexists. split; [reflexivity|]. split; [reflexivity|]. intros env He. cbn [at_]. rewrite flat_letters. rewrite <- Ho. rewrite unflat_flat; [reflexivity|].
    apply env_valid. intros l Hl. apply He. rewrite Ho in Hl. apply filter_In in Hl. apply Hl.
  Qed.
  Lemma bn_ok (isqrt : Q) (bn : tbn) (t : tensor Q) : t_bn c = true -> norm_ordered c -> shape t = map dims presum ->
    shape (n_mean bn) = map dims (norm_idxs c) -> shape (n_istd bn) = map dims (norm_idxs c) ->
    exists z, bn_call b isqrt bn t = Some z /\ shape z = map dims presum /\
      forall env, inside env -> at_ z (map env presum) == normalized bn isqrt (map env (norm_idxs c)) (at_ t (map env presum)).
  Proof.
    intros T Ho Ht Hm Hs. unfold bn_call.
    destruct (bn_reshape_ok (bn_scaler bn) T Ho Hs) as (s & Es & Ss & Vs). rewrite Es. cbn [bind].
    destruct (bn_reshape_ok (bn_offset bn) T Ho Hm) as (o & Eo & So & Vo). rewrite Eo. cbn [bind].
    destruct (binary_letters Qmult dims (norm_idxs c) [] presum t s Ht Ss) as (y & Ey & Sy & Vy). rewrite Ey. cbn [bind]. cbn [app] in *.
    destruct (binary_letters Qplus dims (norm_idxs c) [] presum y o Sy So) as (z & Ez & Sz & Vz). rewrite Ez. cbn [bind]. cbn [app] in *.
    eexists. split; [reflexivity|]. split; [exact Sz|]. intros env He. cbn [tmap at_]. rewrite (Vz env He), (Vy env He), (Vs env He), (Vo env He).
    unfold normalized, bn_offset, bn_scaler. cbn [at_]. ring.
  Qed.

  Lemma post_filter : post_idxs c = filter (fun l => negb (memb l (t_li c) && negb (memb l (t_lo c)))) presum.
  Proof.
    assert (HE : forall l, In l (extra_idxs c) -> ~ In l (t_li c)) by (intros l Hl; apply (extra_in c) in Hl; tauto).
    unfold post_idxs, presum, presum_idxs. rewrite filter_app. f_equal.
    - apply filter_ext_in. intros l Hl. apply memb_In in Hl. rewrite Hl. cbn [andb]. rewrite negb_involutive. reflexivity.
    - clear - HE. induction (extra_idxs c) as [|l L IH]; [reflexivity|]. cbn [filter]. replace (memb l (t_li c)) with false by (symmetry; apply memb_false, HE; left; reflexivity). cbn [andb negb].
      f_equal. apply IH. intros l' Hl'. apply HE. right. exact Hl'.
  Qed.
  Lemma summed_filter : filter (fun l => memb l (t_li c) && negb (memb l (t_lo c))) presum = filter (fun l => negb (memb l (t_lo c))) (t_li c).
  Proof.
    assert (HE : forall l, In l (extra_idxs c) -> ~ In l (t_li c)) by (intros l Hl; apply (extra_in c) in Hl; tauto).
    unfold presum, presum_idxs. rewrite filter_app. rewrite <- (app_nil_r (filter (fun l => negb (memb l (t_lo c))) (t_li c))). f_equal.
    - apply filter_ext_in. intros l Hl. apply memb_In in Hl. rewrite Hl. reflexivity.
    - clear - HE. induction (extra_idxs c) as [|l L IH]; [reflexivity|]. cbn [filter]. replace (memb l (t_li c)) with false by (symmetry; apply memb_false, HE; left; reflexivity). cbn [andb].
      apply IH. intros l' Hl'. apply HE. right. exact Hl'.
  Qed.
  Lemma contract_by i : (i < length presum)%nat -> memb (0 + i) (contract_axes c) = (fun l => memb l (t_li c) && negb (memb l (t_lo c))) (nth i presum 0%nat).
  Proof.
    intros Hi. cbn [Nat.add]. unfold contract_axes. destruct (Nat.lt_ge_cases i (length (t_li c))) as [L|L].
    - replace (nth i presum 0%nat) with (nth i (t_li c) 0%nat) by (unfold presum, presum_idxs; rewrite app_nth1 by exact L; reflexivity).
      replace (memb (nth i (t_li c) 0%nat) (t_li c)) with true by (symmetry; apply memb_In, nth_In, L). cbn [andb].
      destruct (negb (memb (nth i (t_li c) 0%nat) (t_lo c))) eqn:E.
      + apply memb_In, filter_In. split; [apply in_seq; lia|exact E].
      + apply memb_false. intros I. apply filter_In in I. destruct I as [_ I]. congruence.
    - replace (memb (nth i presum 0%nat) (t_li c)) with false.
      + cbn [andb]. apply memb_false. intros I. apply filter_In in I. destruct I as [I _]. apply in_seq in I. lia.
      + symmetry. apply memb_false. unfold presum, presum_idxs in *. rewrite app_length in Hi. rewrite app_nth2 by lia.
        assert (I : In (nth (i - length (t_li c)) (extra_idxs c) 0%nat) (extra_idxs c)) by (apply nth_In; lia). apply (extra_in c) in I. tauto.
  Qed.
  Lemma post_lo : NoDup (post_idxs c) /\ (forall l, In l (t_lo c) <-> In l (post_idxs c)).
  Proof.
    split; [rewrite post_filter; apply NoDup_filter, Np|]. destruct Heq as (_ & _ & _ & HI & HW). intros l. unfold post_idxs. rewrite in_app_iff, filter_In, (extra_in c), memb_In. split.
    - intros H. destruct (in_dec Nat.eq_dec l (t_li c)) as [I|I]; [left; split; assumption|right]. split; [|exact I]. specialize (HI l H). apply in_app_or in HI. destruct HI as [HI|HI]; [contradiction|exact HI].
    - intros [[_ H]|[H1 H2]]; [exact H|]. destruct (HW l H1) as [H|H]; [contradiction|exact H].
  Qed.
  Lemma index_of_map_inj (P L : list nat) l : NoDup P -> incl L P -> In l L -> index_of (index_of l P) (map (fun x => index_of x P) L) = index_of l L.
  Proof.
    intros NP HI. induction L as [|x L IH]; intros Hl; [contradiction|]. cbn [map index_of]. destruct (Nat.eqb_spec l x) as [->|Hn]; [rewrite Nat.eqb_refl; reflexivity|].
    destruct (Nat.eqb_spec (index_of l P) (index_of x P)) as [E|E].
    - exfalso. apply Hn. rewrite <- (nth_index_of P l), <- (nth_index_of P x); [rewrite E; reflexivity|apply HI; left; reflexivity|apply HI; exact Hl].
    - f_equal. apply IH; [intros y Hy; apply HI; right; exact Hy|]. destruct Hl as [Hl|Hl]; [congruence|exact Hl].
  Qed.
  Lemma check_nat (l : list nat) n : (forall a, In a l -> (a < n)%nat) -> check_axis (map Z.of_nat l) n = Some l.
  Proof.
    intros H. unfold check_axis. rewrite map_map.
    assert (E : map (fun a => if (0 <=? Z.of_nat a)%Z then Z.of_nat a else (Z.of_nat a + Z.of_nat n)%Z) l = map Z.of_nat l).
    { apply map_ext. intros a. destruct (Z.leb_spec 0 (Z.of_nat a)); lia. }
    rewrite E. rewrite (proj2 (forallb_forall _ (map Z.of_nat l))).
    - rewrite map_map. f_equal. rewrite <- (map_id l) at 2. apply map_ext. intros a. apply Nat2Z.id.
    - intros z Hz. apply in_map_iff in Hz. destruct Hz as (a & <- & Ha). specialize (H a Ha). apply andb_true_iff. split; [apply Z.leb_le; lia|apply Z.ltb_lt; lia].
  Qed.

  Lemma drop_map axes : forall L a, drop_axes a axes (map dims L) = map dims (drop_axes a axes L).
  Proof. induction L as [|l L IH]; intros a; [reflexivity|]. cbn [map drop_axes]. rewrite IH. destruct (memb a axes); reflexivity. Qed.
  Lemma post_sum_ok (act : Q -> Q) (t : tensor Q) : Proper (Qeq ==> Qeq) act -> shape t = map dims presum ->
    exists y, post_sum b act t = Some y /\ shape y = map dims (t_lo c) /\
      forall o, valid_index (map dims (t_lo c)) o ->
        at_ y o == act (sum_over 0 Qplus dims (filter (fun l => negb (memb l (t_lo c))) (t_li c)) (fun e => at_ t (map e presum)) (bind_idx (t_lo c) o (fun _ => 0%nat))).
  Proof.
    intros Pa Ht. destruct (build_inv c dims ish b Hsz Hb) as (_ & _ & _ & Ec & Et & _). unfold post_sum. rewrite Ec, Et.
    destruct post_lo as [Npost Hpost]. assert (NLo : NoDup (t_lo c)) by apply Heq.
    destruct (drop_by (contract_axes c) (fun l => memb l (t_li c) && negb (memb l (t_lo c))) presum 0 contract_by) as [Ed Ek].
    rewrite <- post_filter in Ed. rewrite summed_filter in Ek.
    set (r := np_reduce qsum (contract_axes c) false t).
    assert (Sr : shape r = map dims (post_idxs c)) by (unfold r, np_reduce; cbn [shape]; rewrite Ht, drop_map, Ed; reflexivity).
    assert (Vr : forall env, (forall l, In l (post_idxs c) -> (env l < dims l)%nat) -> at_ r (map env (post_idxs c)) ==
               sum_over 0 Qplus dims (filter (fun l => negb (memb l (t_lo c))) (t_li c)) (fun e => at_ t (map e presum)) env).
    { intros env He. unfold r, np_reduce, reduce_keep, collect, keep. cbn [at_]. rewrite Ht. rewrite <- Ed. rewrite <- Ek. apply reduce_sum; [exact Np|]. rewrite Ed. exact He. }
    unfold np_transpose. rewrite check_nat.
    2:{ intros a Ha. apply in_map_iff in Ha. destruct Ha as (l & <- & Hl). rewrite Sr, map_length. apply index_of_lt, Hpost, Hl. }
    cbn [bind]. set (order := map (fun l => index_of l (post_idxs c)) (t_lo c)).
    assert (Hlen : length (t_lo c) = length (post_idxs c)).
    { apply Permutation_length, NoDup_Permutation; assumption. }
    assert (Hin : forall a, (a < length (post_idxs c))%nat -> In a order).
    { intros a Ha. unfold order. apply in_map_iff. exists (nth a (post_idxs c) 0%nat). split; [apply index_of_nth; assumption|]. apply Hpost, nth_In, Ha. }
    replace ((length order =? length (shape r))%nat && forallb (fun a => memb a order) (seq 0 (length (shape r))))%bool with true.
    2:{ symmetry. apply andb_true_iff. split; [apply Nat.eqb_eq; unfold order; rewrite Sr, !map_length; exact Hlen|]. apply forallb_forall. intros a Ha. apply in_seq in Ha. apply memb_In, Hin. rewrite Sr, map_length in Ha. lia. }
    cbn [bind]. eexists. split; [reflexivity|]. cbn [tmap transpose_by shape at_]. split.
    - rewrite Sr. unfold order. rewrite map_map. apply map_ext_in. intros l Hl. apply nth_map_letter, Hpost, Hl.
    - intros o Vo. apply Pa. set (env := bind_idx (t_lo c) o (fun _ => 0%nat)).
      assert (Eo : o = map env (t_lo c)) by (unfold env; symmetry; apply L_Ops.bind_map; [exact NLo|]; rewrite (Forall2_len _ _ _ Vo); apply map_length).
      assert (Ei : map (fun a => nth (index_of a order) o 0%nat) (seq 0 (length (shape r))) = map env (post_idxs c)).
      { rewrite Sr, map_length. rewrite <- (map_seq_letters env (post_idxs c)). apply map_ext_in. intros a Ha. apply in_seq in Ha.
        assert (Hl : In (nth a (post_idxs c) 0%nat) (t_lo c)) by (apply Hpost, nth_In; lia).
        rewrite <- (index_of_nth a (post_idxs c)) at 1 by (try assumption; lia). unfold order. rewrite index_of_map_inj; [|exact Npost|intros x Hx; apply Hpost, Hx|exact Hl].
        rewrite Eo. apply nth_map_letter, Hl. }
      rewrite Ei. apply Vr. intros l Hl. apply Hpost in Hl. rewrite Eo in Vo. clear - Vo Hl. clearbody env. induction (t_lo c) as [|x L IH]; [contradiction|].
      cbn [map] in Vo. inversion Vo; subst. destruct Hl as [<-|Hl]; [assumption|]. apply IH; assumption.
  Qed.
End Layer.

(** ** the whole layer *)
Lemma layer_ok L dims d_hl ish x : good_layer L dims d_hl ish -> (tl_bnorm L <> None -> norm_ordered (tl_conf L)) -> shape x = map dims (t_li (tl_conf L)) ->
  exists y, call_t L x = Some y /\ shape y = map dims (t_lo (tl_conf L)) /\ forall o, valid_index (shape y) o -> at_ y o == table_einsum L dims d_hl x o.
Proof.
  intros [Geq Gsz Gb Gl Gm Gbn (Pact & Ptoq & Pmod)] Hno Hx. set (c := tl_conf L) in *. set (b := tl_built L) in *.
  destruct (hidden_fresh c _ _ Gl) as (F1 & F2 & F3).
  destruct (spread_ok c dims ish b Gsz Gb x Hx) as (xb & Exb & Sxb & Vxb).
  unfold call_t. fold b c. rewrite Exb. cbn [bind]. destruct (build_inv c dims ish b Gsz Gb) as (Ep & _). rewrite Ep. cbn [shape at_].
  set (xin := mk_tensor (shape xb ++ [1%nat]) _).
  destruct (module_ok c dims d_hl Geq (tl_module L) (tl_hin L) (tl_hout L) 1 xin (fun env _ => tl_iq L (tl (map env (presum_idxs c))) (at_ x (map env (t_li c))))) as (t & Et & St & Vt); try assumption.
  { unfold xin. cbn [shape]. rewrite Sxb. reflexivity. }
  { intros env d He Hd. unfold xin. cbn [at_]. rewrite removelast_last. rewrite (Vxb env He). reflexivity. }
  rewrite Et. cbn [bind].
  set (body := fun env => let y := entry_net d_hl 1 (tl_module L) (map env (t_lw c)) (bias_index c env) (fun _ => tl_iq L (tl (map env (presum_idxs c))) (at_ x (map env (t_li c)))) in
     match tl_bnorm L with Some bn => normalized bn (tl_rsqrt L) (map env (norm_idxs c)) y | None => y end).
  assert (H : exists z, (match tl_bnorm L with Some bn => bn_call b (tl_rsqrt L) bn t | None => Some t end) = Some z /\ shape z = map dims (presum_idxs c) /\
    forall env, inside c dims env -> at_ z (map env (presum_idxs c)) == body env).
  { unfold body. destruct (tl_bnorm L) as [bn|]; [|exists t; split; [reflexivity|]; split; [exact St|exact Vt]].
    destruct Gbn as (T & Sm & Ss). destruct (bn_ok c dims ish b Geq Gsz Gb (tl_rsqrt L) bn t T) as (z & Ez & Sz & Vz); try assumption; [apply Hno; discriminate|].
    exists z. split; [exact Ez|]. split; [exact Sz|]. intros env He. rewrite (Vz env He). unfold normalized. rewrite (Vt env He). reflexivity. }
  destruct H as (z & Ez & Sz & Vz). rewrite Ez. cbn [bind].
  set (tq := mk_tensor (shape z) _).
  destruct (post_sum_ok c dims ish b Geq Gsz Gb (tl_act L) tq Pact) as (y & Ey & Sy & Vy); [exact Sz|].
  exists y. split; [exact Ey|]. split; [exact Sy|]. intros o Vo. rewrite Sy in Vo. rewrite (Vy o Vo). unfold table_einsum. fold c. apply Pact.
  apply so_valid. intros f H1 H2. unfold tq. cbn [at_]. unfold table_term. fold c. apply Ptoq. apply Vz. intros l Hl.
  destruct (in_dec Nat.eq_dec l (filter (fun l => negb (memb l (t_lo c))) (t_li c))) as [I|I]; [apply H1, I|]. rewrite (H2 l I).
  assert (Hlo : In l (t_lo c)).
  { destruct (in_dec Nat.eq_dec l (t_lo c)) as [J|J]; [exact J|]. exfalso. apply in_app_or in Hl. destruct Hl as [Hl|Hl].
    - apply I, filter_In. split; [exact Hl|]. apply negb_true_iff, memb_false, J.
    - apply (extra_in c) in Hl. destruct Hl as [Hw Hn]. destruct Geq as (_ & _ & _ & _ & HW). destruct (HW l Hw); contradiction. }
  clear - Vo Hlo. revert o Vo. induction (t_lo c) as [|a Lo IH]; intros o Vo; [contradiction|]. destruct o as [|i o]; inversion Vo; subst. cbn [bind_idx]. unfold upd.
  destruct (Nat.eqb_spec l a) as [->|Hn]; [assumption|]. destruct Hlo as [Hl|Hl]; [congruence|]. apply IH; assumption.
Qed.
