From Verif Require Import Num M_Fixed M_State M_Mapper S_Mapper L_Mapper M_Contr M_Ebops L_Ebops M_Patch L_Patch M_Ops L_Ops M_Cebops L_Cebops M_Table S_Table L_Table M_Trace L_Trace M_EinsumT.
From Verif Require Import S_Ops.
From Verif Require Export S_EinsumT.
From Coq Require Import Permutation.
Notation qsum_ext := L_Ebops.qsum_ext.

(** ** sums over letters *)
Lemma so_gen dims ls : forall F G (e e' : nat -> nat),
  (forall f f', (forall c, In c ls -> f c = f' c) -> (forall c, ~ In c ls -> f c = e c /\ f' c = e' c) -> F f == G f') ->
  sum_over 0 Qplus dims ls F e == sum_over 0 Qplus dims ls G e'.
Proof.
  induction ls as [|l ls IH]; intros F G e e' H; [apply H; [intros c []|intros c _; split; reflexivity]|].
  cbn [sum_over]. change (csum 0 Qplus) with qsum. apply qsum_ext. intros v _. apply IH. intros f f' H1 H2. apply H.
  - intros c [<-|Hc]; [|apply H1, Hc]. destruct (in_dec Nat.eq_dec l ls) as [I|I]; [apply H1, I|].
    destruct (H2 l I) as [-> ->]. unfold upd. rewrite Nat.eqb_refl. reflexivity.
  - intros c Hc. destruct (H2 c) as [-> ->]; [intros I; apply Hc; right; exact I|]. unfold upd.
    destruct (Nat.eqb_spec c l) as [->|]; [exfalso; apply Hc; left; reflexivity|split; reflexivity].
Qed.
Fixpoint taken (a : nat) (axes L : list nat) : list nat :=
  match L with [] => [] | l :: L' => if memb a axes then l :: taken (S a) axes L' else taken (S a) axes L' end.
Lemma taken_in a axes L l : In l (taken a axes L) -> In l L.
Proof. revert a. induction L as [|c L IH]; intros a H; [contradiction|]. cbn [taken] in H. destruct (memb a axes); [destruct H as [<-|H]; [left; reflexivity|]|]; right; apply (IH (S a)), H. Qed.
Lemma drop_in a axes L l : In l (drop_axes a axes L) -> In l L.
Proof. revert a. induction L as [|c L IH]; intros a H; [contradiction|]. cbn [drop_axes] in H. destruct (memb a axes); [|destruct H as [<-|H]; [left; reflexivity|]]; right; apply (IH (S a)), H. Qed.
Lemma reduce_sum (dims : nat -> nat) axes : forall L a f env, NoDup L -> (forall l, In l (drop_axes a axes L) -> (env l < dims l)%nat) ->
  qsum (map f (filter (fun p => index_eqb (keep_from a axes p) (undrop a axes (map dims L) (map env (drop_axes a axes L)))) (indices (map dims L)))) ==
  sum_over 0 Qplus dims (taken a axes L) (fun e => f (map e L)) env.
Proof.
  induction L as [|c L IH]; intros a f env N Henv; [cbn; ring|]. apply NoDup_cons_iff in N. destruct N as [Nc N].
  cbn [map undrop drop_axes taken indices]. cbn [drop_axes] in Henv. destruct (memb a axes) eqn:E.
  - cbn [sum_over]. change (csum 0 Qplus) with qsum.
    assert (G : forall l, qsum (map f (filter (fun p => index_eqb (keep_from a axes p) (0%nat :: undrop (S a) axes (map dims L) (map env (drop_axes (S a) axes L))))
        (flat_map (fun i => map (cons i) (indices (map dims L))) l))) ==
      qsum (map (fun v => sum_over 0 Qplus dims (taken (S a) axes L) (fun e => f (e c :: map e L)) (upd env c v)) l)).
    { induction l as [|v l IHl]; [reflexivity|]. cbn [flat_map map]. rewrite filter_app, map_app, qsum_app, IHl. rewrite qsum_cons.
      apply Qplus_comp; [|reflexivity]. clear IHl.
      assert (Ed : map env (drop_axes (S a) axes L) = map (upd env c v) (drop_axes (S a) axes L)).
      { apply map_ext_in. intros l' Hl'. unfold upd. destruct (Nat.eqb_spec l' c) as [->|]; [exfalso; apply Nc, (drop_in (S a) axes L c Hl')|reflexivity]. }
      rewrite Ed. transitivity (sum_over 0 Qplus dims (taken (S a) axes L) (fun e => f (v :: map e L)) (upd env c v)).
      - rewrite <- (IH (S a) (fun p => f (v :: p)) (upd env c v) N).
        + set (g := undrop _ _ _ _). clearbody g.
          assert (Q1 : map f (filter (fun p => index_eqb (keep_from a axes p) (0%nat :: g)) (map (cons v) (indices (map dims L)))) =
                       map (fun p => f (v :: p)) (filter (fun p => index_eqb (keep_from (S a) axes p) g) (indices (map dims L)))); [|rewrite Q1; reflexivity].
          clear IH. induction (indices (map dims L)) as [|p ps IHp]; [reflexivity|]. cbn [map filter keep_from]. rewrite E, index_eqb_cons. cbn [Nat.eqb andb].
          destruct (index_eqb (keep_from (S a) axes p) g); cbn [map]; rewrite IHp; reflexivity.
        + intros l' Hl'. unfold upd. destruct (Nat.eqb_spec l' c) as [->|]; [exfalso; apply Nc, (drop_in (S a) axes L c Hl')|apply Henv, Hl'].
      - apply so_gen. intros f0 f1 H1 H2.
        assert (Ec : f1 c = v) by (destruct (H2 c) as [_ ->]; [intros I; apply Nc, (taken_in (S a) axes L c I)|]; unfold upd; rewrite Nat.eqb_refl; reflexivity).
        rewrite Ec. assert (Em : map f0 L = map f1 L); [|rewrite Em; reflexivity]. apply map_ext. intros l'.
        destruct (in_dec Nat.eq_dec l' (taken (S a) axes L)) as [I|I]; [apply H1, I|]. destruct (H2 l' I) as [-> ->]. reflexivity. }
    apply G.
  - cbn [map hd tl]. rewrite (filter_heads _ (fun p => index_eqb (keep_from (S a) axes p) (undrop (S a) axes (map dims L) (map env (drop_axes (S a) axes L)))) (env c)).
    + replace (memb (env c) (seq 0 (dims c))) with true by (symmetry; apply memb_In, in_seq; specialize (Henv c (or_introl eq_refl)); lia).
      rewrite map_map. rewrite (IH (S a) (fun p => f (env c :: p)) env N) by (intros l Hl; apply Henv; right; exact Hl).
      apply so_gen. intros f0 f1 H1 H2.
      assert (Ec : f1 c = env c) by (destruct (H2 c) as [_ ->]; [intros I; apply Nc, (taken_in (S a) axes L c I)|]; reflexivity).
      rewrite Ec. assert (Em : map f0 L = map f1 L); [|rewrite Em; reflexivity]. apply map_ext. intros l'.
      destruct (in_dec Nat.eq_dec l' (taken (S a) axes L)) as [I|I]; [apply H1, I|]. destruct (H2 l' I) as [-> ->]. reflexivity.
    + intros i j. cbn [keep_from]. rewrite E. apply index_eqb_cons.
    + apply seq_NoDup.
Qed.
Lemma drop_by axes P : forall L a, (forall i, (i < length L)%nat -> memb (a + i) axes = P (nth i L 0%nat)) ->
  drop_axes a axes L = filter (fun l => negb (P l)) L /\ taken a axes L = filter P L.
Proof.
  induction L as [|c L IH]; intros a H; [split; reflexivity|]. cbn [drop_axes taken filter].
  pose proof (H 0%nat) as H0. cbn [nth length] in H0. rewrite Nat.add_0_r in H0. rewrite H0 by lia.
  destruct (IH (S a)) as [E1 E2]; [intros i Hi; specialize (H (S i)); cbn [nth length] in H; replace (S a + i)%nat with (a + S i)%nat by lia; apply H; lia|].
  rewrite E1, E2. destruct (P c); split; reflexivity.
Qed.

(** ** letters and indices *)
Lemma valid_env (dims : nat -> nat) L p : NoDup L -> valid_index (map dims L) p -> exists env : nat -> nat, p = map env L /\ forall l, In l L -> (env l < dims l)%nat.
Proof.
  intros N V. exists (bind_idx L p (fun _ => 0%nat)). pose proof (Forall2_len _ _ _ V) as Hl. rewrite map_length in Hl.
  assert (E : map (bind_idx L p (fun _ => 0%nat)) L = p) by (apply L_Ops.bind_map; [exact N|exact Hl]). split; [symmetry; exact E|].
  intros l Hl'. rewrite <- E in V. clear E Hl. remember (bind_idx L p (fun _ => 0%nat)) as env. clear Heqenv N.
  induction L as [|c L IH]; [contradiction|]. cbn [map] in V. inversion V; subst. destruct Hl' as [<-|Hl']; [assumption|]. apply IH; assumption.
Qed.
Lemma env_valid (dims env : nat -> nat) L : (forall l, In l L -> (env l < dims l)%nat) -> valid_index (map dims L) (map env L).
Proof. induction L as [|c L IH]; intros H; [constructor|]. cbn [map]. constructor; [apply H; left; reflexivity|]. apply IH. intros l Hl. apply H. right. exact Hl. Qed.
Lemma nth_index_of (L : list nat) l : In l L -> nth (index_of l L) L 0%nat = l.
Proof. induction L as [|c L IH]; intros H; [contradiction|]. cbn [index_of]. destruct (Nat.eqb_spec l c) as [->|Hn]; [reflexivity|]. cbn [nth]. apply IH. destruct H as [<-|H]; [contradiction|exact H]. Qed.
Lemma index_of_lt (L : list nat) l : In l L -> (index_of l L < length L)%nat.
Proof. induction L as [|c L IH]; intros H; [contradiction|]. cbn [index_of length]. destruct (Nat.eqb_spec l c) as [->|Hn]; [lia|]. destruct H as [<-|H]; [contradiction|]. specialize (IH H). lia. Qed.
Lemma nth_map_letter {A} (f : nat -> A) (d : A) (L : list nat) l : In l L -> nth (index_of l L) (map f L) d = f l.
Proof.
  intros H. rewrite (nth_indep _ d (f 0%nat)) by (rewrite map_length; apply index_of_lt, H). rewrite map_nth, nth_index_of by exact H. reflexivity.
Qed.
Lemma map_seq_letters {A} (g : nat -> A) (L : list nat) : map (fun a => g (nth a L 0%nat)) (seq 0 (length L)) = map g L.
Proof.
  induction L as [|c L IH]; [reflexivity|]. cbn [length seq map nth]. f_equal. rewrite <- seq_shift, map_map. exact IH.
Qed.
Lemma bind_env (L : list nat) env e0 l : NoDup L -> In l L -> bind_idx L (map env L) e0 l = env l.
Proof.
  induction L as [|c L IH]; intros N H; [contradiction|]. apply NoDup_cons_iff in N. destruct N as [Nc N]. cbn [map bind_idx]. unfold upd.
  destruct (Nat.eqb_spec l c) as [->|Hn]; [reflexivity|]. apply IH; [exact N|]. destruct H as [<-|H]; [contradiction|exact H].
Qed.

(** ** facts about the built layer *)
Section Built.
  Context (c : tconf) (dims : nat -> nat) (ish : list (option nat)) (b : tbuilt).
  Context (Heq : good_equation c) (Hsz : known_sizes ish (map dims (t_li c))) (Hb : build_t c ish (map dims (t_lw c)) = Some b).

  Let HNi : NoDup (t_li c). Proof. apply Heq. Qed.
  Let HNw : NoDup (t_lw c). Proof. apply Heq. Qed.
  Let HNo : NoDup (t_lo c). Proof. apply Heq. Qed.
  Lemma extra_in l : In l (extra_idxs c) <-> In l (t_lw c) /\ ~ In l (t_li c).
  Proof. unfold extra_idxs. rewrite filter_In, negb_true_iff, memb_false. reflexivity. Qed.
  Lemma presum_nodup : NoDup (presum_idxs c).
  Proof. unfold presum_idxs. apply NoDup_app_intro; [exact HNi|apply NoDup_filter, HNw|]. intros l H1 H2. apply extra_in in H2. tauto. Qed.
  Lemma lw_presum : incl (t_lw c) (presum_idxs c).
  Proof. intros l H. unfold presum_idxs. apply in_or_app. destruct (in_dec Nat.eq_dec l (t_li c)) as [I|I]; [left; exact I|right; apply extra_in; split; assumption]. Qed.
  Lemma label_dim_map (L : list nat) l : In l L -> label_dim L (map dims L) l = Some (dims l).
  Proof. induction L as [|a L IH]; intros H; [contradiction|]. cbn [map label_dim]. destruct (Nat.eqb_spec a l) as [->|Hn]; [reflexivity|]. apply IH. destruct H as [H|H]; [contradiction|exact H]. Qed.
  Lemma build_inv :
    tb_presum b = presum_idxs c /\ tb_shape b = ish ++ map (fun l => Some (dims l)) (extra_idxs c) /\ tb_extra b = length (extra_idxs c) /\
    tb_contract b = contract_axes c /\ tb_transpose b = map (fun l => index_of l (post_idxs c)) (t_lo c) /\
    tb_kernel_axes b = map (fun l => index_of l (presum_idxs c)) (t_lw c) /\
    tb_bn_axes b = map (fun l => index_of l (presum_idxs c)) (if t_bn c then norm_idxs c else []) /\
    (t_bn c = true -> incl (norm_idxs c) (presum_idxs c) /\ tb_bn_shape b = map dims (norm_idxs c)).
  Proof.
    unfold build_t in Hb. destruct (forallb (fun l => memb l (t_lo c)) (extra_idxs c)); [|discriminate Hb]. cbv zeta in Hb.
    destruct (forallb (fun l => memb l (post_idxs c)) (t_lo c)); [|discriminate Hb].
    destruct (opt_all (map (fun a => nth a _ None) (contract_axes c))) as [csh|]; [|discriminate Hb]. cbn [bind] in Hb.
    destruct (forallb (fun l => memb l (presum_idxs c)) (t_lw c)); [|discriminate Hb].
    destruct (forallb (fun l => memb l (presum_idxs c)) (if t_bn c then norm_idxs c else [])) eqn:Fn; [|discriminate Hb].
    assert (Ex : map (fun l => label_dim (t_lw c) (map dims (t_lw c)) l) (extra_idxs c) = map (fun l => Some (dims l)) (extra_idxs c)).
    { apply map_ext_in. intros l Hl. apply label_dim_map. apply extra_in in Hl. tauto. }
    rewrite Ex in Hb.
    destruct (opt_all (map (fun a => nth a (ish ++ map (fun l => Some (dims l)) (extra_idxs c)) None) (map (fun l => index_of l (presum_idxs c)) (if t_bn c then norm_idxs c else [])))) as [bsh|] eqn:Eb; [|discriminate Hb].
    cbn [bind] in Hb. apply some_inj in Hb. subst b. cbn [tb_presum tb_shape tb_extra tb_contract tb_transpose tb_kernel_axes tb_bn_axes tb_bn_shape].
    split; [reflexivity|]. split; [reflexivity|]. split; [reflexivity|]. split; [reflexivity|]. split; [reflexivity|]. split; [reflexivity|]. split; [reflexivity|].
    intros T. rewrite T in *. rewrite forallb_forall in Fn. assert (I : incl (norm_idxs c) (presum_idxs c)) by (intros l Hl; apply memb_In, Fn, Hl). split; [exact I|].
    apply opt_all_some in Eb. rewrite map_map in Eb.
    assert (Hlen : length ish = length (t_li c)) by (rewrite (Forall2_len _ _ _ Hsz); apply map_length).
    assert (G : forall l, In l (norm_idxs c) -> forall o, nth (index_of l (presum_idxs c)) (ish ++ map (fun l => Some (dims l)) (extra_idxs c)) None = Some o -> o = dims l).
    { intros l Hl o Ho. specialize (I l Hl). pose proof (index_of_lt _ _ I) as Hlt. pose proof (nth_index_of _ _ I) as Hn. remember (index_of l (presum_idxs c)) as a. clear Heqa.
      unfold presum_idxs in Hlt, Hn. rewrite app_length in Hlt. destruct (Nat.lt_ge_cases a (length (t_li c))) as [La|La].
      - rewrite app_nth1 in Ho by lia. rewrite app_nth1 in Hn by lia. clear - Hsz Ho Hn La. revert a ish Hsz Ho Hn La. induction (t_li c) as [|d L IH]; intros a ish Hsz Ho Hn La; [cbn in La; lia|].
        inversion Hsz as [|o0 d0 ish0 sh0 Hod Hr E1 E2]; subst. destruct a as [|a]; cbn in *; [destruct Hod as [->| ->]; congruence|]. apply (IH a ish0); auto. lia.
      - rewrite app_nth2 in Ho by lia. rewrite Hlen in Ho. rewrite app_nth2 in Hn by lia. set (k := (a - length (t_li c))%nat) in *.
        rewrite (nth_indep _ None (Some (dims 0%nat))) in Ho by (rewrite map_length; lia). rewrite (map_nth (fun l => Some (dims l))) in Ho. rewrite Hn in Ho. congruence. }
    clear - Eb G. revert bsh Eb. induction (norm_idxs c) as [|l N IH]; intros bsh Eb; destruct bsh as [|o bsh]; try discriminate Eb; [reflexivity|].
    cbn [map] in Eb. injection Eb as E1 E2. cbn [map]. f_equal; [apply (G l (or_introl eq_refl)); exact E1|]. apply IH; [intros l' Hl'; apply G; right; exact Hl'|exact E2].
  Qed.
  Lemma presum_shape_ok : presum_shape b (map dims (t_li c)) = map dims (presum_idxs c).
  Proof.
    destruct build_inv as (_ & Es & _). unfold presum_shape. rewrite Es.
    assert (Hlen : length ish = length (t_li c)) by (rewrite (Forall2_len _ _ _ Hsz); apply map_length).
    unfold presum_idxs. rewrite map_app, app_length, seq_app, map_app. f_equal.
    - clear - Hsz Hlen. generalize (map (fun l => Some (dims l)) (extra_idxs c)) as t. intros t. revert Hlen. revert Hsz. generalize ish as io. induction (t_li c) as [|l L IH]; intros io Hs Hl; destruct io as [|o io]; try discriminate Hl; [reflexivity|].
      inversion Hs as [|o0 d0 ish0 sh0 Hod Hr E1 E2]; subst. cbn [length seq map]. f_equal.
      + cbn. destruct Hod as [->| ->]; reflexivity.
      + rewrite <- seq_shift, map_map. etransitivity; [|apply (IH io Hr); cbn in Hl; lia]. apply map_ext. intros a. reflexivity.
    - rewrite map_length, Hlen. cbn [Nat.add]. clear - Hlen. 
      rewrite <- (Nat.add_0_r (length (t_li c))) at 1. rewrite <- Hlen.
      assert (G : forall n m, seq (n + 0) m = map (fun a => (n + a)%nat) (seq 0 m)).
      { intros n m. generalize 0%nat as s. induction m as [|m IH]; intros s; [reflexivity|]. cbn [seq map]. f_equal. rewrite <- IH. f_equal. lia. }
      rewrite G, map_map. rewrite <- (map_seq_letters dims (extra_idxs c)). apply map_ext_in. intros a Ha. apply in_seq in Ha.
      rewrite app_nth2 by lia. replace (length ish + a - length ish)%nat with a by lia.
      rewrite (nth_indep _ None (Some (dims 0%nat))) by (rewrite map_length; lia). rewrite (map_nth (fun l => Some (dims l))). reflexivity.
  Qed.
  Lemma reshape_shape_ok : reshape_shape b (map dims (t_li c)) = map dims (t_li c) ++ repeat 1%nat (length (extra_idxs c)).
  Proof.
    unfold reshape_shape. rewrite presum_shape_ok. destruct build_inv as (_ & Es & Ee & _). rewrite Es, Ee. f_equal.
    assert (Hlen : length ish = length (t_li c)) by (rewrite (Forall2_len _ _ _ Hsz); apply map_length).
    unfold presum_idxs. rewrite app_length, map_length, Hlen. replace (length (t_li c) + length (extra_idxs c) - length (extra_idxs c))%nat with (length (t_li c)) by lia.
    rewrite map_app, firstn_app, map_length, Nat.sub_diag. cbn [firstn]. rewrite app_nil_r. rewrite <- (map_length dims (t_li c)). apply firstn_all.
  Qed.
End Built.
