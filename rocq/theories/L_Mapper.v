(** Proofs about the bit-width mapper. *)
From Verif Require Import Num M_Fixed M_State S_State L_Fixed L_State M_Mapper S_Mapper.

Lemma memb_In a l : memb a l = true <-> In a l.
Proof.
  unfold memb. rewrite existsb_exists. split.
  - intros (x & Hx & E). apply Nat.eqb_eq in E. subst. exact Hx.
  - intros H. exists a. split; [exact H|apply Nat.eqb_refl].
Qed.

Lemma memb_false a l : memb a l = false <-> ~ In a l.
Proof. rewrite <- memb_In. destruct (memb a l); split; congruence. Qed.

Lemma in_indices sh idx : In idx (indices sh) <-> valid_index sh idx.
Proof.
  revert idx. induction sh as [|d sh IH]; intros idx; cbn [indices].
  - split; [intros [<-|[]]; constructor|intros H; inversion H; left; reflexivity].
  - rewrite in_flat_map. split.
    + intros (i & Hi & H). apply in_map_iff in H. destruct H as (t & <- & Ht). apply in_seq in Hi.
      constructor; [lia|]. apply IH, Ht.
    + intros H. inversion H as [|i d' t sh' Hi Ht]; subst. exists i. split; [apply in_seq; lia|].
      apply in_map. apply IH, Ht.
Qed.

Definition complementary (a n : nat) (het hom : list nat) : Prop :=
  forall b, (a <= b < a + n)%nat -> memb b hom = negb (memb b het).

Lemma compl_S a n het hom : complementary a (S n) het hom -> complementary (S a) n het hom /\ memb a hom = negb (memb a het).
Proof. intros H. split; [intros b Hb; apply H; lia|apply H; lia]. Qed.

Lemma bcast_keep_from het hom built : forall a w sh,
  complementary a (length built) het hom ->
  weight_shape_from a het built = Some w -> shape_matches built sh ->
  bcast_ok w sh = true /\ keep_shape_from a hom sh = w /\
  forall idx, valid_index sh idx -> bcast_index w idx = keep_from a hom idx /\ valid_index w (keep_from a hom idx).
Proof.
  induction built as [|d built IH]; intros a w sh Hc Hw Hs; cbn [weight_shape_from] in Hw.
  - injection Hw as <-. inversion Hs; subst. split; [reflexivity|]. split; [reflexivity|].
    intros idx H. inversion H. split; [reflexivity|constructor].
  - inversion Hs as [|? e ? sh' Hd Hs']; subst. cbn [length] in Hc. apply compl_S in Hc. destruct Hc as [Hc Ha].
    destruct (weight_shape_from (S a) het built) as [w'|] eqn:E; [|discriminate].
    destruct (IH (S a) w' sh' Hc E Hs') as (B & K & I). cbn [keep_shape_from keep_from]. rewrite Ha.
    destruct (memb a het) eqn:M; cbn [negb].
    + destruct d as [d|]; [|discriminate]. injection Hw as <-. subst e.
      split; [cbn [bcast_ok]; rewrite B, Nat.eqb_refl, orb_true_r; reflexivity|].
      split; [rewrite K; reflexivity|]. intros idx H. inversion H as [|i ? t ? Hi Ht]; subst. cbn [bcast_index keep_from].
      destruct (I t Ht) as [I1 I2]. rewrite Ha. cbn [negb]. split.
      * rewrite I1. destruct (Nat.eqb_spec d 1); [|reflexivity]. f_equal. lia.
      * constructor; [exact Hi|exact I2].
    + injection Hw as <-. split; [cbn [bcast_ok]; rewrite B; reflexivity|]. split; [rewrite K; reflexivity|].
      intros idx H. inversion H as [|i ? t ? Hi Ht]; subst. cbn [bcast_index keep_from]. rewrite Ha. cbn [negb].
      destruct (I t Ht) as [I1 I2]. split; [rewrite I1; reflexivity|]. constructor; [lia|exact I2].
Qed.

Lemma keep_from_fix hom : forall sh a g, valid_index (keep_shape_from a hom sh) g -> keep_from a hom g = g.
Proof.
  induction sh as [|d sh IH]; intros a g H; cbn [keep_shape_from] in H; inversion H as [|i e t sh' Hi Ht]; subst; [reflexivity|].
  cbn [keep_from]. rewrite (IH (S a) t Ht). destruct (memb a hom); [|reflexivity]. f_equal. lia.
Qed.

Lemma keep_from_same hom : forall n a het i j, complementary a n het hom -> length i = n -> length j = n ->
  (keep_from a hom i = keep_from a hom j <-> forall b, (a <= b < a + n)%nat -> In b het -> nth (b - a) i 0%nat = nth (b - a) j 0%nat).
Proof.
  induction n as [|n IH]; intros a het i j Hc Hi Hj.
  - destruct i, j; try discriminate. cbn. split; [intros _ b Hb; lia|reflexivity].
  - destruct i as [|x i], j as [|y j]; try discriminate. cbn [length] in Hi, Hj. apply compl_S in Hc. destruct Hc as [Hc Ha].
    cbn [keep_from]. specialize (IH (S a) het i j Hc ltac:(lia) ltac:(lia)). rewrite Ha. split.
    + intros H b Hb Hin. injection H as H1 H2. destruct (Nat.eq_dec b a) as [->|D].
      * rewrite Nat.sub_diag. cbn [nth]. apply memb_In in Hin. rewrite Hin in H1. cbn [negb] in H1. exact H1.
      * replace (b - a)%nat with (S (b - S a)) by lia. cbn [nth]. apply IH; [exact H2|lia|exact Hin].
    + intros H. f_equal.
      * destruct (memb a het) eqn:M; cbn [negb]; [|reflexivity]. apply memb_In in M.
        specialize (H a ltac:(lia) M). rewrite Nat.sub_diag in H. exact H.
      * apply IH. intros b Hb Hin. specialize (H b ltac:(lia) Hin).
        replace (b - a)%nat with (S (b - S a)) in H by lia. exact H.
Qed.

(** axis resolution *)
Lemma check_axis_spec axis n l : check_axis axis n = Some l ->
  forall a, In a l <-> (a < n)%nat /\ exists z, In z axis /\ (z = Z.of_nat a \/ z = (Z.of_nat a - Z.of_nat n)%Z).
Proof.
  unfold check_axis. destruct (forallb _ _) eqn:F; [|discriminate]. intros H; injection H as <-. intros a.
  rewrite forallb_forall in F. rewrite in_map_iff. split.
  - intros (z' & <- & Hz). pose proof (F z' Hz) as B. apply andb_prop in B. destruct B as [B1 B2].
    apply Z.leb_le in B1. apply Z.ltb_lt in B2. split; [lia|].
    apply in_map_iff in Hz. destruct Hz as (z & E & Hz). exists z. split; [exact Hz|].
    destruct (Z.leb_spec 0 z); subst z'; rewrite Z2Nat.id by lia; lia.
  - intros (Ha & z & Hz & E). exists (Z.of_nat a). split; [apply Nat2Z.id|]. apply in_map_iff. exists z. split; [|exact Hz].
    destruct (Z.leb_spec 0 z); lia.
Qed.

Lemma setdiff_spec n l a : In a (setdiff n l) <-> (a < n)%nat /\ ~ In a l.
Proof.
  unfold setdiff. rewrite filter_In, in_seq, negb_true_iff, memb_false. split; intros [A B]; (split; [lia|exact B]).
Qed.

Lemma check_axis_lt axis n l : check_axis axis n = Some l -> forall a, In a l -> (a < n)%nat.
Proof. intros H a Ha. apply (check_axis_spec _ _ _ H) in Ha. tauto. Qed.

Lemma resolve_complementary het hom n h o : resolve_axes het hom n = Some (h, o) -> complementary 0 n h o.
Proof.
  unfold resolve_axes. destruct het as [het|], hom as [hom|]; try discriminate.
  - destruct (check_axis het n) as [l|] eqn:E; [|discriminate]. intros H; injection H as <- <-. intros b Hb.
    destruct (memb b l) eqn:M; cbn [negb].
    + apply memb_In in M. apply memb_false. rewrite setdiff_spec. tauto.
    + apply memb_false in M. apply memb_In. rewrite setdiff_spec. split; [lia|exact M].
  - destruct (check_axis hom n) as [l|] eqn:E; [|discriminate]. intros H; injection H as <- <-. intros b Hb.
    destruct (memb b l) eqn:M; symmetry.
    + apply memb_In in M. apply negb_true_iff. apply memb_false. rewrite setdiff_spec. tauto.
    + apply memb_false in M. apply negb_false_iff. apply memb_In. rewrite setdiff_spec. split; [lia|exact M].
Qed.

Lemma resolve_lt het hom n h o : resolve_axes het hom n = Some (h, o) -> forall a, In a h -> (a < n)%nat.
Proof.
  unfold resolve_axes. destruct het as [het|], hom as [hom|]; try discriminate.
  - destruct (check_axis het n) as [l|] eqn:E; [|discriminate]. intros H; injection H as <- <-. apply (check_axis_lt _ _ _ E).
  - destruct (check_axis hom n) as [l|] eqn:E; [|discriminate]. intros H; injection H as <- <-. intros a. rewrite setdiff_spec. tauto.
Qed.

(** the setting shared by the theorems: a quantizer built for [built], applied to shape [sh] *)
Record mapper_setting (het hom : list nat) (built : list (option nat)) (w sh : list nat) : Prop := {
  ms_compl : complementary 0 (length built) het hom;
  ms_lt : forall a, In a het -> (a < length built)%nat;
  ms_w : weight_shape het built = Some w;
  ms_sh : shape_matches built sh }.

Lemma Forall2_len {A B} (P : A -> B -> Prop) l l' : Forall2 P l l' -> length l = length l'.
Proof. induction 1; cbn; congruence. Qed.

Lemma some_pair {A B} (a a' : A) (b b' : B) : Some (a, b) = Some (a', b') -> a' = a /\ b' = b.
Proof. intros H. inversion H. split; reflexivity. Qed.

Section Setting.
  Variables (het hom : list nat) (built : list (option nat)) (w sh : list nat).
  Hypothesis S : mapper_setting het hom built w sh.

  Lemma ms_bcast_ok : bcast_ok w sh = true.
  Proof. destruct S as [C _ W M]. exact (proj1 (bcast_keep_from _ _ _ _ _ _ C W M)). Qed.
  Lemma ms_keep_shape : keep_shape_from 0 hom sh = w.
  Proof. destruct S as [C _ W M]. exact (proj1 (proj2 (bcast_keep_from _ _ _ _ _ _ C W M))). Qed.
  Lemma ms_index idx : valid_index sh idx -> bcast_index w idx = keep hom idx.
  Proof. destruct S as [C _ W M]. intros H. exact (proj1 (proj2 (proj2 (bcast_keep_from _ _ _ _ _ _ C W M)) idx H)). Qed.
  Lemma ms_valid idx : valid_index sh idx -> valid_index w (keep hom idx).
  Proof. destruct S as [C _ W M]. intros H. exact (proj2 (proj2 (proj2 (bcast_keep_from _ _ _ _ _ _ C W M)) idx H)). Qed.
  Lemma ms_len idx : valid_index sh idx -> length idx = length built.
  Proof. destruct S as [_ _ _ M]. intros H. rewrite (Forall2_len _ _ _ H). symmetry. exact (Forall2_len _ _ _ M). Qed.
  Lemma ms_group i j : valid_index sh i -> valid_index sh j -> (keep hom i = keep hom j <-> same_group het i j).
  Proof.
    intros Hi Hj. unfold keep. rewrite (keep_from_same hom (length built) 0 het i j (ms_compl _ _ _ _ _ S) (ms_len i Hi) (ms_len j Hj)).
    unfold same_group. split.
    - intros H a Ha. specialize (H a). rewrite Nat.sub_0_r in H. apply H; [|exact Ha]. pose proof (ms_lt _ _ _ _ _ S a Ha). lia.
    - intros H b Hb Hin. rewrite Nat.sub_0_r. apply H, Hin.
  Qed.

  Lemma in_collect {A} (t : tensor A) g v : shape t = sh -> (In v (collect hom t g) <-> exists idx, valid_index sh idx /\ keep hom idx = g /\ at_ t idx = v).
  Proof.
    intros E. unfold collect. rewrite in_map_iff, E. split.
    - intros (idx & Ev & H). apply filter_In in H. destruct H as [H1 H2]. exists idx. split; [apply in_indices, H1|].
      split; [|exact Ev]. unfold index_eqb in H2. destruct (list_eq_dec _ _ _); congruence.
    - intros (idx & Hv & Hk & Ev). exists idx. split; [exact Ev|]. apply filter_In. split; [apply in_indices, Hv|].
      unfold index_eqb. destruct (list_eq_dec _ _ _); congruence.
  Qed.

  (** elementwise functions that use the widths of the group commute with [collect] *)
  Lemma collect_map {A B} (t : tensor A) (u : tensor B) g (f : A -> B) : shape t = sh -> shape u = sh ->
    (forall idx, valid_index sh idx -> keep hom idx = g -> at_ u idx = f (at_ t idx)) ->
    collect hom u g = map f (collect hom t g).
  Proof.
    intros Et Eu H. unfold collect. rewrite Et, Eu, map_map. apply map_ext_in. intros idx Hi.
    apply filter_In in Hi. destruct Hi as [H1 H2]. apply H; [apply in_indices, H1|].
    unfold index_eqb in H2. destruct (list_eq_dec _ _ _); congruence.
  Qed.

  Lemma absmax_t_spec x r : shape x = sh -> x_to_bw_absmax hom x = Some r ->
    shape r = w /\ forall g, valid_index w g -> absmax (collect hom x g) = Some (at_ r g).
  Proof.
    intros Ex. unfold x_to_bw_absmax, reduce_keep. cbn [shape at_]. rewrite Ex, ms_keep_shape.
    destruct (forallb _ _) eqn:F; [|discriminate]. intros H; injection H as <-. split; [reflexivity|]. intros g Hg. cbn [at_].
    rewrite forallb_forall in F. specialize (F g (proj2 (in_indices w g) Hg)). destruct (absmax _); [reflexivity|discriminate].
  Qed.

  Lemma absmax_t_defined x : shape x = sh -> (forall g, valid_index w g -> collect hom x g <> []) ->
    exists r, x_to_bw_absmax hom x = Some r.
  Proof.
    intros Ex H. unfold x_to_bw_absmax, reduce_keep. cbn [shape at_]. rewrite Ex, ms_keep_shape.
    destruct (forallb _ _) eqn:F; [eauto|]. exfalso. apply not_true_iff_false in F. apply F.
    apply forallb_forall. intros g Hg. apply in_indices in Hg. specialize (H g Hg). destruct (collect hom x g); [congruence|reflexivity].
  Qed.

  Lemma broadcast_spec {A} (t : tensor A) : shape t = w ->
    broadcast_to t sh = Some (mk_tensor sh (fun idx => at_ t (bcast_index w idx))).
  Proof. intros E. unfold broadcast_to. rewrite E, ms_bcast_ok. reflexivity. Qed.

  (** ** whole-tensor calls are the per-group calls *)
  Lemma base_t_collect c tr k i f x y : shape k = w -> shape i = w -> shape f = w -> shape x = sh ->
    base_tcall c tr k i f x = Some y ->
    shape y = sh /\ forall g, valid_index w g ->
      collect hom y g = map (base_call (c_rm c) (c_om c) tr (at_ k g) (at_ i g) (at_ f g)) (collect hom x g).
  Proof.
    intros Ek Ei Ef Ex. unfold base_tcall. rewrite Ex, (broadcast_spec k Ek), (broadcast_spec i Ei), (broadcast_spec f Ef).
    cbn [bind]. intros H; injection H as <-. split; [reflexivity|]. intros g Hg.
    apply (collect_map x); [exact Ex|reflexivity|]. intros idx Hv Hk. cbn [at_]. rewrite (ms_index idx Hv), Hk. reflexivity.
  Qed.
  Lemma base_t_defined c tr k i f x : shape k = w -> shape i = w -> shape f = w -> shape x = sh ->
    exists y, base_tcall c tr k i f x = Some y.
  Proof.
    intros Ek Ei Ef Ex. unfold base_tcall. rewrite Ex, (broadcast_spec k Ek), (broadcast_spec i Ei), (broadcast_spec f Ef).
    cbn [bind]. eauto.
  Qed.

  Lemma round_t_collect c x f : shape x = sh -> forall g, valid_index w g ->
    collect hom (round_t c x (mk_tensor sh (fun idx => at_ f (bcast_index w idx)))) g = map (round_f (c_rm c) (at_ f g)) (collect hom x g).
  Proof.
    intros Ex g Hg. apply (collect_map x); [exact Ex|exact Ex|]. intros idx Hv Hk. cbn [round_t tmap2 at_].
    rewrite (ms_index idx Hv), Hk. reflexivity.
  Qed.

  Lemma kif_tcall_groups c m s x s' out : kif_built w s -> shape x = sh ->
    kif_tcall c hom m s x = Some (s', out) ->
    shape out = sh /\ kif_built w s' /\
    forall g, valid_index w g -> kif_call c m (kif_at s g) (collect hom x g) = Some (kif_at s' g, collect hom out g).
  Proof.
    intros (Bk & Bi & Bf) Ex. unfold kif_tcall, kif_call.
    assert (Hbase : forall tr s' out, (do y <- base_tcall c tr (t_k s) (tmap round_even (t_i s)) (tmap round_even (t_f s)) x; Some (s, y)) = Some (s', out) ->
      shape out = sh /\ kif_built w s' /\ s' = s /\ forall g, valid_index w g ->
      collect hom out g = map (base_call (c_rm c) (c_om c) tr (kif_k (kif_at s g)) (kif_iz (kif_at s g)) (kif_fz (kif_at s g))) (collect hom x g)).
    { intros tr s1 y H. destruct (base_tcall _ _ _ _ _ _) as [y'|] eqn:E; [|discriminate]. injection H as <- <-.
      destruct (base_t_collect _ _ _ (tmap round_even (t_i s)) (tmap round_even (t_f s)) _ _ Bk Bi Bf Ex E) as [A B].
      split; [exact A|]. split; [repeat split; assumption|]. split; [reflexivity|]. exact B. }
    destruct (is_wrap (c_om c) && c_trainable c).
    - rewrite Ex, (broadcast_spec (tmap round_even (t_f s)) Bf). cbn [bind].
      set (fx := mk_tensor sh _). pose proof (round_t_collect c x (tmap round_even (t_f s)) Ex) as RC. fold fx in RC.
      assert (Sr : shape (round_t c x fx) = sh) by exact Ex.
      destruct m.
      + destruct (c_weight c).
        * intros H; injection H as <- <-. split; [exact Sr|]. split; [repeat split; assumption|]. intros g Hg.
          rewrite (RC g Hg). reflexivity.
        * intros H. destruct (Hbase _ _ _ H) as (A & B & -> & C). split; [exact A|]. split; [exact B|]. intros g Hg.
          rewrite (C g Hg). reflexivity.
      + destruct (x_to_bw_absmax hom (round_t c x fx)) as [xr|] eqn:E; [|discriminate]. cbn [bind].
        intros H; injection H as <- <-. destruct (absmax_t_spec _ _ Sr E) as [A B].
        split; [exact Sr|]. split; [repeat split; assumption|]. intros g Hg. specialize (B g Hg). rewrite (RC g Hg) in B.
        unfold kif_fz. cbn [kif_f kif_at]. cbn [at_ tmap] in B. rewrite B. rewrite (RC g Hg). reflexivity.
      + destruct (x_to_bw_absmax hom (round_t c x fx)) as [xr|] eqn:E; [|discriminate]. cbn [bind].
        intros H; injection H as <- <-. destruct (absmax_t_spec _ _ Sr E) as [A B].
        split; [exact Sr|]. split; [repeat split; assumption|]. intros g Hg. specialize (B g Hg). rewrite (RC g Hg) in B.
        unfold kif_fz. cbn [kif_f kif_at]. cbn [at_ tmap] in B. rewrite B.
        unfold kif_at. cbn [t_k t_i t_f tmap tmap2 at_ x_to_bw_sign reduce_keep]. rewrite (RC g Hg). reflexivity.
    - intros H. destruct (Hbase _ _ _ H) as (A & B & -> & C). split; [exact A|]. split; [exact B|]. intros g Hg.
      rewrite (C g Hg). reflexivity.
  Qed.

  Lemma kbi_tcall_groups c m s x s' out : kbi_built w s -> shape x = sh ->
    kbi_tcall c hom m s x = Some (s', out) ->
    shape out = sh /\ kbi_built w s' /\
    forall g, valid_index w g -> kbi_call c m (kbi_at s g) (collect hom x g) = Some (kbi_at s' g, collect hom out g).
  Proof.
    intros (Bk & Bb & Bi) Ex. unfold kbi_tcall, kbi_call.
    set (sb := tmap round_even (u_b s)). set (si := tmap round_even (u_i s)).
    assert (Bsb : shape sb = w) by exact Bb. assert (Bsi : shape si = w) by exact Bi.
    assert (Hbase : forall tr s' out, (do y <- base_tcall c tr (u_k s) si (tmap2 Z.sub sb si) x; Some (s, y)) = Some (s', out) ->
      shape out = sh /\ kbi_built w s' /\ s' = s /\ forall g, valid_index w g ->
      collect hom out g = map (base_call (c_rm c) (c_om c) tr (kbi_k (kbi_at s g)) (kbi_iz (kbi_at s g)) (kbi_fz (kbi_at s g))) (collect hom x g)).
    { intros tr s1 y H. destruct (base_tcall _ _ _ _ _ _) as [y'|] eqn:E; [|discriminate]. injection H as <- <-.
      destruct (base_t_collect _ _ _ si (tmap2 Z.sub sb si) _ _ Bk Bsi Bsb Ex E) as [A B].
      split; [exact A|]. split; [repeat split; assumption|]. split; [reflexivity|]. exact B. }
    destruct (is_wrap (c_om c) && c_trainable c).
    - destruct m.
      + rewrite Ex, (broadcast_spec (tmap2 Z.sub sb si) Bsb). cbn [bind].
        destruct (c_weight c); cbn [andb].
        * pose proof (round_t_collect c x (tmap2 Z.sub sb si) Ex) as RC.
          destruct (c_rm c) eqn:Erm;
          try (intros H; destruct (Hbase _ _ _ H) as (A & B & -> & C); split; [exact A|]; split; [exact B|]; intros g Hg; rewrite (C g Hg); rewrite ?Erm; reflexivity).
          intros H; apply some_pair in H; destruct H as [-> ->]. split; [exact Ex|]. split; [repeat split; assumption|]. intros g Hg.
          rewrite (RC g Hg). reflexivity.
        * intros H. destruct (Hbase _ _ _ H) as (A & B & -> & C). split; [exact A|]. split; [exact B|]. intros g Hg.
          rewrite (C g Hg). reflexivity.
      + destruct (x_to_bw_absmax hom x) as [xr|] eqn:E; [|discriminate]. cbn [bind].
        destruct (absmax_t_spec _ _ Ex E) as [A B].
        set (ni := tmap (apply_c (c_ic c)) _).
        rewrite Ex. rewrite (broadcast_spec (tmap2 Z.sub sb (tmap round_even ni)) Bsb). cbn [bind].
        pose proof (round_t_collect c x (tmap2 Z.sub sb (tmap round_even ni)) Ex) as RC.
        intros H; apply some_pair in H; destruct H as [-> ->]. split; [exact Ex|]. split; [repeat split; assumption|]. intros g Hg.
        rewrite (B g Hg), (RC g Hg). reflexivity.
      + destruct (x_to_bw_absmax hom x) as [xr|] eqn:E; [|discriminate]. cbn [bind].
        destruct (absmax_t_spec _ _ Ex E) as [A B].
        set (ni := tmap (apply_cz (c_ic c)) _).
        rewrite Ex. rewrite (broadcast_spec (tmap2 Z.sub sb ni) Bsb). cbn [bind].
        pose proof (round_t_collect c x (tmap2 Z.sub sb ni) Ex) as RC.
        assert (Srx : shape (round_t c x (mk_tensor sh (fun idx => at_ (tmap2 Z.sub sb ni) (bcast_index w idx)))) = sh) by exact Ex.
        generalize dependent (round_t c x (mk_tensor sh (fun idx => at_ (tmap2 Z.sub sb ni) (bcast_index w idx)))). intros rx RC Srx.
        intros H; apply some_pair in H; destruct H as [-> ->]. split; [exact Srx|]. split; [repeat split; assumption|]. intros g Hg.
        rewrite (B g Hg). unfold kbi_at. cbn [u_k u_b u_i tmap tmap2 at_ x_to_bw_sign reduce_keep]. rewrite (RC g Hg). reflexivity.
    - intros H. destruct (Hbase _ _ _ H) as (A & B & -> & C). split; [exact A|]. split; [exact B|]. intros g Hg.
      rewrite (C g Hg). reflexivity.
  Qed.

  Lemma kif_tcall_defined c m s x : kif_built w s -> shape x = sh ->
    (forall g, valid_index w g -> collect hom x g <> []) -> exists r, kif_tcall c hom m s x = Some r.
  Proof.
    intros (Bk & Bi & Bf) Ex Hne. unfold kif_tcall.
    assert (D : forall tr, exists r, (do y <- base_tcall c tr (t_k s) (tmap round_even (t_i s)) (tmap round_even (t_f s)) x; Some (s, y)) = Some r).
    { intros tr. destruct (base_t_defined c tr (t_k s) (tmap round_even (t_i s)) (tmap round_even (t_f s)) x Bk Bi Bf Ex) as [y ->]. cbn [bind]. eauto. }
    destruct (is_wrap (c_om c) && c_trainable c); [|apply D].
    rewrite Ex, (broadcast_spec (tmap round_even (t_f s)) Bf). cbn [bind].
    set (fx := mk_tensor sh _). pose proof (round_t_collect c x (tmap round_even (t_f s)) Ex) as RC. fold fx in RC.
    destruct (absmax_t_defined (round_t c x fx) Ex) as [r Hr].
    { intros g Hg. rewrite (RC g Hg). specialize (Hne g Hg). destruct (collect hom x g); [congruence|discriminate]. }
    destruct m; [destruct (c_weight c); [eauto|apply D]| |]; rewrite Hr; cbn [bind]; eauto.
  Qed.
  Lemma kbi_tcall_defined c m s x : kbi_built w s -> shape x = sh ->
    (forall g, valid_index w g -> collect hom x g <> []) -> exists r, kbi_tcall c hom m s x = Some r.
  Proof.
    intros (Bk & Bb & Bi) Ex Hne. unfold kbi_tcall.
    set (sb := tmap round_even (u_b s)). set (si := tmap round_even (u_i s)).
    assert (Bsb : shape sb = w) by exact Bb. assert (Bsi : shape si = w) by exact Bi.
    assert (D : forall tr, exists r, (do y <- base_tcall c tr (u_k s) si (tmap2 Z.sub sb si) x; Some (s, y)) = Some r).
    { intros tr. destruct (base_t_defined c tr (u_k s) si (tmap2 Z.sub sb si) x Bk Bsi Bsb Ex) as [y ->]. cbn [bind]. eauto. }
    destruct (is_wrap (c_om c) && c_trainable c); [|apply D].
    destruct (absmax_t_defined x Ex Hne) as [r Hr].
    destruct m; rewrite ?Hr; cbn [bind]; rewrite Ex.
    - rewrite (broadcast_spec (tmap2 Z.sub sb si) Bsb). cbn [bind]. destruct (_ && _); [eauto|apply D].
    - erewrite broadcast_spec by exact Bsb. cbn [bind]. eauto.
    - erewrite broadcast_spec by exact Bsb. cbn [bind]. eauto.
  Qed.
End Setting.

(** ** statements in terms of elements *)
Lemma built_setting ha oa built het hom w sh : built_for ha oa built het hom w -> shape_matches built sh ->
  mapper_setting het hom built w sh.
Proof.
  intros [R W] M. split; [|apply (resolve_lt _ _ _ _ _ R)|exact W|exact M].
  exact (resolve_complementary _ _ _ _ _ R).
Qed.

Lemma bw_to_x_groups {A} ha oa built het hom w sh (bw : tensor A) :
  built_for ha oa built het hom w -> shape_matches built sh -> shape bw = w ->
  exists r entry, broadcast_to bw sh = Some r /\ shape r = sh /\
    forall i, valid_index sh i -> valid_index w (entry i) /\ at_ r i = at_ bw (entry i) /\
      forall j, valid_index sh j -> (entry i = entry j <-> same_group het i j).
Proof.
  intros B M E. pose proof (built_setting _ _ _ _ _ _ _ B M) as S.
  exists (mk_tensor sh (fun idx => at_ bw (bcast_index w idx))), (keep hom).
  split; [exact (broadcast_spec _ _ _ _ _ S bw E)|]. split; [reflexivity|]. intros i Hi.
  split; [exact (ms_valid _ _ _ _ _ S i Hi)|]. split; [cbn [at_]; rewrite (ms_index _ _ _ _ _ S i Hi); reflexivity|].
  intros j Hj. exact (ms_group _ _ _ _ _ S i j Hi Hj).
Qed.

Lemma absmax_groups ha oa built het hom w x m :
  built_for ha oa built het hom w -> shape_matches built (shape x) -> x_to_bw_absmax hom x = Some m ->
  shape m = w /\ exists mx, broadcast_to m (shape x) = Some mx /\
    forall i, valid_index (shape x) i ->
      (forall j, group_mate het x i j -> Qabs (at_ x j) <= at_ mx i) /\
      (exists j, group_mate het x i j /\ Qabs (at_ x j) == at_ mx i).
Proof.
  intros B M E. pose proof (built_setting _ _ _ _ _ _ _ B M) as S.
  destruct (absmax_t_spec _ _ _ _ _ S x m eq_refl E) as [Sm Am]. split; [exact Sm|].
  eexists. split; [exact (broadcast_spec _ _ _ _ _ S m Sm)|]. intros i Hi. cbn [at_].
  rewrite (ms_index _ _ _ _ _ S i Hi). pose proof (Am _ (ms_valid _ _ _ _ _ S i Hi)) as A. split.
  - intros j [Hj Hg]. eapply absmax_bound; [exact A|]. apply (in_collect hom (shape x) x _ _ eq_refl). exists j.
    split; [exact Hj|]. split; [|reflexivity]. symmetry. apply (ms_group _ _ _ _ _ S i j Hi Hj), Hg.
  - destruct (absmax_attained _ _ A) as (v & Hv & Ev). apply (in_collect hom (shape x) x _ _ eq_refl) in Hv. destruct Hv as (j & Hj & Kj & <-).
    exists j. split; [split; [exact Hj|]|exact Ev]. apply (ms_group _ _ _ _ _ S i j Hi Hj). congruence.
Qed.

Lemma sign_groups ha oa built het hom w x :
  built_for ha oa built het hom w -> shape_matches built (shape x) ->
  shape (x_to_bw_sign hom x) = w /\ exists sx, broadcast_to (x_to_bw_sign hom x) (shape x) = Some sx /\
    forall i, valid_index (shape x) i -> (at_ sx i = true <-> exists j, group_mate het x i j /\ at_ x j < 0).
Proof.
  intros B M. pose proof (built_setting _ _ _ _ _ _ _ B M) as S.
  assert (Sw : shape (x_to_bw_sign hom x) = w) by exact (ms_keep_shape _ _ _ _ _ S). split; [exact Sw|].
  eexists. split; [exact (broadcast_spec _ _ _ _ _ S _ Sw)|]. intros i Hi. cbn [at_ x_to_bw_sign reduce_keep].
  rewrite (ms_index _ _ _ _ _ S i Hi), any_neg_spec. split.
  - intros (v & Hv & Nv). apply (in_collect hom (shape x) x _ _ eq_refl) in Hv. destruct Hv as (j & Hj & Kj & <-).
    exists j. split; [split; [exact Hj|]|exact Nv]. apply (ms_group _ _ _ _ _ S i j Hi Hj). congruence.
  - intros (j & [Hj Hg] & Nv). exists (at_ x j). split; [|exact Nv]. apply (in_collect hom (shape x) x _ _ eq_refl). exists j.
    split; [exact Hj|]. split; [|reflexivity]. symmetry. apply (ms_group _ _ _ _ _ S i j Hi Hj), Hg.
Qed.

(** the whole-tensor call acts on every group as the group-level call *)
Lemma kif_tcall_groupwise ha oa built het hom w c m s x s' out :
  built_for ha oa built het hom w -> shape_matches built (shape x) -> kif_built w s ->
  kif_tcall c hom m s x = Some (s', out) ->
  shape out = shape x /\ kif_built w s' /\
  forall g, valid_index w g -> kif_call c m (kif_at s g) (collect hom x g) = Some (kif_at s' g, collect hom out g).
Proof. intros B M Bs H. exact (kif_tcall_groups _ _ _ _ _ (built_setting _ _ _ _ _ _ _ B M) c m s x s' out Bs eq_refl H). Qed.
Lemma kbi_tcall_groupwise ha oa built het hom w c m s x s' out :
  built_for ha oa built het hom w -> shape_matches built (shape x) -> kbi_built w s ->
  kbi_tcall c hom m s x = Some (s', out) ->
  shape out = shape x /\ kbi_built w s' /\
  forall g, valid_index w g -> kbi_call c m (kbi_at s g) (collect hom x g) = Some (kbi_at s' g, collect hom out g).
Proof. intros B M Bs H. exact (kbi_tcall_groups _ _ _ _ _ (built_setting _ _ _ _ _ _ _ B M) c m s x s' out Bs eq_refl H). Qed.

Lemma kif_trun_groups ha oa built het hom w c h : built_for ha oa built het hom w ->
  Forall (fun mx => shape_matches built (shape (snd mx))) h ->
  forall s s' outs, kif_built w s -> kif_trun c hom s h = Some (s', outs) ->
  kif_built w s' /\ forall g, valid_index w g ->
    kif_run c (kif_at s g) (map (fun mx => (fst mx, collect hom (snd mx) g)) h) = Some (kif_at s' g, map (fun o => collect hom o g) outs).
Proof.
  intros B. induction 1 as [|[m x] h Hx Hh IH]; intros s s' outs Bs H; cbn [kif_trun] in H.
  - injection H as <- <-. split; [exact Bs|]. reflexivity.
  - cbn [fst snd] in *. destruct (kif_tcall c hom m s x) as [[s1 o1]|] eqn:E; [|discriminate]. cbn [bind] in H.
    destruct (kif_trun c hom s1 h) as [[s2 o2]|] eqn:E2; [|discriminate]. cbn [bind] in H. injection H as <- <-.
    destruct (kif_tcall_groupwise _ _ _ _ _ _ _ _ _ _ _ _ B Hx Bs E) as (_ & B1 & G1).
    destruct (IH s1 s2 o2 B1 E2) as (B2 & G2). split; [exact B2|]. intros g Hg. cbn [map kif_run fst snd].
    rewrite (G1 g Hg), (G2 g Hg). reflexivity.
Qed.
Lemma kbi_trun_groups ha oa built het hom w c h : built_for ha oa built het hom w ->
  Forall (fun mx => shape_matches built (shape (snd mx))) h ->
  forall s s' outs, kbi_built w s -> kbi_trun c hom s h = Some (s', outs) ->
  kbi_built w s' /\ forall g, valid_index w g ->
    kbi_run c (kbi_at s g) (map (fun mx => (fst mx, collect hom (snd mx) g)) h) = Some (kbi_at s' g, map (fun o => collect hom o g) outs).
Proof.
  intros B. induction 1 as [|[m x] h Hx Hh IH]; intros s s' outs Bs H; cbn [kbi_trun] in H.
  - injection H as <- <-. split; [exact Bs|]. reflexivity.
  - cbn [fst snd] in *. destruct (kbi_tcall c hom m s x) as [[s1 o1]|] eqn:E; [|discriminate]. cbn [bind] in H.
    destruct (kbi_trun c hom s1 h) as [[s2 o2]|] eqn:E2; [|discriminate]. cbn [bind] in H. injection H as <- <-.
    destruct (kbi_tcall_groupwise _ _ _ _ _ _ _ _ _ _ _ _ B Hx Bs E) as (_ & B1 & G1).
    destruct (IH s1 s2 o2 B1 E2) as (B2 & G2). split; [exact B2|]. intros g Hg. cbn [map kbi_run fst snd].
    rewrite (G1 g Hg), (G2 g Hg). reflexivity.
Qed.

(** pointwise reading of two equal-length collections *)
Lemma collect_pointwise hom (x y : tensor Q) g (P : Q -> Q -> Prop) f : shape x = shape y ->
  Forall2 P (collect hom y g) (map f (collect hom x g)) ->
  forall i, valid_index (shape x) i -> keep hom i = g -> P (at_ y i) (f (at_ x i)).
Proof.
  intros E F i Hi Hk. unfold collect in F. rewrite <- E, map_map in F.
  assert (Hin : In i (filter (fun idx => index_eqb (keep hom idx) g) (indices (shape x)))).
  { apply filter_In. split; [apply in_indices, Hi|]. unfold index_eqb. destruct (list_eq_dec _ _ _); congruence. }
  revert F Hin. generalize (filter (fun idx => index_eqb (keep hom idx) g) (indices (shape x))). intros l.
  induction l as [|a l IH]; cbn [map]; intros F Hin; [destruct Hin|]. inversion F; subst. destruct Hin as [->|Hin]; auto.
Qed.

Lemma kif_at_reset c s g : kif_at (kif_treset c s) g = kif_reset c (kif_at s g).
Proof. unfold kif_treset, kif_reset. destruct (_ && _); reflexivity. Qed.
Lemma kbi_at_reset c s g : kbi_at (kbi_treset c s) g = kbi_reset c (kbi_at s g).
Proof. unfold kbi_treset, kbi_reset. destruct (_ && _); reflexivity. Qed.

Lemma kif_tcall_infer_state c hom s x s' out : kif_tcall c hom Infer s x = Some (s', out) -> s' = s.
Proof.
  unfold kif_tcall. destruct (_ && _); [destruct (broadcast_to _ _); cbn [bind]; [|discriminate]; destruct (c_weight c)|];
  try (destruct (base_tcall _ _ _ _ _ _); cbn [bind]); congruence.
Qed.
Lemma kbi_tcall_infer_state c hom s x s' out : kbi_tcall c hom Infer s x = Some (s', out) -> s' = s.
Proof.
  unfold kbi_tcall. destruct (is_wrap _ && _); [destruct (broadcast_to _ _); cbn [bind]; [|discriminate]; destruct (_ && _)|];
  try (destruct (base_tcall _ _ _ _ _ _); cbn [bind]); congruence.
Qed.

(** C07 on whole tensors *)
Lemma kif_tensor_calibrated ha oa built het hom w c reset s batches s' outs :
  built_for ha oa built het hom w -> wrap_trainable c -> kif_built w s ->
  Forall (fun x => shape_matches built (shape x)) batches ->
  (forall x f i, In x batches -> broadcast_to (tmap round_even (t_f s)) (shape x) = Some f ->
     valid_index (shape x) i -> kif_reachable c (at_ f i) (at_ x i)) ->
  kif_ttrace c hom reset s batches = Some (s', outs) ->
  forall x, In x batches -> forall s'' out, kif_tcall c hom Infer s' x = Some (s'', out) ->
    s'' = s' /\ shape out = shape x /\
    exists f, broadcast_to (tmap round_even (t_f s)) (shape x) = Some f /\
    forall i, valid_index (shape x) i -> at_ out i == round_f (c_rm c) (at_ f i) (at_ x i).
Proof.
  intros B Hc Bs Hb Hr H x Hx s'' out Hi. unfold kif_ttrace in H.
  set (s0 := if reset then kif_treset c s else s) in *.
  assert (Bs0 : kif_built w s0).
  { unfold s0, kif_treset. destruct reset; [|exact Bs]. destruct (_ && _); [|exact Bs]. destruct Bs as (A1 & A2 & A3). repeat split; assumption. }
  assert (Hh : Forall (fun mx : mode * tensor Q => shape_matches built (shape (snd mx))) (map (fun b => (Trace, b)) batches)).
  { apply Forall_forall. intros mx Hm. apply in_map_iff in Hm. destruct Hm as (b & <- & Hb'). cbn [snd]. rewrite Forall_forall in Hb. auto. }
  destruct (kif_trun_groups _ _ _ _ _ _ c _ B Hh s0 s' outs Bs0 H) as [Bs' G].
  pose proof (proj1 (Forall_forall _ _) Hb x Hx) as Mx.
  pose proof (built_setting _ _ _ _ _ _ _ B Mx) as S.
  pose proof (kif_tcall_infer_state _ _ _ _ _ _ Hi) as ->.
  destruct (kif_tcall_groupwise _ _ _ _ _ _ _ _ _ _ _ _ B Mx Bs' Hi) as (Eo & _ & GI).
  split; [reflexivity|]. split; [exact Eo|].
  destruct Bs as (Bk & Bi & Bf).
  eexists. split; [exact (broadcast_spec _ _ _ _ _ S (tmap round_even (t_f s)) Bf)|]. intros i Hv. cbn [at_].
  rewrite (ms_index _ _ _ _ _ S i Hv). set (g := keep hom i). pose proof (ms_valid _ _ _ _ _ S i Hv) as Hg. fold g in Hg.
  specialize (G g Hg). specialize (GI g Hg). rewrite map_map in G. cbn [fst snd] in G.
  assert (Tr : kif_trace c reset (kif_at s g) (map (fun b => collect hom b g) batches) = Some (kif_at s' g, map (fun o => collect hom o g) outs)).
  { unfold kif_trace. rewrite map_map. unfold s0 in G. destruct reset; [rewrite <- kif_at_reset|]; exact G. }
  assert (Rch : Forall (Forall (kif_reachable c (kif_fz (kif_at s g)))) (map (fun b => collect hom b g) batches)).
  { apply Forall_forall. intros l Hl. apply in_map_iff in Hl. destruct Hl as (b & <- & Hb'). apply Forall_forall. intros v Hv'.
    pose proof (proj1 (Forall_forall _ _) Hb b Hb') as Mb. pose proof (built_setting _ _ _ _ _ _ _ B Mb) as Sb.
    apply (in_collect hom (shape b) b _ _ eq_refl) in Hv'. destruct Hv' as (j & Hj & Kj & <-).
    specialize (Hr b _ j Hb' (broadcast_spec _ _ _ _ _ Sb (tmap round_even (t_f s)) Bf) Hj). cbn [at_] in Hr.
    rewrite (ms_index _ _ _ _ _ Sb j Hj), Kj in Hr. exact Hr. }
  destruct (kif_calibrated' _ _ _ _ _ _ Hc Rch Tr) as (_ & _ & C).
  destruct (C (collect hom x g) (in_map (fun b => collect hom b g) _ _ Hx)) as (o & Ho & Fo).
  rewrite GI in Ho. injection Ho as <-.
  exact (collect_pointwise hom x out g Qeq (round_f (c_rm c) (round_even (at_ (t_f s) g))) (eq_sym Eo) Fo i Hv eq_refl).
Qed.

Lemma kbi_tensor_calibrated ha oa built het hom w c reset s batches s' outs :
  built_for ha oa built het hom w -> wrap_trainable c -> kbi_built w s ->
  Forall (fun x => shape_matches built (shape x)) batches ->
  (forall x b i, In x batches -> broadcast_to (tmap round_even (u_b s)) (shape x) = Some b ->
     valid_index (shape x) i -> (0 < at_ b i <= 22)%Z /\ kbi_reachable c (at_ b i) (at_ x i)) ->
  kbi_ttrace c hom reset s batches = Some (s', outs) ->
  forall x, In x batches -> forall s'' out, kbi_tcall c hom Infer s' x = Some (s'', out) ->
    s'' = s' /\ shape out = shape x /\
    exists b i, broadcast_to (tmap round_even (u_b s)) (shape x) = Some b /\
      broadcast_to (tmap round_even (u_i s')) (shape x) = Some i /\
      forall j, valid_index (shape x) j -> at_ out j == round_f (c_rm c) (at_ b j - at_ i j) (at_ x j).
Proof.
  intros B Hc Bs Hb Hr H x Hx s'' out Hi. unfold kbi_ttrace in H.
  set (s0 := if reset then kbi_treset c s else s) in *.
  assert (Bs0 : kbi_built w s0).
  { unfold s0, kbi_treset. destruct reset; [|exact Bs]. destruct (_ && _); [|exact Bs]. destruct Bs as (A1 & A2 & A3). repeat split; assumption. }
  assert (Hh : Forall (fun mx : mode * tensor Q => shape_matches built (shape (snd mx))) (map (fun b => (Trace, b)) batches)).
  { apply Forall_forall. intros mx Hm. apply in_map_iff in Hm. destruct Hm as (b & <- & Hb'). cbn [snd]. rewrite Forall_forall in Hb. auto. }
  destruct (kbi_trun_groups _ _ _ _ _ _ c _ B Hh s0 s' outs Bs0 H) as [Bs' G].
  pose proof (proj1 (Forall_forall _ _) Hb x Hx) as Mx.
  pose proof (built_setting _ _ _ _ _ _ _ B Mx) as S.
  pose proof (kbi_tcall_infer_state _ _ _ _ _ _ Hi) as ->.
  destruct (kbi_tcall_groupwise _ _ _ _ _ _ _ _ _ _ _ _ B Mx Bs' Hi) as (Eo & _ & GI).
  split; [reflexivity|]. split; [exact Eo|].
  destruct Bs as (Bk & Bb & Bi). destruct Bs' as (Bk' & Bb' & Bi').
  eexists. eexists. split; [exact (broadcast_spec _ _ _ _ _ S (tmap round_even (u_b s)) Bb)|].
  split; [exact (broadcast_spec _ _ _ _ _ S (tmap round_even (u_i s')) Bi')|]. intros i Hv. cbn [at_].
  rewrite (ms_index _ _ _ _ _ S i Hv). set (g := keep hom i). pose proof (ms_valid _ _ _ _ _ S i Hv) as Hg. fold g in Hg.
  specialize (G g Hg). specialize (GI g Hg). rewrite map_map in G. cbn [fst snd] in G.
  assert (Tr : kbi_trace c reset (kbi_at s g) (map (fun b => collect hom b g) batches) = Some (kbi_at s' g, map (fun o => collect hom o g) outs)).
  { unfold kbi_trace. rewrite map_map. unfold s0 in G. destruct reset; [rewrite <- kbi_at_reset|]; exact G. }
  assert (Rch : Forall (Forall (kbi_reachable c (kbi_bz (kbi_at s g)))) (map (fun b => collect hom b g) batches)).
  { apply Forall_forall. intros l Hl. apply in_map_iff in Hl. destruct Hl as (b & <- & Hb'). apply Forall_forall. intros v Hv'.
    pose proof (proj1 (Forall_forall _ _) Hb b Hb') as Mb. pose proof (built_setting _ _ _ _ _ _ _ B Mb) as Sb.
    apply (in_collect hom (shape b) b _ _ eq_refl) in Hv'. destruct Hv' as (j & Hj & Kj & <-).
    destruct (Hr b _ j Hb' (broadcast_spec _ _ _ _ _ Sb (tmap round_even (u_b s)) Bb) Hj) as [_ R]. cbn [at_] in R.
    rewrite (ms_index _ _ _ _ _ Sb j Hj), Kj in R. exact R. }
  assert (Rb : (0 < kbi_bz (kbi_at s g) <= 22)%Z).
  { destruct (Hr x _ i Hx (broadcast_spec _ _ _ _ _ S (tmap round_even (u_b s)) Bb) Hv) as [R _]. cbn [at_] in R.
    rewrite (ms_index _ _ _ _ _ S i Hv) in R. exact R. }
  destruct (kbi_calibrated' _ _ _ _ _ _ Hc Rb Rch Tr) as (Eb & C).
  destruct (C (collect hom x g) (in_map (fun b => collect hom b g) _ _ Hx)) as (o & Ho & Fo).
  rewrite GI in Ho. injection Ho as <-.
  pose proof (collect_pointwise hom x out g Qeq (round_f (c_rm c) (kbi_fz (kbi_at s' g))) (eq_sym Eo) Fo i Hv eq_refl) as P.
  rewrite P. unfold kbi_fz. rewrite Eb. reflexivity.
Qed.
