(** Proofs about the configuration scopes. *)
From Verif Require Import Num M_Scope S_Scope.

Lemma covers_affects s qt pl : covers s qt pl = affects s qt pl.
Proof.
  unfold covers, affects, mem. apply eq_true_iff_eq. rewrite andb_true_iff, !existsb_exists. split.
  - intros (q & Iq & H). apply existsb_exists in H. destruct H as (p & Ip & H). apply andb_true_iff in H. destruct H as [H1 H2].
    apply String.eqb_eq in H1, H2. subst. split; [exists qt|exists pl]; split; auto; apply String.eqb_refl.
  - intros [(q & Iq & H1) (p & Ip & H2)]. apply String.eqb_eq in H1, H2. subst q p.
    exists qt. split; [exact Iq|]. apply existsb_exists. exists pl. split; [exact Ip|]. rewrite !String.eqb_refl. reflexivity.
Qed.
Lemma set_same k v d : set k v d k = Some v.
Proof. unfold set. rewrite String.eqb_refl. reflexivity. Qed.
Lemma set_other k k' v d : k <> k' -> set k v d k' = d k'.
Proof. intros H. unfold set. apply String.eqb_neq in H. rewrite H. reflexivity. Qed.

Lemma apply_kw_dom kw : forall d k, apply_kw kw d k = None <-> d k = None.
Proof.
  induction kw as [|[a v] kw IH]; intros d k; cbn [apply_kw]; [reflexivity|]. rewrite IH.
  destruct (d a) eqn:E; [|reflexivity]. destruct (String.eqb_spec a k) as [->|N].
  - rewrite set_same, E. split; discriminate.
  - rewrite set_other by exact N. reflexivity.
Qed.

Lemma get_nil k : get k [] = None. Proof. reflexivity. Qed.
Lemma get_cons k a v kw : get k ((a, v) :: kw) = if String.eqb k a then Some v else get k kw.
Proof. unfold get. cbn [find fst]. destruct (String.eqb k a); reflexivity. Qed.
Lemma get_in k kw : get k kw <> None <-> In k (map fst kw).
Proof.
  induction kw as [|[a v] kw IH]; [cbn; tauto|]. rewrite get_cons. cbn [map fst In].
  destruct (String.eqb_spec k a) as [->|N]; [split; [left; reflexivity|discriminate]|].
  rewrite IH. split; [right; assumption|intros [E|E]; [congruence|exact E]].
Qed.

Lemma apply_kw_spec kw : distinct_keys kw -> forall d k, apply_kw kw d k =
  match d k with None => None | Some v => Some (match get k kw with Some v' => v' | None => v end) end.
Proof.
  induction kw as [|[a v] kw IH]; intros ND d k; cbn [apply_kw]; [destruct (d k); reflexivity|].
  inversion ND as [|? ? Na ND']; subst. rewrite (IH ND'), get_cons.
  destruct (String.eqb_spec k a) as [->|N].
  - assert (G : get a kw = None) by (destruct (get a kw) eqn:E; [exfalso; apply Na, get_in; congruence|reflexivity]).
    rewrite G. destruct (d a) eqn:E; [rewrite set_same; reflexivity|rewrite E; reflexivity].
  - destruct (d a) eqn:E; [rewrite set_other by congruence|]; reflexivity.
Qed.

Lemma hset_same n o h : hset n o h n = o.
Proof. unfold hset. rewrite Nat.eqb_refl. reflexivity. Qed.
Lemma hset_other n m o h : n <> m -> hset n o h m = h m.
Proof. intros H. unfold hset. apply Nat.eqb_neq in H. rewrite H. reflexivity. Qed.

(** an object that is not mentioned is not changed *)
Lemma run_frame scopes n p : not_mentioned n p -> forall e h e' h' r, run scopes p e h = (e', h', r) -> h' n = h n.
Proof.
  induction p as [| |p IHp q IHq|p IH|m p IH|m]; cbn [not_mentioned run]; intros Hn e h e' h' r H.
  - injection H as _ <- _. reflexivity.
  - injection H as _ <- _. reflexivity.
  - destruct Hn as [Hp Hq]. destruct (run scopes p e h) as [[e1 h1] r1] eqn:E. pose proof (IHp Hp _ _ _ _ _ E) as E1.
    destruct r1; [injection H as _ <- _; exact E1|]. rewrite (IHq Hq _ _ _ _ _ H). exact E1.
  - destruct (run scopes p e h) as [[e1 h1] r1] eqn:E. injection H as _ <- _. eapply IH; eauto.
  - destruct Hn as [Hm Hp]. destruct (enter (scopes m) (h m) e) as [o e0].
    destruct (run scopes p e0 (hset m o h)) as [[e1 h1] r1] eqn:E. injection H as _ <- _.
    rewrite hset_other by congruence. rewrite (IH Hp _ _ _ _ _ E). apply hset_other. congruence.
  - injection H as _ <- _. apply hset_other. congruence.
Qed.

Lemma well_nested_not_mentioned n p : forall active, In n active -> well_nested active p -> not_mentioned n p.
Proof.
  induction p as [| |p IHp q IHq|p IH|m p IH|m]; cbn [not_mentioned well_nested]; intros active Hin H; try tauto.
  - split; [eapply IHp|eapply IHq]; eauto; tauto.
  - eapply IH; eauto.
  - destruct H as [H1 H2]. split; [intros ->; contradiction|]. eapply IH; [|exact H2]. right. exact Hin.
Qed.

Definition idle_obj (o : sobj) : Prop := (forall qt pl, ob_tmp o qt pl = None) /\ ob_orig o = None.

Lemma same_refl e : same_defaults e e. Proof. split; reflexivity. Qed.
Lemma same_trans a b c : same_defaults a b -> same_defaults b c -> same_defaults a c.
Proof. intros [A1 A2] [B1 B2]. split; intros; [rewrite A1; apply B1|rewrite A2; apply B2]. Qed.

Lemma run_balanced scopes p : forall active e h e' h' r, well_nested active p ->
  (forall n, ~ In n active -> idle_obj (h n)) ->
  run scopes p e h = (e', h', r) ->
  same_defaults e' e /\ (forall n, ~ In n active -> idle_obj (h' n)).
Proof.
  induction p as [| |p IHp q IHq|p IH|m p IH|m]; cbn [well_nested run]; intros active e h e' h' r Hw Hi H.
  - injection H as <- <- _. split; [apply same_refl|exact Hi].
  - injection H as <- <- _. split; [apply same_refl|exact Hi].
  - destruct Hw as [Hp Hq]. destruct (run scopes p e h) as [[e1 h1] r1] eqn:E.
    destruct (IHp _ _ _ _ _ _ Hp Hi E) as [S1 I1]. destruct r1; [injection H as <- <- _; tauto|].
    destruct (IHq _ _ _ _ _ _ Hq I1 H) as [S2 I2]. split; [eapply same_trans; eauto|exact I2].
  - destruct (run scopes p e h) as [[e1 h1] r1] eqn:E. injection H as <- <- _. eapply IH; eauto.
  - destruct Hw as [Hm Hp]. destruct (enter (scopes m) (h m) e) as [o e0] eqn:Een.
    destruct (run scopes p e0 (hset m o h)) as [[e1 h1] r1] eqn:E. cbn [exit] in H. injection H as <- <- _.
    assert (Fr : h1 m = o).
    { rewrite (run_frame scopes m p (well_nested_not_mentioned m p (m :: active) (or_introl eq_refl) Hp) _ _ _ _ _ E). apply hset_same. }
    assert (Hi0 : forall n, ~ In n (m :: active) -> idle_obj (hset m o h n)).
    { intros n Hn. rewrite hset_other by (intros ->; apply Hn; left; reflexivity). apply Hi. intros A. apply Hn. right. exact A. }
    destruct (IH _ _ _ _ _ _ Hp Hi0 E) as [[S1 S2] I1].
    destruct (Hi m Hm) as [Tm Om]. unfold enter in Een. injection Een as <- <-. rewrite Fr. cbn [ob_tmp ob_orig] in *. split.
    + split.
      * intros qt pl k. cbn [confs]. specialize (S1 qt pl k). cbn [confs] in S1.
        destruct (affects (scopes m) qt pl).
        -- unfold update. destruct (confs e qt pl k) eqn:Ek; [reflexivity|]. rewrite S1. apply apply_kw_dom. exact Ek.
        -- rewrite Tm. exact S1.
      * intros pl. cbn [dqt]. specialize (S2 pl). cbn [dqt] in S2. destruct (sc_dqt (scopes m)); [reflexivity|]. rewrite Om. exact S2.
    + intros n Hn. destruct (Nat.eq_dec m n) as [->|N].
      * rewrite hset_same. split; reflexivity.
      * rewrite hset_other by exact N. apply I1. intros [A|A]; [congruence|contradiction].
  - destruct Hw.
Qed.

(** saved copies have the keys of the current configuration *)
Definition dom_ok (e : env) (h : heap) : Prop :=
  forall m qt pl d, ob_tmp (h m) qt pl = Some d -> forall k, d k = None <-> confs e qt pl k = None.

Lemma enter_dom s o e o' e' : enter s o e = (o', e') -> forall qt pl k, confs e' qt pl k = None <-> confs e qt pl k = None.
Proof. unfold enter. intros H; injection H as _ <-. intros qt pl k. cbn [confs]. destruct (affects s qt pl); [apply apply_kw_dom|reflexivity]. Qed.

Lemma run_dom scopes p : forall e h e' h' r, dom_ok e h -> run scopes p e h = (e', h', r) ->
  dom_ok e' h' /\ forall qt pl k, confs e' qt pl k = None <-> confs e qt pl k = None.
Proof.
  induction p as [| |p IHp q IHq|p IH|m p IH|m]; cbn [run]; intros e h e' h' r Hd H.
  - injection H as <- <- _. split; [exact Hd|reflexivity].
  - injection H as <- <- _. split; [exact Hd|reflexivity].
  - destruct (run scopes p e h) as [[e1 h1] r1] eqn:E. destruct (IHp _ _ _ _ _ Hd E) as [D1 C1].
    destruct r1; [injection H as <- <- _; tauto|]. destruct (IHq _ _ _ _ _ D1 H) as [D2 C2]. split; [exact D2|].
    intros. rewrite C2. apply C1.
  - destruct (run scopes p e h) as [[e1 h1] r1] eqn:E. injection H as <- <- _. eapply IH; eauto.
  - destruct (enter (scopes m) (h m) e) as [o e0] eqn:Een. pose proof (enter_dom _ _ _ _ _ Een) as Dm.
    destruct (run scopes p e0 (hset m o h)) as [[e1 h1] r1] eqn:E. cbn [exit] in H. injection H as <- <- _.
    assert (D0 : dom_ok e0 (hset m o h)).
    { intros n qt pl d Hn k. rewrite Dm. destruct (Nat.eq_dec m n) as [->|N].
      - rewrite hset_same in Hn. unfold enter in Een. injection Een as <- _. cbn [ob_tmp] in Hn.
        destruct (affects (scopes n) qt pl); [injection Hn as <-; reflexivity|exact (Hd n qt pl d Hn k)].
      - rewrite hset_other in Hn by exact N. exact (Hd n qt pl d Hn k). }
    destruct (IH _ _ _ _ _ D0 E) as [D1 C1].
    assert (C2 : forall qt pl k, match ob_tmp (h1 m) qt pl with Some d => update (confs e1 qt pl) d | None => confs e1 qt pl end k = None <-> confs e1 qt pl k = None).
    { intros qt pl k. destruct (ob_tmp (h1 m) qt pl) as [d|] eqn:T; [|reflexivity]. pose proof (D1 m qt pl d T k) as X.
      unfold update. destruct (d k); [|reflexivity]. rewrite <- X. split; discriminate. }
    split.
    + intros n qt pl d Hn k. cbn [confs]. rewrite C2. destruct (Nat.eq_dec m n) as [->|N].
      * rewrite hset_same in Hn. discriminate.
      * rewrite hset_other in Hn by exact N. exact (D1 n qt pl d Hn k).
    + intros qt pl k. cbn [confs]. rewrite C2, C1. apply Dm.
  - unfold override in H. destruct (enter (scopes m) (h m) e) as [o e0] eqn:Een. injection H as <- <- _.
    pose proof (enter_dom _ _ _ _ _ Een) as Dm. split; [|exact Dm].
    intros n qt pl d Hn k. rewrite Dm. destruct (Nat.eq_dec m n) as [->|N].
    + rewrite hset_same in Hn. discriminate.
    + rewrite hset_other in Hn by exact N. exact (Hd n qt pl d Hn k).
Qed.

(** whatever the body does to other objects (including override()), the configurations a scope
    affects are restored when it is left *)
Lemma with_restores scopes n p e h e' h' r : not_mentioned n p -> dom_ok e h ->
  run scopes (PWith n p) e h = (e', h', r) ->
  (forall qt pl k, covers (scopes n) qt pl = true -> confs e' qt pl k = confs e qt pl k) /\
  (sc_dqt (scopes n) <> None -> forall pl, dqt e' pl = dqt e pl).
Proof.
  intros Hn Hd H. cbn [run] in H. destruct (enter (scopes n) (h n) e) as [o e0] eqn:Een.
  destruct (run scopes p e0 (hset n o h)) as [[e1 h1] r1] eqn:E. cbn [exit] in H. injection H as <- <- _.
  pose proof (enter_dom _ _ _ _ _ Een) as Dm.
  assert (D0 : dom_ok e0 (hset n o h)).
  { intros m qt pl d Hm k. rewrite Dm. destruct (Nat.eq_dec n m) as [->|N].
    - rewrite hset_same in Hm. unfold enter in Een. injection Een as <- _. cbn [ob_tmp] in Hm.
      destruct (affects (scopes m) qt pl); [injection Hm as <-; reflexivity|exact (Hd m qt pl d Hm k)].
    - rewrite hset_other in Hm by exact N. exact (Hd m qt pl d Hm k). }
  destruct (run_dom _ _ _ _ _ _ _ D0 E) as [_ C1].
  assert (Fr : h1 n = o) by (rewrite (run_frame scopes n p Hn _ _ _ _ _ E); apply hset_same).
  rewrite Fr. unfold enter in Een. injection Een as <- <-. cbn [ob_tmp ob_orig confs dqt] in *. split.
  - intros qt pl k A. rewrite covers_affects in A. rewrite A. unfold update. destruct (confs e qt pl k) eqn:Ek; [reflexivity|].
    apply C1, Dm, Ek.
  - intros A pl. destruct (sc_dqt (scopes n)); [reflexivity|congruence].
Qed.

(** inside nested scopes *)
Lemma enter_all_spec ss : (forall s, In s ss -> distinct_keys (sc_kw s)) -> forall e qt pl k,
  confs (enter_all ss e) qt pl k = expected ss qt pl k (confs e qt pl k).
Proof.
  induction ss as [|s ss IH]; intros Hd e qt pl k; cbn [enter_all expected]; [reflexivity|].
  rewrite IH by (intros; apply Hd; right; assumption). f_equal. rewrite covers_affects. unfold enter. cbn [snd confs].
  destruct (affects s qt pl); [|destruct (confs e qt pl k); reflexivity].
  apply apply_kw_spec, Hd. left. reflexivity.
Qed.

Lemma put_get k v kw k' : get k' (put k v kw) = if String.eqb k' k then Some v else get k' kw.
Proof.
  unfold put. rewrite get_cons. destruct (String.eqb_spec k' k) as [->|N]; [reflexivity|].
  unfold get. induction kw as [|[a w] kw IH]; [reflexivity|]. cbn [filter fst].
  destruct (String.eqb_spec k a) as [->|Na]; cbn [negb].
  - rewrite IH. cbn [find fst]. apply String.eqb_neq in N. rewrite N. reflexivity.
  - cbn [find fst]. destruct (String.eqb k' a); [reflexivity|exact IH].
Qed.

(** two of i0, f0, b0 determine the third *)
Lemma complete_ifb_spec kw i f b :
  num_of (get "i0" (complete_ifb kw)) = Some i -> num_of (get "f0" (complete_ifb kw)) = Some f ->
  num_of (get "b0" (complete_ifb kw)) = Some b ->
  (num_of (get "i0" kw) = None \/ num_of (get "f0" kw) = None \/ num_of (get "b0" kw) = None) -> i + f == b.
Proof.
  unfold complete_ifb.
  destruct (num_of (get "i0" kw)) as [i'|] eqn:Ei, (num_of (get "f0" kw)) as [f'|] eqn:Ef, (num_of (get "b0" kw)) as [b'|] eqn:Eb;
  rewrite ?put_get; cbn [String.eqb Ascii.eqb Bool.eqb num_of]; rewrite ?Ei, ?Ef, ?Eb; intros H1 H2 H3 H4;
  try discriminate; try (injection H1 as <-); try (injection H2 as <-); try (injection H3 as <-);
  try (destruct H4 as [H4|[H4|H4]]; discriminate); try ring.
Qed.

Lemma complete_ifb_total kw :
  let n o := match o with Some _ => 1%nat | None => 0%nat end in
  (n (num_of (get "i0" kw)) + n (num_of (get "f0" kw)) + n (num_of (get "b0" kw)) = 2)%nat ->
  exists i f b, num_of (get "i0" (complete_ifb kw)) = Some i /\ num_of (get "f0" (complete_ifb kw)) = Some f /\
    num_of (get "b0" (complete_ifb kw)) = Some b /\ i + f == b.
Proof.
  cbv zeta. unfold complete_ifb.
  destruct (num_of (get "i0" kw)) as [i'|] eqn:Ei, (num_of (get "f0" kw)) as [f'|] eqn:Ef, (num_of (get "b0" kw)) as [b'|] eqn:Eb;
  intros H; try discriminate; rewrite !put_get; cbn [String.eqb Ascii.eqb Bool.eqb num_of]; rewrite ?Ei, ?Ef, ?Eb;
  do 3 eexists; (split; [reflexivity|]; split; [reflexivity|]; split; [reflexivity|]; ring).
Qed.

Lemma fix_axes_excl kw : is_some_val (get "homogeneous_axis" kw) && is_some_val (get "heterogeneous_axis" kw) = false ->
  forall d, is_some_val (d "homogeneous_axis") = negb (is_some_val (d "heterogeneous_axis")) ->
  let d' := fun k => match get k (fix_axes kw) with Some v => Some v | None => d k end in
  (is_some_val (get "homogeneous_axis" kw) || is_some_val (get "heterogeneous_axis" kw) = true \/
   (get "homogeneous_axis" kw = None /\ get "heterogeneous_axis" kw = None)) ->
  is_some_val (d' "homogeneous_axis") = negb (is_some_val (d' "heterogeneous_axis")).
Proof.
  intros H d Hd d' Hg. unfold d', fix_axes.
  destruct (is_some_val (get "homogeneous_axis" kw)) eqn:E1.
  - cbn [andb] in H. rewrite !put_get. cbn [String.eqb Ascii.eqb Bool.eqb is_some_val]. rewrite !put_get.
    cbn [String.eqb Ascii.eqb Bool.eqb is_some_val].
    destruct (get "homogeneous_axis" kw) as [v|] eqn:G; [|discriminate]. rewrite E1. reflexivity.
  - destruct (is_some_val (get "heterogeneous_axis" kw)) eqn:E2.
    + rewrite !put_get. cbn [String.eqb Ascii.eqb Bool.eqb is_some_val].
      destruct (get "heterogeneous_axis" kw) as [v|] eqn:G; [|discriminate]. rewrite E2. reflexivity.
    + destruct Hg as [Hg|[G1 G2]]; [discriminate|]. rewrite G1, G2. exact Hd.
Qed.

(** ** Layer scopes *)
Lemma set_all_spec kw : distinct_keys kw -> forall d k, set_all kw d k = match get k kw with Some v => Some v | None => d k end.
Proof.
  unfold set_all. induction kw as [|[a v] kw IH]; intros ND d k; cbn [fold_left fst snd]; [reflexivity|].
  inversion ND as [|? ? Na ND']; subst. rewrite (IH ND'), get_cons.
  destruct (String.eqb_spec k a) as [->|N].
  - assert (G : get a kw = None) by (destruct (get a kw) eqn:E; [exfalso; apply Na, get_in; congruence|reflexivity]).
    rewrite G. apply set_same.
  - destruct (get k kw); [reflexivity|]. apply set_other. congruence.
Qed.

Lemma del_all_spec kw : distinct_keys kw -> forall g, (forall k, In k (map fst kw) -> g k <> None) ->
  exists g', del_all kw g = Some g' /\ forall k, g' k = if existsb (String.eqb k) (map fst kw) then None else g k.
Proof.
  induction kw as [|[a v] kw IH]; intros ND g Hg; cbn [del_all]; [exists g; split; reflexivity|].
  inversion ND as [|? ? Na ND']; subst. destruct (g a) eqn:Ga; [|exfalso; apply (Hg a); [left; reflexivity|exact Ga]].
  destruct (IH ND' (fun k' => if String.eqb a k' then None else g k')) as (g' & E & S).
  { intros k Hk. destruct (String.eqb_spec a k) as [->|N]; [contradiction|]. apply Hg. right. exact Hk. }
  exists g'. split; [exact E|]. intros k. rewrite S. cbn [map fst existsb].
  rewrite (String.eqb_sym a k). destruct (String.eqb k a); [destruct (existsb _ _); reflexivity|reflexivity].
Qed.

Lemma existsb_map_get k kw : existsb (String.eqb k) (map fst kw) = match get k kw with Some _ => true | None => false end.
Proof.
  induction kw as [|[a v] kw IH]; [reflexivity|]. rewrite get_cons. cbn [map fst existsb].
  destruct (String.eqb k a); [reflexivity|exact IH].
Qed.

Lemma lrun_frame over n p : not_mentioned n p -> forall g h g' h' r, lrun over p g h = (g', h', r) -> h' n = h n.
Proof.
  induction p as [| |p IHp q IHq|p IH|m p IH|m]; cbn [not_mentioned lrun]; intros Hn g h g' h' r H.
  - injection H as _ <- _. reflexivity.
  - injection H as _ <- _. reflexivity.
  - destruct Hn as [Hp Hq]. destruct (lrun over p g h) as [[g1 h1] r1] eqn:E. pose proof (IHp Hp _ _ _ _ _ E) as E1.
    destruct r1; [injection H as _ <- _; exact E1|]. rewrite (IHq Hq _ _ _ _ _ H). exact E1.
  - destruct (lrun over p g h) as [[g1 h1] r1] eqn:E. injection H as _ <- _. eapply IH; eauto.
  - destruct Hn as [Hm Hp]. cbn [l_enter] in H.
    destruct (lrun over p (set_all (over m) g) (lhset m (mk_lobj (Some g)) h)) as [[g1 h1] r1] eqn:E.
    assert (E' : h1 n = h n).
    { rewrite (IH Hp _ _ _ _ _ E). unfold lhset. destruct (Nat.eqb_spec m n); [congruence|reflexivity]. }
    destruct (l_exit _ _ _); injection H as _ <- _; exact E'.
  - injection H as _ <- _. reflexivity.
Qed.

Lemma lrun_balanced over p : (forall n, distinct_keys (over n)) -> forall active g h g' h' r, well_nested active p ->
  lrun over p g h = (g', h', r) -> (forall k, g' k = g k) /\ r = raises p.
Proof.
  intros Hd. induction p as [| |p IHp q IHq|p IH|m p IH|m]; cbn [well_nested lrun raises]; intros active g h g' h' r Hw H.
  - injection H as <- _ <-. split; reflexivity.
  - injection H as <- _ <-. split; reflexivity.
  - destruct Hw as [Hp Hq]. destruct (lrun over p g h) as [[g1 h1] r1] eqn:E.
    destruct (IHp _ _ _ _ _ _ Hp E) as [S1 R1]. destruct r1.
    + injection H as <- _ <-. rewrite <- R1. split; [exact S1|reflexivity].
    + destruct (IHq _ _ _ _ _ _ Hq H) as [S2 R2]. rewrite <- R1. split; [intros; rewrite S2; apply S1|exact R2].
  - destruct (lrun over p g h) as [[g1 h1] r1] eqn:E. injection H as <- _ <-. split; [eapply IH; eauto|reflexivity].
  - destruct Hw as [Hm Hp]. cbn [l_enter] in H.
    destruct (lrun over p (set_all (over m) g) (lhset m (mk_lobj (Some g)) h)) as [[g1 h1] r1] eqn:E.
    destruct (IH _ _ _ _ _ _ Hp E) as [S1 R1].
    assert (Fr : h1 m = mk_lobj (Some g)).
    { rewrite (lrun_frame over m p (well_nested_not_mentioned m p (m :: active) (or_introl eq_refl) Hp) _ _ _ _ _ E).
      unfold lhset. rewrite Nat.eqb_refl. reflexivity. }
    destruct (del_all_spec (over m) (Hd m) g1) as (gd & Ed & Sd).
    { intros k Hk. rewrite S1, (set_all_spec _ (Hd m)). apply get_in in Hk. destruct (get k (over m)); congruence. }
    unfold l_exit in H. rewrite Ed, Fr in H. cbn [lo_tmp] in H. injection H as <- _ <-. split; [|exact R1].
    intros k. unfold update. destruct (g k) eqn:Gk; [reflexivity|]. rewrite Sd, existsb_map_get, S1, (set_all_spec _ (Hd m)).
    destruct (get k (over m)); [reflexivity|exact Gk].
  - destruct Hw.
Qed.

Lemma fix_axes_other kw k : k <> "homogeneous_axis" -> k <> "heterogeneous_axis" -> get k (fix_axes kw) = get k kw.
Proof.
  intros H1 H2. apply String.eqb_neq in H1, H2. unfold fix_axes.
  destruct (is_some_val (get "homogeneous_axis" kw)).
  - destruct (is_some_val (get "heterogeneous_axis" (put "heterogeneous_axis" VNone kw))); rewrite ?put_get, ?H1, ?H2; reflexivity.
  - destruct (is_some_val (get "heterogeneous_axis" kw)); rewrite ?put_get, ?H1, ?H2; reflexivity.
Qed.

Lemma quantizer_config_spec ss e qt pl kw d : (forall s, In s ss -> distinct_keys (sc_kw s)) -> qt <> "default" ->
  quantizer_config (enter_all ss e) qt pl kw = Some d ->
  forall k, k <> "homogeneous_axis" -> k <> "heterogeneous_axis" ->
    d k = match get k kw with Some v => Some v | None => expected ss qt pl k (confs e qt pl k) end.
Proof.
  intros Hd Hq H k H1 H2. unfold quantizer_config in H. apply String.eqb_neq in Hq. rewrite Hq in H.
  destruct (_ && _); [discriminate|]. destruct (forallb _ _); [|discriminate]. injection H as <-.
  rewrite (fix_axes_other kw k H1 H2), (enter_all_spec _ Hd). reflexivity.
Qed.

Lemma enter_all_dqt ss : forall e pl, dqt (enter_all ss e) pl =
  fold_left (fun o s => match sc_dqt s with Some q => if mem pl (sc_pl s) then Some q else o | None => o end) ss (dqt e pl).
Proof.
  induction ss as [|s ss IH]; intros e pl; cbn [enter_all fold_left]; [reflexivity|]. rewrite IH. f_equal.
  unfold enter. cbn [snd dqt]. destruct (sc_dqt s); [|reflexivity]. destruct (mem pl (sc_pl s)); reflexivity.
Qed.

Lemma quantizer_config_axes e qt pl kw d : qt <> "default" ->
  (get "homogeneous_axis" kw = None /\ get "heterogeneous_axis" kw = None \/
   is_some_val (get "homogeneous_axis" kw) || is_some_val (get "heterogeneous_axis" kw) = true) ->
  is_some_val (confs e qt pl "homogeneous_axis") = negb (is_some_val (confs e qt pl "heterogeneous_axis")) ->
  quantizer_config e qt pl kw = Some d ->
  is_some_val (d "homogeneous_axis") = negb (is_some_val (d "heterogeneous_axis")).
Proof.
  intros Hq Hg He H. unfold quantizer_config in H. apply String.eqb_neq in Hq. rewrite Hq in H.
  destruct (is_some_val (get "homogeneous_axis" kw) && is_some_val (get "heterogeneous_axis" kw)) eqn:E; [discriminate|].
  destruct (forallb _ _); [|discriminate]. injection H as <-. apply (fix_axes_excl kw E (confs e qt pl) He). tauto.
Qed.
