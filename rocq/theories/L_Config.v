(** Proofs about saving and reloading configurations. *)
From Coq Require Import List Bool String Lia.
From Verif Require Import Num M_Config S_Config.
Import ListNotations.
Open Scope string_scope.
Local Open Scope list_scope.

Lemma get_In A k (v : A) d : get k d = Some v -> In (k, v) d.
Proof.
  induction d as [|[k' v'] d IH]; cbn [get]; [discriminate|].
  destruct (String.eqb_spec k k') as [->|N]; intros H; [inversion H; left; reflexivity|right; auto].
Qed.
Lemma In_get A k (v : A) d : NoDup (keys d) -> In (k, v) d -> get k d = Some v.
Proof.
  induction d as [|[k' v'] d IH]; cbn [get keys map fst]; intros N H; [contradiction|].
  inversion N as [|? ? N1 N2]; subst. destruct H as [H|H].
  - inversion H; subst. rewrite String.eqb_refl. reflexivity.
  - destruct (String.eqb_spec k k') as [->|Nk]; [|apply IH; assumption].
    exfalso. apply N1. change k' with (fst (k', v)). apply in_map. exact H.
Qed.
Lemma get_keys A k (d : list (string * A)) : In k (keys d) <-> get k d <> None.
Proof.
  induction d as [|[k' v] d IH]; cbn [get keys map fst]; [cbn; split; [contradiction|congruence]|].
  destruct (String.eqb_spec k k') as [->|N]; split; intros H.
  - discriminate.
  - left; reflexivity.
  - destruct H as [H|H]; [congruence|]. apply IH; exact H.
  - right. apply IH; exact H.
Qed.
Lemma has_keys A k (d : list (string * A)) : has k d = true <-> In k (keys d).
Proof. rewrite get_keys. unfold has. destruct (get k d); split; intros; congruence. Qed.
Lemma get_app A k (d e : list (string * A)) : get k (d ++ e) = match get k d with Some v => Some v | None => get k e end.
Proof. induction d as [|[k' v] d IH]; cbn [get app]; [reflexivity|]. destruct (String.eqb k k'); [reflexivity|exact IH]. Qed.
Lemma get_remove A k k' (d : list (string * A)) : get k (remove k' d) = if String.eqb k k' then None else get k d.
Proof.
  induction d as [|[k0 v] d IH]; cbn [get remove filter].
  - destruct (String.eqb k k'); reflexivity.
  - fold (@remove A k' d). cbn [fst]. destruct (String.eqb_spec k' k0) as [->|N]; cbn [negb].
    + rewrite IH. destruct (String.eqb_spec k k0); reflexivity.
    + cbn [get]. rewrite IH. destruct (String.eqb_spec k k0) as [->|N0]; [|reflexivity].
      destruct (String.eqb_spec k0 k') as [E|_]; [congruence|reflexivity].
Qed.
Lemma get_put A k k' (v : A) d : get k (put k' v d) = if String.eqb k k' then Some v else get k d.
Proof.
  unfold put. rewrite get_app, get_remove. cbn [get]. destruct (String.eqb k k'); [reflexivity|]. destruct (get k d); reflexivity.
Qed.

(** fix_axes *)
Lemma get_fix_other k kw : k <> "homogeneous_axis" -> k <> "heterogeneous_axis" -> get k (fix_axes kw) = get k kw.
Proof.
  intros N1 N2. unfold fix_axes.
  apply String.eqb_neq in N1, N2.
  destruct (is_set (get "homogeneous_axis" kw)); cbn zeta.
  - destruct (is_set _); rewrite ?get_put, ?N1, ?N2, ?get_put, ?N1, ?N2; reflexivity.
  - destruct (is_set _); rewrite ?get_put, ?N1, ?N2; reflexivity.
Qed.
Lemma get_fix_axes kw : not_both_axes kw ->
  get "homogeneous_axis" (fix_axes kw) = (if is_set (get "heterogeneous_axis" kw) then Some CNone else get "homogeneous_axis" kw) /\
  get "heterogeneous_axis" (fix_axes kw) = (if is_set (get "homogeneous_axis" kw) then Some CNone else get "heterogeneous_axis" kw).
Proof.
  intros H. unfold fix_axes, not_both_axes in *.
  destruct (is_set (get "homogeneous_axis" kw)) eqn:A.
  - destruct H as [H|H]; [discriminate|]. rewrite H. cbn zeta. rewrite get_put. cbn [String.eqb Ascii.eqb Bool.eqb is_set].
    rewrite !get_put. split; reflexivity.
  - cbn zeta. destruct (is_set (get "heterogeneous_axis" kw)) eqn:B; rewrite ?get_put; split; reflexivity.
Qed.
Lemma keys_fix k kw : In k (keys (fix_axes kw)) -> In k (keys kw) \/ k = "homogeneous_axis" \/ k = "heterogeneous_axis".
Proof.
  intros H. destruct (string_dec k "homogeneous_axis") as [->|N1]; [auto|].
  destruct (string_dec k "heterogeneous_axis") as [->|N2]; [auto|]. left.
  rewrite get_keys in *. rewrite get_fix_other in H; assumption.
Qed.

(** the stored parameters of a constructed configuration *)
Definition merged (kw d : kwargs) : kwargs := map (fun p => (fst p, match get (fst p) kw with Some v => v | None => snd p end)) d.
Lemma keys_merged kw d : keys (merged kw d) = keys d.
Proof. unfold merged, keys. rewrite map_map. apply map_ext. reflexivity. Qed.
Lemma get_merged k kw d : get k (merged kw d) = match get k d with Some v => Some (match get k kw with Some w => w | None => v end) | None => None end.
Proof.
  induction d as [|[k' v] d IH]; cbn [get merged map fst snd]; [reflexivity|].
  destruct (String.eqb_spec k k') as [->|N]; [reflexivity|exact IH].
Qed.
Lemma merged_all kw d l : keys d = keys l -> NoDup (keys l) -> (forall k v, In (k, v) l -> get k kw = Some v) -> merged kw d = l.
Proof.
  revert l. induction d as [|[k v] d IH]; intros [|[k' v'] l] K N H; cbn [keys map fst] in K; try discriminate; [reflexivity|].
  cbn [merged map fst snd]. injection K as -> K. inversion N; subst. f_equal.
  - rewrite (H k' v'); [reflexivity|left; reflexivity].
  - apply IH; [exact K|assumption|]. intros. apply H. right. assumption.
Qed.

(** a configuration as any constructor leaves it *)
Record built (E : env) (c : conf) : Prop := mk_built {
  b_type : q_type c <> "default";
  b_checks : nonzero (scaler c) && nonzero (option_map fst (affine c)) && in_unit (qnoise c) = true;
  b_params : if String.eqb (q_type c) "dummy" then params c = []
             else exists d, dconf E (q_type c) (place c) = Some d /\ keys (params c) = keys d;
  b_axes : not_both_axes (params c) }.

Lemma plain_built E cls qt pl sc af qn kw c : proper E ->
  plain_init E cls qt pl sc af qn kw = Some c -> not_both_axes (params c) ->
  built E c /\ c_class c = cls /\ place c = pl /\ scaler c = sc /\ affine c = af /\ qnoise c = qn /\
  (q_type c <> "dummy" -> exists d, dconf E (q_type c) pl = Some d /\ params c = merged (fix_axes kw) d /\
     (forall k, In k (keys kw) -> In k (keys d)) /\ not_both_axes kw).
Proof.
  intros P H A. unfold plain_init in H.
  destruct (if String.eqb qt "default" then dqt E pl else Some qt) as [q|] eqn:Q; [|discriminate].
  destruct (nonzero sc && nonzero (option_map fst af) && in_unit qn) eqn:C; cbn [negb] in H; [|discriminate].
  destruct (String.eqb_spec q "dummy") as [->|ND].
  - inversion H; subst. cbn [q_type c_class place scaler affine qnoise params].
    repeat split; cbn; try congruence; try (left; reflexivity).
  - destruct (dconf E q pl) as [d|] eqn:D; [|discriminate].
    destruct (is_set (get "homogeneous_axis" kw) && is_set (get "heterogeneous_axis" kw)) eqn:X; [discriminate|].
    cbn zeta in H. destruct (forallb _ _) eqn:F; [|discriminate]. inversion H; subst. clear H.
    cbn [q_type c_class place scaler affine qnoise params].
    fold (merged (fix_axes kw) d).
    assert (NB : not_both_axes kw).
    { unfold not_both_axes. apply andb_false_iff in X. exact X. }
    assert (Hq : q <> "default") by (intros ->; rewrite (no_default_type E P pl) in D; discriminate).
    split; [|repeat split].
    + constructor; cbn [q_type c_class place scaler affine qnoise params].
      * exact Hq.
      * exact C.
      * apply String.eqb_neq in ND. rewrite ND. exists d. split; [exact D|apply keys_merged].
      * exact A.
    + intros _. exists d. repeat split; [exact D| |exact NB].
      intros k Hk. rewrite forallb_forall in F.
      destruct (get k (fix_axes kw)) as [v|] eqn:G.
      * apply get_In in G. apply F in G. apply has_keys in G. exact G.
      * (* k is an axis key absent after the fix: impossible *)
        exfalso. apply get_keys in Hk. apply Hk.
        destruct (string_dec k "homogeneous_axis") as [->|N1].
        { destruct (get_fix_axes kw NB) as [G1 _]. rewrite G1 in G. destruct (is_set (get "heterogeneous_axis" kw)); [discriminate|exact G]. }
        destruct (string_dec k "heterogeneous_axis") as [->|N2].
        { destruct (get_fix_axes kw NB) as [_ G2]. rewrite G2 in G. destruct (is_set (get "homogeneous_axis" kw)); [discriminate|exact G]. }
        rewrite get_fix_other in G; assumption.
Qed.

(** giving back all stored parameters rebuilds the configuration *)
Lemma plain_back E E' c kw : proper E -> same_parameters E E' -> built E c ->
  (q_type c <> "dummy" -> (forall k v, In (k, v) (params c) -> get k kw = Some v) /\ (forall k, In k (keys kw) -> In k (keys (params c)))) ->
  plain_init E' (c_class c) (q_type c) (place c) (scaler c) (affine c) (qnoise c) kw = Some c.
Proof.
  intros P S B H. unfold plain_init.
  destruct (String.eqb_spec (q_type c) "default") as [X|_]; [destruct (b_type E c B X)|].
  rewrite (b_checks E c B). cbn [negb].
  pose proof (b_params E c B) as Bp.
  destruct (String.eqb_spec (q_type c) "dummy") as [X|ND].
  - destruct c; cbn in *; subst. reflexivity.
  - destruct Bp as [d [D K]]. destruct (H ND) as [H1 H2]. clear H.
    pose proof (S (q_type c) (place c)) as S1. rewrite D in S1. cbn [option_map] in S1.
    destruct (dconf E' (q_type c) (place c)) as [d'|] eqn:D'; [|discriminate]. cbn [option_map] in S1. injection S1 as S1.
    pose proof (distinct_keys E P _ _ _ D) as ND1. rewrite <- K in ND1.
    destruct (both_axes E P _ _ _ D) as [Bh Bt]. rewrite <- K in Bh, Bt.
    assert (G : forall k, get k kw = get k (params c)).
    { intros k. destruct (get k (params c)) as [v|] eqn:G.
      - apply H1. apply get_In. exact G.
      - destruct (get k kw) as [w|] eqn:G'; [|reflexivity]. exfalso.
        assert (In k (keys kw)) as Hk by (apply get_keys; congruence). apply H2 in Hk. apply get_keys in Hk. contradiction. }
    assert (NB : not_both_axes kw) by (unfold not_both_axes; rewrite !G; exact (b_axes E c B)).
    assert (X : is_set (get "homogeneous_axis" kw) && is_set (get "heterogeneous_axis" kw) = false).
    { apply andb_false_iff. exact NB. }
    rewrite X. cbn zeta.
    assert (GF : forall k v, In (k, v) (params c) -> get k (fix_axes kw) = Some v).
    { intros k v Hk. pose proof (In_get _ _ _ _ ND1 Hk) as Gk.
      destruct (get_fix_axes kw NB) as [G1 G2].
      destruct (string_dec k "homogeneous_axis") as [->|N1].
      - rewrite G1. destruct (is_set (get "heterogeneous_axis" kw)) eqn:I; [|rewrite G; exact Gk].
        destruct NB as [NB|NB]; [|congruence]. rewrite G in NB. rewrite Gk in NB. destruct v; try discriminate. reflexivity.
      - destruct (string_dec k "heterogeneous_axis") as [->|N2].
        + rewrite G2. destruct (is_set (get "homogeneous_axis" kw)) eqn:I; [|rewrite G; exact Gk].
          destruct NB as [NB|NB]; [congruence|]. rewrite G in NB. rewrite Gk in NB. destruct v; try discriminate. reflexivity.
        + rewrite get_fix_other by assumption. rewrite G. exact Gk. }
    assert (F : forallb (fun p => has (fst p) d') (fix_axes kw) = true).
    { apply forallb_forall. intros [k v] Hk. cbn [fst]. apply has_keys. rewrite S1, <- K.
      assert (In k (keys (fix_axes kw))) as Hk' by (change k with (fst (k, v)); apply in_map; exact Hk).
      apply keys_fix in Hk'. destruct Hk' as [Hk'|[->| ->]]; [apply H2; exact Hk'|exact Bh|exact Bt]. }
    rewrite F. f_equal. fold (merged (fix_axes kw) d').
    assert (M : merged (fix_axes kw) d' = params c).
    { apply merged_all; [rewrite S1, K; reflexivity|exact ND1|exact GF]. }
    rewrite M. destruct c; reflexivity.
Qed.

Lemma has_get A k (d e : list (string * A)) : get k d = get k e -> has k d = has k e.
Proof. unfold has. intros ->. reflexivity. Qed.
Lemma del_all_some ks kw : NoDup ks -> (forall k, In k ks -> In k (keys kw)) ->
  exists kw', del_all ks kw = Some kw' /\ forall k, get k kw' = if existsb (String.eqb k) ks then None else get k kw.
Proof.
  revert kw. induction ks as [|k0 ks IH]; intros kw N H; cbn [del_all existsb].
  - exists kw. split; [reflexivity|]. reflexivity.
  - inversion N as [|? ? N1 N2]; subst. assert (has k0 kw = true) as -> by (apply has_keys; apply H; left; reflexivity).
    destruct (IH (remove k0 kw) N2) as [kw' [E G]].
    { intros k Hk. apply get_keys. rewrite get_remove. destruct (String.eqb_spec k k0) as [->|]; [contradiction|].
      apply get_keys. apply H. right. exact Hk. }
    exists kw'. split; [exact E|]. intros k. rewrite G, get_remove.
    destruct (String.eqb k k0); cbn [orb]; destruct (existsb (String.eqb k) ks); reflexivity.
Qed.

Lemma plain_survives E E' a c : proper E -> same_parameters E E' ->
  conf_init E Plain a = Some c -> (survives E' c <-> not_both_axes (params c)).
Proof.
  intros P S H. cbn [conf_init] in H. destruct (present (a_symmetric a)); [discriminate|].
  assert (C : c_class c = Plain).
  { unfold plain_init in H. destruct (if String.eqb _ _ then _ else _); [|discriminate]. destruct (negb _); [discriminate|].
    destruct (String.eqb _ "dummy"); [inversion H; reflexivity|]. destruct (dconf _ _ _); [|discriminate].
    destruct (_ && _); [discriminate|]. cbn zeta in H. destruct (forallb _ _); [|discriminate]. inversion H. reflexivity. }
  unfold survives, conf_reload, conf_save. rewrite C. cbn [conf_init a_symmetric present a_q_type a_place a_scaler a_affine a_qnoise a_kw or_default given].
  split.
  - intros R. unfold not_both_axes. apply andb_false_iff. unfold plain_init in R.
    destruct (if String.eqb _ _ then _ else _) as [q|]; [|discriminate]. destruct (negb _); [discriminate|].
    destruct (String.eqb _ "dummy"); [inversion R; reflexivity|]. destruct (dconf _ _ _); [|discriminate].
    destruct (is_set _ && is_set _) eqn:X; [discriminate|reflexivity].
  - intros A. destruct (plain_built _ _ _ _ _ _ _ _ _ P H A) as [B _].
    rewrite <- C. apply (plain_back E E' c); [exact P|exact S|exact B|]. intros ND.
    pose proof (b_params E c B) as Bp. apply String.eqb_neq in ND. rewrite ND in Bp. destruct Bp as [d [D K]].
    pose proof (distinct_keys E P _ _ _ D) as N. rewrite <- K in N.
    split; [intros k v; apply In_get; exact N|auto].
Qed.

(** the two classes with fixed parameters *)
Definition fixed_keys : list string := ["ic"; "k0"; "i0"; "overflow_mode"].
Lemma existsb_In k l : existsb (String.eqb k) l = true <-> In k l.
Proof.
  rewrite existsb_exists. split.
  - intros [x [H E]]. apply String.eqb_eq in E. subst. exact H.
  - intros H. exists k. split; [exact H|apply String.eqb_refl].
Qed.
Lemma fixed_survives E E' cls fixed qt pl sc af qn kw kw0 c :
  proper E -> same_parameters E E' -> not_both_axes (params c) ->
  (forall k, In k (keys fixed) <-> In k fixed_keys) -> with_fixed fixed kw = Some kw0 ->
  plain_init E cls qt pl sc af qn kw0 = Some c -> q_type c <> "dummy" ->
  exists kw1 kw2, del_all fixed_keys (params c) = Some kw1 /\ remove "i0" kw1 = kw1 /\ with_fixed fixed kw1 = Some kw2 /\
    existsb (fun k => has k kw1) fixed_keys = false /\ (forall k, has k kw1 = true -> has k (params c) = true) /\
    plain_init E' (c_class c) (q_type c) (place c) (scaler c) (affine c) (qnoise c) kw2 = Some c.
Proof.
  intros P S A FK W H ND.
  destruct (plain_built _ _ _ _ _ _ _ _ _ P H A) as [B [C [Pl [_ [_ [_ M]]]]]].
  destruct (M ND) as [d [D [Pe [K NB]]]].
  pose proof (distinct_keys E P _ _ _ D) as N.
  assert (Kp : keys (params c) = keys d) by (rewrite Pe; apply keys_merged).
  unfold with_fixed in W. destruct (existsb _ fixed) eqn:X in W; [discriminate|]. injection W as <-.
  assert (Fin : forall k, In k fixed_keys -> In k (keys (params c))).
  { intros k Hk. rewrite Kp. apply K. apply get_keys. rewrite get_app.
    apply FK in Hk. apply get_keys in Hk. destruct (get k fixed); congruence. }
  destruct (del_all_some fixed_keys (params c)) as [kw1 [D1 G1]].
  { repeat constructor; cbn; intuition congruence. }
  { exact Fin. }
  assert (NoF : forall k, In k fixed_keys -> get k kw1 = None).
  { intros k Hk. rewrite G1. assert (existsb (String.eqb k) fixed_keys = true) as ->; [|reflexivity].
    apply existsb_In. exact Hk. }
  assert (W1 : with_fixed fixed kw1 = Some (fixed ++ kw1)).
  { unfold with_fixed. replace (existsb (fun p => has (fst p) kw1) fixed) with false; [reflexivity|].
    symmetry. apply not_true_iff_false. intros Y. apply existsb_exists in Y. destruct Y as [[k v] [Y1 Y2]]. cbn [fst] in Y2.
    apply has_keys, get_keys in Y2. apply Y2. apply NoF. apply FK. change k with (fst (k, v)). apply in_map. exact Y1. }
  exists kw1, (fixed ++ kw1).
  assert (R : remove "i0" kw1 = kw1).
  { assert (Q : get "i0" kw1 = None) by (apply NoF; cbn; auto).
    clear - Q. induction kw1 as [|[k v] kw1 IH]; [reflexivity|]. cbn [get] in Q.
    cbn [remove filter fst]. destruct (String.eqb "i0" k) eqn:E; [discriminate|]. cbn [negb]. f_equal. apply IH. exact Q. }
  repeat split; [exact D1|exact R|exact W1| | |].
  - apply not_true_iff_false. intros Y. apply existsb_exists in Y. destruct Y as [k [Y1 Y2]].
    apply has_keys, get_keys in Y2. apply Y2. apply NoF. exact Y1.
  - intros k Hk. apply has_keys. apply has_keys, get_keys in Hk. apply get_keys. rewrite G1 in Hk.
    destruct (existsb (String.eqb k) fixed_keys); congruence.
  - apply (plain_back E E' c); [exact P|exact S|exact B|]. intros _. split.
    + intros k v Hk. assert (Gk : get k (params c) = Some v) by (apply In_get; [rewrite Kp; exact N|exact Hk]).
      rewrite get_app. rewrite G1.
      destruct (existsb (String.eqb k) fixed_keys) eqn:Y.
      * apply existsb_In in Y. pose proof Y as Y'. apply FK, get_keys in Y'.
        destruct (get k fixed) as [w|] eqn:Gf; [|congruence].
        rewrite Pe, get_merged in Gk. destruct (get k d); [|discriminate].
        rewrite get_fix_other in Gk.
        { rewrite get_app, Gf in Gk. exact Gk. }
        { intros ->. cbn in Y. intuition congruence. }
        { intros ->. cbn in Y. intuition congruence. }
      * destruct (get k fixed) as [w|] eqn:Gf; [|exact Gk].
        exfalso. assert (In k (keys fixed)) as Hf by (apply get_keys; congruence).
        apply FK, existsb_In in Hf. congruence.
    + intros k Hk. apply get_keys in Hk. rewrite get_app in Hk. apply get_keys.
      destruct (get k fixed) as [w|] eqn:Gf.
      * apply get_keys. apply Fin, FK, get_keys. congruence.
      * rewrite G1 in Hk. destruct (existsb (String.eqb k) fixed_keys); congruence.
Qed.

Lemma not_has A k (d : list (string * A)) : has k d = false <-> ~ In k (keys d).
Proof. rewrite <- has_keys. destruct (has k d); split; intros; congruence. Qed.
Lemma hard_tanh_survives E E' a c : proper E -> same_parameters E E' ->
  conf_init E HardTanh a = Some c -> q_type c <> "dummy" -> not_both_axes (params c) ->
  conf_save c <> None /\
  (conf_reload E' c = Some c <-> a_symmetric a <> Some true) .
Proof.
  intros P S H ND A. cbn [conf_init] in H. unfold hard_tanh_init in H.
  destruct (present (a_affine a) || existsb (fun k => has k (a_kw a)) ["k0"; "ic"; "overflow_node"]) eqn:X; [discriminate|].
  cbn zeta in H. destruct (with_fixed _ _) as [kw0|] eqn:W in H; [|discriminate].
  set (mode := if match a_symmetric a with Some b => b | None => false end then "SAT_SYM" else "SAT") in *.
  pose proof (plain_built _ _ _ _ _ _ _ _ _ P H A) as [B [C [Pl [_ [Af [_ M]]]]]].
  assert (FK : forall k, In k (keys [("k0", CNum 1); ("ic", CObj "Constant(0)"); ("i0", CNum 0); ("overflow_mode", CStr mode)]) <-> In k fixed_keys) by (intros k; cbn; intuition).
  destruct (fixed_survives E E' _ _ _ _ _ _ _ _ _ _ P S A FK W H ND)
    as [kw1 [kw2 [D1 [R [W1 [F1 [F2 R2]]]]]]].
  destruct (M ND) as [d [D [Pe [K NB]]]].
  assert (Kp : keys (params c) = keys d) by (rewrite Pe; apply keys_merged).
  unfold conf_save. rewrite C. fold fixed_keys. rewrite D1. split; [discriminate|].
  unfold conf_reload, conf_save. rewrite C. fold fixed_keys. rewrite D1. cbn [conf_init]. unfold hard_tanh_init.
  cbn [a_symmetric present a_q_type a_place a_scaler a_affine a_qnoise a_kw or_default given orb].
  assert (Y : existsb (fun k => has k kw1) ["k0"; "ic"; "overflow_node"] = false).
  { cbn [existsb]. unfold fixed_keys in F1. cbn [existsb] in F1.
    apply orb_false_iff in F1. destruct F1 as [-> F1]. apply orb_false_iff in F1. destruct F1 as [-> _]. cbn [orb].
    rewrite orb_false_r. apply not_has. intros Z. apply has_keys in Z. apply F2 in Z. apply has_keys in Z. rewrite Kp in Z.
    exact (no_overflow_node E P _ _ _ D Z). }
  rewrite Y. cbn zeta. rewrite R. rewrite C in R2. rewrite Af in R2. clear Y.
  unfold mode in *. clear mode.
  destruct (match a_symmetric a with Some b => b | None => false end) eqn:Sy.
  - assert (a_symmetric a = Some true) as -> by (destruct (a_symmetric a) as [[]|]; congruence).
    split; [|congruence]. intros Z. exfalso.
    (* the reloaded overflow mode is SAT *)
    destruct (with_fixed _ kw1) as [kw3|] eqn:W3 in Z; [|discriminate].
    assert (kw3 = [("k0", CNum 1); ("ic", CObj "Constant(0)"); ("i0", CNum 0); ("overflow_mode", CStr "SAT")] ++ kw1) as ->.
    { unfold with_fixed in W3. destruct (existsb _ _) in W3; [discriminate|]. congruence. }
    unfold plain_init in Z. destruct (String.eqb_spec (q_type c) "default") as [Q|_]; [destruct (b_type E c B Q)|].
    destruct (negb _); [discriminate|]. destruct (String.eqb_spec (q_type c) "dummy") as [Q|_]; [contradiction|].
    destruct (dconf E' (q_type c) (place c)) as [d'|]; [|discriminate].
    destruct (is_set _ && is_set _); [discriminate|]. cbn zeta in Z. destruct (forallb _ _); [|discriminate].
    injection Z as Z. apply (f_equal params) in Z. cbn [params] in Z.
    change (merged (fix_axes ([("k0", CNum 1); ("ic", CObj "Constant(0)"); ("i0", CNum 0); ("overflow_mode", CStr "SAT")] ++ kw1)) d' = params c) in Z.
    assert (G : get "overflow_mode" (params c) = Some (CStr "SAT_SYM")).
    { rewrite Pe, get_merged. rewrite get_fix_other by discriminate.
      unfold with_fixed in W. destruct (existsb _ _) in W; [discriminate|]. injection W as <-.
      assert (In "overflow_mode" (keys d)) as Hk by (apply K; cbn; auto).
      apply get_keys in Hk. destruct (get "overflow_mode" d); [|congruence]. reflexivity. }
    rewrite <- Z in G. rewrite get_merged in G. rewrite get_fix_other in G by discriminate.
    destruct (get "overflow_mode" d'); [|discriminate]. cbn in G. congruence.
  - split; [intros _ E0; rewrite E0 in Sy; discriminate|]. intros _. rewrite W1. exact R2.
Qed.
Lemma hard_sigmoid_survives E E' a c : proper E -> same_parameters E E' ->
  conf_init E HardSigmoid a = Some c -> q_type c <> "dummy" -> not_both_axes (params c) -> survives E' c.
Proof.
  intros P S H ND A. cbn [conf_init] in H. unfold hard_sigmoid_init in H.
  destruct (present (a_affine a) || present (a_symmetric a) || existsb (fun k => has k (a_kw a)) ["k0"; "ic"; "overflow_mode"]) eqn:X; [discriminate|].
  cbn zeta in H. destruct (with_fixed _ _) as [kw0|] eqn:W in H; [|discriminate].
  pose proof (plain_built _ _ _ _ _ _ _ _ _ P H A) as [B [C [Pl [_ [Af [_ M]]]]]].
  assert (FK : forall k, In k (keys [("k0", CNum 1); ("ic", CObj "Constant(1)"); ("i0", CNum 1); ("overflow_mode", CStr "SAT")]) <-> In k fixed_keys) by (intros k; cbn; intuition).
  destruct (fixed_survives E E' _ _ _ _ _ _ _ _ _ _ P S A FK W H ND)
    as [kw1 [kw2 [D1 [R [W1 [F1 [F2 R2]]]]]]].
  unfold survives, conf_reload, conf_save. rewrite C. fold fixed_keys. rewrite D1. cbn [conf_init]. unfold hard_sigmoid_init.
  cbn [a_symmetric present a_q_type a_place a_scaler a_affine a_qnoise a_kw or_default given orb].
  assert (Y : existsb (fun k => has k kw1) ["k0"; "ic"; "overflow_mode"] = false).
  { cbn [existsb]. unfold fixed_keys in F1. cbn [existsb] in F1.
    apply orb_false_iff in F1. destruct F1 as [-> F1]. apply orb_false_iff in F1. destruct F1 as [-> F1].
    apply orb_false_iff in F1. destruct F1 as [_ F1]. apply orb_false_iff in F1. destruct F1 as [-> _]. reflexivity. }
  rewrite Y. cbn zeta. rewrite R, W1. rewrite C, Af in R2. exact R2.
Qed.

(** what reloading needs in every class *)
Lemma plain_init_axes E cls qt pl sc af qn kw c : plain_init E cls qt pl sc af qn kw = Some c -> q_type c <> "dummy" -> not_both_axes kw.
Proof.
  intros H ND. unfold plain_init in H. unfold not_both_axes. apply andb_false_iff.
  destruct (if String.eqb _ _ then _ else _) as [q|]; [|discriminate]. destruct (negb _); [discriminate|].
  destruct (String.eqb q "dummy") eqn:D.
  - apply String.eqb_eq in D. subst. inversion H; subst. cbn [q_type] in ND. congruence.
  - destruct (dconf _ _ _); [|discriminate]. destruct (is_set _ && is_set _) eqn:X; [discriminate|reflexivity].
Qed.
Lemma del_all_get ks kw kw' k : del_all ks kw = Some kw' -> ~ In k ks -> get k kw' = get k kw.
Proof.
  revert kw. induction ks as [|k0 ks IH]; intros kw H N; cbn [del_all] in H; [congruence|].
  destruct (has k0 kw); [|discriminate]. rewrite (IH _ H) by (intros Z; apply N; right; exact Z).
  rewrite get_remove. destruct (String.eqb_spec k k0) as [->|]; [destruct N; left; reflexivity|reflexivity].
Qed.
Lemma plain_init_class E cls qt pl sc af qn kw c : plain_init E cls qt pl sc af qn kw = Some c -> c_class c = cls /\ (q_type c = "dummy" -> params c = []).
Proof.
  intros H. unfold plain_init in H.
  destruct (if String.eqb _ _ then _ else _) as [q|]; [|discriminate]. destruct (negb _); [discriminate|].
  destruct (String.eqb q "dummy") eqn:D; [inversion H; auto|].
  destruct (dconf _ _ _) eqn:Dc; [|discriminate]. destruct (is_set _ && is_set _); [discriminate|]. cbn zeta in H. destruct (forallb _ _); [|discriminate].
  inversion H; subst. cbn [c_class q_type params]. split; [reflexivity|]. intros ->. discriminate.
Qed.
Lemma conf_init_class E cls a c : conf_init E cls a = Some c -> c_class c = cls /\ (q_type c = "dummy" -> params c = []).
Proof.
  intros H. destruct cls; cbn [conf_init] in H.
  - destruct (present _); [discriminate|]. apply (plain_init_class _ _ _ _ _ _ _ _ _ H).
  - unfold hard_tanh_init in H. destruct (_ || _); [discriminate|]. cbn zeta in H. destruct (with_fixed _ _); [|discriminate].
    apply (plain_init_class _ _ _ _ _ _ _ _ _ H).
  - unfold hard_sigmoid_init in H. destruct (_ || _); [discriminate|]. cbn zeta in H. destruct (with_fixed _ _); [|discriminate].
    apply (plain_init_class _ _ _ _ _ _ _ _ _ H).
Qed.
Lemma fixed_axes fixed kw kw1 ps : (forall k, In k (keys fixed) <-> In k fixed_keys) -> del_all fixed_keys ps = Some kw1 ->
  with_fixed fixed (remove "i0" kw1) = Some kw -> not_both_axes kw -> not_both_axes ps.
Proof.
  intros FK D W. unfold with_fixed in W. destruct (existsb _ _) in W; [discriminate|]. injection W as <-.
  unfold not_both_axes. rewrite !get_app, !get_remove. cbn [String.eqb Ascii.eqb Bool.eqb].
  assert (N : forall k, ~ In k fixed_keys -> get k fixed = None).
  { intros k Hk. destruct (get k fixed) eqn:G; [|reflexivity]. destruct Hk. apply FK, get_keys. congruence. }
  rewrite !N by (cbn; intuition discriminate).
  rewrite !(del_all_get _ _ _ _ D) by (cbn; intuition discriminate). auto.
Qed.
Lemma conf_reload_iff E E' cls a c : proper E -> same_parameters E E' -> conf_init E cls a = Some c ->
  (survives E' c <-> not_both_axes (params c) /\
     match cls with Plain => True | HardSigmoid => q_type c <> "dummy" | HardTanh => q_type c <> "dummy" /\ a_symmetric a <> Some true end).
Proof.
  intros P S H. destruct (conf_init_class _ _ _ _ H) as [C Du].
  destruct cls.
  - rewrite (plain_survives E E' a c P S H). tauto.
  - destruct (string_dec (q_type c) "dummy") as [D|ND].
    + split; [|tauto]. unfold survives, conf_reload, conf_save. rewrite C, (Du D). cbn. discriminate.
    + split.
      * intros R. assert (A : not_both_axes (params c)).
        { unfold survives, conf_reload, conf_save in R. rewrite C in R. fold fixed_keys in R.
          destruct (del_all fixed_keys (params c)) as [kw1|] eqn:D1; [|discriminate].
          cbn [conf_init] in R. unfold hard_tanh_init in R. destruct (_ || _) in R; [discriminate|]. cbn zeta in R.
          destruct (with_fixed _ _) as [kw|] eqn:W in R; [|discriminate].
          refine (fixed_axes _ _ _ _ _ D1 W (plain_init_axes _ _ _ _ _ _ _ _ _ R ND)). intros k; cbn; intuition. }
        destruct (hard_tanh_survives E E' a c P S H ND A) as [_ Hs]. split; [exact A|]. split; [exact ND|apply Hs; exact R].
      * intros [A [_ N]]. apply (hard_tanh_survives E E' a c P S H ND A). exact N.
  - destruct (string_dec (q_type c) "dummy") as [D|ND].
    + split; [|tauto]. unfold survives, conf_reload, conf_save. rewrite C, (Du D). cbn. discriminate.
    + split.
      * intros R. assert (A : not_both_axes (params c)).
        { unfold survives, conf_reload, conf_save in R. rewrite C in R. fold fixed_keys in R.
          destruct (del_all fixed_keys (params c)) as [kw1|] eqn:D1; [|discriminate].
          cbn [conf_init] in R. unfold hard_sigmoid_init in R. destruct (_ || _) in R; [discriminate|]. cbn zeta in R.
          destruct (with_fixed _ _) as [kw|] eqn:W in R; [|discriminate].
          refine (fixed_axes _ _ _ _ _ D1 W (plain_init_axes _ _ _ _ _ _ _ _ _ R ND)). intros k; cbn; intuition. }
        split; [exact A|exact ND].
      * intros [A _]. exact (hard_sigmoid_survives E E' a c P S H ND A).
Qed.

(** ** layers *)
Lemma all_some_map A B (f : A -> option B) (g : A -> B) l : (forall a, In a l -> f a = Some (g a)) -> all_some (map f l) = Some (map g l).
Proof.
  induction l as [|a l IH]; intros H; cbn [map all_some]; [reflexivity|].
  rewrite (H a) by (left; reflexivity). rewrite IH by (intros; apply H; right; assumption). reflexivity.
Qed.
Lemma reload_value_stable E v : (forall c, In c (confs_in v) -> survives E c) -> reload_value E v = Some v.
Proof.
  destruct v as [v|c|l]; cbn [reload_value confs_in]; intros H; [reflexivity| |].
  - rewrite H by (left; reflexivity). reflexivity.
  - rewrite (all_some_map _ _ _ (fun c => c)) by exact H. rewrite map_id. reflexivity.
Qed.
Lemma reload_kwargs_stable E kw : (forall n v c, In (n, v) kw -> In c (confs_in v) -> survives E c) -> reload_kwargs E kw = Some kw.
Proof.
  intros H. unfold reload_kwargs. rewrite (all_some_map _ _ _ (fun p => p)), map_id; [reflexivity|].
  intros [n v] Hn. cbn [fst snd]. rewrite reload_value_stable by (intros c; apply (H n); exact Hn). reflexivity.
Qed.

Definition ref (f : field) : list string :=
  match f with
  | Fallback _ o => [o] | Conf _ _ _ (Some g) => [g]
  | Ebops iq cell => (if iq then ["enable_iq"] else []) ++ (if cell then ["standalone"] else [])
  | _ => []
  end.
(** distinct names, and a parameter only looks at earlier ones *)
Fixpoint ordered (seen : list string) (c : list (field * bool)) : bool :=
  match c with
  | [] => true
  | (f, _) :: c' => negb (existsb (String.eqb (field_name f)) seen) && forallb (fun n => existsb (String.eqb n) seen) (ref f) && ordered (field_name f :: seen) c'
  end.
Lemma field_value_ref E f a x y : (forall n, In n (ref f) -> attr x n = attr y n) -> field_value E f a x = field_value E f a y.
Proof.
  intros H. destruct f as [n|n d|n|n o|iq cell|n cls pl g]; cbn [field_value ref] in *; try reflexivity.
  - rewrite (H o) by (left; reflexivity). reflexivity.
  - destruct iq, cell; cbn [app] in H; rewrite ?(H "enable_iq"), ?(H "standalone") by (cbn; auto); reflexivity.
  - destruct g as [g|]; [|reflexivity]. rewrite (H g) by (left; reflexivity). reflexivity.
Qed.
Lemma value_again E E' f a x v : (forall n, globals E n <> CNone) -> field_value E f a x = Some v -> field_value E' f (Some v) x = Some v.
Proof.
  intros G H. destruct f as [n|n d|n|n o|iq cell|n cls pl g]; cbn [field_value] in *; cbn zeta in *.
  - congruence.
  - reflexivity.
  - injection H as H. destruct (is_none _) eqn:I in H; [|rewrite H in I; rewrite I; reflexivity].
    rewrite <- H. pose proof (G n). cbn [is_none]. destruct (globals E n); congruence.
  - injection H as H. destruct (is_none v) eqn:I; [|reflexivity]. destruct (is_none _) eqn:I2 in H; [rewrite H; reflexivity|].
    rewrite H in I2. congruence.
  - injection H as H. destruct (cell && negb (truthy (attr x "standalone"))) eqn:S; [rewrite H; reflexivity|].
    destruct (is_none v) eqn:I; [|reflexivity]. exfalso.
    destruct (is_none _) eqn:I2 in H; [|rewrite H in I2; congruence].
    destruct iq; rewrite <- H in I; [discriminate|]. pose proof (G "enable_ebops"). cbn [is_none] in I. destruct (globals E "enable_ebops"); congruence.
  - destruct (match g with Some p => truthy (attr x p) | None => true end) eqn:S; [|exact H].
    assert (truthy v = true) as ->; [|reflexivity].
    destruct (truthy _) eqn:T in H; [injection H as <-; exact T|].
    destruct (conf_init _ _ _) in H; [|discriminate]. injection H as <-. reflexivity.
Qed.

Lemma attr_app x y n : attr (x ++ y) n = if has n x then attr x n else attr y n.
Proof. unfold attr, has. rewrite get_app. destruct (get n x); reflexivity. Qed.
Lemma run_init_keys E c kw x0 x : run_init E c kw x0 = Some x -> exists y, x = x0 ++ y /\ keys y = map (fun q => field_name (fst q)) c.
Proof.
  revert x0. induction c as [|[f b] c IH]; intros x0 H; cbn [run_init] in H.
  - injection H as <-. exists []. rewrite app_nil_r. split; reflexivity.
  - destruct (field_value _ _ _ _) as [v|] eqn:V in H; [|discriminate].
    destruct (IH _ H) as [y [E1 E2]]. exists ((field_name f, v) :: y). split.
    + rewrite E1, <- app_assoc. reflexivity.
    + cbn [keys map fst]. fold (keys y). rewrite E2. reflexivity.
Qed.
Lemma existsb_seen n x seen : (forall k, In k seen <-> In k (keys x)) -> existsb (String.eqb n) seen = @has lval n x.
Proof.
  intros H. destruct (has n x) eqn:E.
  - apply existsb_In. apply H. apply has_keys. exact E.
  - apply not_true_iff_false. intros F. apply existsb_In in F. apply H in F. apply has_keys in F. congruence.
Qed.

Section Reload.
  Context (E E' : genv) (kw kw' : layer).
  Hypothesis (G : forall n, globals E n <> CNone).
  Lemma run_again c seen x0 x : (forall k, In k seen <-> In k (keys x0)) -> ordered seen c = true ->
    run_init E c kw x0 = Some x ->
    (forall f b, In (f, b) c -> get (field_name f) kw' = if b then Some (attr x (field_name f)) else None) ->
    (run_init E' c kw' x0 = Some x <->
     forall f, In (f, false) c -> field_value E' f None x = Some (attr x (field_name f))).
  Proof.
    revert seen x0. induction c as [|[f b] c IH]; intros seen x0 S O H K.
    - cbn [run_init] in *. split; [intros _ f []|intros _; exact H].
    - cbn [run_init] in H. destruct (field_value E f _ x0) as [v|] eqn:V in H; [|discriminate].
      cbn [ordered] in O. apply andb_prop in O. destruct O as [O O3]. apply andb_prop in O. destruct O as [O1 O2].
      rewrite (existsb_seen _ _ _ S) in O1. apply negb_true_iff in O1.
      destruct (run_init_keys _ _ _ _ _ H) as [y [Ex Ky]].
      assert (Av : attr x (field_name f) = v).
      { rewrite Ex. unfold attr. rewrite !get_app. unfold has in O1. destruct (get (field_name f) x0); [discriminate|].
        cbn [get]. rewrite String.eqb_refl. reflexivity. }
      assert (Rf : forall n, In n (ref f) -> attr x0 n = attr x n).
      { intros n Hn. rewrite forallb_forall in O2. apply O2 in Hn. rewrite (existsb_seen _ _ _ S) in Hn.
        rewrite Ex, <- app_assoc, attr_app, Hn. reflexivity. }
      assert (IH' : run_init E' c kw' (x0 ++ [(field_name f, v)]) = Some x <->
                    forall f0, In (f0, false) c -> field_value E' f0 None x = Some (attr x (field_name f0))).
      { apply (IH (field_name f :: seen)); [|exact O3|exact H|].
        - intros k. unfold keys. rewrite map_app, in_app_iff. cbn [map fst In]. rewrite S. unfold keys. intuition.
        - intros f0 b0 Hf. apply K. right. exact Hf. }
      cbn [run_init]. rewrite (K f b) by (left; reflexivity). destruct b.
      + rewrite Av. rewrite (value_again E E' f _ x0 v G V). rewrite IH'.
        split; intros Q f0 Hf; apply Q; [destruct Hf as [Hf|Hf]; [congruence|exact Hf]|right; exact Hf].
      + rewrite (field_value_ref E' f None x0 x Rf). split.
        * intros Q. destruct (field_value E' f None x) as [w|] eqn:W; [|discriminate].
          destruct (run_init_keys _ _ _ _ _ Q) as [y' [Ex' _]].
          assert (w = v).
          { assert (Aw : attr x (field_name f) = w).
            { rewrite Ex'. unfold attr. rewrite !get_app. unfold has in O1. destruct (get (field_name f) x0); [discriminate|].
              cbn [get]. rewrite String.eqb_refl. reflexivity. }
            congruence. }
          subst w. intros f0 [Hf|Hf]; [injection Hf as <-; congruence|]. apply IH'; assumption.
        * intros Q. rewrite (Q f) by (left; reflexivity). rewrite Av. apply IH'. intros f0 Hf. apply Q. right. exact Hf.
  Qed.
End Reload.

Lemma ordered_names seen c : ordered seen c = true -> NoDup (map (fun q => field_name (fst q)) c) /\ forall q, In q c -> ~ In (field_name (fst q)) seen.
Proof.
  revert seen. induction c as [|[f b] c IH]; intros seen O; cbn [map]; [split; [constructor|intros q []]|].
  cbn [ordered] in O. apply andb_prop in O. destruct O as [O O3]. apply andb_prop in O. destruct O as [O1 O2].
  destruct (IH _ O3) as [N Hn]. apply negb_true_iff in O1.
  assert (~ In (field_name f) seen) as O1' by (intros Z; apply existsb_In in Z; congruence).
  split.
  - constructor; [|exact N]. intros Z. apply in_map_iff in Z. destruct Z as [q [Z1 Z2]]. apply (Hn q Z2). left. symmetry. exact Z1.
  - intros q [<-|Hq]; [exact O1'|]. intros Z. apply (Hn q Hq). right. exact Z.
Qed.
Lemma get_saved c x f b : NoDup (map (fun q => field_name (fst q)) c) -> In (f, b) c ->
  get (field_name f) (layer_save c x) = if b then Some (attr x (field_name f)) else None.
Proof.
  unfold layer_save. induction c as [|[f0 b0] c IH]; intros N H; [contradiction|]. cbn [map fst] in N. inversion N as [|? ? N1 N2]; subst.
  destruct H as [H|H].
  - injection H as -> ->. cbn [filter snd]. destruct b; cbn [map fst get].
    + rewrite String.eqb_refl. reflexivity.
    + match goal with |- ?g = None => destruct g eqn:Gq; [|reflexivity] end. exfalso. apply get_In in Gq.
      apply in_map_iff in Gq. destruct Gq as [q [Q1 Q2]]. apply filter_In in Q2. injection Q1 as Q1 _.
      apply N1. rewrite <- Q1. apply (in_map (fun q => field_name (fst q))). apply Q2.
  - cbn [filter snd]. destruct b0; cbn [map fst get]; [|apply IH; assumption].
    destruct (String.eqb_spec (field_name f) (field_name f0)) as [Q|_]; [|apply IH; assumption].
    exfalso. apply N1. rewrite <- Q. apply (in_map (fun q => field_name (fst q)) _ (f, b)). exact H.
Qed.

Theorem layer_reload_iff E E' c kw x : ordered [] c = true -> (forall n, globals E n <> CNone) ->
  layer_init E c kw = Some x -> (forall n v k, In (n, v) x -> In k (confs_in v) -> survives (quantizers E') k) ->
  (layer_reload E' c x = Some x <-> forall f, In f (left_out c) -> field_value E' f None x = Some (attr x (field_name f))).
Proof.
  intros O G H S. unfold layer_init in H. destruct (forallb _ kw) in H; [|discriminate].
  destruct (ordered_names _ _ O) as [N _].
  unfold layer_reload. rewrite reload_kwargs_stable.
  - unfold layer_init.
    assert (F : forallb (fun p => existsb (fun q => String.eqb (fst p) (field_name (fst q))) c) (layer_save c x) = true).
    { apply forallb_forall. intros p Hp. unfold layer_save in Hp. apply in_map_iff in Hp. destruct Hp as [q [<- Hq]]. apply filter_In in Hq.
      apply existsb_exists. exists q. split; [apply Hq|]. cbn [fst]. apply String.eqb_refl. }
    rewrite F. rewrite (run_again E E' kw (layer_save c x) G c [] [] x).
    + unfold left_out. split; intros Q f Hf; apply Q.
      * apply in_map_iff in Hf. destruct Hf as [[f0 b] [<- Hf]]. apply filter_In in Hf. cbn [fst snd] in *. destruct b; [destruct Hf as [_ Hf]; discriminate|apply Hf].
      * apply in_map_iff. exists (f, false). split; [reflexivity|]. apply filter_In. split; [exact Hf|reflexivity].
    + cbn. intuition.
    + exact O.
    + exact H.
    + intros f b Hf. apply get_saved; assumption.
  - intros n v k Hn Hk. unfold layer_save in Hn. apply in_map_iff in Hn. destruct Hn as [q [Q1 Q2]]. injection Q1 as Q1 Q3.
    assert (In (n, v) x \/ v = lnone) as [Hx| ->].
    { rewrite Q1 in Q3. unfold attr in Q3. destruct (get n x) eqn:Gx; [left; apply get_In; congruence|right; congruence]. }
    + apply (S n v k); assumption.
    + cbn in Hk. contradiction.
Qed.
Lemma classes_ordered k : ordered [] (class_of k) = true.
Proof. destruct k; vm_compute; reflexivity. Qed.

(** ** the defaults of the package *)
Lemma conf_axes E cls a c : proper E -> conf_init E cls a = Some c ->
  (forall d, dconf E (q_type c) (place c) = Some d -> not_both_axes d) -> not_both_axes (params c).
Proof.
  intros P H A.
  assert (PA : forall cl qt pl sc af qn kw, plain_init E cl qt pl sc af qn kw = Some c -> not_both_axes (params c)).
  { clear H. intros cl qt pl sc af qn kw H. unfold plain_init in H.
    destruct (if String.eqb _ _ then _ else _) as [q|]; [|discriminate]. destruct (negb _); [discriminate|].
    destruct (String.eqb q "dummy"); [inversion H; left; reflexivity|].
    destruct (dconf E q pl) as [d|] eqn:D; [|discriminate].
    destruct (is_set _ && is_set _) eqn:X; [discriminate|]. cbn zeta in H. destruct (forallb _ _); [|discriminate]. inversion H; subst.
    cbn [q_type place params] in *. specialize (A d D). fold (merged (fix_axes kw) d).
    assert (NB : not_both_axes kw) by (unfold not_both_axes; apply andb_false_iff; exact X).
    unfold not_both_axes. destruct (get_fix_axes kw NB) as [G1 G2]. rewrite !get_merged, G1, G2.
    destruct A as [Hd|Hd].
    - destruct (is_set (get "homogeneous_axis" kw)) eqn:I1.
      + right. destruct (get "heterogeneous_axis" d); reflexivity.
      + left. destruct (get "homogeneous_axis" d) as [v|] eqn:Gd; [|reflexivity].
        destruct (is_set (get "heterogeneous_axis" kw)); [reflexivity|].
        destruct (get "homogeneous_axis" kw) as [w|]; [exact I1|exact Hd].
    - destruct (is_set (get "heterogeneous_axis" kw)) eqn:I2.
      + left. destruct (get "homogeneous_axis" d); reflexivity.
      + right. destruct (get "heterogeneous_axis" d) as [v|] eqn:Gd; [|reflexivity].
        destruct (is_set (get "homogeneous_axis" kw)); [reflexivity|].
        destruct (get "heterogeneous_axis" kw) as [w|]; [exact I2|exact Hd]. }
  destruct cls; cbn [conf_init] in H.
  - destruct (present _); [discriminate|]. exact (PA _ _ _ _ _ _ _ H).
  - unfold hard_tanh_init in H. destruct (_ || _); [discriminate|]. cbn zeta in H. destruct (with_fixed _ _); [|discriminate]. exact (PA _ _ _ _ _ _ _ H).
  - unfold hard_sigmoid_init in H. destruct (_ || _); [discriminate|]. cbn zeta in H. destruct (with_fixed _ _); [|discriminate]. exact (PA _ _ _ _ _ _ _ H).
Qed.
Lemma lookup2_In qt pl t d : lookup2 qt pl t = Some d -> In ((qt, pl), d) t.
Proof.
  induction t as [|[[a b] e] t IH]; cbn [lookup2]; [discriminate|].
  destruct (String.eqb_spec qt a), (String.eqb_spec pl b); cbn [andb]; intros H; try (right; apply IH; exact H).
  injection H as ->. subst. left. reflexivity.
Qed.
Lemma shipped_proper : proper shipped.
Proof.
  assert (F : Forall (fun p => NoDup (keys (snd p)) /\ (In "homogeneous_axis" (keys (snd p)) /\ In "heterogeneous_axis" (keys (snd p))) /\ ~ In "overflow_node" (keys (snd p))) shipped_table).
  { unfold shipped_table. repeat (apply Forall_cons; [cbn [snd keys map fst kbi_defaults kif_defaults float_defaults]|]); [..|apply Forall_nil].
    all: split; [repeat (apply NoDup_cons; [intros Z; cbn [In] in Z; repeat (destruct Z as [Z|Z]; [discriminate Z|]); exact Z|]); apply NoDup_nil|].
    all: split; [split; cbn [In]; tauto|intros Z; cbn [In] in Z; repeat (destruct Z as [Z|Z]; [discriminate Z|]); exact Z]. }
  rewrite Forall_forall in F. constructor.
  - intros pl. reflexivity.
  - intros qt pl d D. apply lookup2_In, F in D. apply D.
  - intros qt pl d D. apply lookup2_In, F in D. apply D.
  - intros qt pl d D. apply lookup2_In, F in D. apply D.
Qed.
Lemma shipped_axes qt pl d : dconf shipped qt pl = Some d -> not_both_axes d <-> ~ (qt = "float" /\ pl = "bias").
Proof.
  intros D. assert (F : Forall (fun p => not_both_axes (snd p) <-> ~ (fst (fst p) = "float" /\ snd (fst p) = "bias")) shipped_table).
  { unfold shipped_table. repeat (apply Forall_cons; [cbn [snd fst]|]); [..|apply Forall_nil].
    all: split; [intros X [Q1 Q2]; try discriminate Q1; try discriminate Q2; destruct X as [X|X]; discriminate X|intros X].
    all: first [left; reflexivity|right; reflexivity|destruct X; split; reflexivity]. }
  rewrite Forall_forall in F. apply lookup2_In, F in D. exact D.
Qed.

Lemma default_survives E E' cls pl c : proper E -> same_parameters E E' -> good_defaults E ->
  conf_init E cls (mk_args None (Some pl) None None None None []) = Some c -> (cls = Plain \/ pl = "datalane") -> survives E' c.
Proof.
  intros P S [G1 G2] H Hc. apply (conf_reload_iff E E' _ _ c P S H).
  assert (T : match cls with Plain => q_type c = "dummy" \/ (dqt E pl = Some (q_type c) /\ place c = pl)
              | _ => q_type c = "kif" /\ place c = "datalane" end).
  { destruct cls; cbn [conf_init] in H.
    - cbn [a_symmetric present a_q_type a_place a_scaler a_affine a_qnoise a_kw or_default given] in H. unfold plain_init in H.
      destruct (if String.eqb "default" "default" then dqt E pl else _) as [q|] eqn:Q in H; [|discriminate H]. change (dqt E pl = Some q) in Q.
      destruct (negb _) in H; [discriminate H|].
      destruct (String.eqb_spec q "dummy"); [inversion H; subst; left; reflexivity|].
      destruct (dconf E q pl) in H; [|discriminate H]. destruct (is_set _ && _) in H; [discriminate H|]. cbn zeta in H. destruct (forallb _ _) in H; [|discriminate H].
      inversion H; subst. right. split; [exact Q|reflexivity].
    - destruct Hc as [Hc|Hc]; [discriminate|]. subst pl. unfold hard_tanh_init in H. cbn [a_affine a_kw present existsb orb has get] in H. cbn zeta in H.
      destruct (with_fixed _ _); [|discriminate]. cbn [a_q_type a_place or_default] in H. unfold plain_init in H.
      destruct (if String.eqb _ _ then _ else _) as [q|] eqn:Q in H; [|discriminate]. cbn in Q. injection Q as <-.
      destruct (negb _) in H; [discriminate H|]. destruct (String.eqb "kif" "dummy") in H; [inversion H; auto|].
      destruct (dconf E "kif" "datalane") in H; [|discriminate H]. destruct (is_set _ && _) in H; [discriminate H|]. cbn zeta in H. destruct (forallb _ _) in H; [|discriminate H].
      inversion H; auto.
    - destruct Hc as [Hc|Hc]; [discriminate|]. subst pl. unfold hard_sigmoid_init in H. cbn [a_affine a_symmetric a_kw present existsb orb has get] in H. cbn zeta in H.
      destruct (with_fixed _ _); [|discriminate]. cbn [a_q_type a_place or_default] in H. unfold plain_init in H.
      destruct (if String.eqb _ _ then _ else _) as [q|] eqn:Q in H; [|discriminate]. cbn in Q. injection Q as <-.
      destruct (negb _) in H; [discriminate H|]. destruct (String.eqb "kif" "dummy") in H; [inversion H; auto|].
      destruct (dconf E "kif" "datalane") in H; [|discriminate H]. destruct (is_set _ && _) in H; [discriminate H|]. cbn zeta in H. destruct (forallb _ _) in H; [|discriminate H].
      inversion H; auto. }
  split.
  - destruct (string_dec (q_type c) "dummy") as [D|ND].
    + destruct (conf_init_class _ _ _ _ H) as [_ Z]. rewrite (Z D). left. reflexivity.
    + apply (conf_axes E _ _ c P H). intros d D. destruct cls.
      * destruct T as [T|[T1 T2]]; [contradiction|]. rewrite T2 in D. exact (G1 _ _ _ T1 D).
      * destruct T as [T0 T]. rewrite T0, T in D. exact (G2 _ D).
      * destruct T as [T0 T]. rewrite T0, T in D. exact (G2 _ D).
  - destruct cls; [exact I|destruct T as [-> _]; cbn; split; discriminate|destruct T as [-> _]; discriminate].
Qed.
Lemma shipped_good : good_defaults shipped.
Proof.
  split.
  - intros pl qt d Q D. apply (shipped_axes _ _ _ D). intros [-> ->]. cbn in Q. discriminate.
  - intros d D. apply (shipped_axes _ _ _ D). intros [Q _]. discriminate.
Qed.
(** in every class the hard configurations stand at the datalane place *)
Definition hard_places (c : list (field * bool)) : bool :=
  forallb (fun q => match fst q with Conf _ Plain _ _ => true | Conf _ _ pl _ => String.eqb pl "datalane" | _ => true end) c.
Lemma classes_places k : hard_places (class_of k) = true.
Proof. destruct k; vm_compute; reflexivity. Qed.

Section Built.
  Context (E E' : genv) (kw : layer).
  Hypothesis (P : proper (quantizers E)) (S : same_parameters (quantizers E) (quantizers E')) (G : good_defaults (quantizers E)).
  Hypothesis (K : forall n v c, In (n, v) kw -> In c (confs_in v) -> survives (quantizers E') c).
  Lemma run_survives c x0 x : hard_places c = true -> run_init E c kw x0 = Some x ->
    (forall n v k, In (n, v) x0 -> In k (confs_in v) -> survives (quantizers E') k) ->
    (forall n v k, In (n, v) x -> In k (confs_in v) -> survives (quantizers E') k).
  Proof.
    revert x0. induction c as [|[f b] c IH]; intros x0 Hp H S0; cbn [run_init] in H; [injection H as <-; exact S0|].
    cbn [hard_places forallb fst] in Hp. apply andb_prop in Hp. destruct Hp as [Hf Hp].
    destruct (field_value E f _ x0) as [v|] eqn:V in H; [|discriminate].
    apply (IH (x0 ++ [(field_name f, v)]) Hp H). intros n w k Hn Hk. apply in_app_iff in Hn. destruct Hn as [Hn|[Hn|[]]]; [exact (S0 _ _ _ Hn Hk)|].
    injection Hn as _ <-.
    assert (Karg : forall v0, get (field_name f) kw = Some v0 -> forall k, In k (confs_in v0) -> survives (quantizers E') k).
    { intros v0 Hv k0 Hk0. apply get_In in Hv. exact (K _ _ _ Hv Hk0). }
    assert (Kv : forall k, In k (confs_in (match get (field_name f) kw with Some v => v | None => lnone end)) -> survives (quantizers E') k).
    { destruct (get (field_name f) kw) as [v0|]; [exact (Karg v0 eq_refl)|]. cbn. tauto. }
    destruct f as [n0|n0 d|n0|n0 o|iq cell|n0 cls pl g]; cbn [field_value field_name] in *; cbn zeta in V.
    - exact (Karg v V k Hk).
    - injection V as <-. destruct (get n0 kw) as [v0|]; [exact (Karg v0 eq_refl k Hk)|]. cbn in Hk. contradiction.
    - injection V as <-. destruct (is_none _) in Hk; [cbn in Hk; contradiction|]. exact (Kv k Hk).
    - injection V as <-. destruct (is_none _) in Hk; [|exact (Kv k Hk)]. unfold attr in Hk. destruct (get o x0) eqn:Go; [|cbn in Hk; contradiction].
      apply get_In in Go. exact (S0 _ _ _ Go Hk).
    - injection V as <-. destruct (cell && _) in Hk; [cbn in Hk; contradiction|]. destruct (is_none _) in Hk; [|exact (Kv k Hk)].
      destruct iq; cbn in Hk; contradiction.
    - destruct (match g with Some p => truthy (attr x0 p) | None => true end) in V; [|injection V as <-; cbn in Hk; contradiction].
      destruct (truthy _) in V; [injection V as <-; exact (Kv k Hk)|].
      destruct (conf_init _ _ _) as [cc|] eqn:Ci in V; [|discriminate]. cbn [option_map] in V. injection V as <-. cbn [confs_in In] in Hk. destruct Hk as [<-|[]].
      apply (default_survives _ _ _ _ _ P S G Ci). destruct cls; [left; reflexivity| |]; right; apply String.eqb_eq; exact Hf.
  Qed.
End Built.
Theorem layer_iff E E' k kw x : proper (quantizers E) -> same_parameters (quantizers E) (quantizers E') -> good_defaults (quantizers E) ->
  (forall n, globals E n <> CNone) -> layer_init E (class_of k) kw = Some x ->
  (forall n v c, In (n, v) kw -> In c (confs_in v) -> survives (quantizers E') c) ->
  (layer_reload E' (class_of k) x = Some x <->
   forall f, In f (left_out (class_of k)) -> field_value E' f None x = Some (attr x (field_name f))).
Proof.
  intros P S G Gl H K. apply (layer_reload_iff E E' _ kw x (classes_ordered k) Gl H).
  unfold layer_init in H. destruct (forallb _ kw) in H; [|discriminate].
  apply (run_survives E E' kw P S G K _ [] x (classes_places k) H). intros n v c [].
Qed.
Lemma complete_class k : incomplete k = false -> left_out (class_of k) = [].
Proof. destruct k; cbn [incomplete]; intros H; try discriminate H; vm_compute; reflexivity. Qed.
