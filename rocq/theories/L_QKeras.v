(** Proofs about the QKeras compatibility package. *)
From Coq Require Import NArith Decimal List Bool String Ascii Lia Arith.
From Verif Require Import Num M_Fixed S_Fixed L_Fixed M_Config S_Config L_Config M_QKeras S_QKeras.
Import ListNotations.
Local Open Scope list_scope.

Lemma text_eqb_eq s t : text_eqb s t = true <-> s = t.
Proof.
  revert t. induction s as [|c s IH]; intros [|d t]; cbn [text_eqb]; try (split; congruence).
  rewrite andb_true_iff, N.eqb_eq, IH. split; [intros [-> ->]; reflexivity|intros H; injection H; auto].
Qed.
Lemma text_eqb_refl s : text_eqb s s = true.
Proof. apply text_eqb_eq. reflexivity. Qed.
Lemma text_eqb_neq s t : text_eqb s t = false <-> s <> t.
Proof. rewrite <- text_eqb_eq. destruct (text_eqb s t); split; congruence. Qed.

(** ** splitting and stripping *)
Lemma split_nonempty sep s : split sep s <> [].
Proof. destruct s as [|c s]; cbn [split]; [discriminate|]. destruct (N.eqb c sep); [discriminate|]. destruct (split sep s); discriminate. Qed.
Lemma split_no sep s : ~ In sep s -> split sep s = [s].
Proof.
  induction s as [|c s IH]; intros H; cbn [split]; [reflexivity|].
  destruct (N.eqb_spec c sep) as [->|]; [destruct H; left; reflexivity|]. rewrite IH by (intros Z; apply H; right; exact Z). reflexivity.
Qed.
Lemma split_app sep s t : ~ In sep s -> split sep (s ++ sep :: t) = s :: split sep t.
Proof.
  induction s as [|c s IH]; intros H; cbn [split app].
  - rewrite N.eqb_refl. reflexivity.
  - destruct (N.eqb_spec c sep) as [->|]; [destruct H; left; reflexivity|]. rewrite IH by (intros Z; apply H; right; exact Z). reflexivity.
Qed.
Lemma split_join l : l <> [] -> Forall (fun s => ~ In comma s) l -> split comma (join l) = l.
Proof.
  induction l as [|s l IH]; intros N F; [contradiction|]. inversion F; subst. cbn [join]. destruct l as [|s' l].
  - apply split_no. assumption.
  - change (s ++ [comma] ++ join (s' :: l)) with (s ++ comma :: join (s' :: l)). rewrite split_app by assumption.
    rewrite IH; [reflexivity|discriminate|assumption].
Qed.
Lemma split_pieces sep s : Forall (fun t => ~ In sep t) (split sep s).
Proof.
  induction s as [|c s IH]; cbn [split]; [repeat constructor; intros []|].
  destruct (N.eqb_spec c sep) as [->|N]; [constructor; [intros []|exact IH]|].
  destruct (split sep s) as [|h t]; [repeat constructor; intros [Z|[]]; congruence|].
  inversion IH; subst. constructor; [|assumption]. intros [Z|Z]; [congruence|contradiction].
Qed.
Lemma join_split s : join (split comma s) = s.
Proof.
  induction s as [|c s IH]; cbn [split]; [reflexivity|].
  destruct (N.eqb_spec c comma) as [->|N].
  - pose proof (split_nonempty comma s). destruct (split comma s) as [|h t] eqn:E; [contradiction|].
    change (join ([] :: h :: t)) with (comma :: join (h :: t)). rewrite IH. reflexivity.
  - pose proof (split_nonempty comma s). destruct (split comma s) as [|h t] eqn:E; [contradiction|].
    destruct t; cbn [join] in *; cbn [app]; rewrite <- IH; reflexivity.
Qed.
Lemma split_two sep s a b : split sep s = [a; b] -> s = a ++ sep :: b /\ ~ In sep a /\ ~ In sep b.
Proof.
  intros H. pose proof (split_pieces sep s) as F. rewrite H in F. inversion F as [|? ? Fa Fb]; subst. inversion Fb; subst. repeat split; [|assumption..].
  clear F Fa Fb H2 H3. revert a H. induction s as [|c s IH]; intros a H; cbn [split] in H; [discriminate|].
  destruct (N.eqb_spec c sep) as [->|N].
  - injection H as <- H. cbn [app]. f_equal. 
    clear IH. revert b H. induction s as [|c s IH]; intros b H; cbn [split] in H; [congruence|].
    destruct (N.eqb c sep); [pose proof (split_nonempty sep s); destruct (split sep s); congruence|].
    pose proof (split_nonempty sep s). destruct (split sep s) as [|h t] eqn:E; [contradiction|]. injection H as <- ->. f_equal. apply IH. reflexivity.
  - pose proof (split_nonempty sep s). destruct (split sep s) as [|h t] eqn:E; [contradiction|]. injection H as <- ->. cbn [app]. f_equal. apply IH. reflexivity.
Qed.

Definition trimmed (t : text) : Prop := (forall c r, t = c :: r -> space c = false) /\ (forall c r, t = r ++ [c] -> space c = false).
Lemma lstrip_blank l s : blank l -> lstrip (l ++ s) = lstrip s.
Proof. induction 1 as [|c l Hc _ IH]; cbn [app lstrip]; [reflexivity|]. rewrite Hc. exact IH. Qed.
Lemma lstrip_head t : (forall c r, t = c :: r -> space c = false) -> lstrip t = t.
Proof. destruct t as [|c t]; intros H; cbn [lstrip]; [reflexivity|]. rewrite (H c t eq_refl). reflexivity. Qed.
Lemma lstrip_split s : exists l, blank l /\ s = l ++ lstrip s /\ (forall c r, lstrip s = c :: r -> space c = false).
Proof.
  induction s as [|c s [l [B [E H]]]]; cbn [lstrip].
  - exists []. repeat split; [constructor|]. intros; discriminate.
  - destruct (space c) eqn:S.
    + exists (c :: l). repeat split; [constructor; assumption|cbn [app]; congruence|exact H].
    + exists []. repeat split; [constructor|]. intros c' r Z. congruence.
Qed.
Lemma rev_blank l : blank l -> blank (rev l).
Proof. unfold blank. rewrite !Forall_forall. intros H c Hc. apply H. apply in_rev. exact Hc. Qed.
Lemma strip_trimmed l t r : blank l -> blank r -> trimmed t -> strip (l ++ t ++ r) = t.
Proof.
  intros Bl Br [T1 T2]. unfold strip. rewrite lstrip_blank by exact Bl.
  destruct t as [|c t].
  - cbn [app]. assert (lstrip r = []) as ->. { rewrite <- (app_nil_r r). rewrite lstrip_blank by exact Br. reflexivity. } reflexivity.
  - rewrite (lstrip_head ((c :: t) ++ r)).
    + rewrite rev_app_distr. rewrite lstrip_blank by (apply rev_blank; exact Br). rewrite lstrip_head; [apply rev_involutive|].
      intros c' r' E. apply (T2 c' (rev r')). rewrite <- (rev_involutive (c :: t)), E. reflexivity.
    + cbn [app]. intros c' r' E. injection E as <- _. apply (T1 c t). reflexivity.
Qed.
Lemma strip_parts s : exists l r, blank l /\ blank r /\ s = l ++ strip s ++ r /\ trimmed (strip s).
Proof.
  destruct (lstrip_split s) as [l [B [E H]]]. unfold strip.
  destruct (lstrip_split (rev (lstrip s))) as [r [B' [E' H']]].
  exists l, (rev r). split; [exact B|]. split; [apply rev_blank; exact B'|].
  assert (E2 : lstrip s = rev (lstrip (rev (lstrip s))) ++ rev r).
  { rewrite <- rev_app_distr. rewrite <- E'. symmetry. apply rev_involutive. }
  split; [rewrite <- E2; exact E|]. split.
  - intros c q Hc. apply (H c (q ++ rev r)). rewrite E2, Hc. reflexivity.
  - intros c q Hc. apply (H' c (rev q)). rewrite <- (rev_involutive (lstrip (rev (lstrip s)))), Hc, rev_app_distr. reflexivity.
Qed.
Lemma strip_id t : trimmed t -> strip t = t.
Proof. intros H. pose proof (strip_trimmed [] t [] (Forall_nil _) (Forall_nil _) H) as E. cbn [app] in E. rewrite app_nil_r in E. exact E. Qed.

Lemma blank_no l c : blank l -> space c = false -> ~ In c l.
Proof. unfold blank. rewrite Forall_forall. intros H S I. apply H in I. congruence. Qed.
Lemma existsb_equals c : existsb (N.eqb equals) c = true <-> In equals c.
Proof.
  rewrite existsb_exists. split; [intros [x [H E]]; apply N.eqb_eq in E; subst; exact H|]. intros H. exists equals. split; [exact H|apply N.eqb_refl].
Qed.
Lemma word_trimmed t : word t -> trimmed t.
Proof. intros [_ [_ [_ H]]]. exact H. Qed.

(** ** one chunk *)
Lemma positional_chunk p : good_positional p -> strip (write_positional p) = p_text p /\ ~ In comma (write_positional p).
Proof.
  intros [B1 [W B2]]. split; [apply strip_trimmed; [exact B1|exact B2|apply word_trimmed; exact W]|].
  unfold write_positional. rewrite !in_app_iff. destruct W as [_ [W _]].
  intros [Z|[Z|Z]]; [exact (blank_no _ comma B1 eq_refl Z)|exact (W Z)|exact (blank_no _ comma B2 eq_refl Z)].
Qed.
Lemma keyword_chunk k : good_keyword k -> ~ In comma (write_keyword k) /\ strip (write_keyword k) = (k_key k ++ k_mid1 k) ++ equals :: (k_mid2 k ++ k_text k) /\
  ~ In equals (k_key k ++ k_mid1 k) /\ ~ In equals (k_mid2 k ++ k_text k) /\ strip (k_key k ++ k_mid1 k) = k_key k /\ strip (k_mid2 k ++ k_text k) = k_text k.
Proof.
  intros [B1 [W1 [B2 [B3 [W2 B4]]]]]. repeat split.
  - unfold write_keyword. rewrite !in_app_iff. cbn [In]. destruct W1 as [_ [N1 _]], W2 as [_ [N2 _]].
    intros [Z|[Z|[Z|[[Z|[]]|[Z|[Z|Z]]]]]]; try (apply (blank_no _ comma) in Z; [exact Z|assumption|reflexivity]); try contradiction. discriminate Z.
  - assert (write_keyword k = k_left k ++ ((k_key k ++ k_mid1 k) ++ equals :: (k_mid2 k ++ k_text k)) ++ k_right k) as ->.
    { unfold write_keyword. rewrite <- !app_assoc. cbn [app]. rewrite <- !app_assoc. reflexivity. }
    apply strip_trimmed; [exact B1|exact B4|]. destruct W1 as [N1 [_ [_ [H1 _]]]], W2 as [N2 [_ [_ [_ H2]]]]. split.
    + intros c r E. destruct (k_key k) as [|c0 r0] eqn:K; [contradiction|]. cbn [app] in E. injection E as <- _. apply (H1 c0 r0). reflexivity.
    + intros c r E. destruct (exists_last N2) as [r0 [c0 E0]]. rewrite E0 in *.
      assert (Z : ((k_key k ++ k_mid1 k) ++ equals :: k_mid2 k ++ r0) ++ [c0] = r ++ [c]).
      { rewrite <- E. rewrite <- !app_assoc. cbn [app]. rewrite <- !app_assoc. reflexivity. }
      apply app_inj_tail in Z. destruct Z as [_ <-]. apply (H2 c0 r0). reflexivity.
  - rewrite in_app_iff. destruct W1 as [_ [_ [W1 _]]]. intros [Z|Z]; [contradiction|]. exact (blank_no _ equals B2 eq_refl Z).
  - rewrite in_app_iff. destruct W2 as [_ [_ [W2 _]]]. intros [Z|Z]; [|contradiction]. exact (blank_no _ equals B3 eq_refl Z).
  - pose proof (strip_trimmed [] (k_key k) (k_mid1 k) (Forall_nil _) B2 (word_trimmed _ W1)) as E. exact E.
  - pose proof (strip_trimmed (k_mid2 k) (k_text k) [] B3 (Forall_nil _) (word_trimmed _ W2)) as E. rewrite app_nil_r in E. exact E.
Qed.
Lemma trimmed_split a b t : trimmed t -> t = a ++ equals :: b -> (forall c r, a = c :: r -> space c = false) /\ (forall c r, b = r ++ [c] -> space c = false).
Proof.
  intros [T1 T2] ->. split.
  - intros c r ->. apply (T1 c (r ++ equals :: b)). reflexivity.
  - intros c r ->. apply (T2 c (a ++ equals :: r)). rewrite <- app_assoc. reflexivity.
Qed.

Section Parse.
  Context (other_digit : N -> bool) (other_int : text -> option Z) (to_float : text -> option pyval).
  Notation str_value := (str_value other_digit other_int to_float).
  Notation parse := (parse other_digit other_int to_float).
  Notation denotes := (denotes other_digit other_int to_float).

  Definition set_all (ks : list (text * text)) (kw : list (text * text)) : list (text * text) := fold_left (fun d p => dict_set (fst p) (snd p) d) ks kw.

  Lemma chunks_ok ps ks args kw ended : Forall good_positional ps -> Forall good_keyword ks -> (ended = true -> ps = []) ->
    parse_chunks (map write_positional ps ++ map write_keyword ks) args kw ended = Ok (args ++ map p_text ps, set_all (map pair_of ks) kw).
  Proof.
    intros Fp Fk. revert args ended. induction Fp as [|p ps Gp _ IH]; intros args ended He.
    - cbn [map app]. rewrite app_nil_r. clear He. revert kw ended. induction Fk as [|k ks Gk _ IH]; intros kw ended; cbn [map parse_chunks]; [reflexivity|].
      destruct (keyword_chunk k Gk) as [_ [E [N1 [N2 [S1 S2]]]]]. cbn zeta. rewrite E.
      destruct Gk as [_ [W1 [_ [_ [W2 _]]]]].
      remember ((k_key k ++ k_mid1 k) ++ equals :: k_mid2 k ++ k_text k) as c eqn:Hc.
      assert (In equals c) as I by (rewrite Hc; apply in_app_iff; right; left; reflexivity).
      destruct c as [|c0 c']; [destruct I|]. apply existsb_equals in I. rewrite I. rewrite Hc, split_app by exact N1. rewrite split_no by exact N2.
      rewrite S1, S2. destruct (k_key k) as [|a0 a'] eqn:Ka; [destruct W1 as [W1 _]; congruence|]. destruct (k_text k) as [|v0 v'] eqn:Kv; [destruct W2 as [W2 _]; congruence|].
      rewrite IH. unfold set_all, pair_of. cbn [fold_left fst snd]. rewrite Ka, Kv. reflexivity.
    - destruct ended; [specialize (He eq_refl); discriminate|]. cbn [map app parse_chunks]. destruct (positional_chunk p Gp) as [E _]. cbn zeta. rewrite E.
      destruct Gp as [_ [[W1 [W2 [W3 _]]] _]]. destruct (p_text p) as [|c0 c'] eqn:Pt; [contradiction|].
      replace (existsb (N.eqb equals) (c0 :: c')) with false.
      + rewrite IH by discriminate. rewrite <- app_assoc. reflexivity.
      + symmetry. apply not_true_iff_false. rewrite existsb_equals. exact W3.
  Qed.
  Lemma chunks_only cs args kw ended a k : Forall (fun s => ~ In comma s) cs -> parse_chunks cs args kw ended = Ok (a, k) ->
    exists ps ks, Forall good_positional ps /\ Forall good_keyword ks /\ (ended = true -> ps = []) /\
      cs = map write_positional ps ++ map write_keyword ks /\ a = args ++ map p_text ps /\ k = set_all (map pair_of ks) kw.
  Proof.
    intros Fc. revert args kw ended. induction Fc as [|c cs Nc Fc IH]; intros args kw ended H.
    - cbn [parse_chunks] in H. injection H as <- <-. exists [], []. repeat split; [constructor|constructor|]. cbn [map]. rewrite app_nil_r. reflexivity.
    - cbn [parse_chunks] in H. cbn zeta in H. destruct (strip_parts c) as [l [r [Bl [Br [Ec Tc]]]]].
      assert (Ns : ~ In comma (strip c)) by (intros Z; apply Nc; rewrite Ec, !in_app_iff; auto).
      destruct (strip c) as [|c0 c'] eqn:Sc; [discriminate|]. rewrite <- Sc in *.
      destruct (existsb (N.eqb equals) (strip c)) eqn:X.
      + destruct (split equals (strip c)) as [|u [|v [|? ?]]] eqn:Sp; try discriminate.
        destruct (split_two _ _ _ _ Sp) as [E [Nu Nv]].
        destruct (strip u) as [|u0 u'] eqn:Su; [discriminate|]. destruct (strip v) as [|v0 v'] eqn:Sv; [discriminate|]. rewrite <- Su, <- Sv in H.
        destruct (IH _ _ _ H) as [ps [ks [G1 [G2 [G3 [G4 [G5 G6]]]]]]]. rewrite (G3 eq_refl) in *. cbn [map app] in *.
        destruct (trimmed_split _ _ _ Tc E) as [Tu Tv].
        destruct (strip_parts u) as [lu [ru [Blu [Bru [Eu Tu']]]]]. destruct (strip_parts v) as [lv [rv [Blv [Brv [Ev Tv']]]]].
        assert (lu = []) as ->.
        { destruct lu as [|x lu]; [reflexivity|]. exfalso. inversion Blu; subst. rewrite (Tu x (lu ++ strip u ++ ru)) in *; [congruence|exact Eu]. }
        assert (rv = []) as ->.
        { destruct rv as [|y rv]; [reflexivity|]. exfalso.
          destruct (@exists_last _ (y :: rv)) as [q [x Q]]; [discriminate|]. rewrite Q in *.
          assert (space x = false). { apply (Tv x (lv ++ strip v ++ q)). rewrite Ev at 1. rewrite <- !app_assoc. reflexivity. }
          unfold blank in Brv. rewrite Forall_forall in Brv. rewrite (Brv x) in *; [discriminate|]. apply in_app_iff. right. left. reflexivity. }
        cbn [app] in Eu. rewrite app_nil_r in Ev.
        exists [], (mk_keyword l (strip u) ru lv (strip v) r :: ks). cbn [map app].
        assert (In_u : forall z, In z (strip u) -> In z (strip c)) by (intros z Hz; rewrite E, in_app_iff; left; rewrite Eu; apply in_app_iff; auto).
        assert (In_v : forall z, In z (strip v) -> In z (strip c)) by (intros z Hz; rewrite E, in_app_iff; right; right; rewrite Ev; apply in_app_iff; auto).
        split; [constructor|]. split; [|split; [auto|split; [|split; [exact G5|exact G6]]]].
        * constructor; [|exact G2]. unfold good_keyword. cbn [k_left k_key k_mid1 k_mid2 k_text k_right].
          repeat split; [exact Bl|congruence|intros Z; apply Ns, In_u, Z|intros Z; apply Nu; rewrite Eu; apply in_app_iff; left; exact Z|apply Tu'|apply Tu'|exact Bru|exact Blv
            |congruence|intros Z; apply Ns, In_v, Z|intros Z; apply Nv; rewrite Ev; apply in_app_iff; right; exact Z|apply Tv'|apply Tv'|exact Br].
        * rewrite <- G4. f_equal. unfold write_keyword. cbn [k_left k_key k_mid1 k_mid2 k_text k_right].
          rewrite Ec at 1. rewrite E. rewrite Eu at 1. rewrite Ev at 1. rewrite <- !app_assoc. cbn [app]. rewrite <- !app_assoc. reflexivity.
      + destruct ended; [discriminate|]. destruct (IH _ _ _ H) as [ps [ks [G1 [G2 [G3 [G4 [G5 G6]]]]]]].
        exists (mk_positional l (strip c) r :: ps), ks. cbn [map app]. split; [|split; [exact G2|split; [discriminate|split; [|split; [|exact G6]]]]].
        * constructor; [|exact G1]. unfold good_positional. cbn [p_left p_text p_right].
          repeat split; [exact Bl|congruence|exact Ns|intros Z; apply existsb_equals in Z; congruence|apply Tc|apply Tc|exact Br].
        * rewrite <- G4. f_equal. exact Ec.
        * rewrite G5, <- app_assoc. reflexivity.
  Qed.

  (** ** values *)
  Lemma begins_iff c s : begins c s = true <-> exists r, s = c :: r.
  Proof. destruct s as [|d s]; cbn [begins]; [split; [discriminate|intros [r H]; discriminate]|]. rewrite N.eqb_eq. split; [intros ->; eauto|intros [r H]; congruence]. Qed.
  Lemma begins_rev c s : begins c (rev s) = true <-> exists r, s = r ++ [c].
  Proof.
    rewrite begins_iff. split; intros [r H].
    - exists (rev r). rewrite <- (rev_involutive s), H. reflexivity.
    - exists (rev r). rewrite H, rev_app_distr. reflexivity.
  Qed.
  Lemma quoted_iff q s : begins q s && begins q (rev s) = true <-> s = [q] \/ exists r, s = q :: r ++ [q].
  Proof.
    rewrite andb_true_iff, begins_iff, begins_rev. split.
    - intros [[r H] [r' H']]. rewrite H in H'. destruct r' as [|d r']; cbn [app] in H'; [left; congruence|].
      right. exists r'. rewrite H. congruence.
    - intros [->|[r ->]]; split; eauto; [exists []; reflexivity|exists (q :: r); reflexivity].
  Qed.
  Lemma inside_quoted q r : inside (q :: r ++ [q]) = r.
  Proof. unfold inside. cbn [tl]. apply removelast_last. Qed.
  Lemma isdigit_iff s : isdigit other_digit s = true <-> s <> [] /\ Forall (fun c => digit other_digit c = true) s.
  Proof.
    unfold isdigit. rewrite andb_true_iff, negb_true_iff, Nat.eqb_neq, forallb_forall, Forall_forall.
    split; intros [H1 H2]; (split; [|exact H2]); destruct s; cbn in *; congruence.
  Qed.
  Lemma ascii_iff s : forallb ascii_digit s = true <-> Forall (fun c => (48 <= c <= 57)%N) s.
  Proof.
    rewrite forallb_forall, Forall_forall. unfold ascii_digit. split; intros H c Hc; specialize (H c Hc).
    - apply andb_prop in H. rewrite !N.leb_le in H. exact H.
    - apply andb_true_intro. rewrite !N.leb_le. exact H.
  Qed.
  Lemma ascii_digits s : Forall (fun c => (48 <= c <= 57)%N) s -> Forall (fun c => digit other_digit c = true) s.
  Proof.
    rewrite !Forall_forall. intros H c Hc. specialize (H c Hc). unfold digit, ascii_digit.
    replace (c <? 128)%N with true by (symmetry; apply N.ltb_lt; lia). apply andb_true_intro. rewrite !N.leb_le. exact H.
  Qed.
  Lemma low_digit c : (c < 128)%N -> digit other_digit c = true -> (48 <= c <= 57)%N.
  Proof.
    intros L. unfold digit, ascii_digit. replace (c <? 128)%N with true by (symmetry; apply N.ltb_lt; exact L). intros H.
    apply andb_prop in H. rewrite !N.leb_le in H. exact H.
  Qed.
  Lemma not_quoted q s : q = dquote \/ q = squote -> Forall (fun c => digit other_digit c = true) s -> begins q s = false.
  Proof.
    intros Hq F. destruct s as [|d s]; [reflexivity|]. inversion F; subst. cbn [begins]. apply N.eqb_neq. intros <-.
    assert (48 <= q <= 57)%N as Z by (apply low_digit; [destruct Hq; subst; reflexivity|assumption]). destruct Hq; subst; unfold dquote, squote in Z; lia.
  Qed.
  Lemma not_word s w : Forall (fun c => digit other_digit c = true) s -> (exists d r, txt w = d :: r /\ (d < 128)%N /\ ~ (48 <= d <= 57)%N) -> text_eqb s (txt w) = false.
  Proof. intros F [d [r [E [L N]]]]. rewrite E. apply text_eqb_neq. intros ->. inversion F; subst. apply N. apply low_digit; assumption. Qed.

  Lemma value_iff s v : str_value s = Ok v <-> denotes s v.
  Proof.
    split.
    - unfold M_QKeras.str_value. intros H.
      destruct (text_eqb s (txt "None")) eqn:E1; [apply text_eqb_eq in E1; injection H as <-; subst; constructor|].
      destruct (text_eqb s (txt "True")) eqn:E2; [apply text_eqb_eq in E2; injection H as <-; subst; constructor|].
      destruct (text_eqb s (txt "False")) eqn:E3; [apply text_eqb_eq in E3; injection H as <-; subst; constructor|].
      destruct (begins dquote s && begins dquote (rev s)) eqn:Q1.
      { apply quoted_iff in Q1. injection H as <-. destruct Q1 as [->|[r ->]]; [apply d_lone_quote; auto|rewrite inside_quoted; apply d_quoted; auto]. }
      destruct (begins squote s && begins squote (rev s)) eqn:Q2.
      { apply quoted_iff in Q2. injection H as <-. destruct Q2 as [->|[r ->]]; [apply d_lone_quote; auto|rewrite inside_quoted; apply d_quoted; auto]. }
      destruct (isdigit other_digit s) eqn:D.
      + apply isdigit_iff in D. destruct D as [N D]. unfold int_of in H. destruct (forallb ascii_digit s) eqn:A.
        * injection H as <-. apply d_int; [exact N|apply ascii_iff; exact A].
        * destruct (other_int s) eqn:O; [|discriminate]. injection H as <-. apply d_other_int; [exact N|exact D| |exact O].
          intros Z. apply ascii_iff in Z. congruence.
      + destruct (to_float s) eqn:T; [|discriminate]. injection H as <-.
        apply d_float; [apply text_eqb_neq; exact E1|apply text_eqb_neq; exact E2|apply text_eqb_neq; exact E3| | |exact T].
        * intros q r Hq. split; intros Z; [assert (Y : s = [q] \/ exists r, s = q :: r ++ [q]) by (right; eauto)|assert (Y : s = [q] \/ exists r, s = q :: r ++ [q]) by auto];
            apply quoted_iff in Y; destruct Hq; subst q; congruence.
        * intros Z. apply isdigit_iff in Z. congruence.
    - intros H. destruct H as [| | |q s Hq|q Hq|s N A|s z N D NA O|s v N1 N2 N3 NQ ND T]; try reflexivity.
      + unfold M_QKeras.str_value.
        assert (text_eqb (q :: s ++ [q]) (txt "None") = false) as -> by (apply text_eqb_neq; intros Z; destruct Hq; subst q; discriminate Z).
        assert (text_eqb (q :: s ++ [q]) (txt "True") = false) as -> by (apply text_eqb_neq; intros Z; destruct Hq; subst q; discriminate Z).
        assert (text_eqb (q :: s ++ [q]) (txt "False") = false) as -> by (apply text_eqb_neq; intros Z; destruct Hq; subst q; discriminate Z).
        rewrite inside_quoted.
        assert (begins q (q :: s ++ [q]) && begins q (rev (q :: s ++ [q])) = true) as B by (apply quoted_iff; right; eauto).
        destruct Hq; subst q; rewrite B; [reflexivity|]. destruct (begins dquote _ && _); reflexivity.
      + destruct Hq; subst q; reflexivity.
      + pose proof (ascii_digits s A) as D. unfold M_QKeras.str_value.
        rewrite 3 not_word by first [exact D|eexists; eexists; split; [reflexivity|cbn; lia]].
        rewrite (not_quoted dquote), (not_quoted squote) by auto. cbn [andb].
        assert (isdigit other_digit s = true) as -> by (apply isdigit_iff; split; [exact N|apply ascii_digits; exact A]).
        unfold int_of. assert (forallb ascii_digit s = true) as -> by (apply ascii_iff; exact A). reflexivity.
      + unfold M_QKeras.str_value.
        rewrite 3 not_word by first [exact D|eexists; eexists; split; [reflexivity|cbn; lia]].
        rewrite (not_quoted dquote), (not_quoted squote) by auto. cbn [andb].
        assert (isdigit other_digit s = true) as -> by (apply isdigit_iff; split; assumption).
        unfold int_of. assert (forallb ascii_digit s = false) as -> by (apply not_true_iff_false; rewrite ascii_iff; exact NA). rewrite O. reflexivity.
      + unfold M_QKeras.str_value. apply text_eqb_neq in N1, N2, N3. rewrite N1, N2, N3.
        assert (Q : forall q, q = dquote \/ q = squote -> begins q s && begins q (rev s) = false).
        { intros q Hq. apply not_true_iff_false. rewrite quoted_iff. intros [Z|[r Z]]; [apply (NQ q [] Hq) in Z; exact Z|apply (NQ q r Hq) in Z; exact Z]. }
        rewrite !Q by auto. assert (isdigit other_digit s = false) as -> by (apply not_true_iff_false; rewrite isdigit_iff; exact ND).
        rewrite T. reflexivity.
  Qed.
  Lemma value_error s : (forall v, ~ denotes s v) <-> str_value s = Raise ValueError.
  Proof.
    split.
    - intros H. destruct (str_value s) as [v|e] eqn:E; [apply value_iff in E; destruct (H v E)|].
      unfold M_QKeras.str_value in E.
      repeat (match type of E with (if ?b then _ else _) = _ => destruct b; [try discriminate E|] end).
      + destruct (int_of other_int s); congruence.
      + destruct (to_float s); congruence.
    - intros H v D. apply value_iff in D. congruence.
  Qed.

  (** ** dictionaries *)
  Lemma dict_set_get A k v (d : list (text * A)) k' : text_get k' (dict_set k v d) = if text_eqb k' k then Some v else text_get k' d.
  Proof.
    induction d as [|[k0 w] d IH]; cbn [dict_set text_get]; [destruct (text_eqb k' k); reflexivity|].
    destruct (text_eqb k k0) eqn:E; cbn [text_get].
    - apply text_eqb_eq in E. subst. destruct (text_eqb k' k0); reflexivity.
    - destruct (text_eqb k' k0) eqn:E2; [|exact IH]. apply text_eqb_eq in E2. subst.
      destruct (text_eqb k0 k) eqn:E3; [|reflexivity]. apply text_eqb_eq in E3. subst. rewrite text_eqb_refl in E. discriminate.
  Qed.
  Lemma dict_set_keys A k v (d : list (text * A)) : NoDup (map fst d) -> NoDup (map fst (dict_set k v d)).
  Proof.
    assert (I : forall d : list (text * A), forall x, In x (map fst (dict_set k v d)) -> x = k \/ In x (map fst d)).
    { clear d. induction d as [|[k0 w] d IH]; intros x; cbn [dict_set map fst In]; [intros [H|[]]; auto|].
      destruct (text_eqb k k0); cbn [map fst In]; [tauto|]. intros [H|H]; [auto|]. apply IH in H. tauto. }
    induction d as [|[k0 w] d IH]; intros N; cbn [dict_set]; [repeat constructor; intros []|].
    cbn [map fst] in N. inversion N; subst. destruct (text_eqb k k0) eqn:E; cbn [map fst]; [constructor; assumption|].
    constructor; [|apply IH; assumption]. intros Z. apply I in Z. destruct Z as [->|Z]; [rewrite text_eqb_refl in E; discriminate|contradiction].
  Qed.
  Lemma set_all_get l d k : text_get k (set_all l d) = match last_value k l with Some v => Some v | None => text_get k d end.
  Proof.
    revert d. induction l as [|[k0 v] l IH]; intros d; cbn [set_all fold_left last_value fst snd]; [reflexivity|].
    fold (set_all l (dict_set k0 v d)). rewrite IH. destruct (last_value k l); [reflexivity|]. rewrite dict_set_get. destruct (text_eqb k k0); reflexivity.
  Qed.
  Lemma set_all_keys l d : NoDup (map fst d) -> NoDup (map fst (set_all l d)).
  Proof. revert d. induction l as [|[k v] l IH]; intros d N; cbn [set_all fold_left fst snd]; [exact N|]. apply IH. apply dict_set_keys. exact N. Qed.
  Lemma text_get_In A k v (d : list (text * A)) : NoDup (map fst d) -> (In (k, v) d <-> text_get k d = Some v).
  Proof.
    induction d as [|[k0 w] d IH]; intros N; cbn [text_get In]; [split; [tauto|discriminate]|].
    cbn [map fst] in N. inversion N; subst. destruct (text_eqb k k0) eqn:E.
    - apply text_eqb_eq in E. subst. split; [intros [H|H]; [congruence|]|intros H; left; congruence].
      exfalso. apply H1. change k0 with (fst (k0, v)). apply in_map. exact H.
    - rewrite <- IH by assumption. split; [intros [H|H]; [injection H as <- _; rewrite text_eqb_refl in E; discriminate|exact H]|auto].
  Qed.

  Lemma values_iff l a : values other_digit other_int to_float l = Ok a <-> Forall2 denotes l a.
  Proof.
    revert a. induction l as [|s l IH]; intros a; cbn [values].
    - split; [intros H; injection H as <-; constructor|intros H; inversion H; reflexivity].
    - split.
      + destruct (str_value s) as [v|] eqn:E; cbn [bind]; [|discriminate]. destruct (values _ _ _ l) as [vs|] eqn:E2; cbn [bind]; [|discriminate].
        intros H. injection H as <-. constructor; [apply value_iff; exact E|apply IH; reflexivity].
      + intros H. inversion H as [|? v ? vs D F]; subst. apply value_iff in D. rewrite D. cbn [bind]. apply IH in F. rewrite F. reflexivity.
  Qed.
  Lemma kvalues_iff l a : kvalues other_digit other_int to_float l = Ok a <-> Forall2 (fun p q => fst p = fst q /\ denotes (snd p) (snd q)) l a.
  Proof.
    revert a. induction l as [|[k s] l IH]; intros a; cbn [kvalues].
    - split; [intros H; injection H as <-; constructor|intros H; inversion H; reflexivity].
    - split.
      + destruct (str_value s) as [v|] eqn:E; cbn [bind]; [|discriminate]. destruct (kvalues _ _ _ l) as [vs|] eqn:E2; cbn [bind]; [|discriminate].
        intros H. injection H as <-. constructor; [split; [reflexivity|apply value_iff; exact E]|apply IH; reflexivity].
      + intros H. inversion H as [|? [k' v] ? vs [K D] F]; subst. cbn [fst snd] in *. subst. apply value_iff in D. rewrite D. cbn [bind]. apply IH in F. rewrite F. reflexivity.
  Qed.
  Lemma Forall2_keys (l : list (text * text)) (a : list (text * pyval)) : Forall2 (fun p q => fst p = fst q /\ denotes (snd p) (snd q)) l a ->
    map fst a = map fst l /\ (NoDup (map fst l) -> forall k v, In (k, v) a <-> exists t, In (k, t) l /\ denotes t v).
  Proof.
    induction 1 as [|[k t] [k' v] l a [K D] F [IH1 IH2]]; cbn [map fst snd] in *.
    - split; [reflexivity|]. intros _ k v. split; [intros []|intros [t [[] _]]].
    - subst k'. split; [congruence|]. intros N. inversion N; subst. intros k0 v0. cbn [In]. rewrite (IH2 H2 k0 v0). split.
      + intros [E|[t0 [I D0]]]; [injection E as <- <-; exists t; auto|exists t0; auto].
      + intros [t0 [[E|I] D0]]; [injection E as <- <-; left; f_equal; apply value_iff in D, D0; congruence|right; eauto].
  Qed.

  (** what the dictionary of the values of written keyword arguments is *)
  Local Notation holds_keywords := (holds_keywords other_digit other_int to_float).

  Lemma parse_sound s a k : parse s = Ok (a, k) ->
    exists ps ks, Forall good_positional ps /\ Forall good_keyword ks /\ map write_positional ps ++ map write_keyword ks <> [] /\
      s = write ps ks /\ Forall2 denotes (map p_text ps) a /\ holds_keywords ks k.
  Proof.
    unfold M_QKeras.parse. intros H. destruct (parse_chunks _ _ _ _) as [[ta tk]|] eqn:C; cbn [bind fst snd] in H; [|discriminate].
    destruct (values _ _ _ ta) as [va|] eqn:V; cbn [bind] in H; [|discriminate].
    destruct (kvalues _ _ _ tk) as [vk|] eqn:K; cbn [bind] in H; [|discriminate]. injection H as <- <-.
    destruct (chunks_only _ _ _ _ _ _ (split_pieces comma s) C) as [ps [ks [G1 [G2 [_ [G4 [G5 G6]]]]]]]. cbn [app] in G5. subst ta tk.
    exists ps, ks. split; [exact G1|]. split; [exact G2|]. split; [rewrite <- G4; apply split_nonempty|].
    split; [unfold write; rewrite <- G4; symmetry; apply join_split|]. split; [apply values_iff; exact V|].
    apply kvalues_iff in K. destruct (Forall2_keys _ _ K) as [K1 K2].
    assert (N : NoDup (map fst (set_all (map pair_of ks) []))) by (apply set_all_keys; constructor).
    split; [rewrite K1; exact N|]. intros k v. rewrite (K2 N). split; intros [t [I D]]; exists t; (split; [|exact D]).
    - apply text_get_In in I; [|exact N]. rewrite set_all_get in I. destruct (last_value _ _); [exact I|discriminate].
    - apply text_get_In; [exact N|]. rewrite set_all_get, I. reflexivity.
  Qed.
  Lemma written_chunks ps ks : Forall good_positional ps -> Forall good_keyword ks -> map write_positional ps ++ map write_keyword ks <> [] ->
    split comma (write ps ks) = map write_positional ps ++ map write_keyword ks.
  Proof.
    intros Fp Fk N. unfold write. apply split_join; [exact N|]. apply Forall_app. rewrite !Forall_map. split.
    - eapply Forall_impl; [|exact Fp]. intros p Gp. apply positional_chunk. exact Gp.
    - eapply Forall_impl; [|exact Fk]. intros k Gk. apply keyword_chunk. exact Gk.
  Qed.
  Lemma parse_complete ps ks a : Forall good_positional ps -> Forall good_keyword ks -> map write_positional ps ++ map write_keyword ks <> [] ->
    Forall2 denotes (map p_text ps) a -> (forall k t, last_value k (map pair_of ks) = Some t -> exists v, denotes t v) ->
    exists k, parse (write ps ks) = Ok (a, k) /\ holds_keywords ks k.
  Proof.
    intros Fp Fk N Fa Fv. unfold M_QKeras.parse. rewrite written_chunks by assumption. rewrite chunks_ok by (auto; discriminate). cbn [bind fst snd app].
    apply values_iff in Fa. rewrite Fa. cbn [bind].
    assert (ND : NoDup (map fst (set_all (map pair_of ks) []))) by (apply set_all_keys; constructor).
    assert (Dn : forall p, In p (set_all (map pair_of ks) []) -> exists v, denotes (snd p) v).
    { intros [k t] I. apply text_get_In in I; [|exact ND]. rewrite set_all_get in I. destruct (last_value _ _) eqn:L; [|discriminate]. injection I as <-. apply (Fv k). exact L. }
    assert (E : forall l, (forall p, In p l -> exists v, denotes (snd p) v) -> exists vk, kvalues other_digit other_int to_float l = Ok vk).
    { clear. induction l as [|[k t] l IH]; intros H; [exists []; reflexivity|]. destruct (H (k, t)) as [v D]; [left; reflexivity|].
      destruct IH as [vk Hk]; [intros; apply H; right; assumption|]. apply value_iff in D. cbn [snd] in D. exists ((k, v) :: vk). cbn [kvalues]. rewrite D, Hk. reflexivity. }
    destruct (E _ Dn) as [vk Hk]. rewrite Hk. cbn [bind]. exists vk. split; [reflexivity|].
    apply kvalues_iff in Hk. destruct (Forall2_keys _ _ Hk) as [K1 K2]. split; [rewrite K1; exact ND|].
    intros k v. rewrite (K2 ND). split; intros [t [I D]]; exists t; (split; [|exact D]).
    - apply text_get_In in I; [|exact ND]. rewrite set_all_get in I. destruct (last_value _ _); [exact I|discriminate].
    - apply text_get_In; [exact ND|]. rewrite set_all_get, I. reflexivity.
  Qed.

  (** ** what is rejected, and how *)
  Lemma chunks_prefix ps ks rest args kw ended : Forall good_positional ps -> Forall good_keyword ks -> (ended = true -> ps = []) ->
    parse_chunks ((map write_positional ps ++ map write_keyword ks) ++ rest) args kw ended =
    parse_chunks rest (args ++ map p_text ps) (set_all (map pair_of ks) kw) (ended || negb (Nat.eqb (List.length ks) 0)).
  Proof.
    intros Fp Fk. revert args ended. induction Fp as [|p ps Gp _ IH]; intros args ended He.
    - cbn [map app]. rewrite app_nil_r. clear He. revert kw ended. induction Fk as [|k ks Gk _ IH]; intros kw ended; cbn [map app parse_chunks].
      { cbn [List.length Nat.eqb negb]. rewrite orb_false_r. reflexivity. }
      destruct (keyword_chunk k Gk) as [_ [E [N1 [N2 [S1 S2]]]]]. cbn zeta. rewrite E.
      destruct Gk as [_ [W1 [_ [_ [W2 _]]]]].
      remember ((k_key k ++ k_mid1 k) ++ equals :: k_mid2 k ++ k_text k) as c eqn:Hc.
      assert (In equals c) as I by (rewrite Hc; apply in_app_iff; right; left; reflexivity).
      destruct c as [|c0 c']; [destruct I|]. apply existsb_equals in I. rewrite I. rewrite Hc, split_app by exact N1. rewrite split_no by exact N2.
      rewrite S1, S2. destruct (k_key k) as [|a0 a'] eqn:Ka; [destruct W1 as [W1 _]; congruence|]. destruct (k_text k) as [|v0 v'] eqn:Kv; [destruct W2 as [W2 _]; congruence|].
      rewrite IH. unfold set_all, pair_of. cbn [fold_left fst snd List.length Nat.eqb negb orb]. rewrite Ka, Kv, orb_true_r. reflexivity.
    - destruct ended; [specialize (He eq_refl); discriminate|]. cbn [map app parse_chunks]. destruct (positional_chunk p Gp) as [E _]. cbn zeta. rewrite E.
      destruct Gp as [_ [[W1 [W2 [W3 _]]] _]]. destruct (p_text p) as [|c0 c'] eqn:Pt; [contradiction|].
      replace (existsb (N.eqb equals) (c0 :: c')) with false.
      + rewrite IH by discriminate. rewrite <- app_assoc. reflexivity.
      + symmetry. apply not_true_iff_false. rewrite existsb_equals. exact W3.
  Qed.
  Lemma written_then ps ks bad rest : Forall good_positional ps -> Forall good_keyword ks -> ~ In comma bad -> Forall (fun s => ~ In comma s) rest ->
    split comma (join ((map write_positional ps ++ map write_keyword ks) ++ bad :: rest)) = (map write_positional ps ++ map write_keyword ks) ++ bad :: rest.
  Proof.
    intros Fp Fk N Fr. apply split_join; [intros Z; apply app_eq_nil in Z; destruct Z as [_ Z]; discriminate|].
    apply Forall_app. split; [|constructor; assumption]. apply Forall_app. rewrite !Forall_map. split.
    - eapply Forall_impl; [|exact Fp]. intros p Gp. apply positional_chunk. exact Gp.
    - eapply Forall_impl; [|exact Fk]. intros k Gk. apply keyword_chunk. exact Gk.
  Qed.
  Lemma parse_after ps ks bad rest : Forall good_positional ps -> Forall good_keyword ks -> ~ In comma bad -> Forall (fun s => ~ In comma s) rest ->
    parse (join ((map write_positional ps ++ map write_keyword ks) ++ bad :: rest)) =
    bind (parse_chunks (bad :: rest) (map p_text ps) (set_all (map pair_of ks) []) (negb (Nat.eqb (List.length ks) 0))) (fun p =>
      bind (values other_digit other_int to_float (fst p)) (fun a => bind (kvalues other_digit other_int to_float (snd p)) (fun k => Ok (a, k)))).
  Proof. intros Fp Fk N Fr. unfold M_QKeras.parse. rewrite written_then by assumption. rewrite chunks_prefix by (auto; discriminate). reflexivity. Qed.
  (** an empty argument *)
  Lemma reject_empty ps ks bad rest : Forall good_positional ps -> Forall good_keyword ks -> blank bad -> Forall (fun s => ~ In comma s) rest ->
    parse (join ((map write_positional ps ++ map write_keyword ks) ++ bad :: rest)) = Raise SyntaxError.
  Proof.
    intros Fp Fk B Fr. rewrite parse_after; [|exact Fp|exact Fk|exact (blank_no _ comma B eq_refl)|exact Fr].
    cbn [parse_chunks]. cbn zeta.
    assert (strip bad = []) as ->; [|reflexivity].
    pose proof (strip_trimmed bad [] [] B (Forall_nil _)) as E. rewrite app_nil_r in E. apply E. split; intros c r Z; [discriminate|destruct r; discriminate].
  Qed.
  (** a positional argument after a keyword argument *)
  Lemma reject_order ps ks p rest : Forall good_positional ps -> Forall good_keyword ks -> ks <> [] -> good_positional p -> Forall (fun s => ~ In comma s) rest ->
    parse (join ((map write_positional ps ++ map write_keyword ks) ++ write_positional p :: rest)) = Raise AssertionError.
  Proof.
    intros Fp Fk N G Fr. destruct (positional_chunk p G) as [E Nc]. rewrite parse_after; [|assumption..].
    cbn [parse_chunks]. cbn zeta. rewrite E. destruct G as [_ [[W1 [_ [W3 _]]] _]]. destruct (p_text p) as [|c0 c'] eqn:Pt; [contradiction|].
    replace (existsb (N.eqb equals) (c0 :: c')) with false by (symmetry; apply not_true_iff_false; rewrite existsb_equals; exact W3).
    destruct ks as [|k ks]; [contradiction|]. reflexivity.
  Qed.
  (** a value that is none *)
  Lemma reject_value ps ks t : Forall good_positional ps -> Forall good_keyword ks -> map write_positional ps ++ map write_keyword ks <> [] ->
    (In t (map p_text ps) \/ exists k, last_value k (map pair_of ks) = Some t) -> (forall v, ~ denotes t v) -> parse (write ps ks) = Raise ValueError.
  Proof.
    intros Fp Fk N H D. unfold M_QKeras.parse. rewrite written_chunks by assumption. rewrite chunks_ok by (auto; discriminate). cbn [bind fst snd app].
    assert (V : forall l, (exists vs, values other_digit other_int to_float l = Ok vs) \/ values other_digit other_int to_float l = Raise ValueError).
    { clear. induction l as [|s l IH]; [left; exists []; reflexivity|]. cbn [values]. destruct (str_value s) as [v|e] eqn:E.
      - cbn [bind]. destruct IH as [[vs ->]| ->]; [left; eexists; reflexivity|right; reflexivity].
      - right. cbn [bind]. assert (forall v, ~ denotes s v) as Z by (intros v Dv; apply value_iff in Dv; congruence).
        apply value_error in Z. congruence. }
    assert (K : forall l, (exists vs, kvalues other_digit other_int to_float l = Ok vs) \/ kvalues other_digit other_int to_float l = Raise ValueError).
    { clear. induction l as [|[k s] l IH]; [left; exists []; reflexivity|]. cbn [kvalues]. destruct (str_value s) as [v|e] eqn:E.
      - cbn [bind]. destruct IH as [[vs ->]| ->]; [left; eexists; reflexivity|right; reflexivity].
      - right. cbn [bind]. assert (forall v, ~ denotes s v) as Z by (intros v Dv; apply value_iff in Dv; congruence).
        apply value_error in Z. congruence. }
    destruct (V (map p_text ps)) as [[vs E]| ->]; [|reflexivity]. rewrite E. cbn [bind].
    destruct (K (set_all (map pair_of ks) [])) as [[vk E2]| ->]; [|reflexivity]. exfalso.
    destruct H as [H|[k H]].
    - apply values_iff in E. clear -E H D. induction E as [|x v l vs Dx F IH]; [destruct H|]. destruct H as [->|H]; [exact (D _ Dx)|exact (IH H)].
    - apply kvalues_iff in E2.
      assert (I : In (k, t) (set_all (map pair_of ks) [])) by (apply text_get_In; [apply set_all_keys; constructor|rewrite set_all_get, H; reflexivity]).
      clear -E2 I D. induction E2 as [|x v l vs [_ Dx] F IH]; [destruct I|]. destruct I as [->|I]; [exact (D _ Dx)|exact (IH I)].
  Qed.
End Parse.

(** ** strings of configurations *)
Lemma set_all_distinct l d : NoDup (map fst (d ++ l)) -> set_all l d = d ++ l.
Proof.
  revert d. induction l as [|[k v] l IH]; intros d N; cbn [set_all fold_left fst snd]; [symmetry; apply app_nil_r|].
  assert (E : dict_set k v d = d ++ [(k, v)]).
  { assert (~ In k (map fst d)) as K.
    { rewrite map_app in N. cbn [map fst] in N. apply NoDup_remove_2 in N. intros Z. apply N. apply in_app_iff. left. exact Z. }
    clear -K. induction d as [|[k0 w] d IH]; cbn [dict_set app]; [reflexivity|]. cbn [map fst In] in K.
    destruct (text_eqb k k0) eqn:E; [apply text_eqb_eq in E; subst; destruct K; left; reflexivity|]. rewrite IH by tauto. reflexivity. }
  fold (set_all l (dict_set k v d)). rewrite E, IH; rewrite <- app_assoc; [reflexivity|exact N].
Qed.
Lemma drop_prefix_app p s : drop_prefix p (p ++ s) = Some s.
Proof. induction p as [|c p IH]; cbn [drop_prefix app]; [destruct s; reflexivity|]. rewrite N.eqb_refl. exact IH. Qed.

Section Printed.
  Context (other_digit : N -> bool) (other_int : text -> option Z) (to_float : text -> option pyval) (show : pyval -> text).
  Notation readable := (readable other_digit other_int to_float show).
  Notation parse := (parse other_digit other_int to_float).
  Notation from_string := (from_string other_digit other_int to_float).
  Notation str_value := (str_value other_digit other_int to_float).
  Definition sp : text := [32%N].
  Definition printed_positionals (q : qb) : list positional := [mk_positional [] (show (b0 q)) []; mk_positional sp (show (i0 q)) []].
  Definition printed_keywords (q : qb) : list keyword :=
    [mk_keyword sp (txt "symmetric") [] [] (show (VBool (sym q))) []; mk_keyword sp (txt "keep_negative") [] [] (show (k0 q)) [];
     mk_keyword sp (txt "alpha") [] [] (show (printed_alpha q)) []; mk_keyword sp (txt "use_stochastic_rounding") [] [] (show (VBool (stoch q))) []].
  Lemma printed q : qb_str show q = txt "quantized_bits(" ++ write (printed_positionals q) (printed_keywords q) ++ [41%N].
  Proof.
    unfold qb_str. fold (printed_alpha q). f_equal. unfold write, printed_positionals, printed_keywords. cbn [map app join].
    unfold write_positional, write_keyword. cbn [p_left p_text p_right k_left k_key k_mid1 k_mid2 k_text k_right app].
    rewrite !app_nil_r. unfold sp.
    change (txt ", ") with [comma; 32%N]. change (txt ", symmetric=") with ([comma; 32%N] ++ txt "symmetric" ++ [equals]).
    change (txt ", keep_negative=") with ([comma; 32%N] ++ txt "keep_negative" ++ [equals]).
    change (txt ", alpha=") with ([comma; 32%N] ++ txt "alpha" ++ [equals]).
    change (txt ", use_stochastic_rounding=") with ([comma; 32%N] ++ txt "use_stochastic_rounding" ++ [equals]).
    change (txt ")") with [41%N].
    repeat (rewrite <- ?app_assoc; cbn [app]). reflexivity.
  Qed.
  Lemma key_word s : existsb (fun c => N.eqb c comma || N.eqb c equals || space c) (txt s) = false -> txt s <> [] -> word (txt s).
  Proof.
    intros H N. assert (F : forall c, In c (txt s) -> c <> comma /\ c <> equals /\ space c = false).
    { intros c Hc. assert (Z : N.eqb c comma || N.eqb c equals || space c = false).
      { apply not_true_iff_false. intros Z. apply not_true_iff_false in H. apply H. apply existsb_exists. exists c. auto. }
      apply orb_false_iff in Z. destruct Z as [Z Z3]. apply orb_false_iff in Z. destruct Z as [Z1 Z2]. apply N.eqb_neq in Z1, Z2. auto. }
    split; [exact N|]. split; [intros Z; destruct (F _ Z) as [Q _]; congruence|]. split; [intros Z; destruct (F _ Z) as [_ [Q _]]; congruence|].
    split; intros c r E; apply F; rewrite E; [left; reflexivity|apply in_app_iff; right; left; reflexivity].
  Qed.
  Lemma blank_sp : blank sp. Proof. repeat constructor. Qed.
  Lemma blank_nil : blank []. Proof. constructor. Qed.
  Lemma from_printed q : word (show (b0 q)) -> word (show (i0 q)) -> word (show (VBool (sym q))) -> word (show (k0 q)) -> word (show (printed_alpha q)) ->
    word (show (VBool (stoch q))) ->
    from_string (qb_str show q) =
    bind (str_value (show (b0 q))) (fun b => bind (str_value (show (i0 q))) (fun i => bind (str_value (show (VBool (sym q)))) (fun s =>
    bind (str_value (show (k0 q))) (fun k => bind (str_value (show (printed_alpha q))) (fun a => bind (str_value (show (VBool (stoch q)))) (fun st =>
    qb_init (mk_qargs b i s k a st VNone VNone VNone (VBool true) VNone min0 VNone minmax12 VNone))))))).
  Proof.
    intros W1 W2 W3 W4 W5 W6. rewrite printed. unfold M_QKeras.from_string. rewrite drop_prefix_app.
    rewrite app_assoc, rev_app_distr. cbn [rev app begins N.eqb Pos.eqb]. rewrite removelast_last.
    assert (Gp : Forall good_positional (printed_positionals q)) by (apply Forall_cons; [|apply Forall_cons; [|apply Forall_nil]];
      unfold good_positional; cbn [p_left p_text p_right]; auto using blank_sp, blank_nil).
    assert (Gk : Forall good_keyword (printed_keywords q)).
    { assert (K1 : word (txt "symmetric")) by (apply key_word; [reflexivity|discriminate]).
      assert (K2 : word (txt "keep_negative")) by (apply key_word; [reflexivity|discriminate]).
      assert (K3 : word (txt "alpha")) by (apply key_word; [reflexivity|discriminate]).
      assert (K4 : word (txt "use_stochastic_rounding")) by (apply key_word; [reflexivity|discriminate]).
      unfold printed_keywords. apply Forall_cons; [|apply Forall_cons; [|apply Forall_cons; [|apply Forall_cons; [|apply Forall_nil]]]];
        unfold good_keyword; cbn [k_left k_key k_mid1 k_mid2 k_text k_right]; auto 12 using blank_sp, blank_nil. }
    unfold M_QKeras.parse. rewrite (written_chunks _ _ Gp Gk) by discriminate. rewrite chunks_ok by (auto; discriminate). cbn [bind fst snd app].
    rewrite set_all_distinct.
    - cbn [printed_positionals map p_text values]. destruct (str_value (show (b0 q))) as [b|]; [|reflexivity]. cbn [bind].
      destruct (str_value (show (i0 q))) as [i|]; [|reflexivity]. cbn [bind].
      cbn [printed_keywords map pair_of k_key k_text app kvalues].
      destruct (str_value (show (VBool (sym q)))) as [s|]; [|reflexivity]. cbn [bind].
      destruct (str_value (show (k0 q))) as [k|]; [|reflexivity]. cbn [bind].
      destruct (str_value (show (printed_alpha q))) as [a|]; [|reflexivity]. cbn [bind].
      destruct (str_value (show (VBool (stoch q)))) as [st|]; [|reflexivity]. cbn [bind]. reflexivity.
    - cbn [app map printed_keywords pair_of fst k_key].
      repeat (apply NoDup_cons; [cbn [In]; intros Z; repeat (destruct Z as [Z|Z]; [discriminate Z|]); exact Z|]). apply NoDup_nil.
  Qed.

  Lemma init_facts a q : qb_init a = Ok q -> positive (b0 q) = Ok true /\ in_unit_interval (noise q) = Ok true /\
    (qscaler q = VNone \/ (is_number (qscaler q) = true /\ positive (qscaler q) = Ok true /\ is_int (qscaler q) = false)) /\
    (trainable q = true -> qscaler q = VNone /\ vars q = true).
  Proof.
    unfold qb_init, check. intros H.
    destruct (positive (q_bits a)) as [[]|] eqn:P1; cbn [bind] in H; try discriminate.
    destruct (if is_number (q_alpha a) then positive (q_alpha a) else Ok true) as [[]|] eqn:P2; cbn [bind] in H; try discriminate.
    destruct (negb (is_str (q_alpha a)) || is_po2 (q_alpha a)) eqn:P3; cbn [bind] in H; try discriminate.
    destruct (negb (is_po2 (q_alpha a)) || (if is_none_val (q_vars a) then is_po2 (q_alpha a) else truth (q_vars a))) eqn:P4; cbn [bind] in H; try discriminate.
    destruct (is_none_val (q_var_name a)); cbn [bind] in H; try discriminate. destruct (truth (q_ste a)); cbn [bind] in H; try discriminate.
    destruct (in_unit_interval (q_noise a)) as [[]|] eqn:P5; cbn [bind] in H; try discriminate. injection H as <-.
    cbn [b0 noise qscaler trainable vars]. split; [exact P1|]. split; [|split].
    - destruct (q_noise a) as [|[]|z|x|n|x|n]; cbn [in_unit_interval as_float] in *; try exact P5; try reflexivity.
      injection P5 as P5. f_equal. apply andb_prop in P5. destruct P5 as [A B]. apply Z.leb_le in A, B.
      apply andb_true_intro. rewrite !Qle_bool_iff. change 0%Q with (inject_Z 0). change 1%Q with (inject_Z 1). rewrite <- !Zle_Qle. lia.
    - destruct (q_alpha a) as [|[]|z|x|n|x|n]; cbn [is_number as_float positive] in *; auto; right; try (repeat split; (exact P2 || reflexivity)).
      split; [reflexivity|]. split; [|reflexivity]. injection P2 as P2. apply Z.ltb_lt in P2. f_equal. apply negb_true_iff. apply not_true_iff_false.
        rewrite Qle_bool_iff. change 0%Q with (inject_Z 0). rewrite <- Zle_Qle. lia.
    - intros T. split; [|rewrite T in *; exact P4]. destruct (q_alpha a); cbn in T |- *; try discriminate; reflexivity.
  Qed.
  Lemma string_round_trip a q : qb_init a = Ok q -> trainable q = false -> readable (b0 q) -> readable (i0 q) -> readable (k0 q) ->
    readable (VBool (sym q)) -> readable (VBool (stoch q)) -> readable (printed_alpha q) ->
    from_string (qb_str show q) = Ok (told q).
  Proof.
    intros H T [W1 D1] [W2 D2] [W3 D3] [W4 D4] [W5 D5] [W6 D6]. rewrite from_printed by assumption.
    apply value_iff in D1, D2, D3, D4, D5, D6. rewrite D1, D2, D3, D4, D5, D6. cbn [bind].
    destruct (init_facts a q H) as [P [_ [S _]]].
    unfold qb_init, check. cbn [q_bits q_integer q_symmetric q_keep q_alpha q_stochastic q_axis q_noise q_var_name q_ste q_vars q_bc q_br q_ic q_ir].
    rewrite P. cbn [bind is_none_val truth in_unit_interval as_float].
    unfold told, printed_alpha. rewrite T. destruct S as [S|[S1 [S2 S3]]].
    - rewrite S. cbn. destruct (sym q), (stoch q); reflexivity.
    - destruct (qscaler q); try discriminate; cbn [is_none_val is_number is_str is_po2 negb orb bind andb] in *; rewrite S2; cbn [bind];
        destruct (sym q), (stoch q); reflexivity.
  Qed.
  (** a trainable configuration prints a bare word *)
  Lemma string_trainable a q : qb_init a = Ok q -> trainable q = true -> readable (b0 q) -> readable (i0 q) -> readable (k0 q) ->
    readable (VBool (sym q)) -> show po2 = txt "trainable_po2" -> to_float (txt "trainable_po2") = None -> word (show (VBool (stoch q))) ->
    from_string (qb_str show q) = Raise ValueError.
  Proof.
    intros H T [W1 D1] [W2 D2] [W3 D3] [W4 D4] S F W6. destruct (init_facts a q H) as [_ [_ [_ V]]]. destruct (V T) as [Vs _].
    assert (Pa : printed_alpha q = po2) by (unfold printed_alpha; rewrite Vs, T; reflexivity).
    assert (W5 : word (show (printed_alpha q))) by (rewrite Pa, S; apply key_word; [reflexivity|discriminate]).
    rewrite from_printed by assumption. apply value_iff in D1, D2, D3, D4. rewrite D1, D2, D3, D4. cbn [bind].
    assert (E : str_value (show (printed_alpha q)) = Raise ValueError).
    { rewrite Pa, S. unfold M_QKeras.str_value.
      assert (isdigit other_digit (txt "trainable_po2") = false) as I by reflexivity. rewrite I, F. reflexivity. }
    rewrite E. reflexivity.
  Qed.
  (** a negative number of integer bits comes back as a float, which the configuration then rejects *)
  Lemma string_negative a q x : qb_init a = Ok q -> trainable q = false -> readable (b0 q) -> word (show (i0 q)) -> denotes other_digit other_int to_float (show (i0 q)) (VFloat x) ->
    readable (k0 q) -> readable (VBool (sym q)) -> readable (VBool (stoch q)) -> readable (printed_alpha q) ->
    exists q', from_string (qb_str show q) = Ok q' /\ i0 q' = VFloat x /\ qb_config q' = Raise AssertionError /\ forall y, qb_call q' y = Raise AssertionError.
  Proof.
    intros H T [W1 D1] W2 D2 [W3 D3] [W4 D4] [W5 D5] [W6 D6]. rewrite from_printed by assumption.
    apply value_iff in D1, D2, D3, D4, D5, D6. rewrite D1, D2, D3, D4, D5, D6. cbn [bind].
    destruct (init_facts a q H) as [P [_ [S _]]].
    unfold qb_init, check. cbn [q_bits q_integer q_symmetric q_keep q_alpha q_stochastic q_axis q_noise q_var_name q_ste q_vars q_bc q_br q_ic q_ir].
    rewrite P. cbn [bind is_none_val truth in_unit_interval as_float].
    unfold printed_alpha. rewrite T. destruct S as [S|[S1 [S2 S3]]].
    - rewrite S. cbn. eexists. split; [reflexivity|]. split; [reflexivity|]. unfold qb_config, qb_call. cbn [b0 i0 is_int]. rewrite andb_false_r.
      split; reflexivity.
    - destruct (qscaler q); try discriminate; cbn [is_none_val is_number is_str is_po2 negb orb bind andb] in *; rewrite S2; cbn [bind];
        (eexists; split; [reflexivity|]; split; [reflexivity|]; unfold qb_config, qb_call; cbn [b0 i0 is_int]; rewrite andb_false_r; split; reflexivity).
  Qed.
End Printed.
Lemma other_name od oi tf s : from_string od oi tf (txt "quantized_relu(" ++ s) = Raise ValueError.
Proof. reflexivity. Qed.

(** ** get_config *)
Lemma config_round_trip a q : qb_init a = Ok q ->
  ((exists c, qb_config q = Ok c /\ qb_init c = Ok q) <->
   is_int (b0 q) = true /\ is_int (i0 q) = true /\ (exists k, k0 q = VBool k) /\ vars q = trainable q).
Proof.
  intros H. destruct (init_facts a q H) as [P [U [S V]]].
  assert (Ax : trainable q = false -> axis q = VObj 2).
  { unfold qb_init, check in H.
    destruct (positive (q_bits a)) as [[]|]; cbn [bind] in H; try discriminate.
    destruct (if is_number (q_alpha a) then positive (q_alpha a) else Ok true) as [[]|]; cbn [bind] in H; try discriminate.
    destruct (negb (is_str (q_alpha a)) || is_po2 (q_alpha a)); cbn [bind] in H; try discriminate.
    destruct (negb (is_po2 (q_alpha a)) || _); cbn [bind] in H; try discriminate.
    destruct (is_none_val (q_var_name a)); cbn [bind] in H; try discriminate. destruct (truth (q_ste a)); cbn [bind] in H; try discriminate.
    destruct (in_unit_interval (q_noise a)) as [[]|]; cbn [bind] in H; try discriminate. injection H as <-. cbn [trainable axis]. intros ->.
    rewrite andb_false_r. reflexivity. }
  assert (Ax2 : axis q <> VNone).
  { unfold qb_init, check in H.
    destruct (positive (q_bits a)) as [[]|]; cbn [bind] in H; try discriminate.
    destruct (if is_number (q_alpha a) then positive (q_alpha a) else Ok true) as [[]|]; cbn [bind] in H; try discriminate.
    destruct (negb (is_str (q_alpha a)) || is_po2 (q_alpha a)); cbn [bind] in H; try discriminate.
    destruct (negb (is_po2 (q_alpha a)) || _); cbn [bind] in H; try discriminate.
    destruct (is_none_val (q_var_name a)); cbn [bind] in H; try discriminate. destruct (truth (q_ste a)); cbn [bind] in H; try discriminate.
    destruct (in_unit_interval (q_noise a)) as [[]|]; cbn [bind] in H; try discriminate. injection H as <-. cbn [axis].
    destruct (q_axis a); cbn [is_none_val negb andb]; destruct (is_po2 (q_alpha a)); discriminate. }
  assert (Nf : as_float (noise q) = noise q).
  { unfold qb_init, check in H.
    destruct (positive (q_bits a)) as [[]|]; cbn [bind] in H; try discriminate.
    destruct (if is_number (q_alpha a) then positive (q_alpha a) else Ok true) as [[]|]; cbn [bind] in H; try discriminate.
    destruct (negb (is_str (q_alpha a)) || is_po2 (q_alpha a)); cbn [bind] in H; try discriminate.
    destruct (negb (is_po2 (q_alpha a)) || _); cbn [bind] in H; try discriminate.
    destruct (is_none_val (q_var_name a)); cbn [bind] in H; try discriminate. destruct (truth (q_ste a)); cbn [bind] in H; try discriminate.
    destruct (in_unit_interval (q_noise a)) as [[]|]; cbn [bind] in H; try discriminate. injection H as <-. cbn [noise]. destruct (q_noise a); reflexivity. }
  clear H. destruct q as [b i sy k sc tr st ax no va c1 c2 c3 c4]. unfold qb_config. cbn [b0 i0 sym k0 qscaler trainable stoch axis noise vars bc br ic ir] in *.
  split.
  - intros [c [C I]]. destruct (is_int b); [|discriminate]. destruct (is_int i); [|discriminate]. cbn [andb] in C. injection C as <-.
    split; [reflexivity|]. split; [reflexivity|].
    unfold qb_init, check in I. cbn [q_bits q_integer q_symmetric q_keep q_alpha q_stochastic q_axis q_noise q_var_name q_ste q_vars q_bc q_br q_ic q_ir] in I.
    destruct (positive b) as [[]|]; cbn [bind] in I; try discriminate.
    destruct (if is_number _ then _ else _) as [[]|] in I; cbn [bind] in I; try discriminate.
    destruct (negb (is_str _) || _) in I; cbn [bind] in I; try discriminate.
    destruct (negb (is_po2 _) || _) in I; cbn [bind] in I; try discriminate. cbn [is_none_val truth bind] in I.
    destruct (in_unit_interval no) as [[]|]; cbn [bind] in I; try discriminate. inversion I. split; [exists (truth k); congruence|congruence].
  - intros [Ib [Ii [[kk ->] ->]]]. rewrite Ib, Ii. cbn [andb]. eexists. split; [reflexivity|].
    unfold qb_init, check. cbn [q_bits q_integer q_symmetric q_keep q_alpha q_stochastic q_axis q_noise q_var_name q_ste q_vars q_bc q_br q_ic q_ir].
    rewrite P, U. cbn [bind is_none_val truth]. rewrite Nf. destruct tr.
    + destruct (V eq_refl) as [-> _]. cbn. destruct ax; cbn; try reflexivity. congruence.
    + rewrite (Ax eq_refl). destruct S as [->|[S1 [S2 S3]]]; [cbn; reflexivity|].
      destruct sc; try discriminate; cbn [is_number is_str is_po2 negb orb bind andb as_float] in *; rewrite S2; reflexivity.
Qed.

(** ** calling a configuration *)
Lemma positive_int v : is_int v = true -> positive v = Ok true -> (0 < int_val v)%Z.
Proof. destruct v as [|[]|z|x|n|x|n]; cbn; intros; try discriminate; try lia. injection H0 as H0. apply Z.ltb_lt in H0. exact H0. Qed.
Lemma two_powers a d c e : (d <= a)%Z -> (e <= c)%Z -> pow2 a + pow2 d == pow2 c + pow2 e -> a = c /\ d = e.
Proof.
  intros L1 L2 H.
  assert (X : forall a d c e, (e <= c)%Z -> pow2 a + pow2 d == pow2 c + pow2 e -> (a <= c)%Z).
  { clear. intros a d c e L H. destruct (Z_lt_le_dec c a) as [N|N]; [|exact N]. exfalso.
    assert (pow2 (c + 1) <= pow2 a) as A by (apply pow2_le; lia). rewrite pow2_succ in A.
    pose proof (pow2_le _ _ L). pose proof (pow2_pos d). lra. }
  assert (a = c).
  { pose proof (X a d c e L2 H). pose proof (X c e a d L1 (Qeq_sym _ _ H)). lia. }
  subst c. split; [reflexivity|]. apply pow2_inj. lra.
Qed.
Lemma tops_differ b i : (0 < b)%Z -> ~ pow2 b - pow2 (- i) == pow2 i - pow2 (- (b - i)).
Proof.
  intros Hb H. assert (E : pow2 b + pow2 (- (b - i)) == pow2 i + pow2 (- i)) by lra. clear H.
  destruct (Z_le_gt_dec (- (b - i)) b) as [A|A], (Z_le_gt_dec (- i) i) as [B|B].
  - destruct (two_powers _ _ _ _ A B E). lia.
  - assert (E' : pow2 b + pow2 (- (b - i)) == pow2 (- i) + pow2 i) by lra. destruct (two_powers b (- (b - i)) (- i) i A ltac:(lia) E'). lia.
  - assert (E' : pow2 (- (b - i)) + pow2 b == pow2 i + pow2 (- i)) by lra. destruct (two_powers (- (b - i)) b i (- i) ltac:(lia) B E'). lia.
  - assert (E' : pow2 (- (b - i)) + pow2 b == pow2 (- i) + pow2 i) by lra. destruct (two_powers (- (b - i)) b (- i) i ltac:(lia) ltac:(lia) E'). lia.
Qed.
Lemma saturates rm om k i f x : om <> WRAP -> pow2 i + pow2 (- f) <= x -> stateless rm om false k i f x == q_max i f.
Proof.
  intros Ho H. assert (R : q_max i f <= round_f rm f x).
  { destruct (round_f_rounds rm f x) as [n [_ Hr]]. unfold q_max. pose proof (pow2_pos (- f)). pose proof (pow2_pos i).
    assert (x - pow2 (- f) <= round_f rm f x); [|lra].
    destruct rm; [lra| |].
    - assert (pow2 (- f) / 2 == pow2 (- f) * (1#2)) by (unfold Qdiv; reflexivity). lra.
    - destruct Hr as [Hr _]. apply Qabs_Qle_condition in Hr.
      assert (pow2 (- f) / 2 == pow2 (- f) * (1#2)) by (unfold Qdiv; reflexivity). lra. }
  unfold stateless, overflow, clip. fold (q_max i f).
  destruct om; [congruence| |]; apply Q.min_r; (eapply Qle_trans; [exact R|apply Q.le_max_l]).
Qed.
Lemma omode_sat q : q_omode q <> WRAP.
Proof. unfold q_omode. destruct (sym q); discriminate. Qed.
Lemma call_wrong a q : qb_init a = Ok q -> is_int (b0 q) = true -> is_int (i0 q) = true -> (forall n, qscaler q <> VInf n) -> noise q = VFloat 1 ->
  exists x y, qb_call q x = Ok y /\ ~ y == configured q x.
Proof.
  intros H Ib Ii NI No. destruct (init_facts a q H) as [P [_ [S _]]]. pose proof (positive_int _ Ib P) as Hb.
  set (b := int_val (b0 q)) in *. set (i := int_val (i0 q)) in *.
  set (X := pow2 b + pow2 (- i) + pow2 i + pow2 (- (b - i))).
  assert (X1 : pow2 b + pow2 (- i) <= X) by (unfold X; pose proof (pow2_pos i); pose proof (pow2_pos (- (b - i))); lra).
  assert (X2 : pow2 i + pow2 (- (b - i)) <= X) by (unfold X; pose proof (pow2_pos b); pose proof (pow2_pos (- i)); lra).
  assert (K : (0 < kz (truth (k0 q)) + i + (b - i))%Z) by (destruct (kz_cases (truth (k0 q))); lia).
  assert (C : forall x, x == X -> stateless RND_CONV (q_omode q) false (truth (k0 q)) b i x == q_max b i /\
                        base_call RND_CONV (q_omode q) false (truth (k0 q)) i (b - i) x == q_max i (b - i)).
  { intros x Hx. split; [apply saturates; [apply omode_sat|lra]|].
    unfold base_call. replace (0 <? _)%Z with true by (symmetry; apply Z.ltb_lt; exact K). apply saturates; [apply omode_sat|lra]. }
  pose proof (tops_differ b i Hb) as D. fold (q_max b i) in D. fold (q_max i (b - i)) in D.
  unfold qb_call, configured. rewrite Ib, Ii, No. cbn [andb negb num_val]. fold b. fold i.
  destruct S as [S|[S1 [S2 S3]]].
  - rewrite S. cbn [num_val]. destruct (C X (Qeq_refl _)) as [C1 C2]. exists X. eexists. split; [reflexivity|].
    change (Qeq_bool 1 1) with true. cbn match. rewrite C1, C2. exact D.
  - destruct (qscaler q) as [|?|?|s|?|?|?] eqn:Sc; try discriminate; [|destruct (NI neg eq_refl)]. cbn [num_val positive] in *.
    injection S2 as S2. apply negb_true_iff in S2. assert (Hs : 0 < s).
    { apply Qnot_le_lt. intros Z. apply Qle_bool_iff in Z. congruence. }
    exists (X * s). eexists. split; [reflexivity|]. change (Qeq_bool 1 1) with true. cbn match.
    assert (E : X * s / s == X) by (field; intros Z; rewrite Z in Hs; lra).
    destruct (C (X * s / s) E) as [C1 C2]. rewrite C1, C2. intros Z. apply D. apply Qmult_inj_r in Z; [exact Z|]. intros Y. rewrite Y in Hs. lra.
Qed.
Lemma call_no_noise q x : is_int (b0 q) = true -> is_int (i0 q) = true -> noise q = VNone -> qb_call q x = Raise TypeError.
Proof. intros Ib Ii No. unfold qb_call. rewrite Ib, Ii, No. cbn [andb negb num_val]. destruct (num_val (qscaler q)); reflexivity. Qed.
(** what a call computes *)
Lemma call_value q x : is_int (b0 q) = true -> is_int (i0 q) = true -> noise q = VFloat 1 -> qscaler q = VNone ->
  qb_call q x = Ok (stateless RND_CONV (q_omode q) false (truth (k0 q)) (int_val (b0 q)) (int_val (i0 q)) x).
Proof. intros Ib Ii No Sc. unfold qb_call. rewrite Ib, Ii, No, Sc. reflexivity. Qed.

(** ** the advertised range *)
Lemma range_is q : qb_max q = q_max (int_val (i0 q)) (int_val (b0 q) - int_val (i0 q)) /\
  qb_min q == q_min (q_omode q) (truth (k0 q)) (int_val (i0 q)) (int_val (b0 q) - int_val (i0 q)).
Proof.
  split; [reflexivity|]. unfold qb_min, q_min, q_omode, qb_max. destruct (truth (k0 q)); cbn [negb]; destruct (sym q); cbn [symmetric kz].
  - change (inject_Z 1) with 1%Q. lra.
  - change (inject_Z 1) with 1%Q. lra.
  - change (inject_Z 0) with 0%Q. lra.
  - change (inject_Z 0) with 0%Q. lra.
Qed.
Lemma range_bounds a q x : qb_init a = Ok q -> is_int (b0 q) = true -> is_int (i0 q) = true -> (forall n, qscaler q <> VInf n) ->
  scaler_of q * qb_min q <= configured q x <= scaler_of q * qb_max q.
Proof.
  intros H Ib Ii NI. destruct (init_facts a q H) as [P [_ [S _]]]. pose proof (positive_int _ Ib P) as Hb.
  destruct (range_is q) as [-> Em]. rewrite Em. unfold configured, scaler_of.
  assert (K : (0 < kz (truth (k0 q)) + int_val (i0 q) + (int_val (b0 q) - int_val (i0 q)))%Z) by (destruct (kz_cases (truth (k0 q))); lia).
  destruct S as [S|[S1 [S2 S3]]].
  - rewrite S. cbn [num_val]. rewrite !Qmult_1_l. apply inference_between. exact K.
  - destruct (qscaler q) as [|?|?|s|?|?|?] eqn:Sc; try discriminate; [|destruct (NI neg eq_refl)]. cbn [num_val positive] in *.
    injection S2 as S2. apply negb_true_iff in S2. assert (Hs : 0 < s).
    { apply Qnot_le_lt. intros Z. apply Qle_bool_iff in Z. congruence. }
    destruct (inference_between RND_CONV (q_omode q) (truth (k0 q)) (int_val (i0 q)) (int_val (b0 q) - int_val (i0 q)) (x / s) K) as [B1 B2].
    rewrite (Qmult_comm s), (Qmult_comm s). split; (apply Qmult_le_compat_r; [assumption|lra]).
Qed.
Lemma range_attained a q : qb_init a = Ok q -> is_int (b0 q) = true -> is_int (i0 q) = true -> qscaler q = VNone ->
  (exists x, configured q x == qb_max q) /\ (exists x, configured q x == qb_min q).
Proof.
  intros H Ib Ii Sc. destruct (init_facts a q H) as [P _]. pose proof (positive_int _ Ib P) as Hb.
  destruct (range_is q) as [-> Em]. unfold configured. rewrite Sc. cbn [num_val].
  assert (K : (0 < kz (truth (k0 q)) + int_val (i0 q) + (int_val (b0 q) - int_val (i0 q)))%Z) by (destruct (kz_cases (truth (k0 q))); lia).
  destruct (minmax_attained RND_CONV (q_omode q) (truth (k0 q)) _ _ K) as [A1 A2].
  split; eexists; [|rewrite Em]; eassumption.
Qed.

(** ** layers *)
From Verif Require Import S_Config L_Config.
Local Open Scope string_scope.
Local Open Scope list_scope.
Lemma run_attr E kw c seen x0 x : (forall k, In k seen <-> In k (keys x0)) -> ordered seen c = true -> run_init E c kw x0 = Some x ->
  forall f b, In (f, b) c -> field_value E f (get (field_name f) kw) x = Some (attr x (field_name f)).
Proof.
  revert seen x0. induction c as [|[f b] c IH]; intros seen x0 S O H f0 c0 I; [destruct I|].
  cbn [run_init] in H. destruct (field_value E f _ x0) as [v|] eqn:V in H; [|discriminate].
  cbn [ordered] in O. apply andb_prop in O. destruct O as [O O3]. apply andb_prop in O. destruct O as [O1 O2].
  rewrite (existsb_seen _ _ _ S) in O1. apply negb_true_iff in O1.
  destruct (run_init_keys _ _ _ _ _ H) as [y [Ex Ky]].
  assert (Av : attr x (field_name f) = v).
  { rewrite Ex. unfold attr. rewrite !get_app. unfold has in O1. destruct (get (field_name f) x0); [discriminate|].
    cbn [get]. rewrite String.eqb_refl. reflexivity. }
  assert (Rf : forall n, In n (ref f) -> attr x0 n = attr x n).
  { intros n Hn. rewrite forallb_forall in O2. apply O2 in Hn. rewrite (existsb_seen _ _ _ S) in Hn.
    rewrite Ex, <- app_assoc, attr_app, Hn. reflexivity. }
  destruct I as [I|I].
  - injection I as <- <-. rewrite <- (field_value_ref E f _ x0 x Rf), V, Av. reflexivity.
  - apply (IH (field_name f :: seen) (x0 ++ [(field_name f, v)])) with (b := c0); [|exact O3|exact H|exact I].
    intros k. unfold keys. rewrite map_app, in_app_iff. cbn [map fst In]. rewrite S. unfold keys. intuition.
Qed.
Lemma layer_attr E k kw x : layer_init E (class_of k) kw = Some x -> forall f b, In (f, b) (class_of k) ->
  field_value E f (get (field_name f) kw) x = Some (attr x (field_name f)).
Proof.
  intros H. unfold layer_init in H. destruct (forallb _ kw) in H; [|discriminate].
  apply (run_attr E kw (class_of k) [] [] x); [intros k0; cbn; tauto|apply classes_ordered|exact H].
Qed.

Lemma inv_target a t : get a kw_map_inv = Some t -> get t kw_map_inv = None.
Proof.
  intros H. apply get_In in H. unfold kw_map_inv in H. cbn [In] in H.
  repeat (destruct H as [H|H]; [injection H as <- <-; reflexivity|]). destruct H.
Qed.
Lemma called_iff t n : called t n <-> n = t \/ get n kw_map_inv = Some t.
Proof.
  split.
  - intros [H|[p [q [H K]]]]; [left; exact H|right]. unfold qkeras_names in H. cbn [In] in H.
    repeat (destruct H as [H|H]; [injection H as <- <- <-; destruct K as [->| ->]; reflexivity|]). destruct H.
  - intros [H|H]; [left; exact H|right]. apply get_In in H. unfold kw_map_inv in H. cbn [In] in H. unfold qkeras_names.
    repeat (destruct H as [H|H]; [injection H as <- <-; eexists; eexists; cbn [In]; split; [tauto|tauto]|]). destruct H.
Qed.
Lemma rename_get todo cur out : NoDup (keys todo) -> (forall k v, In (k, v) todo -> get k cur = Some v) -> rename todo cur = Some out ->
  forall n v, get n out = Some v <->
    match get n kw_map_inv with
    | Some _ => get n cur = Some v /\ ~ In n (keys todo)
    | None => get n cur = Some v \/ exists a, get a kw_map_inv = Some n /\ In (a, v) todo
    end.
Proof.
  revert cur. induction todo as [|[k w] todo IH]; intros cur N K H n v.
  - cbn [rename] in H. injection H as <-. destruct (get n kw_map_inv); cbn [keys map In]; [tauto|]. split; [tauto|]. intros [H|[a [_ []]]]; exact H.
  - cbn [rename] in H. cbn [keys map fst] in N. apply NoDup_cons_iff in N. destruct N as [N1 N2]. fold (keys todo) in N1, N2.
    destruct (get k kw_map_inv) as [k'|] eqn:Ek.
    + destruct (has k' cur) eqn:Hk in H; [discriminate|]. unfold has in Hk. destruct (get k' cur) eqn:Gk; [discriminate|]. clear Hk.
      assert (Gc : forall m, get m (put k' w (remove k cur)) = if String.eqb m k' then Some w else if String.eqb m k then None else get m cur)
        by (intros m; rewrite get_put, get_remove; reflexivity).
      assert (K2 : forall m u, In (m, u) todo -> get m (put k' w (remove k cur)) = Some u).
      { intros m u I. rewrite Gc. pose proof (K m u (or_intror I)) as Gm.
        destruct (String.eqb_spec m k') as [->|D]; [congruence|]. destruct (String.eqb_spec m k) as [->|D2]; [|exact Gm].
        exfalso. apply N1. apply in_map_iff. exists (k, u). split; [reflexivity|exact I]. }
      rewrite (IH _ N2 K2 H n v). rewrite Gc. pose proof (inv_target _ _ Ek) as Tk.
      destruct (get n kw_map_inv) as [t|] eqn:En.
      * destruct (String.eqb_spec n k') as [->|D]; [congruence|]. cbn [keys map In fst]. fold (keys todo).
        destruct (String.eqb_spec n k) as [->|D2]; [split; [intros [A _]; discriminate|intros [_ A]; exfalso; apply A; left; reflexivity]|].
        split; [intros [A B]; split; [exact A|intros [C|C]; [congruence|exact (B C)]]|intros [A B]; split; [exact A|tauto]].
      * destruct (String.eqb_spec n k') as [->|D].
        -- rewrite Gk. split.
           ++ intros [A|[a [A1 A2]]]; right; [exists k; split; [exact Ek|left; congruence]|exists a; split; [exact A1|right; exact A2]].
           ++ intros [A|[a [A1 [A2|A2]]]]; [discriminate|injection A2 as -> ->; left; reflexivity|right; exists a; split; assumption].
        -- destruct (String.eqb_spec n k) as [->|D2]; [congruence|]. split.
           ++ intros [A|[a [A1 A2]]]; [left; exact A|right; exists a; split; [exact A1|right; exact A2]].
           ++ intros [A|[a [A1 [A2|A2]]]]; [left; exact A|injection A2 as -> ->; congruence|right; exists a; split; assumption].
    + assert (K2 : forall m u, In (m, u) todo -> get m cur = Some u) by (intros m u I; apply K; right; exact I).
      rewrite (IH _ N2 K2 H n v). destruct (get n kw_map_inv) as [t|] eqn:En.
      * cbn [keys map In fst]. fold (keys todo). split; [intros [A B]; split; [exact A|intros [C|C]; [congruence|exact (B C)]]|intros [A B]; split; [exact A|tauto]].
      * split.
        -- intros [A|[a [A1 A2]]]; [left; exact A|right; exists a; split; [exact A1|right; exact A2]].
        -- intros [A|[a [A1 [A2|A2]]]]; [left; exact A|injection A2 as -> ->; congruence|right; exists a; split; assumption].
Qed.
Lemma rename_taken todo cur t : get t kw_map_inv = None -> get t cur <> None -> (exists a, get a kw_map_inv = Some t /\ In a (keys todo)) -> rename todo cur = None.
Proof.
  revert cur. induction todo as [|[k w] todo IH]; intros cur T G [a [A I]]; [destruct I|].
  cbn [rename]. destruct (get k kw_map_inv) as [k'|] eqn:Ek.
  - destruct (has k' cur) eqn:Hk; [reflexivity|]. cbn [keys map fst In] in I. destruct I as [->|I].
    + rewrite A in Ek. injection Ek as ->. unfold has in Hk. destruct (get k' cur); [discriminate|congruence].
    + apply IH; [exact T| |exists a; split; assumption]. rewrite get_put, get_remove.
      destruct (String.eqb t k'); [discriminate|]. destruct (String.eqb_spec t k) as [->|]; [congruence|exact G].
  - cbn [keys map fst In] in I. destruct I as [->|I]; [congruence|]. apply IH; [exact T|exact G|exists a; split; assumption].
Qed.
Lemma rename_some todo cur : NoDup (keys todo) ->
  (forall a t, In a (keys todo) -> get a kw_map_inv = Some t -> get t cur = None /\ forall b, In b (keys todo) -> get b kw_map_inv = Some t -> b = a) ->
  exists out, rename todo cur = Some out.
Proof.
  revert cur. induction todo as [|[k w] todo IH]; intros cur N H; [eexists; reflexivity|].
  cbn [keys map fst] in N. apply NoDup_cons_iff in N. destruct N as [N1 N2]. fold (keys todo) in N1, N2.
  cbn [rename]. destruct (get k kw_map_inv) as [k'|] eqn:Ek.
  - destruct (H k k' (or_introl eq_refl) Ek) as [H1 H2]. unfold has. rewrite H1. apply IH; [exact N2|].
    intros a t A B. destruct (H a t (or_intror A) B) as [H3 H4]. split; [|intros b Ib; apply H4; right; exact Ib].
    rewrite get_put, get_remove. destruct (String.eqb_spec t k') as [->|].
    + exfalso. apply N1. rewrite <- (H2 a (or_intror A) B). exact A.
    + destruct (String.eqb t k); [reflexivity|exact H3].
  - apply IH; [exact N2|]. intros a t A B. destruct (H a t (or_intror A) B) as [H3 H4]. split; [exact H3|intros b Ib; apply H4; right; exact Ib].
Qed.
Lemma rename_iff kw : NoDup (keys kw) -> ((exists out, rename kw kw = Some out) <-> no_double kw).
Proof.
  intros N. split.
  - intros [out H] t a b Ca Cb Ga Gb. apply called_iff in Ca. apply called_iff in Cb.
    assert (X : forall todo cur o, rename todo cur = Some o -> NoDup (keys todo) -> (forall k, In k (keys todo) -> get k cur <> None) ->
      forall a b, In a (keys todo) -> In b (keys todo) -> get a kw_map_inv = Some t -> get b kw_map_inv = Some t -> a = b).
    { clear. induction todo as [|[k w] todo IH]; intros cur o H N K a b Ia Ib Ea Eb; [destruct Ia|].
      cbn [keys map fst] in N. apply NoDup_cons_iff in N. destruct N as [N1 N2]. fold (keys todo) in N1, N2.
      cbn [rename] in H. cbn [keys map fst In] in Ia, Ib. fold (keys todo) in Ia, Ib.
      assert (T : get t kw_map_inv = None) by exact (inv_target _ _ Ea).
      destruct (get k kw_map_inv) as [k'|] eqn:Ek.
      - destruct (has k' cur) eqn:Hk in H; [discriminate|].
        assert (Y : forall c, In c (keys todo) -> get c kw_map_inv = Some k' -> False).
        { intros c Ic Ec. rewrite (rename_taken _ _ k') in H; [discriminate|exact (inv_target _ _ Ek)|rewrite get_put, String.eqb_refl; discriminate|exists c; split; assumption]. }
        destruct Ia as [<-|Ia], Ib as [<-|Ib]; [reflexivity|exfalso; apply (Y b Ib); congruence|exfalso; apply (Y a Ia); congruence|].
        apply (IH _ _ H N2); [|exact Ia|exact Ib|exact Ea|exact Eb]. intros k0 I0. rewrite get_put, get_remove.
        destruct (String.eqb k0 k'); [discriminate|]. destruct (String.eqb_spec k0 k) as [->|]; [contradiction|]. apply K. right. exact I0.
      - destruct Ia as [<-|Ia]; [congruence|]. destruct Ib as [<-|Ib]; [congruence|].
        apply (IH _ _ H N2); [intros k0 I0; apply K; right; exact I0|exact Ia|exact Ib|exact Ea|exact Eb]. }
    destruct Ca as [->|Ca], Cb as [->|Cb]; [reflexivity| | |].
    + rewrite (rename_taken kw kw t) in H; [discriminate|exact (inv_target _ _ Cb)|exact Ga|exists b; split; [exact Cb|apply get_keys; exact Gb]].
    + rewrite (rename_taken kw kw t) in H; [discriminate|exact (inv_target _ _ Ca)|exact Gb|exists a; split; [exact Ca|apply get_keys; exact Ga]].
    + apply (X kw kw out H N); [intros k I; apply get_keys; exact I|apply get_keys; exact Ga|apply get_keys; exact Gb|exact Ca|exact Cb].
  - intros D. apply rename_some; [exact N|]. intros a t Ia Ea. split.
    + destruct (get t kw) eqn:Gt; [|reflexivity]. exfalso.
      assert (Z : t = a). { apply (D t); [left; reflexivity|apply called_iff; right; exact Ea|congruence|apply get_keys; exact Ia]. }
      rewrite Z in Ea. pose proof (inv_target _ _ Ea). congruence.
    + intros b Ib Eb. apply (D t); [apply called_iff; right; exact Eb|apply called_iff; right; exact Ea|apply get_keys; exact Ib|apply get_keys; exact Ia].
Qed.
Lemma rename_gives kw out : NoDup (keys kw) -> rename kw kw = Some out -> forall n, get n kw_map_inv = None -> forall v, get n out = Some v <-> gives kw n v.
Proof.
  intros N H n Hn v. rewrite (rename_get kw kw out N) by (first [exact H|intros k0 v0 I; apply In_get; assumption]). rewrite Hn. split.
  - intros [A|[a [A1 A2]]]; [exists n; split; [left; reflexivity|exact A]|exists a; split; [apply called_iff; right; exact A1|apply In_get; assumption]].
  - intros [a [A1 A2]]. apply called_iff in A1. destruct A1 as [->|A1]; [left; exact A2|right; exists a; split; [exact A1|apply get_In; exact A2]].
Qed.
Lemma rename_no_alias kw out : NoDup (keys kw) -> rename kw kw = Some out -> forall n t, get n kw_map_inv = Some t -> get n out = None.
Proof.
  intros N H n t Hn. destruct (get n out) as [v|] eqn:G; [|reflexivity].
  apply (rename_get kw kw out N) in G; [|intros k0 v0 I; apply In_get; assumption|exact H]. rewrite Hn in G. destruct G as [G1 G2].
  exfalso. apply G2. apply get_keys. congruence.
Qed.
Lemma rename_nothing todo cur : (forall k, In k (keys todo) -> get k kw_map_inv = None) -> rename todo cur = Some cur.
Proof.
  induction todo as [|[k v] todo IH]; intros H; [reflexivity|]. cbn [rename]. rewrite (H k (or_introl eq_refl)). apply IH. intros k0 I. apply H. right. exact I.
Qed.
Definition flag (n : string) : bool := existsb (String.eqb n) ["enable_ebops"; "enable_iq"; "enable_oq"].
Lemma get_force n kw : get n (force kw) =
  if String.eqb n "enable_oq" then Some (LVal (CBool (given_conf "oq_conf" kw))) else
  if String.eqb n "enable_iq" then Some (LVal (CBool (given_conf "iq_conf" kw))) else
  if String.eqb n "enable_ebops" then Some (LVal (CBool false)) else get n kw.
Proof. unfold force, given_conf, attr. rewrite !get_put. reflexivity. Qed.
(** what the constructor of the class gets *)
Lemma seen_facts kw kw' : NoDup (keys kw) -> seen_by_base kw = Some kw' ->
  exists r, rename kw kw = Some r /\
    get "enable_ebops" kw' = Some (LVal (CBool false)) /\ get "enable_iq" kw' = Some (LVal (CBool false)) /\
    get "enable_oq" kw' = Some (LVal (CBool (given_conf "oq_conf" r))) /\
    (forall n, flag n = false -> get n kw' = get n r).
Proof.
  intros N H. unfold seen_by_base, wrap_kw in H. destruct (rename kw kw) as [r|] eqn:R; [|discriminate]. cbn [option_map] in H.
  rewrite (rename_nothing (remove "iq_conf" (force r))) in H.
  2:{ intros k I. destruct (get k kw_map_inv) as [t|] eqn:E; [|reflexivity]. exfalso. apply get_keys in I. apply I.
      rewrite get_remove, get_force. rewrite (rename_no_alias kw r N R k t E).
      apply get_In in E. unfold kw_map_inv in E. cbn [In] in E.
      repeat (destruct E as [E|E]; [injection E as <- <-; reflexivity|]). destruct E. }
  cbn [option_map fold_left] in H. injection H as <-. exists r. split; [reflexivity|].
  assert (O : given_conf "oq_conf" (remove "iq_conf" (force r)) = given_conf "oq_conf" r).
  { unfold given_conf, attr. rewrite get_remove, get_force. reflexivity. }
  assert (I : given_conf "iq_conf" (remove "iq_conf" (force r)) = false).
  { unfold given_conf, attr. rewrite get_remove. reflexivity. }
  split; [|split; [|split]].
  - rewrite !get_put. unfold attr. rewrite !get_force. reflexivity.
  - rewrite !get_put. unfold attr. rewrite !get_force, I. reflexivity.
  - rewrite !get_put. unfold attr. rewrite !get_force, O. reflexivity.
  - intros n F. unfold flag in F. cbn [existsb] in F. apply orb_false_iff in F. destruct F as [F1 F]. apply orb_false_iff in F. destruct F as [F2 F].
    apply orb_false_iff in F. destruct F as [F3 _]. rewrite !get_put, F1, F2, F3, get_force, F1, F2, F3. reflexivity.
Qed.
Lemma wrapped_fields k : In k wrapped ->
  (exists f, (f = Global "enable_iq" \/ exists d, f = Setting "enable_iq" d) /\ In (f, true) (class_of k)) /\
  (exists f, (f = Global "enable_oq" \/ exists d, f = Setting "enable_oq" d) /\ In (f, true) (class_of k)) /\
  (exists iq, In (Ebops iq false, true) (class_of k)) /\
  (In (Conf "oq_conf" Plain "datalane" (Some "enable_oq"), true) (class_of k)).
Proof.
  intros H. unfold wrapped in H. cbn [In] in H.
  repeat (destruct H as [<-|H]; [
    split; [first [exists (Global "enable_iq"); split; [left; reflexivity|cbn; tauto]
                  |exists (Setting "enable_iq" (CBool true)); split; [right; eexists; reflexivity|cbn; tauto]
                  |exists (Setting "enable_iq" (CBool false)); split; [right; eexists; reflexivity|cbn; tauto]]|
    split; [first [exists (Global "enable_oq"); split; [left; reflexivity|cbn; tauto]
                  |exists (Setting "enable_oq" (CBool true)); split; [right; eexists; reflexivity|cbn; tauto]]|
    split; [first [exists true; cbn; tauto|exists false; cbn; tauto]|cbn; tauto]]]|]).
  contradiction.
Qed.
Definition plain_names (c : list (field * bool)) : list string :=
  flat_map (fun q => match fst q with Conf n Plain _ _ => [n] | _ => [] end) c.
Lemma wrapped_confs k n pl g b : In k wrapped -> In (Conf n Plain pl g, b) (class_of k) -> flag n = false /\ get n kw_map_inv = None.
Proof.
  intros W I.
  assert (X : In n (plain_names (class_of k))) by (apply in_flat_map; exists (Conf n Plain pl g, b); split; [exact I|left; reflexivity]).
  assert (Y : forallb (fun k => forallb (fun n => negb (flag n) && negb (has n kw_map_inv)) (plain_names (class_of k))) wrapped = true) by (vm_compute; reflexivity).
  rewrite forallb_forall in Y. specialize (Y k W). rewrite forallb_forall in Y. specialize (Y n X). apply andb_prop in Y. destruct Y as [Y1 Y2].
  apply negb_true_iff in Y1. apply negb_true_iff in Y2. split; [exact Y1|]. unfold has in Y2. destruct (get n kw_map_inv); [discriminate|reflexivity].
Qed.
Section Layers.
  Context (E : genv) (k : layer_class) (kw x : layer).
  Hypothesis (N : NoDup (keys kw)) (W : In k wrapped) (H : qkeras_layer E k kw = Some x).
  Definition output_given : Prop := exists v, gives kw "oq_conf" v /\ v <> lnone.
  Lemma layer_kw : exists kw' r, layer_init (with_dummy E) (class_of k) kw' = Some x /\ rename kw kw = Some r /\
    get "enable_ebops" kw' = Some (LVal (CBool false)) /\ get "enable_iq" kw' = Some (LVal (CBool false)) /\
    get "enable_oq" kw' = Some (LVal (CBool (given_conf "oq_conf" r))) /\ (forall n, flag n = false -> get n kw' = get n r).
  Proof.
    unfold qkeras_layer in H. destruct (seen_by_base kw) as [kw'|] eqn:S in H; [|discriminate].
    destruct (seen_facts _ _ N S) as [r [R F]]. exists kw', r. split; [exact H|split; [exact R|exact F]].
  Qed.
  Lemma layer_flags : attr x "enable_ebops" = LVal (CBool false) /\ attr x "enable_iq" = LVal (CBool false) /\
    exists b : bool, attr x "enable_oq" = LVal (CBool b) /\ (b = true <-> output_given).
  Proof.
    destruct layer_kw as [kw' [r [L [R [F1 [F2 [F3 F]]]]]]]. pose proof (layer_attr _ _ _ _ L) as A.
    destruct (wrapped_fields k W) as [[fi [Fi Ii]] [[fo [Fo Io]] [[iq Ie] _]]].
    pose proof (A _ _ Ii) as Ai. pose proof (A _ _ Io) as Ao. pose proof (A _ _ Ie) as Ae.
    split; [|split].
    - cbn [field_name] in Ae. rewrite F1 in Ae. cbn in Ae. congruence.
    - destruct Fi as [->|[d ->]]; cbn [field_name] in Ai; rewrite F2 in Ai; cbn in Ai; congruence.
    - exists (given_conf "oq_conf" r). split.
      + destruct Fo as [->|[d ->]]; cbn [field_name] in Ao; rewrite F3 in Ao; cbn in Ao; congruence.
      + unfold given_conf, output_given, attr. split.
        * intros T. apply negb_true_iff in T. destruct (get "oq_conf" r) as [v|] eqn:G; [|discriminate].
          exists v. split; [apply (rename_gives kw r N R); [reflexivity|exact G]|]. intros ->. discriminate.
        * intros [v [G D]]. apply (rename_gives kw r N R) in G; [|reflexivity]. rewrite G.
          destruct v as [[]| |]; try reflexivity. exfalso. apply D. reflexivity.
  Qed.
  Lemma layer_conf n pl g b : In (Conf n Plain pl g, b) (class_of k) ->
    (exists q, g = Some q /\ truthy (attr x q) = false /\ attr x n = lnone) \/
    ((forall q, g = Some q -> truthy (attr x q) = true) /\
     ((exists v, gives kw n v /\ truthy v = true /\ attr x n = v) \/ ((forall v, gives kw n v -> truthy v = false) /\ attr x n = dummy_conf pl))).
  Proof.
    intros I. destruct layer_kw as [kw' [r [L [R [_ [_ [_ F]]]]]]]. pose proof (layer_attr _ _ _ _ L _ _ I) as A. cbn [field_name field_value] in A. cbn zeta in A.
    destruct (match g with Some p => truthy (attr x p) | None => true end) eqn:G.
    - right. split; [intros q ->; exact G|].
      pose proof (wrapped_confs _ _ _ _ _ W I) as Fn.
      destruct Fn as [Fn Nn]. rewrite (F n Fn) in A.
      destruct (get n r) as [v|] eqn:Gn.
      + pose proof (proj1 (rename_gives kw r N R n Nn v) Gn) as Gv. destruct (truthy v) eqn:T.
        * left. exists v. split; [exact Gv|split; [exact T|congruence]].
        * right. split; [|cbn in A; unfold dummy_conf; congruence]. intros v' Gv'. apply (rename_gives kw r N R n Nn) in Gv'. congruence.
      + right. split; [|cbn in A; unfold dummy_conf; congruence]. intros v' Gv'. apply (rename_gives kw r N R n Nn) in Gv'. congruence.
    - left. destruct g as [q|]; [|discriminate]. exists q. split; [reflexivity|split; [exact G|congruence]].
  Qed.
  Lemma layer_input pl b : In (Conf "iq_conf" Plain pl (Some "enable_iq"), b) (class_of k) -> attr x "iq_conf" = lnone.
  Proof.
    intros I. destruct layer_flags as [_ [Fi _]]. destruct (layer_conf _ _ _ _ I) as [[q [_ [_ A]]]|[A _]]; [exact A|].
    specialize (A "enable_iq" eq_refl). rewrite Fi in A. discriminate.
  Qed.
End Layers.
Lemma layer_double E k kw : NoDup (keys kw) -> ~ no_double kw -> qkeras_layer E k kw = None.
Proof.
  intros N D. unfold qkeras_layer, seen_by_base, wrap_kw. destruct (rename kw kw) as [r|] eqn:R; [|reflexivity].
  exfalso. apply D. apply (rename_iff kw N). exists r. exact R.
Qed.
