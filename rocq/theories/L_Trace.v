From Coq Require Import Ascii String Permutation DecimalString.
From Coq Require DecimalNat.
From Verif Require Import Num M_Trace S_Trace.
Local Open Scope string_scope. Local Open Scope list_scope.

Lemma assoc_set {A} k k' (v : A) d : assoc k (dict_set k' v d) = if String.eqb k k' then Some v else assoc k d.
Proof.
  induction d as [|[k0 v0] d IH]; [reflexivity|]. cbn [dict_set]. destruct (String.eqb k' k0) eqn:E.
  - apply String.eqb_eq in E. subst k0. cbn [assoc]. destruct (String.eqb k k'); reflexivity.
  - cbn [assoc]. destruct (String.eqb k k0) eqn:E2; [|exact IH]. apply String.eqb_eq in E2. subst k0.
    destruct (String.eqb k k') eqn:E3; [|reflexivity]. apply String.eqb_eq in E3. subst k'. rewrite String.eqb_refl in E. discriminate.
Qed.
Lemma opt_all_some {A} (l : list (option A)) xs : opt_all l = Some xs <-> l = map Some xs.
Proof.
  revert xs. induction l as [|[x|] l IH]; intros xs; cbn [opt_all].
  - split; [intros [= <-]; reflexivity|]. destruct xs; [reflexivity|discriminate].
  - destruct (opt_all l) as [ys|] eqn:E.
    + split.
      * intros [= <-]. cbn [map]. f_equal. apply IH. reflexivity.
      * destruct xs as [|x' xs]; [discriminate|]. intros [= <- H]. apply IH in H. congruence.
    + split; [discriminate|]. destruct xs as [|x' xs]; [discriminate|]. intros [= <- H]. apply IH in H. discriminate.
  - split; [discriminate|]. destruct xs; discriminate.
Qed.

Section Args.
  Context {V : Type}.
  Implicit Types (tm : list (string * V)) (val : string -> option V).
  Definition dom tm (t : string) : Prop := assoc t tm <> None.
  Definition sub_val tm val : Prop := forall t v, assoc t tm = Some v -> val t = Some v.

  Fixpoint arg_ind' (P : arg -> Prop) (H1 : forall t, P (ATensor t)) (H2 : forall l, Forall P l -> P (AList l)) (H3 : forall n, P (AConst n)) (a : arg) : P a :=
    match a with
    | ATensor t => H1 t
    | AList l => H2 l ((fix go l : Forall P l := match l return Forall P l with [] => Forall_nil P | a :: l' => @Forall_cons _ P a l' (arg_ind' P H1 H2 H3 a) (go l') end) l)
    | AConst n => H3 n
    end.
  Lemma replace_arg tm val a x : sub_val tm val -> (forall t, In t (tensors_of a) -> dom tm t) -> arg_value val a = Some x -> replace_tensors tm a = Some x.
  Proof.
    intros HV. revert x. induction a as [t|l IH|n] using arg_ind'; intros x HD E.
    - cbn [replace_tensors arg_value] in *. specialize (HD t (or_introl eq_refl)). unfold dom in HD.
      destruct (assoc t tm) as [v|] eqn:Ea; [|congruence]. rewrite (HV t v Ea) in E. exact E.
    - cbn [replace_tensors arg_value] in *. destruct (opt_all (map (arg_value val) l)) as [vs|] eqn:Ev; [|discriminate].
      apply opt_all_some in Ev. assert (Er : map (replace_tensors tm) l = map Some vs).
      { clear E. revert vs Ev. cbn [tensors_of] in HD. induction IH as [|a l Ha IHl IHrec]; intros vs Ev; [destruct vs; [reflexivity|discriminate]|].
        destruct vs as [|v vs]; [discriminate|]. cbn [map] in *. injection Ev as Ea El. f_equal.
        - apply Ha; [|exact Ea]. intros t Ht. apply HD. cbn [flat_map]. apply in_or_app. left. exact Ht.
        - apply IHrec; [|exact El]. intros t Ht. apply HD. cbn [flat_map]. apply in_or_app. right. exact Ht. }
      apply opt_all_some in Er. rewrite Er. exact E.
    - exact E.
  Qed.
  Lemma replace_args tm val l xs : sub_val tm val -> (forall a, In a l -> forall t, In t (tensors_of a) -> dom tm t) ->
    map (arg_value val) l = map Some xs -> opt_all (map (replace_tensors tm) l) = Some xs.
  Proof.
    intros HV. revert xs. induction l as [|a l IH]; intros xs HD E; [destruct xs; [reflexivity|discriminate]|].
    destruct xs as [|x xs]; [discriminate|]. cbn [map] in *. injection E as Ea El.
    apply opt_all_some. cbn [map]. f_equal; [apply (replace_arg tm val); auto; apply HD; left; reflexivity|].
    apply opt_all_some, IH; [intros b Hb; apply HD; right; exact Hb|exact El].
  Qed.
  Lemma replace_kw tm val l xs : sub_val tm val -> (forall ka, In ka l -> forall t, In t (tensors_of (snd ka)) -> dom tm t) ->
    map (fun ka => (fst ka, arg_value val (snd ka))) l = map (fun ka => (fst ka, Some (snd ka))) xs -> replace_kwargs tm l = Some xs.
  Proof.
    intros HV. unfold replace_kwargs. revert xs. induction l as [|[k a] l IH]; intros xs HD E; [destruct xs; [reflexivity|discriminate]|].
    destruct xs as [|[k' x] xs]; [discriminate|]. cbn [map fst snd] in *. injection E as Ek Ea El. subst k'.
    apply opt_all_some. cbn [map]. rewrite (replace_arg tm val a x HV (HD (k, a) (or_introl eq_refl)) Ea). f_equal.
    apply opt_all_some, IH; [intros b Hb; apply HD; right; exact Hb|exact El].
  Qed.
  Lemma opt_all_total {A B} (f : A -> option B) l : (forall a, In a l -> f a <> None) -> exists xs, opt_all (map f l) = Some xs.
  Proof.
    induction l as [|a l IH]; intros H; [exists []; reflexivity|]. cbn [map opt_all]. pose proof (H a (or_introl eq_refl)) as Ha.
    destruct (f a) as [x|]; [|congruence]. destruct (IH (fun b Hb => H b (or_intror Hb))) as (xs & ->). eauto.
  Qed.
  Lemma replace_total tm a : (forall t, In t (tensors_of a) -> dom tm t) -> replace_tensors tm a <> None.
  Proof.
    induction a as [t|l IH|n] using arg_ind'; intros HD; cbn [replace_tensors].
    - specialize (HD t (or_introl eq_refl)). unfold dom in HD. destruct (assoc t tm); congruence.
    - destruct (opt_all_total (replace_tensors tm) l) as (xs & ->); [|discriminate]. intros a Ha. rewrite Forall_forall in IH. apply (IH a Ha).
      intros t Ht. apply HD. cbn [tensors_of]. apply in_flat_map. eauto.
    - discriminate.
  Qed.
  Lemma set_zip_sub ks : forall tm vs val, sub_val tm val -> map val ks = map Some vs -> sub_val (set_zip tm ks vs) val.
  Proof.
    induction ks as [|k ks IH]; intros tm vs val HV E; destruct vs as [|v vs]; try discriminate; cbn [set_zip]; [exact HV|].
    cbn [map] in E. injection E as Ek El. apply IH; [|exact El]. intros t w. rewrite assoc_set. destruct (String.eqb t k) eqn:Et; [|apply HV].
    apply String.eqb_eq in Et. subst t. intros [= <-]. exact Ek.
  Qed.
  Lemma set_zip_dom ks : forall tm vs t, List.length ks = List.length vs -> dom (set_zip tm ks vs) t <-> dom tm t \/ In t ks.
  Proof.
    induction ks as [|k ks IH]; intros tm vs t E; destruct vs as [|v vs]; try discriminate; cbn [set_zip]; [cbn [In]; tauto|].
    injection E as E. rewrite (IH _ _ _ E). unfold dom. rewrite assoc_set. cbn [In]. destruct (String.eqb t k) eqn:Et.
    - apply String.eqb_eq in Et. subst. split; [auto|intros _; left; discriminate].
    - apply String.eqb_neq in Et. split; [tauto|]. intros [H|[H|H]]; [auto|congruence|auto].
  Qed.
  (** set_zip in general only adds names of the list *)
  Lemma set_zip_dom_incl ks : forall tm vs t, dom (set_zip tm ks vs) t -> dom tm t \/ In t ks.
  Proof.
    induction ks as [|k ks IH]; intros tm vs t; [cbn; auto|]. destruct vs as [|v vs]; cbn [set_zip]; [auto|].
    intros H. apply IH in H. destruct H as [H|H]; [|right; right; exact H]. unfold dom in *. rewrite assoc_set in H.
    destruct (String.eqb t k) eqn:Et; [|auto]. apply String.eqb_eq in Et. subst. right. left. reflexivity.
  Qed.
  Lemma map_some_length {A B} (f : A -> option B) l xs : map f l = map Some xs -> List.length l = List.length xs.
  Proof. intros E. apply (f_equal (@List.length _)) in E. rewrite !map_length in E. exact E. Qed.
End Args.

Section Tracer.
  Context {V layer : Type} (replay : layer -> list (varg V) -> list (string * varg V) -> option (list (string * list V))).
  Notation model := (@model layer). Notation opobj := (@opobj layer).
  Implicit Types (m : model) (o : opobj).

  (** ** depths *)
  Lemma depth_get_in d (l : list (nat * list opobj)) os : depth_get d l = Some os -> In (d, os) l.
  Proof.
    induction l as [|[d' v] l IH]; [discriminate|]. cbn [depth_get]. destruct (d =? d')%nat eqn:E.
    - apply Nat.eqb_eq in E. subst. intros [= <-]. left. reflexivity.
    - intros H. right. apply IH, H.
  Qed.
  Lemma depth_get_of d (l : list (nat * list opobj)) os : NoDup (map fst l) -> In (d, os) l -> depth_get d l = Some os.
  Proof.
    induction l as [|[d' v] l IH]; intros ND H; [destruct H|]. cbn [map fst] in ND. inversion ND as [|? ? N1 N2]; subst. cbn [depth_get].
    destruct (d =? d')%nat eqn:E.
    - apply Nat.eqb_eq in E. subst. destruct H as [H|H]; [congruence|]. exfalso. apply N1. apply (in_map fst) in H. exact H.
    - destruct H as [H|H]; [injection H as -> ->; rewrite Nat.eqb_refl in E; discriminate|]. apply IH; assumption.
  Qed.
  Lemma depth_get_key d (l : list (nat * list opobj)) : In d (map fst l) -> exists os, depth_get d l = Some os.
  Proof.
    induction l as [|[d' v] l IH]; intros H; [destruct H|]. cbn [depth_get]. destruct (d =? d')%nat eqn:E; [eauto|].
    destruct H as [H|H]; [cbn in H; subst; rewrite Nat.eqb_refl in E; discriminate|]. apply IH, H.
  Qed.
  Lemma max_depth_ge (l : list (nat * list opobj)) d : In d (map fst l) -> (d <= max_depth l)%nat.
  Proof. unfold max_depth. induction (map fst l) as [|e k IH]; intros H; [destruct H|]. cbn [fold_right]. destruct H as [->|H]; [lia|]. specialize (IH H). lia. Qed.
  Lemma max_depth_in (l : list (nat * list opobj)) : l <> [] -> In (max_depth l) (map fst l).
  Proof.
    unfold max_depth. induction l as [|[d v] l IH]; [congruence|]. intros _. cbn [map fst fold_right]. destruct l as [|e l].
    - cbn. left. lia.
    - specialize (IH ltac:(discriminate)). destruct (Nat.max_spec d (fold_right Nat.max 0%nat (map fst (e :: l)))) as [[_ E]|[_ E]]; rewrite E; [right; exact IH|left; reflexivity].
  Qed.
  Lemma contiguous_parse m : contiguous m -> exists D lv, parse_model m = Some (map lv (rev (seq 0 (S D)))) /\
    (forall d, In d (map fst (m_nodes_by_depth m)) <-> (d <= D)%nat) /\ forall d o, op_at m d o <-> (d <= D)%nat /\ In o (lv d).
  Proof.
    intros (ND & D & HD). set (l := m_nodes_by_depth m) in *.
    assert (Hne : l <> []) by (intros E; assert (H : In 0%nat (map fst l)) by (apply HD; lia); rewrite E in H; exact H).
    assert (HM : max_depth l = D).
    { pose proof (max_depth_in l Hne) as H. apply HD in H. assert (H' : In D (map fst l)) by (apply HD; lia). apply max_depth_ge in H'. lia. }
    exists D, (fun d => match depth_get d l with Some os => os | None => [] end). split; [|split; [exact HD|]].
    - unfold parse_model. fold l. destruct l as [|e l'] eqn:El; [congruence|]. rewrite <- El in *. rewrite HM. apply opt_all_some.
      rewrite map_map. apply map_ext_in. intros d Hd. apply in_rev in Hd. apply in_seq in Hd.
      assert (Hk : In d (map fst l)) by (apply HD; lia). destruct (depth_get_key d l Hk) as (os & E). rewrite E. reflexivity.
    - intros d o. unfold op_at. fold l. split.
      + intros (os & H1 & H2). split; [apply HD; apply (in_map fst) in H1; exact H1|]. rewrite (depth_get_of _ _ _ ND H1). exact H2.
      + intros [H1 H2]. apply HD in H1. destruct (depth_get_key d l H1) as (os & E). rewrite E in H2. exists os. split; [apply depth_get_in, E|exact H2].
  Qed.
  Lemma all_ops_at m o : In o (all_ops m) <-> exists d, op_at m d o.
  Proof.
    unfold all_ops, op_at. rewrite in_flat_map. split.
    - intros ([d os] & H1 & H2). exists d, os. auto.
    - intros (d & os & H1 & H2). exists (d, os). auto.
  Qed.
  Lemma trace_ops_app sub k l1 l2 s : trace_ops replay sub k (l1 ++ l2) s = match trace_ops replay sub k l1 s with Some s' => trace_ops replay sub k l2 s' | None => None end.
  Proof. revert s. induction l1 as [|o l1 IH]; intros s; [reflexivity|]. cbn [app trace_ops]. destruct (trace_op replay sub k o s); [apply IH|reflexivity]. Qed.
  Lemma rev_seq_S k : rev (seq 0 (S k)) = k :: rev (seq 0 k).
  Proof. rewrite seq_S, rev_app_distr. reflexivity. Qed.

  (** ** the replay computes the data-flow equations *)
  Lemma arrays_direct (val : string -> option V) args vargs : (forall a, In a args -> exists t, a = ATensor t) -> map (arg_value val) args = map Some vargs ->
    all_arr vargs = Some (flat_map arrays_of vargs).
  Proof.
    revert vargs. induction args as [|a args IH]; intros vargs HD E; destruct vargs as [|v vargs]; try discriminate; [reflexivity|].
    cbn [map] in E. injection E as Ea El. destruct (HD a (or_introl eq_refl)) as (t & ->). cbn [arg_value] in Ea.
    destruct (val t) as [w|]; [|discriminate]. injection Ea as <-. cbn [all_arr flat_map arrays_of app].
    rewrite (IH vargs (fun b Hb => HD b (or_intror Hb)) El). reflexivity.
  Qed.
  Lemma forallb_dom (tm : list (string * V)) l : (forall t, In t l -> dom tm t) -> forallb (fun t => match assoc t tm with Some _ => true | None => false end) l = true.
  Proof. intros H. apply forallb_forall. intros t Ht. specialize (H t Ht). unfold dom in H. destruct (assoc t tm); congruence. Qed.

  Lemma trace_correct fuel : forall k m ins outs, well_formed fuel m -> evaluates replay fuel m ins outs ->
    exists d, trace_model replay fuel k m ins = Some d /\ assoc "final" d = Some outs.
  Proof.
    induction fuel as [|fuel IH]; intros k m ins outs WF EV; [destruct WF|].
    cbn [well_formed] in WF. destruct WF as (ND & HD & HO & HW). cbn [evaluates] in EV. destruct EV as (val & EI & EO & HE).
    destruct (contiguous_parse m (conj ND HD)) as (D & lv & EP & HK & HAt).
    unfold trace_model. cbn [trace_model_log]. rewrite (proj2 (Nat.eqb_eq _ _) (map_some_length val _ _ EI)), EP.
    set (sub := fun m' vs => match trace_model_log replay fuel (S k) m' vs with Some (d, _) => Some d | None => None end).
    assert (Hsub : forall m' vs outs', well_formed fuel m' -> evaluates replay fuel m' vs outs' -> exists d, sub m' vs = Some d /\ assoc "final" d = Some outs').
    { intros m' vs outs' W E. destruct (IH (S k) m' vs outs' W E) as (d & E1 & E2). exists d. split; [|exact E2]. exact E1. }
    (* one operation *)
    assert (Step : forall d o s, op_at m d o -> sub_val (s_tm s) val -> (forall t, In t (o_requires o) -> dom (s_tm s) t) ->
      exists s', trace_op replay sub k o s = Some s' /\ sub_val (s_tm s') val /\ (forall t, dom (s_tm s) t -> dom (s_tm s') t) /\
        (is_input o = false -> forall t, In t (o_produces o) -> dom (s_tm s') t)).
    { intros d o s Ho HV HR. destruct (HW d o Ho) as (_ & Ha & Hk & Hm). unfold trace_op. rewrite (forallb_dom _ _ HR).
      assert (Hin : In o (all_ops m)) by (apply all_ops_at; eauto).
      destruct (is_input o) eqn:Ei.
      - unfold is_input in Ei. destruct (o_kind o) eqn:Ek; try discriminate.
        destruct (opt_all_total (replace_tensors (s_tm s)) (o_args o)) as (xs & ->).
        { intros a Hin'. apply replace_total. intros t Ht. apply HR, (Ha a Hin' t Ht). }
        assert (EK : exists ys, replace_kwargs (s_tm s) (o_kwargs o) = Some ys).
        { unfold replace_kwargs. apply opt_all_total. intros ka Hin'. pose proof (replace_total (s_tm s) (snd ka) (fun t Ht => HR t (Hk ka Hin' t Ht))).
          destruct (replace_tensors (s_tm s) (snd ka)); congruence. }
        destruct EK as (ys & ->). exists s. split; [reflexivity|]. split; [exact HV|]. split; [auto|discriminate].
      - destruct (HE o Hin Ei) as (args & kwargs & final & E1 & E2 & E3 & E4).
        rewrite (replace_args (s_tm s) val _ _ HV (fun a H t Ht => HR t (Ha a H t Ht)) E1).
        rewrite (replace_kw (s_tm s) val _ _ HV (fun a H t Ht => HR t (Hk a H t Ht)) E2).
        assert (Hd : exists dd, match o_kind o with KModel m0 => match all_arr args with Some vs => sub m0 vs | None => None end | KLayer l => replay l args kwargs | KInput => None end = Some dd /\ assoc "final" dd = Some final).
        { unfold is_input in Ei. destruct (o_kind o) as [|l|m'] eqn:Ek; [discriminate|exact E4|].
          destruct (Hm m' eq_refl) as [Hdir Hwf]. rewrite (arrays_direct val _ _ Hdir E1). apply Hsub; assumption. }
        destruct Hd as (dd & Ed & Ef). unfold is_input in Ei.
        destruct (maybe_rename (s_names s) (o_name o)) as [c nm] eqn:En.
        exists (mk_tstate (set_zip (s_tm s) (o_produces o) final) (record k nm dd (s_trace s)) c (s_log s ++ [(o, dd)])). split.
        + destruct (o_kind o) as [|l|m'] eqn:Ek; [discriminate| |]; [rewrite Ed, Ef; reflexivity|]. rewrite Ed, Ef; reflexivity.
        + cbn [s_tm]. split; [apply set_zip_sub; assumption|]. pose proof (map_some_length val _ _ E3) as L. split.
          * intros t Ht. apply set_zip_dom; auto.
          * intros _ t Ht. apply set_zip_dom; auto. }
    (* one level *)
    assert (Level : forall d os s, (forall o, In o os -> op_at m d o) -> sub_val (s_tm s) val ->
      (forall t o, In o os -> In t (o_requires o) -> dom (s_tm s) t) ->
      exists s', trace_ops replay sub k os s = Some s' /\ sub_val (s_tm s') val /\ (forall t, dom (s_tm s) t -> dom (s_tm s') t) /\
        (forall o t, In o os -> is_input o = false -> In t (o_produces o) -> dom (s_tm s') t)).
    { intros d os. induction os as [|o os IHos]; intros s Hos HV HR.
      - exists s. split; [reflexivity|]. split; [exact HV|]. split; [auto|]. intros o t [].
      - destruct (Step d o s (Hos o (or_introl eq_refl)) HV (fun t => HR t o (or_introl eq_refl))) as (s1 & E1 & V1 & M1 & P1).
        destruct (IHos s1 (fun o' H => Hos o' (or_intror H)) V1 (fun t o' H H' => M1 t (HR t o' (or_intror H) H'))) as (s2 & E2 & V2 & M2 & P2).
        exists s2. split; [cbn [trace_ops]; rewrite E1; exact E2|]. split; [exact V2|]. split; [auto|].
        intros o' t [<-|H] Hi Ht; [apply M2, P1; assumption|eapply P2; eassumption]. }
    (* all levels below [n] *)
    assert (Levels : forall n s, (n <= S D)%nat -> sub_val (s_tm s) val -> (forall t, In t (m_inputs m) -> dom (s_tm s) t) ->
      (forall d o t, (n <= d)%nat -> op_at m d o -> is_input o = false -> In t (o_produces o) -> dom (s_tm s) t) ->
      exists s', trace_ops replay sub k (concat (map lv (rev (seq 0 n)))) s = Some s' /\ sub_val (s_tm s') val /\
        (forall t, dom (s_tm s) t -> dom (s_tm s') t) /\ (forall d o t, op_at m d o -> is_input o = false -> In t (o_produces o) -> dom (s_tm s') t)).
    { induction n as [|n IHn]; intros s Hn HV HI HP.
      - exists s. split; [reflexivity|]. split; [exact HV|]. split; [auto|]. intros d o t. apply HP. lia.
      - rewrite rev_seq_S. cbn [map concat]. rewrite trace_ops_app.
        assert (Hos : forall o, In o (lv n) -> op_at m n o) by (intros o Ho; apply HAt; split; [lia|exact Ho]).
        destruct (Level n (lv n) s Hos HV) as (s1 & E1 & V1 & M1 & P1).
        { intros t o Ho Ht. destruct (HW n o (Hos o Ho)) as (Hr & _). destruct (Hr t Ht) as [H|(d' & o' & L & At' & Hi & Hp)]; [apply HI, H|].
          apply (HP d' o' t); [lia|exact At'|exact Hi|exact Hp]. }
        rewrite E1. destruct (IHn s1) as (s2 & E2 & V2 & M2 & P2); [lia|exact V1|auto| |].
        { intros d o t Hd Ho Hi Ht. destruct (Nat.eq_dec d n) as [->|Hne]; [apply (P1 o t); [apply HAt in Ho; apply Ho|exact Hi|exact Ht]|].
          apply M1, (HP d o t); [lia|exact Ho|exact Hi|exact Ht]. }
        exists s2. split; [exact E2|]. split; [exact V2|]. split; [auto|exact P2]. }
    set (s0 := mk_tstate (set_zip [] (m_inputs m) ins) [] [] []).
    assert (V0 : sub_val (s_tm s0) val) by (apply set_zip_sub; [intros t v; discriminate|exact EI]).
    assert (I0 : forall t, In t (m_inputs m) -> dom (s_tm s0) t) by (intros t Ht; apply set_zip_dom; [apply (map_some_length val), EI|auto]).
    destruct (Levels (S D) s0 (Nat.le_refl _) V0 I0) as (s1 & E1 & V1 & M1 & P1).
    { intros d o t Hd Ho. apply HAt in Ho. lia. }
    rewrite E1.
    assert (EF : opt_all (map (fun t => assoc t (s_tm s1)) (m_outputs m)) = Some outs).
    { apply opt_all_some. rewrite <- EO. apply map_ext_in. intros t Ht.
      assert (Hd : dom (s_tm s1) t).
      { destruct (HO t Ht) as [H|(d & o & Ho & Hi & Hp)]; [apply M1, I0, H|eapply P1; eassumption]. }
      unfold dom in Hd. destruct (assoc t (s_tm s1)) as [v|] eqn:Ea; [|congruence]. symmetry. apply V1, Ea. }
    rewrite EF. eexists. split; [reflexivity|]. rewrite assoc_set. reflexivity.
  Qed.

  (** ** schedule *)
  Lemma trace_op_log sub k o s s' : trace_op replay sub k o s = Some s' ->
    (forall t, In t (o_requires o) -> dom (s_tm s) t) /\
    (if is_input o then s' = s else exists d final c nm, s_log s' = s_log s ++ [(o, d)] /\ assoc "final" d = Some final /\ s_tm s' = set_zip (s_tm s) (o_produces o) final /\
       maybe_rename (s_names s) (o_name o) = (c, nm) /\ s_names s' = c /\ s_trace s' = record k nm d (s_trace s)).
  Proof.
    unfold trace_op. intros E. destruct (forallb _ (o_requires o)) eqn:Ef; [|discriminate]. split.
    - intros t Ht. rewrite forallb_forall in Ef. specialize (Ef t Ht). unfold dom. destruct (assoc t (s_tm s)); congruence.
    - destruct (opt_all _) as [args|]; [|discriminate]. destruct (replace_kwargs _ _) as [kw|]; [|discriminate]. unfold is_input.
      destruct (o_kind o) as [|l|m']; [congruence| |].
      + destruct (replay l args kw) as [d|]; [|discriminate]. destruct (assoc "final" d) as [final|] eqn:Ed; [|discriminate].
        destruct (maybe_rename (s_names s) (o_name o)) as [c nm] eqn:En. injection E as <-. exists d, final, c, nm. repeat split; try reflexivity; assumption.
      + destruct (all_arr args) as [vs|]; [|discriminate]. destruct (sub m' vs) as [d|]; [|discriminate]. destruct (assoc "final" d) as [final|] eqn:Ed; [|discriminate].
        destruct (maybe_rename (s_names s) (o_name o)) as [c nm] eqn:En. injection E as <-. exists d, final, c, nm. repeat split; try reflexivity; assumption.
  Qed.
  Lemma trace_ops_log sub k os : forall s s', trace_ops replay sub k os s = Some s' ->
    map fst (s_log s') = map fst (s_log s) ++ filter (fun o => negb (is_input o)) os.
  Proof.
    induction os as [|o os IH]; intros s s' E; cbn [trace_ops] in E; [injection E as <-; symmetry; apply app_nil_r|].
    destruct (trace_op replay sub k o s) as [s1|] eqn:E1; [|discriminate]. apply trace_op_log in E1. destruct E1 as [_ E1].
    rewrite (IH _ _ E). cbn [filter]. destruct (is_input o); cbn [negb]; [subst s1; reflexivity|].
    destruct E1 as (d & f & c & nm & El & _). rewrite El, map_app. cbn [map fst]. rewrite <- app_assoc. reflexivity.
  Qed.
  Lemma trace_ops_ordered sub k ins0 os : forall s s', trace_ops replay sub k os s = Some s' ->
    (forall t, dom (s_tm s) t -> In t ins0 \/ exists o', In o' (map fst (s_log s)) /\ In t (o_produces o')) ->
    (forall l1 o l2, map fst (s_log s) = l1 ++ o :: l2 -> forall t, In t (o_requires o) -> In t ins0 \/ exists o', In o' l1 /\ In t (o_produces o')) ->
    forall l1 o l2, map fst (s_log s') = l1 ++ o :: l2 -> forall t, In t (o_requires o) -> In t ins0 \/ exists o', In o' l1 /\ In t (o_produces o').
  Proof.
    induction os as [|o os IH]; intros s s' E HD HL; cbn [trace_ops] in E; [injection E as <-; exact HL|].
    destruct (trace_op replay sub k o s) as [s1|] eqn:E1; [|discriminate]. apply trace_op_log in E1. destruct E1 as [HR E1].
    destruct (is_input o); [subst s1; apply (IH _ _ E HD HL)|]. destruct E1 as (d & f & c & nm & El & _ & Et & _).
    apply (IH _ _ E).
    - intros t Ht. rewrite Et in Ht. rewrite El, map_app. cbn [map fst]. apply set_zip_dom_incl in Ht. destruct Ht as [Ht|Ht].
      + destruct (HD t Ht) as [H|(o' & H1 & H2)]; [auto|]. right. exists o'. split; [apply in_or_app; auto|exact H2].
      + right. exists o. split; [apply in_or_app; right; left; reflexivity|exact Ht].
    - intros l1 o' l2 Hs t Ht. rewrite El, map_app in Hs. cbn [map fst] in Hs. destruct l2 as [|x l2 _] using rev_ind.
      + apply app_inj_tail in Hs. destruct Hs as [Hl <-]. rewrite <- Hl. apply HD, HR, Ht.
      + change (o' :: l2 ++ [x]) with ((o' :: l2) ++ [x]) in Hs. rewrite app_assoc in Hs. apply app_inj_tail in Hs. destruct Hs as [Hl _]. apply (HL l1 o' l2 Hl t Ht).
  Qed.
  Lemma trace_inv fuel k m ins d log : trace_model_log replay fuel k m ins = Some (d, log) ->
    exists fuel' levels s final, fuel = S fuel' /\ parse_model m = Some levels /\
      trace_ops replay (fun m' vs => match trace_model_log replay fuel' (S k) m' vs with Some (d, _) => Some d | None => None end) k (concat levels)
        (mk_tstate (set_zip [] (m_inputs m) ins) [] [] []) = Some s /\ d = dict_set "final" final (s_trace s) /\ log = s_log s.
  Proof.
    destruct fuel as [|fuel]; [discriminate|]. cbn [trace_model_log]. destruct (_ =? _)%nat; [|discriminate].
    destruct (parse_model m) as [levels|]; [|discriminate]. destruct (trace_ops _ _ _ _ _) as [s|] eqn:E; [|discriminate].
    destruct (opt_all _) as [final|]; [|discriminate]. intros [= <- <-]. exists fuel, levels, s, final. auto.
  Qed.
  Lemma executed_in_order fuel k m ins d log : trace_model_log replay fuel k m ins = Some (d, log) ->
    forall l1 o l2, map fst log = l1 ++ o :: l2 -> forall t, In t (o_requires o) -> In t (m_inputs m) \/ exists o', In o' l1 /\ In t (o_produces o').
  Proof.
    intros E. apply trace_inv in E. destruct E as (fuel' & levels & s & final & _ & _ & E & _ & ->).
    apply (trace_ops_ordered _ _ (m_inputs m) _ _ _ E); cbn [s_tm s_log map].
    - intros t Ht. apply set_zip_dom_incl in Ht. destruct Ht as [Ht|Ht]; [exfalso; apply Ht; reflexivity|auto].
    - intros l1 o l2 H. destruct l1; discriminate.
  Qed.

  Lemma filter_Permutation {A} (f : A -> bool) l l' : Permutation l l' -> Permutation (filter f l) (filter f l').
  Proof.
    induction 1 as [|x l l' _ IH|x y l|l l' l'' _ IH1 _ IH2]; cbn [filter].
    - constructor.
    - destruct (f x); [constructor|]; exact IH.
    - destruct (f x), (f y); repeat constructor; reflexivity.
    - etransitivity; eassumption.
  Qed.
  Lemma keys_perm (ks : list nat) D : NoDup ks -> (forall d, In d ks <-> (d <= D)%nat) -> Permutation ks (rev (seq 0 (S D))).
  Proof.
    intros ND H. apply NoDup_Permutation; [exact ND|apply NoDup_rev, seq_NoDup|]. intros d. rewrite <- in_rev, in_seq, H. lia.
  Qed.
  Lemma concat_perm (l : list (nat * list opobj)) (ds : list nat) (lv : nat -> list opobj) :
    NoDup (map fst l) -> Permutation (map fst l) ds -> (forall d os, In (d, os) l -> lv d = os) -> Permutation (concat (map lv ds)) (flat_map snd l).
  Proof.
    intros ND HP HL. transitivity (concat (map lv (map fst l))).
    - rewrite <- !flat_map_concat_map. apply Permutation_flat_map. symmetry. exact HP.
    - clear ND HP. induction l as [|[d os] l IH]; [constructor|]. cbn [map fst snd concat flat_map]. rewrite (HL d os (or_introl eq_refl)).
      apply Permutation_app_head, IH. intros d' os' H'. apply HL. right. exact H'.
  Qed.
  Lemma executed_once fuel k m ins d log : contiguous m -> trace_model_log replay fuel k m ins = Some (d, log) ->
    Permutation (map fst log) (filter (fun o => negb (is_input o)) (all_ops m)).
  Proof.
    intros C E. apply trace_inv in E. destruct E as (fuel' & levels & s & final & _ & EP & E & _ & ->).
    rewrite (trace_ops_log _ _ _ _ _ E). cbn [s_log map app]. apply filter_Permutation.
    pose proof C as (ND & D & HD). unfold parse_model in EP. destruct (m_nodes_by_depth m) as [|e l'] eqn:El; [discriminate|]. rewrite <- El in *.
    set (l := m_nodes_by_depth m) in *. apply opt_all_some in EP.
    assert (Hne : l <> []) by congruence.
    assert (HM : max_depth l = D).
    { pose proof (max_depth_in l Hne) as H. apply HD in H. assert (H' : In D (map fst l)) by (apply HD; lia). apply max_depth_ge in H'. lia. }
    rewrite HM in EP. set (lv := fun d => match depth_get d l with Some os => os | None => [] end).
    assert (EL : levels = map lv (rev (seq 0 (S D)))).
    { clear - EP. revert levels EP. generalize (rev (seq 0 (S D))). intros ds. induction ds as [|d0 ds IH]; intros levels EP; destruct levels as [|x levels]; try discriminate; [reflexivity|].
      cbn [map] in *. injection EP as E1 E2. f_equal; [unfold lv; rewrite E1; reflexivity|apply IH, E2]. }
    rewrite EL. unfold all_ops. fold l. apply concat_perm; [exact ND|apply keys_perm; assumption|].
    intros d0 os H. unfold lv. rewrite (depth_get_of _ _ _ ND H). reflexivity.
  Qed.

  (** ** nested models called with a list *)
  Lemma trace_ops_each sub k os : forall s s', trace_ops replay sub k os s = Some s' -> forall o, In o os -> exists s1 s2, trace_op replay sub k o s1 = Some s2.
  Proof.
    induction os as [|o os IH]; intros s s' E o' Ho; [destruct Ho|]. cbn [trace_ops] in E. destruct (trace_op replay sub k o s) as [s1|] eqn:E1; [|discriminate].
    destruct Ho as [<-|Ho]; [eauto|]. eapply IH; eassumption.
  Qed.
  Lemma nested_list_call_fails fuel k m ins o sub l : contiguous m -> In o (all_ops m) -> o_kind o = KModel sub -> o_args o = [AList l] ->
    trace_model replay fuel k m ins = None.
  Proof.
    intros C Ho Hk Ha. unfold trace_model. destruct (trace_model_log replay fuel k m ins) as [[d log]|] eqn:E; [|reflexivity]. exfalso.
    apply trace_inv in E. destruct E as (fuel' & levels & s & final & _ & EP & E & _ & _).
    destruct (contiguous_parse m C) as (D & lv & EP' & _ & HAt). rewrite EP in EP'. injection EP' as ->.
    apply all_ops_at in Ho. destruct Ho as (dd & Ho). apply HAt in Ho. destruct Ho as [Hd Ho].
    assert (Hin : In o (concat (map lv (rev (seq 0 (S D)))))).
    { apply in_concat. exists (lv dd). split; [apply in_map; rewrite <- in_rev; apply in_seq; lia|exact Ho]. }
    destruct (trace_ops_each _ _ _ _ _ E o Hin) as (s1 & s2 & E1). unfold trace_op in E1. rewrite Hk, Ha in E1.
    destruct (forallb _ _); [|discriminate]. cbn [map opt_all replace_tensors] in E1. destruct (opt_all (map (replace_tensors (s_tm s1)) l)); [|discriminate].
    destruct (replace_kwargs _ _); discriminate.
  Qed.
End Tracer.

(** ** names *)
Notation hash := "#"%char. Notation slash := "/"%char.
Lemma split_at c x r : free_of c x -> forall y r', free_of c y -> (x ++ String c r = y ++ String c r')%string -> x = y /\ r = r'.
Proof.
  induction x as [|a x IH]; intros Hx y r' Hy E; destruct y as [|b y].
  - cbn in E. injection E as ->. auto.
  - cbn in E. injection E as Eb _. destruct Hy as [Hy _]. congruence.
  - cbn in E. injection E as Ea _. destruct Hx as [Hx _]. congruence.
  - cbn in E. injection E as -> E. destruct Hx as [_ Hx], Hy as [_ Hy]. destruct (IH Hx y r' Hy E) as [-> ->]. auto.
Qed.
Lemma free_app c x y : free_of c (x ++ y)%string <-> free_of c x /\ free_of c y.
Proof. induction x as [|a x IH]; cbn; [tauto|]. rewrite IH. tauto. Qed.
Lemma not_free c x r : ~ free_of c (x ++ String c r)%string.
Proof. rewrite free_app. intros [_ [H _]]. apply H. reflexivity. Qed.
Lemma to_uint_nonnil n : Nat.to_uint n <> Decimal.Nil.
Proof.
  intros E. assert (H : Nat.of_uint (Nat.to_uint n) = 0%nat) by (rewrite E; reflexivity). rewrite DecimalNat.Unsigned.of_to in H. subst. discriminate.
Qed.
Lemma dec_inj n n' : dec n = dec n' -> n = n'.
Proof.
  unfold dec. intros E. apply (f_equal NilZero.uint_of_string) in E. rewrite !NilZero.usu in E by apply to_uint_nonnil.
  injection E as E. apply DecimalNat.Unsigned.to_uint_inj, E.
Qed.
Lemma digits_free u : free_of slash (NilEmpty.string_of_uint u).
Proof. induction u; cbn; try exact I; (split; [discriminate|assumption]). Qed.
Lemma dec_free n : free_of slash (dec n).
Proof. unfold dec, NilZero.string_of_uint. destruct (Nat.to_uint n) eqn:E; try apply digits_free. cbn. repeat split; discriminate. Qed.

(** the name given to the [n]-th use of a layer *)
Definition fmt (x : string) (n : nat) : string := match n with 0%nat => x | S _ => (x ++ "#" ++ dec n)%string end.
Definition uses (c : list (string * nat)) (x : string) : nat := match assoc x c with None => 0 | Some n => S n end.
Lemma maybe_rename_spec c x : snd (maybe_rename c x) = fmt x (uses c x) /\ forall y, uses (fst (maybe_rename c x)) y = (uses c y + if String.eqb y x then 1 else 0)%nat.
Proof.
  unfold maybe_rename, uses. destruct (assoc x c) as [n|] eqn:E; cbn [fst snd]; (split; [reflexivity|]); intros y; rewrite assoc_set; destruct (String.eqb y x) eqn:Ey.
  - apply String.eqb_eq in Ey. subst. rewrite E. lia.
  - lia.
  - apply String.eqb_eq in Ey. subst. rewrite E. lia.
  - lia.
Qed.
Lemma fmt_inj x n y n' : free_of hash x -> free_of hash y -> fmt x n = fmt y n' -> x = y /\ n = n'.
Proof.
  intros Hx Hy E. destruct n as [|n], n' as [|n']; cbn [fmt] in E.
  - auto.
  - exfalso. subst x. apply (not_free _ _ _ Hx).
  - exfalso. subst y. apply (not_free _ _ _ Hy).
  - destruct (split_at _ _ _ Hx _ _ Hy E) as [-> E']. apply dec_inj in E'. auto.
Qed.
Lemma rename_all_in names : forall c z, In z (rename_all c names) -> exists y b, In y names /\ z = fmt y b /\ (uses c y <= b)%nat.
Proof.
  induction names as [|x names IH]; intros c z H; [destruct H|]. cbn [rename_all] in H. destruct (maybe_rename c x) as [c' y] eqn:E.
  destruct (maybe_rename_spec c x) as [Hs Hu]. rewrite E in Hs, Hu. cbn [fst snd] in Hs, Hu. destruct H as [<-|H].
  - exists x, (uses c x). split; [left; reflexivity|]. split; [exact Hs|lia].
  - destruct (IH c' z H) as (w & b & H1 & H2 & H3). exists w, b. split; [right; exact H1|]. split; [exact H2|]. rewrite Hu in H3. lia.
Qed.
Lemma rename_distinct names : Forall (free_of hash) names -> forall c, NoDup (rename_all c names).
Proof.
  induction names as [|x names IH]; intros HF c; [constructor|]. inversion HF as [|? ? Hx HF']; subst. cbn [rename_all].
  destruct (maybe_rename c x) as [c' y] eqn:E. destruct (maybe_rename_spec c x) as [Hs Hu]. rewrite E in Hs, Hu. cbn [fst snd] in Hs, Hu.
  constructor; [|apply IH, HF']. intros H. apply rename_all_in in H. destruct H as (w & b & H1 & H2 & H3). subst y.
  rewrite Forall_forall in HF'. destruct (fmt_inj _ _ _ _ Hx (HF' w H1) H2) as [<- <-]. rewrite Hu, String.eqb_refl in H3. lia.
Qed.
Lemma rename_all_free names : Forall (free_of slash) names -> forall c z, In z (rename_all c names) -> free_of slash z.
Proof.
  intros HF c z H. apply rename_all_in in H. destruct H as (y & b & H1 & -> & _). rewrite Forall_forall in HF. specialize (HF y H1).
  destruct b; cbn [fmt]; [exact HF|]. apply free_app. split; [exact HF|]. apply free_app. split; [cbn; repeat split; discriminate|apply dec_free].
Qed.
Definition name_state (names : list string) : list (string * nat) := fold_left (fun c x => fst (maybe_rename c x)) names [].
Lemma rename_all_snoc names x : rename_all [] (names ++ [x]) = rename_all [] names ++ [snd (maybe_rename (name_state names) x)].
Proof.
  unfold name_state. generalize (@nil (string * nat)) as c. induction names as [|y names IH]; intros c; cbn [app rename_all fold_left].
  - destruct (maybe_rename c x). reflexivity.
  - rewrite (surjective_pairing (maybe_rename c y)). cbn [fst snd]. rewrite IH. reflexivity.
Qed.
Lemma name_state_snoc names x : name_state (names ++ [x]) = fst (maybe_rename (name_state names) x).
Proof. unfold name_state. rewrite fold_left_app. reflexivity. Qed.
Lemma rename_all_length names : forall c, List.length (rename_all c names) = List.length names.
Proof. induction names as [|x names IH]; intros c; [reflexivity|]. cbn [rename_all]. destruct (maybe_rename c x). cbn. rewrite IH. reflexivity. Qed.

(** ** the record *)
Lemma key_inj n nm k nm' k' : free_of slash nm -> free_of slash nm' -> key n nm k = key n nm' k' -> nm = nm' /\ k = k'.
Proof.
  intros H1 H2 E. destruct n as [|n]; cbn [key] in E.
  - cbn in E. injection E as E. apply (split_at slash); assumption.
  - apply (split_at slash); assumption.
Qed.
Lemma key_not_final n nm k : key n nm k <> "final".
Proof.
  intros E. assert (F : free_of slash (key n nm k)) by (rewrite E; cbn; repeat split; discriminate). destruct n as [|n]; cbn [key] in F.
  - destruct F as [F _]. apply F. reflexivity.
  - apply (not_free slash nm k F).
Qed.
Lemma dict_set_keys {A} k (v : A) d : forall x, In x (map fst (dict_set k v d)) <-> x = k \/ In x (map fst d).
Proof.
  induction d as [|[k' v'] d IH]; intros x; cbn [dict_set map fst In]; [intuition|]. destruct (String.eqb k k') eqn:E; cbn [map fst In].
  - apply String.eqb_eq in E. subst. intuition.
  - rewrite IH. intuition.
Qed.
Lemma dict_set_NoDup {A} k (v : A) d : NoDup (map fst d) -> NoDup (map fst (dict_set k v d)).
Proof.
  induction d as [|[k' v'] d IH]; intros H; cbn [dict_set map fst]; [repeat constructor; intros []|]. inversion H as [|? ? H1 H2]; subst. destruct (String.eqb k k') eqn:E; cbn [map fst].
  - apply String.eqb_eq in E. subst. exact H.
  - constructor; [|apply IH, H2]. rewrite dict_set_keys. intros [H3|H3]; [subst; rewrite String.eqb_refl in E; discriminate|auto].
Qed.
Lemma record_NoDup {V} n nm (d : list (string * list V)) : forall tr, NoDup (map fst tr) -> NoDup (map fst (record n nm d tr)).
Proof. unfold record. induction d as [|kv d IH]; intros tr H; [exact H|]. cbn [fold_left]. apply IH, dict_set_NoDup, H. Qed.
Lemma record_other {V} n nm (d : list (string * list V)) nm' k : free_of slash nm -> free_of slash nm' -> nm <> nm' -> forall tr, assoc (key n nm' k) (record n nm d tr) = assoc (key n nm' k) tr.
Proof.
  intros F1 F2 N. unfold record. induction d as [|kv d IH]; intros tr; [reflexivity|]. cbn [fold_left]. rewrite IH, assoc_set.
  destruct (String.eqb _ _) eqn:E; [|reflexivity]. apply String.eqb_eq in E. apply key_inj in E; [|assumption..]. destruct E. congruence.
Qed.
Lemma assoc_none {A} k (d : list (string * A)) : ~ In k (map fst d) -> assoc k d = None.
Proof. induction d as [|[k' v] d IH]; intros H; [reflexivity|]. cbn [assoc]. destruct (String.eqb k k') eqn:E; [apply String.eqb_eq in E; subst; exfalso; apply H; left; reflexivity|]. apply IH. intros H'. apply H. right. exact H'. Qed.
Lemma record_this {V} n nm (d : list (string * list V)) k v : free_of slash nm -> NoDup (map fst d) -> assoc k d = Some v -> forall tr, assoc (key n nm k) (record n nm d tr) = Some v.
Proof.
  intros F. induction d as [|[k' v'] d IH]; intros ND E tr; [discriminate|]. inversion ND as [|? ? N1 N2]; subst. unfold record. cbn [fold_left fst snd]. fold (record n nm d (dict_set (key n nm k') v' tr)).
  cbn [assoc] in E. destruct (String.eqb k k') eqn:Ek.
  - apply String.eqb_eq in Ek. subst k'. injection E as ->.
    assert (G : forall (d tr : list (string * list V)), ~ In k (map fst d) -> assoc (key n nm k) (record n nm d tr) = assoc (key n nm k) tr).
    { clear - F. induction d as [|[k' v'] d IH]; intros tr H; [reflexivity|]. unfold record. cbn [fold_left fst snd]. fold (record n nm d (dict_set (key n nm k') v' tr)).
      rewrite IH by (intros H'; apply H; right; exact H'). rewrite assoc_set. destruct (String.eqb _ _) eqn:E; [|reflexivity]. apply String.eqb_eq in E.
      apply key_inj in E; [|assumption..]. destruct E as [_ ->]. exfalso. apply H. left. reflexivity. }
    rewrite (G d _ N1), assoc_set, String.eqb_refl. reflexivity.
  - apply IH; assumption.
Qed.
Lemma nth_error_snoc {A} (l : list A) x i y : nth_error (l ++ [x]) i = Some y -> nth_error l i = Some y \/ (i = List.length l /\ y = x).
Proof.
  intros H. destruct (lt_eq_lt_dec i (List.length l)) as [[L|L]|L].
  - rewrite nth_error_app1 in H by exact L. auto.
  - subst i. rewrite nth_error_app2, Nat.sub_diag in H by lia. injection H as <-. auto.
  - assert (H' : (i < List.length (l ++ [x]))%nat) by (apply nth_error_Some; congruence). rewrite app_length in H'. cbn in H'. lia.
Qed.

Section Record.
  Context {V layer : Type} (replay : layer -> list (varg V) -> list (string * varg V) -> option (list (string * list V))).
  Hypothesis replay_dict : forall l a kw d, replay l a kw = Some d -> NoDup (map fst d).
  Notation model := (@model layer). Notation opobj := (@opobj layer).

  Definition recorded (k : nat) (log : list (opobj * list (string * list V))) (tr : list (string * list V)) : Prop :=
    forall i o dd nm kk v, nth_error log i = Some (o, dd) -> nth_error (rename_all [] (map (fun od => o_name (fst od)) log)) i = Some nm ->
      assoc kk dd = Some v -> assoc (key k nm kk) tr = Some v.
  Lemma trace_ops_dict sub k os : (forall m' vs d, sub m' vs = Some d -> NoDup (map fst d)) -> forall s s', trace_ops replay sub k os s = Some s' -> NoDup (map fst (s_trace s)) -> NoDup (map fst (s_trace s')).
  Proof.
    intros HS. induction os as [|o os IH]; intros s s' E H; cbn [trace_ops] in E; [injection E as <-; exact H|].
    destruct (trace_op replay sub k o s) as [s1|] eqn:E1; [|discriminate]. apply trace_op_log in E1. destruct E1 as [_ E1].
    apply (IH _ _ E). destruct (is_input o); [subst; exact H|]. destruct E1 as (d & f & c & nm & _ & _ & _ & _ & _ & Et). rewrite Et. apply record_NoDup, H.
  Qed.
  Lemma trace_dict fuel : forall k m ins d log, trace_model_log replay fuel k m ins = Some (d, log) -> NoDup (map fst d).
  Proof.
    induction fuel as [|fuel IH]; intros k m ins d log E; [discriminate|]. apply trace_inv in E. destruct E as (fuel' & levels & s & final & [= <-] & _ & E & -> & _).
    apply dict_set_NoDup. apply (trace_ops_dict _ _ _) in E; [exact E| |constructor]. intros m' vs d' H. destruct (trace_model_log replay fuel (S k) m' vs) as [[d'' l']|] eqn:E'; [|discriminate].
    injection H as <-. eapply IH, E'.
  Qed.
  Lemma trace_ops_recorded sub k os : (forall m' vs d, sub m' vs = Some d -> NoDup (map fst d)) ->
    Forall (fun o => free_of hash (o_name o) /\ free_of slash (o_name o)) os ->
    forall s s', trace_ops replay sub k os s = Some s' ->
    Forall (fun od => free_of hash (o_name (fst od)) /\ free_of slash (o_name (fst od)) /\ NoDup (map fst (snd od))) (s_log s) ->
    s_names s = name_state (map (fun od => o_name (fst od)) (s_log s)) -> recorded k (s_log s) (s_trace s) ->
    recorded k (s_log s') (s_trace s').
  Proof.
    intros HS. induction os as [|o os IH]; intros HF s s' E HL HN HR; cbn [trace_ops] in E; [injection E as <-; exact HR|].
    destruct (trace_op replay sub k o s) as [s1|] eqn:E0; [|discriminate]. inversion HF as [|? ? [Fh Fs] HF']; subst.
    assert (HD : forall d, In (o, d) (s_log s1) -> is_input o = false -> s_log s1 = s_log s ++ [(o, d)] -> NoDup (map fst d)).
    { intros d _ Hi Hl. unfold trace_op in E0. destruct (forallb _ _); [|discriminate]. destruct (opt_all _); [|discriminate]. destruct (replace_kwargs _ _); [|discriminate].
      unfold is_input in Hi. destruct (o_kind o) as [|ly|m']; [discriminate| |].
      - destruct (replay ly _ _) as [d'|] eqn:Er; [|discriminate]. destruct (assoc "final" d'); [|discriminate]. destruct (maybe_rename _ _). injection E0 as <-. cbn [s_log] in Hl.
        apply app_inv_head in Hl. injection Hl as <-. eapply replay_dict, Er.
      - destruct (all_arr _) as [vs|]; [|discriminate]. destruct (sub m' vs) as [d'|] eqn:Er; [|discriminate]. destruct (assoc "final" d'); [|discriminate]. destruct (maybe_rename _ _). injection E0 as <-. cbn [s_log] in Hl.
        apply app_inv_head in Hl. injection Hl as <-. eapply HS, Er. }
    apply trace_op_log in E0. destruct E0 as [_ E1]. destruct (is_input o) eqn:Ei; [subst s1; apply (IH HF' _ _ E HL HN HR)|].
    destruct E1 as (d & f & c & nm & El & _ & _ & En & Ec & Et).
    assert (NDd : NoDup (map fst d)) by (apply HD; [rewrite El; apply in_or_app; right; left; reflexivity|reflexivity|exact El]).
    set (names := map (fun od => o_name (fst od)) (s_log s)) in *.
    assert (Enm : nm = snd (maybe_rename (name_state names) (o_name o))) by (rewrite <- HN, En; reflexivity).
    assert (Hnames : map (fun od => o_name (fst od)) (s_log s1) = names ++ [o_name o]) by (rewrite El, map_app; reflexivity).
    assert (HL1 : Forall (fun od => free_of hash (o_name (fst od)) /\ free_of slash (o_name (fst od)) /\ NoDup (map fst (snd od))) (s_log s1)).
    { rewrite El. apply Forall_app. split; [exact HL|]. constructor; [|constructor]. cbn [fst snd]. auto. }
    apply (IH HF' _ _ E HL1).
    - rewrite Hnames, name_state_snoc, <- HN, En, Ec. reflexivity.
    - intros i o' dd nm' kk v Hi Hn Hk. rewrite Hnames in Hn. rewrite El in Hi. rewrite Et.
      assert (FN : Forall (free_of hash) (names ++ [o_name o])).
      { rewrite <- Hnames. rewrite Forall_map. eapply Forall_impl; [|exact HL1]. intros a (H1 & _). exact H1. }
      assert (FS : Forall (free_of slash) (names ++ [o_name o])).
      { rewrite <- Hnames. rewrite Forall_map. eapply Forall_impl; [|exact HL1]. intros a (_ & H1 & _). exact H1. }
      pose proof (rename_distinct _ FN []) as ND. pose proof (rename_all_free _ FS []) as FF.
      rewrite rename_all_snoc, <- Enm in Hn, ND, FF.
      assert (FFn : free_of slash nm) by (apply FF, in_or_app; right; left; reflexivity).
      assert (L1 : List.length (rename_all [] names) = List.length (s_log s)) by (rewrite rename_all_length; apply map_length).
      apply nth_error_snoc in Hi. destruct Hi as [Hi|[Hi Ho]].
      + assert (Hlt : (i < List.length (s_log s))%nat) by (apply nth_error_Some; congruence).
        rewrite nth_error_app1 in Hn by lia. pose proof (nth_error_In _ _ Hn) as HIn.
        rewrite record_other; [apply (HR i o' dd); assumption|exact FFn|apply FF, in_or_app; left; exact HIn|].
        intros <-. apply NoDup_remove_2 in ND. rewrite app_nil_r in ND. auto.
      + injection Ho as -> ->. rewrite nth_error_app2 in Hn by lia. rewrite Hi, <- L1, Nat.sub_diag in Hn. injection Hn as <-. apply record_this; assumption.
  Qed.
  Lemma trace_recorded fuel k m ins d log : (forall o, In o (all_ops m) -> free_of hash (o_name o) /\ free_of slash (o_name o)) ->
    trace_model_log replay fuel k m ins = Some (d, log) -> recorded k log d.
  Proof.
    intros HF E. apply trace_inv in E. destruct E as (fuel' & levels & s & final & -> & EP & E & -> & ->).
    assert (HFl : Forall (fun o => free_of hash (o_name o) /\ free_of slash (o_name o)) (concat levels)).
    { apply Forall_forall. intros o Ho. apply HF. apply in_concat in Ho. destruct Ho as (os & H1 & H2). unfold parse_model in EP. destruct (m_nodes_by_depth m) as [|e l] eqn:El; [discriminate|]. rewrite <- El in EP.
      apply opt_all_some in EP. assert (H3 : In (Some os) (map Some levels)) by (apply in_map, H1). rewrite <- EP in H3. apply in_map_iff in H3. destruct H3 as (dd & H3 & _).
      apply depth_get_in in H3. apply all_ops_at. exists dd, os. auto. }
    apply (trace_ops_recorded _ _ _) in E.
    - intros i o dd nm kk v H1 H2 H3. rewrite assoc_set. destruct (String.eqb _ _) eqn:Ek; [apply String.eqb_eq in Ek; exfalso; apply (key_not_final _ _ _ Ek)|]. eapply E; eassumption.
    - intros m' vs d' H. destruct (trace_model_log replay fuel' (S k) m' vs) as [[d'' l']|] eqn:E'; [|discriminate]. injection H as <-. eapply trace_dict, E'.
    - exact HFl.
    - constructor.
    - reflexivity.
    - intros i o dd nm kk v H. destruct i; discriminate.
  Qed.
End Record.
