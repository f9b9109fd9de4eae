(** Relational lifting of the tracer: if every layer's replay is related to the layer, the traced model is related to the model. *)
From Coq Require Import String.
From Verif Require Import Num M_Trace S_Trace L_Trace.
Local Open Scope string_scope. Local Open Scope list_scope.

Section Lift.
  Context {V1 V2 layer : Type} (R : V1 -> V2 -> Prop).
  Inductive rel_varg : varg V1 -> varg V2 -> Prop :=
    | RArr x v : R x v -> rel_varg (VArr x) (VArr v)
    | RList l l' : Forall2 rel_varg l l' -> rel_varg (VList l) (VList l')
    | RConst n : rel_varg (VConst n) (VConst n).
  Definition rel_kw (a : string * varg V1) (b : string * varg V2) : Prop := fst a = fst b /\ rel_varg (snd a) (snd b).
  Context (keras : layer -> list (varg V1) -> list (string * varg V1) -> option (list (string * list V1))).
  Context (replay : layer -> list (varg V2) -> list (string * varg V2) -> option (list (string * list V2))).
  Context (P : layer -> Prop).
  Context (HL : forall l args kw d fin args' kw', P l -> keras l args kw = Some d -> assoc "final" d = Some fin ->
    Forall2 rel_varg args args' -> Forall2 rel_kw kw kw' ->
    exists d' fin', replay l args' kw' = Some d' /\ assoc "final" d' = Some fin' /\ Forall2 R fin fin').
  Notation model := (@model layer). Notation opobj := (@opobj layer).

  Definition rel_tm (tm : list (string * V2)) (val : string -> option V1) : Prop :=
    forall t v, assoc t tm = Some v -> exists x, val t = Some x /\ R x v.

  Lemma rel_arg tm val a x : rel_tm tm val -> (forall t, In t (tensors_of a) -> dom tm t) -> arg_value val a = Some x ->
    exists y, replace_tensors tm a = Some y /\ rel_varg x y.
  Proof.
    intros HV. revert x. induction a as [t|l IH|n] using arg_ind'; intros x HD E.
    - cbn [replace_tensors arg_value] in *. specialize (HD t (or_introl eq_refl)). unfold dom in HD.
      destruct (assoc t tm) as [v|] eqn:Ea; [|congruence]. destruct (HV t v Ea) as (w & Ew & Rw). rewrite Ew in E. injection E as <-.
      eexists. split; [reflexivity|constructor; exact Rw].
    - cbn [replace_tensors arg_value] in *. destruct (opt_all (map (arg_value val) l)) as [vs|] eqn:Ev; [|discriminate]. injection E as <-.
      apply opt_all_some in Ev. assert (Er : exists ys, map (replace_tensors tm) l = map Some ys /\ Forall2 rel_varg vs ys).
      { revert vs Ev. cbn [tensors_of] in HD. induction IH as [|a l Ha IHl IHrec]; intros vs Ev; [destruct vs; [exists []; split; [reflexivity|constructor]|discriminate]|].
        destruct vs as [|v vs]; [discriminate|]. cbn [map] in *. injection Ev as Ea El.
        destruct (Ha v) as (y & Ey & Ry); [intros t Ht; apply HD; cbn [flat_map]; apply in_or_app; left; exact Ht|exact Ea|].
        destruct (IHrec) with (vs := vs) as (ys & Eys & Rys); [intros t Ht; apply HD; cbn [flat_map]; apply in_or_app; right; exact Ht|exact El|].
        exists (y :: ys). cbn [map]. rewrite Ey, Eys. split; [reflexivity|constructor; assumption]. }
      destruct Er as (ys & Er & Ry). apply opt_all_some in Er. rewrite Er. eexists. split; [reflexivity|constructor; exact Ry].
    - cbn [arg_value] in E. injection E as <-. eexists. split; [reflexivity|constructor].
  Qed.
  Lemma rel_args tm val l xs : rel_tm tm val -> (forall a, In a l -> forall t, In t (tensors_of a) -> dom tm t) ->
    map (arg_value val) l = map Some xs -> exists ys, opt_all (map (replace_tensors tm) l) = Some ys /\ Forall2 rel_varg xs ys.
  Proof.
    intros HV. revert xs. induction l as [|a l IH]; intros xs HD E; [destruct xs; [exists []; split; [reflexivity|constructor]|discriminate]|].
    destruct xs as [|x xs]; [discriminate|]. cbn [map] in *. injection E as Ea El.
    destruct (rel_arg tm val a x HV (HD a (or_introl eq_refl)) Ea) as (y & Ey & Ry).
    destruct (IH xs (fun b Hb => HD b (or_intror Hb)) El) as (ys & Eys & Rys).
    exists (y :: ys). cbn [opt_all]. rewrite Ey, Eys. split; [reflexivity|constructor; assumption].
  Qed.
  Lemma rel_kwargs tm val l xs : rel_tm tm val -> (forall ka, In ka l -> forall t, In t (tensors_of (snd ka)) -> dom tm t) ->
    map (fun ka => (fst ka, arg_value val (snd ka))) l = map (fun ka => (fst ka, Some (snd ka))) xs ->
    exists ys, replace_kwargs tm l = Some ys /\ Forall2 rel_kw xs ys.
  Proof.
    intros HV. unfold replace_kwargs. revert xs. induction l as [|[k a] l IH]; intros xs HD E; [destruct xs; [exists []; split; [reflexivity|constructor]|discriminate]|].
    destruct xs as [|[k' x] xs]; [discriminate|]. cbn [map fst snd] in *. injection E as Ek Ea El. subst k'.
    destruct (rel_arg tm val a x HV (HD (k, a) (or_introl eq_refl)) Ea) as (y & Ey & Ry).
    destruct (IH xs (fun b Hb => HD b (or_intror Hb)) El) as (ys & Eys & Rys).
    exists ((k, y) :: ys). cbn [opt_all]. rewrite Ey, Eys. split; [reflexivity|constructor; [split; [reflexivity|exact Ry]|exact Rys]].
  Qed.
  Lemma set_zip_rel ks : forall tm vs xs val, rel_tm tm val -> map val ks = map Some xs -> Forall2 R xs vs -> rel_tm (set_zip tm ks vs) val.
  Proof.
    induction ks as [|k ks IH]; intros tm vs xs val HV E HR; destruct xs as [|x xs]; try discriminate; inversion HR as [|x' v xs' vs' Rx Rxs]; subst; cbn [set_zip]; [exact HV|].
    cbn [map] in E. injection E as Ek El. apply (IH _ _ xs); [|exact El|exact Rxs]. intros t w. rewrite assoc_set. destruct (String.eqb t k) eqn:Et; [|apply HV].
    apply String.eqb_eq in Et. subst t. intros [= <-]. exists x. split; [exact Ek|exact Rx].
  Qed.
  Lemma all_arr_rel (val : string -> option V1) args vargs ws : (forall a, In a args -> exists t, a = ATensor t) -> map (arg_value val) args = map Some vargs ->
    Forall2 rel_varg vargs ws -> exists vs, all_arr ws = Some vs /\ Forall2 R (flat_map arrays_of vargs) vs.
  Proof.
    revert vargs ws. induction args as [|a args IH]; intros vargs ws HD E HR; destruct vargs as [|v vargs]; try discriminate; inversion HR as [|v' w vargs' ws' Rv Rvs]; subst; [exists []; split; [reflexivity|constructor]|].
    cbn [map] in E. injection E as Ea El. destruct (HD a (or_introl eq_refl)) as (t & ->). cbn [arg_value] in Ea.
    destruct (val t) as [x|]; [|discriminate]. injection Ea as <-. inversion Rv as [x' v Rx| |]; subst. cbn [all_arr flat_map arrays_of app].
    destruct (IH vargs ws' (fun b Hb => HD b (or_intror Hb)) El Rvs) as (vs & Evs & Rvs'). rewrite Evs. exists (v :: vs). split; [reflexivity|constructor; assumption].
  Qed.

  Lemma Forall2_length' {A B} (Q : A -> B -> Prop) l l' : Forall2 Q l l' -> List.length l = List.length l'.
  Proof. induction 1; cbn; congruence. Qed.

  (** every layer of the model and of the nested models satisfies P *)
  Fixpoint layers_ok (fuel : nat) (m : model) : Prop :=
    match fuel with
    | 0%nat => True
    | S fuel' => forall o, In o (all_ops m) -> match o_kind o with KInput => True | KLayer l => P l | KModel sub => layers_ok fuel' sub end
    end.
  Lemma trace_lift fuel : forall k m ins outs ins', well_formed fuel m -> layers_ok fuel m -> evaluates keras fuel m ins outs -> Forall2 R ins ins' ->
    exists d outs', trace_model replay fuel k m ins' = Some d /\ assoc "final" d = Some outs' /\ Forall2 R outs outs'.
  Proof.
    induction fuel as [|fuel IH]; intros k m ins outs ins' WF OK EV RI; [destruct WF|].
    cbn [well_formed] in WF. destruct WF as (ND & HD & HO & HW). cbn [evaluates] in EV. destruct EV as (val & EI & EO & HE).
    cbn [layers_ok] in OK.
    destruct (contiguous_parse m (conj ND HD)) as (D & lv & EP & HK & HAt).
    unfold trace_model. cbn [trace_model_log]. rewrite <- (Forall2_length' _ _ _ RI), (proj2 (Nat.eqb_eq _ _) (map_some_length val _ _ EI)), EP.
    set (sub := fun m' vs => match trace_model_log replay fuel (S k) m' vs with Some (d, _) => Some d | None => None end).
    assert (Hsub : forall m' xs vs outs', well_formed fuel m' -> layers_ok fuel m' -> evaluates keras fuel m' xs outs' -> Forall2 R xs vs ->
      exists d zs, sub m' vs = Some d /\ assoc "final" d = Some zs /\ Forall2 R outs' zs).
    { intros m' xs vs outs' W O E F. exact (IH (S k) m' xs outs' vs W O E F). }
    (* one operation *)
    assert (Step : forall d o s, op_at m d o -> rel_tm (s_tm s) val -> (forall t, In t (o_requires o) -> dom (s_tm s) t) ->
      exists s', trace_op replay sub k o s = Some s' /\ rel_tm (s_tm s') val /\ (forall t, dom (s_tm s) t -> dom (s_tm s') t) /\
        (is_input o = false -> forall t, In t (o_produces o) -> dom (s_tm s') t)).
    { intros d o s Ho HV HR. destruct (HW d o Ho) as (_ & Ha & Hk & Hm). unfold trace_op. rewrite (forallb_dom _ _ HR).
      assert (Hin : In o (all_ops m)) by (apply all_ops_at; eauto).
      destruct (is_input o) eqn:Ei.
      - unfold is_input in Ei. destruct (o_kind o) eqn:Ek; try discriminate.
        destruct (opt_all_total (replace_tensors (s_tm s)) (o_args o)) as (xs & ->).
        { intros a Hin'. apply replace_total. intros t Ht. apply HR, (Ha a Hin' t Ht). }
        assert (EK : exists ys, replace_kwargs (s_tm s) (o_kwargs o) = Some ys).
        { unfold replace_kwargs. apply opt_all_total. intros ka Hin'. pose proof (replace_total (s_tm s) (snd ka) (fun t Ht => HR t (Hk ka Hin' t Ht))).
          destruct (replace_tensors (s_tm s) (snd ka)); congruence. }
        destruct EK as (ys & ->). exists s. split; [reflexivity|]. split; [exact HV|]. split; [auto|discriminate].
      - destruct (HE o Hin Ei) as (args & kwargs & final & E1 & E2 & E3 & E4).
        destruct (rel_args (s_tm s) val _ _ HV (fun a H t Ht => HR t (Ha a H t Ht)) E1) as (args' & -> & RA).
        destruct (rel_kwargs (s_tm s) val _ _ HV (fun a H t Ht => HR t (Hk a H t Ht)) E2) as (kwargs' & -> & RK).
        assert (Hd : exists dd final', match o_kind o with KModel m0 => match all_arr args' with Some vs => sub m0 vs | None => None end | KLayer l => replay l args' kwargs' | KInput => None end = Some dd /\ assoc "final" dd = Some final' /\ Forall2 R final final').
        { specialize (OK o Hin). unfold is_input in Ei. destruct (o_kind o) as [|l|m'] eqn:Ek; [discriminate| |].
          - destruct E4 as (dk & Ek1 & Ek2). exact (HL l args kwargs dk final args' kwargs' OK Ek1 Ek2 RA RK).
          - destruct (Hm m' eq_refl) as [Hdir Hwf]. destruct (all_arr_rel val _ _ _ Hdir E1 RA) as (vs & -> & Rvs). apply (Hsub m' _ vs final Hwf OK E4 Rvs). }
        destruct Hd as (dd & final' & Ed & Ef & RF). unfold is_input in Ei.
        destruct (maybe_rename (s_names s) (o_name o)) as [c nm] eqn:En.
        exists (mk_tstate (set_zip (s_tm s) (o_produces o) final') (record k nm dd (s_trace s)) c (s_log s ++ [(o, dd)])). split.
        + destruct (o_kind o) as [|l|m'] eqn:Ek; [discriminate| |]; [rewrite Ed, Ef; reflexivity|]. rewrite Ed, Ef; reflexivity.
        + cbn [s_tm]. split; [exact (set_zip_rel _ _ _ _ _ HV E3 RF)|]. pose proof (map_some_length val _ _ E3) as L. rewrite (Forall2_length' _ _ _ RF) in L. split.
          * intros t Ht. apply set_zip_dom; auto.
          * intros _ t Ht. apply set_zip_dom; auto. }
    (* one level *)
    assert (Level : forall d os s, (forall o, In o os -> op_at m d o) -> rel_tm (s_tm s) val ->
      (forall t o, In o os -> In t (o_requires o) -> dom (s_tm s) t) ->
      exists s', trace_ops replay sub k os s = Some s' /\ rel_tm (s_tm s') val /\ (forall t, dom (s_tm s) t -> dom (s_tm s') t) /\
        (forall o t, In o os -> is_input o = false -> In t (o_produces o) -> dom (s_tm s') t)).
    { intros d os. induction os as [|o os IHos]; intros s Hos HV HR.
      - exists s. split; [reflexivity|]. split; [exact HV|]. split; [auto|]. intros o t [].
      - destruct (Step d o s (Hos o (or_introl eq_refl)) HV (fun t => HR t o (or_introl eq_refl))) as (s1 & E1 & W1 & M1 & P1).
        destruct (IHos s1 (fun o' H => Hos o' (or_intror H)) W1 (fun t o' H H' => M1 t (HR t o' (or_intror H) H'))) as (s2 & E2 & W2 & M2 & P2).
        exists s2. split; [cbn [trace_ops]; rewrite E1; exact E2|]. split; [exact W2|]. split; [auto|].
        intros o' t [<-|H] Hi Ht; [apply M2, P1; assumption|eapply P2; eassumption]. }
    (* all levels below [n] *)
    assert (Levels : forall n s, (n <= S D)%nat -> rel_tm (s_tm s) val -> (forall t, In t (m_inputs m) -> dom (s_tm s) t) ->
      (forall d o t, (n <= d)%nat -> op_at m d o -> is_input o = false -> In t (o_produces o) -> dom (s_tm s) t) ->
      exists s', trace_ops replay sub k (concat (map lv (rev (seq 0 n)))) s = Some s' /\ rel_tm (s_tm s') val /\
        (forall t, dom (s_tm s) t -> dom (s_tm s') t) /\ (forall d o t, op_at m d o -> is_input o = false -> In t (o_produces o) -> dom (s_tm s') t)).
    { induction n as [|n IHn]; intros s Hn HV HI HP.
      - exists s. split; [reflexivity|]. split; [exact HV|]. split; [auto|]. intros d o t. apply HP. lia.
      - rewrite rev_seq_S. cbn [map concat]. rewrite trace_ops_app.
        assert (Hos : forall o, In o (lv n) -> op_at m n o) by (intros o Ho; apply HAt; split; [lia|exact Ho]).
        destruct (Level n (lv n) s Hos HV) as (s1 & E1 & W1 & M1 & P1).
        { intros t o Ho Ht. destruct (HW n o (Hos o Ho)) as (Hr & _). destruct (Hr t Ht) as [H|(d' & o' & L & At' & Hi & Hp)]; [apply HI, H|].
          apply (HP d' o' t); [lia|exact At'|exact Hi|exact Hp]. }
        rewrite E1. destruct (IHn s1) as (s2 & E2 & W2 & M2 & P2); [lia|exact W1|auto| |].
        { intros d o t Hd Ho Hi Ht. destruct (Nat.eq_dec d n) as [->|Hne]; [apply (P1 o t); [apply HAt in Ho; apply Ho|exact Hi|exact Ht]|].
          apply M1, (HP d o t); [lia|exact Ho|exact Hi|exact Ht]. }
        exists s2. split; [exact E2|]. split; [exact W2|]. split; [auto|exact P2]. }
    set (s0 := mk_tstate (set_zip [] (m_inputs m) ins') [] [] []).
    pose proof (map_some_length val _ _ EI) as LI. rewrite (Forall2_length' _ _ _ RI) in LI.
    assert (V0 : rel_tm (s_tm s0) val) by (apply (set_zip_rel _ _ _ ins); [intros t v; discriminate|exact EI|exact RI]).
    assert (I0 : forall t, In t (m_inputs m) -> dom (s_tm s0) t) by (intros t Ht; apply set_zip_dom; [exact LI|auto]).
    destruct (Levels (S D) s0 (Nat.le_refl _) V0 I0) as (s1 & E1 & W1 & M1 & P1).
    { intros d o t Hd Ho. apply HAt in Ho. lia. }
    rewrite E1.
    assert (EF : exists outs', opt_all (map (fun t => assoc t (s_tm s1)) (m_outputs m)) = Some outs' /\ Forall2 R outs outs').
    { assert (HDo : forall t, In t (m_outputs m) -> dom (s_tm s1) t).
      { intros t Ht. destruct (HO t Ht) as [H|(d & o & Ho & Hi & Hp)]; [apply M1, I0, H|eapply P1; eassumption]. }
      clear - W1 HDo EO. revert outs EO. induction (m_outputs m) as [|t l IHl]; intros outs EO; destruct outs as [|y outs]; try discriminate; [exists []; split; [reflexivity|constructor]|].
      cbn [map] in EO. injection EO as Et El. destruct (IHl (fun u Hu => HDo u (or_intror Hu)) outs El) as (zs & Ez & Rz).
      pose proof (HDo t (or_introl eq_refl)) as Hd. unfold dom in Hd. cbn [map opt_all]. destruct (assoc t (s_tm s1)) as [v|] eqn:Ea; [|congruence].
      rewrite Ez. destruct (W1 t v Ea) as (x & Ex & Rx). exists (v :: zs). split; [reflexivity|constructor; [congruence|exact Rz]]. }
    destruct EF as (outs' & EF & RF). rewrite EF. eexists. exists outs'. split; [reflexivity|]. split; [rewrite assoc_set; reflexivity|exact RF].
  Qed.
End Lift.
