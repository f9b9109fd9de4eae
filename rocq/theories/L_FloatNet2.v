(** Lemmas for C61: layers and networks. *)
From Coq Require Import String Permutation.
From Verif Require Import Num M_Fixed L_Fixed M_State M_Wrapper M_Mapper S_Mapper L_Mapper M_Contr M_Ebops L_Ebops M_Pow2 M_Patch L_Patch M_Ops L_Ops M_Mirror L_Mirror M_Trace S_Trace L_Trace L_Lift M_Net S_Net L_Net L_Net2 L_Net3 L_Net4 L_Net5 M_Causal L_Causal M_Calib S_Ops S_Calib L_Calib L_Calib2 M_FloatNet S_FloatNet L_FloatNum L_FloatQuant L_FloatNet.
Local Open Scope list_scope.

Notation dict := (list (string * list (tensor Q))).
Definition act_ok (l : layer) : Prop := match l with LPlain _ a | LQ _ _ a _ => forall p q, p == q -> act_fn a p == act_fn a q end.
Lemma value_act_ok l : value_act l -> act_ok l.
Proof. destruct l as [c [| |f]|iq c [| |f] oq]; cbn [value_act act_ok act_fn]; intros H; try exact relu_ext; try exact H; auto. Qed.
Lemma one_arg_same args args' x : Forall2 (rel_varg same_tensor) args args' -> one_arg args = Some x -> exists v, one_arg args' = Some v /\ same_inputs x v.
Proof.
  intros F H. destruct F as [|a a' args args' Ra F]; [discriminate|]. destruct F as [|a2 a2' args args' Ra2 F]; [|destruct a; discriminate].
  destruct Ra as [x0 v0 R0|l l' Rl|k]; cbn [one_arg] in *; [apply some_inj in H; subst x; eexists; split; [reflexivity|exact R0]| |discriminate].
  destruct (all_arr l) as [vs|] eqn:E; [|discriminate]. cbn [bind] in H. apply some_inj in H. subst x.
  assert (G : exists ws, all_arr l' = Some ws /\ Forall2 same_tensor vs ws).
  { revert vs E. induction Rl as [|a a' l l' Ra Rl IH]; intros vs E; [cbn in *; injection E as <-; exists []; split; [reflexivity|constructor]|].
    destruct Ra as [x0 v0 R0| |]; cbn [all_arr] in *; try discriminate. destruct (all_arr l) as [vs'|] eqn:E'; [|discriminate]. injection E as <-.
    destruct (IH vs' eq_refl) as (ws & -> & Hws). exists (v0 :: ws). split; [reflexivity|constructor; assumption]. }
  destruct G as (ws & -> & Hws). cbn [bind]. eexists. split; [reflexivity|exact Hws].
Qed.
Lemma no_kwargs_same kw kw' : Forall2 (rel_kw same_tensor) kw kw' -> no_kwargs kw = true -> kw' = [].
Proof. intros F H. destruct F; [reflexivity|discriminate]. Qed.
Lemma training_off_same kw kw' : Forall2 (rel_kw same_tensor) kw kw' -> training_off kw = true -> training_off kw' = true.
Proof.
  intros F H. destruct F as [|[k a] [k' a'] kw kw' (Ek & Ra) F]; [reflexivity|]. cbn [fst snd] in *. subst k'. destruct Ra as [x0 v0 R0|l l' Rl|c]; cbn [training_off] in H; try discriminate.
  destruct c as [|c]; try discriminate. destruct F; [|discriminate]. exact H.
Qed.
(** the value of a layer *)
Definition layer_val (A : arith) (l : layer) (x : tin) (kw : kwargs_t) : option (tensor Q) :=
  match l with
  | LPlain c a => if no_kwargs kw then do y <- core_in A c x; Some (tmap (act_fn a) y) else None
  | LQ iq c a oq =>
      if training_off kw then
        do x <- match iq with Some q => iq_in A q x | None => Some x end;
        do y <- core_in A c x;
        let y := tmap (act_fn a) y in
        match oq with Some q => quant_in A q y | None => Some y end
      else None
  end.
Lemma layer_in_val A l args kw : layer_in A l args kw = do x <- one_arg args; do y <- layer_val A l x kw; Some [("final"%string, [y])].
Proof. reflexivity. Qed.
Lemma layer_val_same A B l x x' kw kw' y : refines A B -> act_ok l -> same_inputs x x' -> Forall2 (rel_kw same_tensor) kw kw' -> layer_val A l x kw = Some y ->
  exists y', layer_val B l x' kw' = Some y' /\ same_tensor y y'.
Proof.
  intros R L S K. destruct l as [c a|iq c a oq]; cbn [layer_val act_ok] in *.
  - destruct (no_kwargs kw) eqn:N; [|discriminate]. rewrite (no_kwargs_same _ _ K N). cbn [no_kwargs]. destruct (core_in A c x) as [u|] eqn:E; [|discriminate]. cbn [bind]. intros H. apply some_inj in H. subst y.
    destruct (core_in_same A B c x x' u R S E) as (u' & -> & Su). cbn [bind]. eexists. split; [reflexivity|apply st_tmap; assumption].
  - destruct (training_off kw) eqn:N; [|discriminate]. rewrite (training_off_same _ _ K N).
    set (P := match iq with Some q => iq_in A q x | None => Some x end). destruct P as [x1|] eqn:EP; [|discriminate]. cbn [bind]. subst P.
    assert (H1 : exists x1', match iq with Some q => iq_in B q x' | None => Some x' end = Some x1' /\ same_inputs x1 x1').
    { destruct iq as [q|]; [exact (iq_in_same A B q x x' x1 R S EP)|]. apply some_inj in EP. subst x1. exists x'. auto. }
    destruct H1 as (x1' & -> & S1). cbn [bind]. destruct (core_in A c x1) as [u|] eqn:E; [|discriminate]. cbn [bind]. cbv zeta.
    destruct (core_in_same A B c x1 x1' u R S1 E) as (u' & -> & Su). cbn [bind]. assert (Sa : same_tensor (tmap (act_fn a) u) (tmap (act_fn a) u')) by (apply st_tmap; assumption).
    destruct oq as [q|]; [exact (quant_in_same A B q _ _ y R Sa)|]. intros H. apply some_inj in H. subst y. eexists. split; [reflexivity|exact Sa].
Qed.
Lemma quant_exact_same q x x' y : same_tensor x x' -> quant_in exact_arith q x = Some y -> exists z, quant_call q x' = Some z /\ same_tensor y z.
Proof.
  intros S H. destruct (quant_exact_call q x y H) as (w & Ew & Sw). destruct (quant_call_same q x x' w S Ew) as (w' & Ew' & Sw'). exists w'. split; [exact Ew'|]. eapply st_trans; eassumption.
Qed.
Lemma layer_val_exact l args x kw y : act_ok l -> one_arg args = Some x -> layer_val exact_arith l x kw = Some y -> exists z, keras_layer l args kw = Some [("final"%string, [z])] /\ same_tensor y z.
Proof.
  intros L E. unfold keras_layer. rewrite E. cbn [bind]. destruct l as [c a|iq c a oq]; cbn [layer_val act_ok] in *.
  - destruct (no_kwargs kw); [|discriminate]. destruct (core_in exact_arith c x) as [u|] eqn:Eu; [|discriminate]. cbn [bind]. intros H. apply some_inj in H. subst y.
    destruct (core_exact c x u Eu) as (z & -> & Sz). cbn [bind]. eexists. split; [reflexivity|apply st_tmap; assumption].
  - destruct (training_off kw); [|discriminate]. match goal with |- bind ?e _ = _ -> _ => destruct e as [x1|] eqn:EP; [|discriminate] end. cbn [bind].
    assert (H1 : exists x1', match iq with Some q => iq_call q x | None => Some x end = Some x1' /\ same_inputs x1 x1').
    { destruct iq as [q|]; [exact (iq_exact q x x1 EP)|]. apply some_inj in EP. subst x1. exists x. split; [reflexivity|]. destruct x; cbn [same_inputs]; [apply st_refl|]. apply Forall2_diag. intros. apply st_refl. }
    destruct H1 as (x1' & -> & S1). cbn [bind]. destruct (core_in exact_arith c x1) as [u|] eqn:Eu; [|discriminate]. cbn [bind]. cbv zeta.
    destruct (core_exact c x1 u Eu) as (z & Ez & Sz). destruct (core_same c c x1 x1' z (core_sim_refl c) S1 Ez) as (z' & -> & Sz'). cbn [bind].
    assert (Sa : same_tensor (tmap (act_fn a) u) (tmap (act_fn a) z')) by (apply st_tmap; [exact L|eapply st_trans; eassumption]).
    destruct oq as [q|].
    + intros H. destruct (quant_exact_same q _ _ y Sa H) as (w & -> & Sw). cbn [bind]. exists w. auto.
    + intros H. apply some_inj in H. subst y. cbn [bind]. eexists. split; [reflexivity|exact Sa].
Qed.
Lemma kw_refl kw : Forall2 (rel_kw same_tensor) kw kw.
Proof.
  apply Forall2_diag. intros [k a]. split; [reflexivity|]. cbn [snd]. revert a. fix IH 1. intros [x|l|n]; constructor; [apply st_refl|].
  induction l as [|v l IHl]; constructor; [apply IH|exact IHl].
Qed.
(** a layer nothing of which is refused: binary32 gives the exact value *)
Lemma layer_float ord l args kw d fin args' kw' : sums_all ord -> value_act l -> checked_layer l args kw = Some d -> assoc "final"%string d = Some fin ->
  Forall2 (rel_varg same_tensor) args args' -> Forall2 (rel_kw same_tensor) kw kw' ->
  exists d' fin', fl_layer ord l args' kw' = Some d' /\ assoc "final"%string d' = Some fin' /\ Forall2 same_tensor fin fin'.
Proof.
  intros O V C F FA FK. apply value_act_ok in V. unfold checked_layer in C. destruct (layer_in checked_arith l args kw) as [dc|] eqn:E; [|discriminate]. rewrite layer_in_val in E.
  destruct (one_arg args) as [x|] eqn:Ex; [|discriminate]. cbn [bind] in E. destruct (one_arg_same _ _ _ FA Ex) as (v & Ev & Sx). destruct (layer_val checked_arith l x kw) as [y|] eqn:Ey; [|discriminate].
  destruct (layer_val_same _ _ l x v kw kw' y (checked_float (ord l) (O l)) V Sx FK Ey) as (y1 & E1 & S1).
  assert (Sr : same_inputs x x) by (destruct x; cbn [same_inputs]; [apply st_refl|]; apply Forall2_diag; intros; apply st_refl).
  destruct (layer_val_same _ _ l x x kw kw y checked_exact V Sr (kw_refl kw) Ey) as (y2 & E2 & S2). destruct (layer_val_exact l args x kw y2 V Ex E2) as (z & Ez & Sz).
  rewrite Ez in C. apply some_inj in C. subst d. cbn in F. injection F as <-. unfold fl_layer. rewrite layer_in_val, Ev. cbn [bind]. rewrite E1. cbn [bind]. eexists. eexists. split; [reflexivity|]. split; [reflexivity|].
  constructor; [|constructor]. apply st_sym. eapply st_trans; [apply st_sym, S1|]. eapply st_trans; eassumption.
Qed.
Lemma evaluates_mono (f g : layer -> list (varg (tensor Q)) -> kwargs_t -> option dict) : (forall l args kw d, f l args kw = Some d -> g l args kw = Some d) ->
  forall fuel m xs ys, evaluates f fuel m xs ys -> evaluates g fuel m xs ys.
Proof.
  intros H. induction fuel as [|fuel IH]; intros m xs ys E; [exact E|]. cbn [evaluates] in *. destruct E as (val & EI & EO & HE). exists val. split; [exact EI|]. split; [exact EO|].
  intros o Ho Hi. destruct (HE o Ho Hi) as (args & kw & fin & A & B & C & D). exists args, kw, fin. split; [exact A|]. split; [exact B|]. split; [exact C|]. destruct (o_kind o); [exact I| |apply IH, D].
  destruct D as (d & D1 & D2). exists d. split; [apply H, D1|exact D2].
Qed.
Lemma checked_keras l args kw d : checked_layer l args kw = Some d -> keras_layer l args kw = Some d.
Proof. unfold checked_layer. destruct (layer_in checked_arith l args kw); [auto|discriminate]. Qed.
Lemma layers_ok_of (P : layer -> Prop) fuel : forall (m : model layer), all_layers P fuel m -> layers_ok P fuel m.
Proof.
  induction fuel as [|fuel IH]; intros m H; [exact I|]. cbn [all_layers layers_ok] in *. intros o Ho. specialize (H o Ho). destruct (o_kind o); [exact I|exact H|apply IH, H].
Qed.
Lemma network_float ord fuel m xs ys xs' : sums_all ord -> well_formed fuel m -> all_layers value_act fuel m -> evaluates checked_layer fuel m xs ys -> Forall2 same_tensor xs xs' ->
  exists d ys', run_fl ord fuel m xs' = Some d /\ assoc "final"%string d = Some ys' /\ Forall2 same_tensor ys ys'.
Proof.
  intros O W L E F. exact (trace_lift same_tensor checked_layer (fl_layer ord) value_act (fun l args kw d fin args' kw' => layer_float ord l args kw d fin args' kw' O) fuel 0 m xs ys xs' W (layers_ok_of _ _ _ L) E F).
Qed.
Lemma network_float_unique ord fuel m xs ys xs' ys' : sums_all ord -> well_formed fuel m -> all_layers value_act fuel m -> evaluates checked_layer fuel m xs ys -> Forall2 same_tensor xs xs' ->
  evaluates (fl_layer ord) fuel m xs' ys' -> Forall2 same_tensor ys ys'.
Proof.
  intros O W L E F E'. destruct (network_float ord fuel m xs ys xs' O W L E F) as (d & zs & R & A & S). destruct (trace_correct (fl_layer ord) fuel 0 m xs' ys' W E') as (d' & R' & A').
  unfold run_fl in R. rewrite R in R'. apply some_inj in R'. subst d'. rewrite A in A'. apply some_inj in A'. subst zs. exact S.
Qed.
Lemma sample_same b x y : same_tensor x y -> (b < hd 0 (shape x))%nat -> same_tensor (sample b x) (sample b y).
Proof.
  intros (E & H) Hb. split; [unfold sample; cbn [shape]; rewrite E; reflexivity|]. cbn [sample shape at_]. intros i Vi. apply H. destruct (shape x) as [|n s]; [cbn in Hb; lia|]. cbn [hd tl] in *. constructor; assumption.
Qed.
Lemma network_hardware ord fuel m n xs ys : sums_all ord -> well_formed fuel m -> all_layers traceable_layer fuel m -> evaluates checked_layer fuel m xs ys -> (forall x, In x xs -> batch_in n x) ->
  exists d fs, run_fl ord fuel m xs = Some d /\ assoc "final"%string d = Some fs /\
    forall b, (b < n)%nat -> exists d' zs, trace_net fuel m (map (sample b) xs) = Some d' /\ assoc "final"%string d' = Some zs /\ Forall2 same_tensor (map (sample b) fs) zs.
Proof.
  intros O W L E B. assert (LV : all_layers value_act fuel m).
  { clear - L. revert m L. induction fuel as [|fuel IH]; intros m L; [exact I|]. cbn [all_layers] in *. intros o Ho. specialize (L o Ho). destruct (o_kind o) as [|l|sub]; [exact I| |apply IH, L].
    destruct l as [c a|iq c a oq]; cbn [traceable_layer value_act] in *; [destruct L as (_ & ->); exact I|]. destruct L as (_ & _ & _ & L). destruct a; [exact I|exact I|exact (proj2 L)]. }
  assert (Rf : Forall2 same_tensor xs xs) by (apply Forall2_diag; intros; apply st_refl).
  destruct (network_float ord fuel m xs ys xs O W LV E Rf) as (d & fs & R & A & S). exists d, fs. split; [exact R|]. split; [exact A|]. intros b Hb.
  destruct (network_traced fuel m n xs ys W L (evaluates_mono _ _ checked_keras fuel m xs ys E) B b Hb) as (d' & zs & T & A' & S' & By). exists d', zs. split; [exact T|]. split; [exact A'|].
  clear - S S' By Hb. revert zs S'. induction S as [|y f ys fs Sy Sf IH]; intros zs S'; cbn [map] in *; inversion S' as [|? z ? zs' Sz Szs]; subst; constructor.
  - eapply st_trans; [|exact Sz]. apply sample_same; [apply st_sym, Sy|]. destruct (By y (or_introl eq_refl)) as (d & s & Ey). rewrite <- (proj1 Sy), Ey. cbn [hd]. exact Hb.
  - apply IH; [intros w Hw; apply By; right; exact Hw|exact Szs].
Qed.
