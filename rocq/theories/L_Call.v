From Verif Require Import Num M_Call S_Call.
From Coq Require Import List Bool Arith Lia.
Import ListNotations.
Local Open Scope nat_scope.

Lemma existsb_in c l : existsb (Nat.eqb c) l = true <-> In c l.
Proof. rewrite existsb_exists. split; [intros (x & H & E); apply Nat.eqb_eq in E; subst; exact H|intros H; exists c; split; [exact H|apply Nat.eqb_refl]]. Qed.
Lemma existsb_notin (c : nat) l : existsb (Nat.eqb c) l = false <-> ~ In c l.
Proof. rewrite <- existsb_in. destruct (existsb _ _); split; congruence. Qed.

(** *** histories *)
Section Hist.
  Context (T : class_table).
  Lemma history_app h1 h2 : history T (h1 ++ h2) = fold_left (instantiate T) h2 (history T h1).
  Proof. apply fold_left_app. Qed.
  Lemma history_snoc h c : history T (h ++ [c]) = instantiate T (history T h) c.
  Proof. rewrite history_app. reflexivity. Qed.
  Lemma wrapped_step w c x : In x (wrapped (instantiate T w c)) <-> x = c \/ In x (wrapped w).
  Proof.
    unfold instantiate. destruct (existsb _ _) eqn:E.
    - apply existsb_in in E. split; [tauto|intros [->|H]; assumption].
    - cbn [wrapped In]. split; [intros [<-|H]; tauto|intros [->|H]; tauto].
  Qed.
  Lemma wrapped_hist h x : In x (wrapped (history T h)) <-> In x h.
  Proof.
    induction h as [|c h IH] using rev_ind; [reflexivity|]. rewrite history_snoc, wrapped_step, IH, in_app_iff. cbn [In]. split; [intros [->|H]; tauto|intros [H|[->|[]]]; tauto].
  Qed.
  Lemma entry_step_other w c x : x <> c -> entry (instantiate T w c) x = entry w x.
  Proof.
    intros N. unfold instantiate. destruct (existsb _ _); [reflexivity|]. cbn [entry]. destruct (lookup T w (mro T c)); [|reflexivity].
    destruct (Nat.eqb_spec x c); [contradiction|reflexivity].
  Qed.
  Lemma entry_fold_other h w x : ~ In x h -> entry (fold_left (instantiate T) h w) x = entry w x.
  Proof.
    revert w. induction h as [|c h IH]; intros w N; [reflexivity|]. cbn [fold_left]. cbn [In] in N. rewrite IH by tauto. apply entry_step_other. intros ->. tauto.
  Qed.
  Lemma entry_none h x : ~ In x h -> entry (history T h) x = None.
  Proof. intros N. unfold history. rewrite entry_fold_other by exact N. reflexivity. Qed.
  (** once wrapped, an entry never changes *)
  Lemma entry_stable_step w c x : In x (wrapped w) -> entry (instantiate T w c) x = entry w x.
  Proof.
    intros H. destruct (Nat.eq_dec x c) as [->|N]; [|apply entry_step_other, N]. unfold instantiate. replace (existsb (Nat.eqb c) (wrapped w)) with true by (symmetry; apply existsb_in, H). reflexivity.
  Qed.
  Lemma entry_stable h w x : In x (wrapped w) -> entry (fold_left (instantiate T) h w) x = entry w x.
  Proof.
    revert w. induction h as [|c h IH]; intros w H; [reflexivity|]. cbn [fold_left]. rewrite IH by (apply wrapped_step; tauto). apply entry_stable_step, H.
  Qed.
  (** the entry of a class is made at its first instantiation *)
  Lemma entry_first h1 k h2 : ~ In k h1 -> entry (history T (h1 ++ k :: h2)) k = option_map Wrap (lookup T (history T h1) (mro T k)).
  Proof.
    intros N. rewrite history_app. cbn [fold_left].
    assert (W : ~ In k (wrapped (history T h1))) by (rewrite wrapped_hist; exact N).
    rewrite entry_stable by (apply wrapped_step; tauto). unfold instantiate. replace (existsb (Nat.eqb k) (wrapped (history T h1))) with false by (symmetry; apply existsb_notin, W).
    cbn [entry]. destruct (lookup T (history T h1) (mro T k)); cbn [option_map]; [rewrite Nat.eqb_refl; reflexivity|]. apply entry_none, N.
  Qed.
  Lemma first_split (k : nat) h : In k h -> exists h1 h2, h = h1 ++ k :: h2 /\ ~ In k h1.
  Proof.
    induction h as [|c h IH]; [intros []|]. intros H. destruct (Nat.eq_dec c k) as [->|N]; [exists [], h; split; [reflexivity|intros []]|].
    destruct H as [->|H]; [contradiction|]. destruct (IH H) as (h1 & h2 & -> & N1). exists (c :: h1), h2. split; [reflexivity|]. cbn [In]. tauto.
  Qed.
  Lemma before_split (a k : nat) h1 h2 : ~ In k h1 -> before a k (h1 ++ k :: h2) = existsb (Nat.eqb a) h1.
  Proof.
    induction h1 as [|c h1 IH]; cbn [app before existsb In]; intros N; [rewrite Nat.eqb_refl; reflexivity|].
    destruct (Nat.eqb_spec c k); [subst; tauto|]. rewrite (Nat.eqb_sym a c). destruct (Nat.eqb_spec c a); [reflexivity|]. apply IH. tauto.
  Qed.
  Lemma in_class_none w c : entry w c = None -> in_class T w c = if own_call T c then Some (Orig c) else None.
  Proof. intros E. unfold in_class. rewrite E. reflexivity. Qed.
End Hist.

(** *** the number of wrappers run by a call *)
Section Count.
  Context (T : class_table) (w : world) (k : nat).
  Fixpoint nwraps (fuel : nat) : impl -> nat :=
    fix go i := match i with
                | Wrap i' => S (go i')
                | Orig c => match fuel with
                            | 0 => 0
                            | S fuel' => if calls_super T c then match lookup T w (after c (mro T k)) with Some j => nwraps fuel' j | None => 0 end else 0
                            end
                end.
  Context {V : Type} (core : V) (oq : V -> V) (ee eo : bool) (e b : Q) (t : flag).
  Lemma nwraps_wrap fuel i : nwraps fuel (Wrap i) = S (nwraps fuel i).
  Proof. destruct fuel; reflexivity. Qed.
  Lemma run_wrap fuel i : run T w k core oq ee eo e b t fuel (Wrap i) = wrapper T k oq ee eo e b t (run T w k core oq ee eo e b t fuel i).
  Proof. destruct fuel; reflexivity. Qed.
  Lemma run_iter fuel i : run T w k core oq ee eo e b t fuel i = Nat.iter (nwraps fuel i) (wrapper T k oq ee eo e b t) (mk_outcome core None []).
  Proof.
    revert i. induction fuel as [|fuel IH]; intros i; (induction i as [c|i IHi]; [|rewrite run_wrap, nwraps_wrap, IHi; reflexivity]); [reflexivity|].
    cbn [run nwraps]. destruct (calls_super T c); [|reflexivity]. destruct (lookup T w (after c (mro T k))); [apply IH|reflexivity].
  Qed.
  Context (idem : forall v, oq (oq v) = oq v).
  Lemma iter_expected n : Nat.iter (S n) (wrapper T k oq ee eo e b t) (mk_outcome core None []) = expected_n (S n) (handled T k) core oq ee eo e b t.
  Proof.
    induction n as [|n IH].
    - cbn [Nat.iter]. unfold wrapper, expected_n, expected. cbn [out ebops_var losses repeat app]. unfold active, truthy, equals_tracing.
      destruct t, ee, eo, (handled T k); reflexivity.
    - change (Nat.iter (S (S n)) (wrapper T k oq ee eo e b t) (mk_outcome core None [])) with (wrapper T k oq ee eo e b t (Nat.iter (S n) (wrapper T k oq ee eo e b t) (mk_outcome core None []))).
      rewrite IH. unfold wrapper, expected_n, expected. cbn [out ebops_var losses]. unfold active, truthy, equals_tracing.
      destruct t, ee, eo, (handled T k); cbn [andb orb negb out ebops_var losses]; rewrite ?idem, <- ?repeat_cons; reflexivity.
  Qed.
  Lemma expected_1 : expected_n 1 (handled T k) core oq ee eo e b t = expected (handled T k) core oq ee eo e b t.
  Proof. unfold expected_n, expected. destruct t, ee; reflexivity. Qed.
End Count.
Lemma iter_expected_1 T k {V} (core : V) oq ee eo e b t : Nat.iter 1 (wrapper T k oq ee eo e b t) (mk_outcome core None []) = expected (handled T k) core oq ee eo e b t.
Proof.
  cbn [Nat.iter]. unfold wrapper, expected. cbn [out ebops_var losses app]. unfold active, truthy, equals_tracing. destruct t, ee, eo, (handled T k); reflexivity.
Qed.

Section Theorems.
  Context (T : class_table) (k : nat) (rest : list nat) (Hm : mro T k = k :: rest).
  Context {V : Type} (core : V) (oq : V -> V) (ee eo : bool) (e b : Q) (t : flag).
  Local Notation call h := (call_layer T (history T h) k core oq ee eo e b t).
  Lemma call_entry h i : entry (history T h) k = Some i -> call h = Some (Nat.iter (nwraps T (history T h) k (S (length rest)) i) (wrapper T k oq ee eo e b t) (mk_outcome core None [])).
  Proof.
    intros E. unfold call_layer. rewrite Hm. cbn [lookup]. unfold in_class. rewrite E. cbn [option_map length]. rewrite run_iter. reflexivity.
  Qed.
  Lemma once_own h : In k h -> own_call T k = true -> calls_super T k = false -> call h = Some (expected (handled T k) core oq ee eo e b t).
  Proof.
    intros H O S. destruct (first_split k h H) as (h1 & h2 & -> & N). rewrite (call_entry _ (Wrap (Orig k))).
    - rewrite nwraps_wrap. cbn [nwraps]. rewrite S. rewrite iter_expected_1. reflexivity.
    - rewrite entry_first by exact N. rewrite Hm. cbn [lookup]. rewrite in_class_none, O by (apply entry_none, N). reflexivity.
  Qed.
  Lemma lookup_fresh h cs : (forall c, In c cs -> ~ In c h) -> lookup T (history T h) cs = option_map Orig (provider T cs).
  Proof.
    induction cs as [|c cs IH]; intros N; [reflexivity|]. cbn [lookup provider]. rewrite in_class_none by (apply entry_none, N; left; reflexivity).
    destruct (own_call T c); [reflexivity|]. apply IH. intros c' H. apply N. right. exact H.
  Qed.
  Lemma once_inherited h1 h2 a : ~ In k h1 -> (forall c, In c rest -> ~ In c h1) -> provider T (mro T k) = Some a -> calls_super T a = false ->
    call (h1 ++ k :: h2) = Some (expected (handled T k) core oq ee eo e b t).
  Proof.
    intros N Nr P S. rewrite (call_entry _ (Wrap (Orig a))).
    - rewrite nwraps_wrap. cbn [nwraps]. rewrite S. rewrite iter_expected_1. reflexivity.
    - rewrite entry_first by exact N. rewrite lookup_fresh, P; [reflexivity|]. rewrite Hm. intros c [<-|H]; [exact N|apply Nr, H].
  Qed.
  Lemma after_incl (c : nat) l x : In x (after c l) -> In x l.
  Proof. induction l as [|d l IH]; [intros []|]. cbn [after]. destruct (Nat.eqb d c); [right; assumption|right; apply IH; assumption]. Qed.
  Lemma after_tail c x : In x (after c (k :: rest)) -> c <> k -> In x rest.
  Proof. cbn [after]. destruct (Nat.eqb_spec k c); [congruence|]. intros H _. exact (after_incl _ _ _ H). Qed.
  Lemma after_head x : In x (after k (k :: rest)) -> In x rest.
  Proof. cbn [after]. rewrite Nat.eqb_refl. trivial. Qed.
  Lemma nwraps_fresh h fuel : (forall c, In c rest -> ~ In c h) -> forall c, nwraps T (history T h) k fuel (Orig c) = 0.
  Proof.
    intros N. induction fuel as [|fuel IH]; intros c; [reflexivity|]. cbn [nwraps]. destruct (calls_super T c); [|reflexivity].
    rewrite lookup_fresh.
    - destruct (provider T (after c (mro T k))); cbn [option_map]; [apply IH|reflexivity].
    - rewrite Hm. intros x H. apply N. cbn [after] in H. destruct (Nat.eqb k c); [exact H|exact (after_incl _ _ _ H)].
  Qed.
  Lemma once_alone h a : In k h -> (forall c, In c rest -> ~ In c h) -> provider T (mro T k) = Some a -> call h = Some (expected (handled T k) core oq ee eo e b t).
  Proof.
    intros H N P. destruct (first_split k h H) as (h1 & h2 & -> & N1). rewrite (call_entry _ (Wrap (Orig a))).
    - rewrite nwraps_wrap, nwraps_fresh by exact N. rewrite iter_expected_1. reflexivity.
    - rewrite entry_first by exact N1. rewrite lookup_fresh, P; [reflexivity|]. rewrite Hm. intros c [<-|Hc]; [exact N1|]. intros H1. apply (N c Hc). apply in_or_app. left. exact H1.
  Qed.
  (** whatever the history, values and recorded EBOPs are right; only the loss can be multiplied *)
  Lemma lookup_provider h cs a : provider T cs = Some a -> exists i, lookup T (history T h) cs = Some i.
  Proof.
    revert a. induction cs as [|c cs IH]; intros a; [discriminate|]. cbn [provider lookup]. unfold in_class. destruct (entry (history T h) c) as [i|]; [intros _; exists i; reflexivity|].
    destruct (own_call T c); [intros _; exists (Orig c); reflexivity|]. apply IH.
  Qed.
  Lemma any_history h a : In k h -> provider T (mro T k) = Some a -> (forall v, oq (oq v) = oq v) -> exists n, call h = Some (expected_n (S n) (handled T k) core oq ee eo e b t).
  Proof.
    intros H P I. destruct (first_split k h H) as (h1 & h2 & -> & N). destruct (lookup_provider h1 _ _ P) as [i L].
    rewrite (call_entry _ (Wrap i)) by (rewrite entry_first, L by exact N; reflexivity). rewrite nwraps_wrap. exists (nwraps T (history T (h1 ++ k :: h2)) k (S (length rest)) i).
    rewrite iter_expected by exact I. reflexivity.
  Qed.
  (** exact count: the class inherits [call] from a base whose body does not call super *)
  Lemma inherited_exact a rest' h : rest = a :: rest' -> a <> k -> In k h -> own_call T k = false -> own_call T a = true -> calls_super T a = false ->
    (exists r, mro T a = a :: r) -> (forall v, oq (oq v) = oq v) ->
    call h = Some (expected_n (if before a k h then 2 else 1) (handled T k) core oq ee eo e b t).
  Proof.
    intros R Nak H Ok Oa Sa [r Ma] I. destruct (first_split k h H) as (h1 & h2 & -> & N). rewrite before_split by exact N.
    assert (L : lookup T (history T h1) (mro T k) = Some (if existsb (Nat.eqb a) h1 then Wrap (Orig a) else Orig a)).
    { rewrite Hm, R. cbn [lookup]. rewrite (in_class_none T _ k) by (apply entry_none, N). rewrite Ok. destruct (existsb (Nat.eqb a) h1) eqn:B.
      - apply existsb_in in B. destruct (first_split a h1 B) as (g1 & g2 & -> & Ng). unfold in_class. rewrite entry_first by exact Ng. rewrite Ma. cbn [lookup].
        rewrite in_class_none, Oa by (apply entry_none, Ng). reflexivity.
      - apply existsb_notin in B. rewrite in_class_none, Oa by (apply entry_none, B). reflexivity. }
    rewrite (call_entry _ (Wrap (if existsb (Nat.eqb a) h1 then Wrap (Orig a) else Orig a))) by (rewrite entry_first, L by exact N; reflexivity).
    rewrite nwraps_wrap. destruct (existsb (Nat.eqb a) h1); rewrite ?nwraps_wrap; cbn [nwraps]; rewrite Sa; rewrite iter_expected by exact I; reflexivity.
  Qed.
  (** exact count: the class defines [call] and invokes the [call] of its base *)
  Lemma super_exact a rest' h : rest = a :: rest' -> a <> k -> In k h -> own_call T k = true -> calls_super T k = true -> own_call T a = true -> calls_super T a = false ->
    (exists r, mro T a = a :: r) -> (forall v, oq (oq v) = oq v) ->
    call h = Some (expected_n (if existsb (Nat.eqb a) h then 2 else 1) (handled T k) core oq ee eo e b t).
  Proof.
    intros R Nak H Ok Sk Oa Sa [r Ma] I. destruct (first_split k h H) as (h1 & h2 & E & N).
    rewrite (call_entry _ (Wrap (Orig k))).
    2:{ rewrite E, entry_first by exact N. rewrite Hm. cbn [lookup]. rewrite in_class_none, Ok by (apply entry_none, N). reflexivity. }
    rewrite nwraps_wrap.
    assert (L : lookup T (history T h) (after k (mro T k)) = Some (if existsb (Nat.eqb a) h then Wrap (Orig a) else Orig a)).
    { rewrite Hm, R. cbn [after]. rewrite Nat.eqb_refl. cbn [lookup]. destruct (existsb (Nat.eqb a) h) eqn:B.
      - apply existsb_in in B. destruct (first_split a h B) as (g1 & g2 & -> & Ng). unfold in_class. rewrite entry_first by exact Ng. rewrite Ma. cbn [lookup].
        rewrite in_class_none, Oa by (apply entry_none, Ng). reflexivity.
      - apply existsb_notin in B. rewrite in_class_none, Oa by (apply entry_none, B). reflexivity. }
    cbn [nwraps]. rewrite Sk, L. rewrite R. destruct (existsb (Nat.eqb a) h); cbn [length]; rewrite ?nwraps_wrap; cbn [nwraps]; rewrite ?Sa; rewrite iter_expected by exact I; reflexivity.
  Qed.
End Theorems.

(** *** the package *)
Lemma class_num c : class_of (num c) = c. Proof. destruct c; reflexivity. Qed.
Lemma num_inj a b : num a = num b -> a = b. Proof. intros E. rewrite <- (class_num a), E. apply class_num. Qed.
Lemma in_map_num c h : In (num c) (map num h) <-> In c h.
Proof. rewrite in_map_iff. split; [intros (x & E & H); apply num_inj in E; subst; exact H|intros H; exists c; split; [reflexivity|exact H]]. Qed.
Lemma package_once k h :
  In k [QSum; QAdd; QMultiply; QDenseT; QMultiHeadAttention; QDense; QBatchNormDense; QEinsumDense; QEinsumDenseBatchnorm; QConv1D; QConv2D; QConv3D;
   QUnaryFunctionLUT; QAffinedUnaryFunctionLUT; QBatchNormalization; QSoftmax; QEinsumDenseT] -> In k h -> (forall c, In c [QMerge; QConvTBase; QBaseConv] -> ~ In c h) ->
  forall V (core : V) oq ee eo e b t,
    call_layer hgq_table (history_of h) (num k) core oq ee eo e b t = Some (expected (oq_handled k) core oq ee eo e b t).
Proof.
  intros K H A V core oq ee eo e b t. unfold history_of. apply in_map_num in H.
  replace (oq_handled k) with (handled hgq_table (num k)) by (cbn [handled hgq_table]; rewrite class_num; reflexivity).
  assert (A1 : ~ In (num QMerge) (map num h)) by (rewrite in_map_num; apply A; cbn [In]; tauto).
  assert (A2 : ~ In (num QBaseConv) (map num h)) by (rewrite in_map_num; apply A; cbn [In]; tauto).
  repeat (destruct K as [<-|K]; [first [eapply once_own; [reflexivity|exact H|reflexivity|reflexivity]
          |eapply once_alone; [reflexivity|exact H| |reflexivity]; intros c [<-|[]]; first [exact A1|exact A2]]|]). destruct K.
Qed.
Lemma mean_count h : In QMeanPow2 h -> forall V (core : V) oq ee eo e b t, (forall v, oq (oq v) = oq v) ->
    call_layer hgq_table (history_of h) (num QMeanPow2) core oq ee eo e b t =
    Some (expected_n (if before (num QSum) (num QMeanPow2) (map num h) then 2 else 1) false core oq ee eo e b t).
Proof.
  intros H V core oq ee eo e b t I. unfold history_of. apply in_map_num in H. change false with (handled hgq_table (num QMeanPow2)).
  eapply inherited_exact; [reflexivity|reflexivity|discriminate|exact H|reflexivity|reflexivity|reflexivity|eexists; reflexivity|exact I].
Qed.
Lemma linformer_count k h : In k [QLinformerAttention; QSALTAttention] -> In k h -> forall V (core : V) oq ee eo e b t, (forall v, oq (oq v) = oq v) ->
    call_layer hgq_table (history_of h) (num k) core oq ee eo e b t =
    Some (expected_n (if existsb (Nat.eqb (num QMultiHeadAttention)) (map num h) then 2 else 1) true core oq ee eo e b t).
Proof.
  intros K H V core oq ee eo e b t I. unfold history_of. apply in_map_num in H.
  destruct K as [<-|[<-|[]]]; [change true with (handled hgq_table (num QLinformerAttention))|change true with (handled hgq_table (num QSALTAttention))];
    (eapply super_exact; [reflexivity|reflexivity|discriminate|exact H|reflexivity|reflexivity|reflexivity|reflexivity|eexists; reflexivity|exact I]).
Qed.
Lemma order_dependent : exists h h' k, In k h /\ In k h' /\ (forall c, In c h <-> In c h') /\
  forall V (core : V) oq ee eo e b, ee = true ->
    option_map losses (call_layer hgq_table (history_of h) (num k) core oq ee eo e b Training) <>
    option_map losses (call_layer hgq_table (history_of h') (num k) core oq ee eo e b Training).
Proof.
  exists [QSum; QMeanPow2], [QMeanPow2; QSum], QMeanPow2. split; [cbn; tauto|]. split; [cbn; tauto|]. split; [cbn; tauto|].
  intros V core oq ee eo e b ->. destruct eo; cbv - [Qmult Qfloor]; discriminate.
Qed.
Lemma inference_clean T w k V (core : V) oq ee eo e b t r :
    call_layer T w k core oq ee eo e b t = Some r -> t = NotTraining \/ ee = false -> ebops_var r = None /\ losses r = [].
Proof.
  intros H D. unfold call_layer in H. destruct (lookup T w (mro T k)) as [i|]; [|discriminate]. injection H as <-. rewrite run_iter.
  assert (W : forall r', ebops_var r' = None /\ losses r' = [] -> ebops_var (wrapper T k oq ee eo e b t r') = None /\ losses (wrapper T k oq ee eo e b t r') = []).
  { intros r' Hr. unfold wrapper. replace (active t && ee) with false by (destruct D as [->| ->]; [reflexivity|symmetry; apply andb_false_r]). destruct (negb eo || handled T k); exact Hr. }
  induction (nwraps T w k (length (mro T k)) i) as [|n IH]; [split; reflexivity|]. apply W, IH.
Qed.
Lemma conv_table_count k h : In k [QConvT1D; QConvT2D] -> In k h -> ~ In QConvTBase h -> forall V (core : V) oq ee eo e b t, (forall v, oq (oq v) = oq v) ->
    call_layer hgq_table (history_of h) (num k) core oq ee eo e b t =
    Some (expected_n (if existsb (Nat.eqb (num QDenseT)) (map num h) then 2 else 1) false core oq ee eo e b t).
Proof.
  intros K H A V core oq ee eo e b t I. unfold history_of. apply in_map_num in H. set (g := map num h) in *.
  assert (A' : ~ In (num QConvTBase) g) by (unfold g; rewrite in_map_num; exact A).
  destruct (first_split (num k) g H) as (h1 & h2 & E & N).
  assert (Hm : mro hgq_table (num k) = num k :: [num QConvTBase; num QDenseT]) by (destruct K as [<-|[<-|[]]]; reflexivity).
  assert (Hh : handled hgq_table (num k) = false) by (destruct K as [<-|[<-|[]]]; reflexivity).
  assert (Ho : own_call hgq_table (num k) = false) by (destruct K as [<-|[<-|[]]]; reflexivity).
  assert (Hn : num k <> num QConvTBase) by (destruct K as [<-|[<-|[]]]; discriminate).
  rewrite <- Hh. rewrite (call_entry hgq_table (num k) _ Hm core oq ee eo e b t g (Wrap (Orig (num QConvTBase)))).
  2:{ rewrite E, entry_first by exact N. rewrite Hm. cbn [lookup]. rewrite (in_class_none hgq_table _ (num k)) by (apply entry_none, N). rewrite Ho.
      rewrite in_class_none; [reflexivity|]. apply entry_none. intros X. apply A'. rewrite E. apply in_or_app. left. exact X. }
  rewrite nwraps_wrap. cbn [nwraps length]. change (calls_super hgq_table (num QConvTBase)) with true.
  rewrite Hm. cbn [after]. destruct (Nat.eqb_spec (num k) (num QConvTBase)); [contradiction|]. rewrite Nat.eqb_refl. cbn [lookup].
  destruct (existsb (Nat.eqb (num QDenseT)) g) eqn:B.
  - apply existsb_in in B. unfold in_class. destruct (first_split _ _ B) as (g1 & g2 & E2 & Ng). rewrite E2, entry_first by exact Ng.
    change (mro hgq_table (num QDenseT)) with [num QDenseT]. cbn [lookup]. rewrite in_class_none by (apply entry_none, Ng). change (own_call hgq_table (num QDenseT)) with true. cbn [option_map].
    cbn [nwraps]. change (calls_super hgq_table (num QDenseT)) with false. cbv iota. rewrite iter_expected by exact I. reflexivity.
  - apply existsb_notin in B. rewrite in_class_none by (apply entry_none, B). change (own_call hgq_table (num QDenseT)) with true. cbv iota. cbn [nwraps]. change (calls_super hgq_table (num QDenseT)) with false. cbv iota.
    rewrite iter_expected by exact I. reflexivity.
Qed.
Lemma average_count h : In QAveragePow2 h -> ~ In QMerge h -> forall V (core : V) oq ee eo e b t, (forall v, oq (oq v) = oq v) ->
    call_layer hgq_table (history_of h) (num QAveragePow2) core oq ee eo e b t =
    Some (expected_n (if before (num QAdd) (num QAveragePow2) (map num h) then 2 else 1) false core oq ee eo e b t).
Proof.
  intros H A V core oq ee eo e b t I. unfold history_of. apply in_map_num in H. set (g := map num h) in *.
  assert (A' : ~ In (num QMerge) g) by (unfold g; rewrite in_map_num; exact A).
  destruct (first_split (num QAveragePow2) g H) as (h1 & h2 & E & N). rewrite E in A' |- *. rewrite before_split by exact N.
  assert (A1 : ~ In (num QMerge) h1) by (intros X; apply A', in_or_app; left; exact X).
  assert (Hm : mro hgq_table (num QAveragePow2) = num QAveragePow2 :: [num QAdd; num QMerge]) by reflexivity.
  change false with (handled hgq_table (num QAveragePow2)).
  rewrite (call_entry hgq_table (num QAveragePow2) _ Hm core oq ee eo e b t (h1 ++ num QAveragePow2 :: h2) (Wrap (if existsb (Nat.eqb (num QAdd)) h1 then Wrap (Orig (num QMerge)) else Orig (num QMerge)))).
  - rewrite nwraps_wrap. destruct (existsb (Nat.eqb (num QAdd)) h1); rewrite ?nwraps_wrap; cbn [nwraps length]; change (calls_super hgq_table (num QMerge)) with false; cbv iota; rewrite iter_expected by exact I; reflexivity.
  - rewrite entry_first by exact N. rewrite Hm. cbn [lookup]. rewrite (in_class_none hgq_table _ (num QAveragePow2)) by (apply entry_none, N). change (own_call hgq_table (num QAveragePow2)) with false. cbv iota.
    destruct (existsb (Nat.eqb (num QAdd)) h1) eqn:B.
    + apply existsb_in in B. unfold in_class at 1. destruct (first_split _ _ B) as (g1 & g2 & E2 & Ng). rewrite E2, entry_first by exact Ng. change (mro hgq_table (num QAdd)) with [num QAdd; num QMerge]. cbn [lookup].
      rewrite (in_class_none hgq_table _ (num QAdd)) by (apply entry_none, Ng). change (own_call hgq_table (num QAdd)) with false. cbv iota.
      rewrite in_class_none; [reflexivity|]. apply entry_none. intros X. apply A1. rewrite E2. apply in_or_app. left. exact X.
    + apply existsb_notin in B. rewrite (in_class_none hgq_table _ (num QAdd)) by (apply entry_none, B). change (own_call hgq_table (num QAdd)) with false. cbv iota.
      rewrite in_class_none by (apply entry_none, A1). reflexivity.
Qed.
