(** Lemmas for C68: limits of programs, layers and networks. *)
From Coq Require Import String.
From Verif Require Import Num M_Fixed L_Fixed M_State M_Wrapper M_Mapper S_Mapper L_Mapper M_Contr M_Ebops L_Ebops M_Pow2 M_Patch L_Patch M_Ops L_Ops M_Mirror L_Mirror M_Trace L_Trace M_Softmax M_Net S_Net L_Net L_Net2 L_Net3 L_Net4 L_Net5 M_Causal L_Causal M_Calib S_Ops S_Calib L_Calib L_Calib2 L_Calib3 M_Prog S_Prog L_Prog L_Prog2 L_Prog3 S_Limit L_Limit L_Limit2.
Local Open Scope list_scope.
Notation tlim := (olim tends_to).

(** a sequence of programs, and the program they tend to: they ask the same quantizers about converging values as long as the answers tend to what was asked *)
Inductive track {A} (R : (nat -> A) -> A -> Prop) : (nat -> prog A) -> prog A -> Prop :=
  | tr_ret P As a : (forall n, P n = Ret (As n)) -> R As a -> track R P (Ret a)
  | tr_raise P : track R P Raise
  | tr_ask P id X x K k : (forall n, P n = Ask id (X n) (K n)) -> tends_to X x -> (forall Y, tends_to Y x -> track R (fun n => K n (Y n)) (k x)) -> track R P (Ask id x k).
Lemma track_ext {A} (R : (nat -> A) -> A -> Prop) P P' p : (forall n, P n = P' n) -> track R P p -> track R P' p.
Proof.
  intros E H. destruct H as [P As a F Ra|P|P id X x K k F T S]; [apply (tr_ret R P' As); [intros n; rewrite <- E; apply F|exact Ra]|apply tr_raise|].
  apply (tr_ask R P' id X x K k); [intros n; rewrite <- E; apply F|exact T|exact S].
Qed.
Lemma track_then {A B} (R : (nat -> A) -> A -> Prop) (S : (nat -> B) -> B -> Prop) P p (F : nat -> A -> prog B) f : track R P p -> (forall As a, R As a -> track S (fun n => F n (As n)) (f a)) ->
  track S (fun n => then_ (P n) (F n)) (then_ p f).
Proof.
  intros H K. induction H as [P As a E Ra|P|P id X x Kn k E T C IH]; cbn [then_].
  - apply (track_ext S (fun n => F n (As n))); [intros n; rewrite E; reflexivity|exact (K _ _ Ra)].
  - apply tr_raise.
  - apply (tr_ask S _ id X x (fun n y => then_ (Kn n y) (F n)) (fun y => then_ (k y) f)); [intros n; rewrite E; reflexivity|exact T|]. intros Y TY. exact (IH Y TY).
Qed.
Lemma track_some {A} (R : (nat -> A) -> A -> Prop) As a : R As a -> track R (fun n => Ret (As n)) (Ret a).
Proof. intros H. apply (tr_ret R _ As); [reflexivity|exact H]. Qed.
Lemma track_lift {A} (R : (nat -> A) -> A -> Prop) O o : olim R O o -> track R (fun n => lift (O n)) (lift o).
Proof. intros H. destruct o as [a|]; cbn [lift]; [|apply tr_raise]. destruct (H a eq_refl) as (As & E & Ra). apply (tr_ret R _ As); [intros n; rewrite E; reflexivity|exact Ra]. Qed.
Lemma track_ask id X x : tends_to X x -> track tends_to (fun n => ask id (X n)) (ask id x).
Proof. intros T. apply (tr_ask tends_to _ id X x (fun _ => Ret) Ret); [reflexivity|exact T|]. intros Y TY. apply track_some, TY. Qed.
Lemma track_ask_opt id X x : tends_to X x -> track tends_to (fun n => ask_opt id (X n)) (ask_opt id x).
Proof. intros T. destruct id as [id|]; cbn [ask_opt]; [apply track_ask, T|apply track_some, T]. Qed.
(** the answers of widening quantizers *)
Lemma track_eval {A} (R : (nat -> A) -> A -> Prop) P p : track R P p -> forall tab, widening tab -> forall b b0, (forall n, eval (tab n) (P n) = Some (b n)) -> plain p = Some b0 -> exists b', (forall n, b n = b' n) /\ R b' b0.
Proof.
  intros H tab W. induction H as [P As a E Ra|P|P id X x K k E T C IH]; intros b b0 Hb H0; cbn [plain] in H0.
  - apply some_inj in H0. subst b0. exists As. split; [|exact Ra]. intros n. specialize (Hb n). rewrite E in Hb. cbn [eval] in Hb. apply some_inj in Hb. symmetry. exact Hb.
  - discriminate.
  - set (Y := fun n => match quant_call (tab n id) (X n) with Some y => y | None => x end).
    assert (HY : forall n, quant_call (tab n id) (X n) = Some (Y n)). { intros n. specialize (Hb n). rewrite E in Hb. cbn [eval] in Hb. unfold Y. destruct (quant_call (tab n id) (X n)); [reflexivity|discriminate]. }
    apply (IH Y); [|intros n; specialize (Hb n); rewrite E in Hb; cbn [eval] in Hb; rewrite HY in Hb; exact Hb|exact H0].
    apply (quant_tends (fun n => tab n id) X x Y); [|exact T|exact HY]. intros m. destruct (W m) as (N & HN). exists N. intros n Hn. apply HN, Hn.
Qed.
Definition tracks (call : tin -> prog (tensor Q)) : Prop := forall X x, tends_in X x -> track tends_to (fun n => call (X n)) (call x).

(** ** layers of M_Calib *)
Lemma track_all ids : forall Xs xs, tends_all Xs xs -> track tends_all (fun n => ask_all ids (Xs n)) (ask_all ids xs).
Proof.
  induction ids as [|id ids IH]; intros Xs xs T; pose proof (ta_split _ _ T) as H; destruct xs as [|x xs]; cbn [ask_all]; try apply tr_raise.
  - apply (track_ext _ (fun _ => Ret [])); [intros n; rewrite H; reflexivity|]. apply (track_some tends_all (fun _ => [])). exact ta_nil.
  - destruct H as (X & Xs' & E & T1 & T2). apply (track_ext _ (fun n => run y <- ask id (X n); run ys <- ask_all ids (Xs' n); Ret (y :: ys))); [intros n; rewrite E; reflexivity|].
    apply (track_then tends_to tends_all (fun n => ask id (X n)) (ask id x) (fun n y => run ys <- ask_all ids (Xs' n); Ret (y :: ys))); [apply track_ask, T1|]. intros Y y Ty.
    apply (track_then tends_all tends_all (fun n => ask_all ids (Xs' n)) (ask_all ids xs) (fun n ys => Ret (Y n :: ys))); [exact (IH _ _ T2)|]. intros Ys ys Tys. apply (track_some tends_all (fun n => Y n :: Ys n)). exact (ta_cons _ _ _ _ Ty Tys).
Qed.
Lemma track_iq iq X x : tends_in X x -> track tends_in (fun n => ask_iq iq (X n)) (ask_iq iq x).
Proof.
  intros T. destruct iq as [|id|ids]; [apply track_some; destruct x; exact T| |]; (destruct x as [x|xs]; [|]); try apply tr_raise.
  - destruct T as (V & E & T). apply (track_ext _ (fun n => run y <- ask id (V n); Ret (One y))); [intros n; rewrite E; reflexivity|]. cbn [ask_iq].
    apply (track_then tends_to tends_in (fun n => ask id (V n)) (ask id x) (fun n y => Ret (One y))); [apply track_ask, T|]. intros Y y Ty. apply (track_some tends_in (fun n => One (Y n))). exists Y. split; [reflexivity|exact Ty].
  - destruct T as (Vs & E & T). apply (track_ext _ (fun n => run ys <- ask_all ids (Vs n); Ret (Many ys))); [intros n; rewrite E; reflexivity|]. cbn [ask_iq].
    apply (track_then tends_all tends_in (fun n => ask_all ids (Vs n)) (ask_all ids xs) (fun n y => Ret (Many y))); [apply track_all, T|]. intros Y y Ty. apply (track_some tends_in (fun n => Many (Y n))). exists Y. split; [reflexivity|exact Ty].
Qed.
Lemma track_ws ws : track tends_all (fun _ => ask_ws ws) (ask_ws ws).
Proof.
  induction ws as [|[id w] ws IH]; cbn [ask_ws]; [apply (track_some tends_all (fun _ => [])); exact ta_nil|].
  apply (track_then tends_to tends_all (fun _ => ask_opt id w) (ask_opt id w) (fun n y => run ys <- ask_ws ws; Ret (y :: ys))); [apply (track_ask_opt id (fun _ => w)), tends_refl|]. intros Y y Ty.
  apply (track_then tends_all tends_all (fun _ => ask_ws ws) (ask_ws ws) (fun n ys => Ret (Y n :: ys))); [exact IH|]. intros Ys ys Tys. apply (track_some tends_all (fun n => Y n :: Ys n)). exact (ta_cons _ _ _ _ Ty Tys).
Qed.
Lemma layer_tracks l : op_layer l -> tracks (layer_prog l).
Proof.
  intros (t & a & E & NQ & C) X x T. unfold layer_prog. rewrite E.
  apply (track_then tends_in tends_to (fun n => ask_iq (y_iq l) (X n)) _ (fun n x' => run ws <- ask_ws (y_ws l); run y <- lift (net_op t a ws x'); ask_opt (y_oq l) y)); [apply track_iq, T|]. intros X' x' T'.
  apply (track_then tends_all tends_to (fun n => ask_ws (y_ws l)) _ (fun n ws => run y <- lift (net_op t a ws (X' n)); ask_opt (y_oq l) y)); [apply track_ws|]. intros Ws ws TW.
  apply (track_then tends_to tends_to (fun n => lift (net_op t a (Ws n) (X' n))) _ (fun n y => ask_opt (y_oq l) y)); [apply track_lift, lim_net_op; assumption|]. intros Y y Ty. apply track_ask_opt, Ty.
Qed.

(** ** the time loop *)
Lemma lim_step X x m f t T : tends_to X x -> shape x = [m; T; f] -> (t < T)%nat -> tends_to (fun n => step_at (X n) m f t) (step_at x m f t).
Proof.
  intros (S & A) E Ht. split; [reflexivity|]. cbn [step_at shape at_]. intros i Vi. inversion Vi as [|b ? i1 ? Hb V1]; subst. inversion V1 as [|j ? i2 ? Hj V2]; subst. inversion V2; subst. apply A. rewrite E. repeat constructor; assumption.
Qed.
Definition tends_pair (R : nat -> tensor Q * tensor Q) (r : tensor Q * tensor Q) : Prop := tends_to (fun n => fst (R n)) (fst r) /\ tends_to (fun n => snd (R n)) (snd r).
Lemma track_loop (St : nat -> tensor Q -> tensor Q -> prog (tensor Q * tensor Q)) st :
  (forall X x S s, tends_to X x -> tends_to S s -> track tends_pair (fun n => St n (X n) (S n)) (st x s)) ->
  forall Ys xs, Forall2 tends_to Ys xs -> forall S s, tends_to S s -> track tends_all (fun n => time_loop (St n) (map (fun Y => Y n) Ys) (S n)) (time_loop st xs s).
Proof.
  intros H Ys xs F. induction F as [|X x Ys xs Tx F IH]; intros S s Ts; cbn [map time_loop]; [apply (track_some tends_all (fun _ => [])); exact ta_nil|].
  apply (track_then tends_pair tends_all (fun n => St n (X n) (S n)) (st x s) (fun n r => run ys <- time_loop (St n) (map (fun Y => Y n) Ys) (snd r); Ret (fst r :: ys))); [exact (H _ _ _ _ Tx Ts)|]. intros R r (R1 & R2).
  apply (track_then tends_all tends_all (fun n => time_loop (St n) (map (fun Y => Y n) Ys) (snd (R n))) (time_loop st xs (snd r)) (fun n ys => Ret (fst (R n) :: ys))); [exact (IH _ _ R2)|]. intros Zs zs Tz.
  apply (track_some tends_all (fun n => fst (R n) :: Zs n)). exact (ta_cons (fun n => fst (R n)) (fst r) Zs zs R1 Tz).
Qed.
Lemma nth_all Ys xs t d : Forall2 tends_to Ys xs -> (t < List.length xs)%nat -> tends_to (fun n => nth t (map (fun Y : nat -> tensor Q => Y n) Ys) d) (nth t xs d).
Proof. intros F. revert t. induction F as [|Y x Ys xs T F IH]; intros t Ht; cbn [List.length] in Ht; [lia|]. destruct t as [|t]; cbn [map nth]; [exact T|apply IH; lia]. Qed.
Lemma nth_error_all Ys xs t : Forall2 tends_to Ys xs -> tlim (fun n => nth_error (map (fun Y : nat -> tensor Q => Y n) Ys) t) (nth_error xs t).
Proof. intros F. revert t. induction F as [|Y x Ys xs T F IH]; intros [|t]; cbn [map nth_error]; try apply olim_none; [apply olim_some, T|apply IH]. Qed.
Lemma lim_stack m u Ys xs : Forall2 tends_to Ys xs -> tlim (fun n => stack_steps m u (map (fun Y => Y n) Ys)) (stack_steps m u xs).
Proof.
  intros F z. unfold stack_steps. destruct (forallb _ xs) eqn:V; [|discriminate]. intros H. apply some_inj in H. subst z.
  exists (fun n => mk_tensor [m; List.length xs; u] (fun i => match i with [b; t; j] => at_ (nth t (map (fun Y => Y n) Ys) (zeros [])) [b; j] | _ => 0 end)). split.
  { intros n. assert (E : forallb (fun y => nat_list_eqb (shape y) [m; u]) (map (fun Y : nat -> tensor Q => Y n) Ys) = true).
    { rewrite <- V. clear V. induction F as [|Y y Ys ys (S & _) F IH]; cbn [map forallb]; [reflexivity|]. rewrite S, IH. reflexivity. }
    rewrite E, map_length, (Forall2_len _ _ _ F). reflexivity. }
  split; [reflexivity|]. cbn [shape at_]. intros i Vi. inversion Vi as [|b ? i1 ? Hb V1]; subst. inversion V1 as [|t ? i2 ? Ht V2]; subst. inversion V2 as [|j ? i3 ? Hj V3]; subst. inversion V3; subst.
  destruct (nth_all Ys xs t (zeros []) F Ht) as (_ & A). apply A. rewrite forallb_forall in V. specialize (V (nth t xs (zeros [])) (nth_In _ _ Ht)). apply nat_list_eqb_eq in V. rewrite V. repeat constructor; assumption.
Qed.
Lemma rnn_tracks u backwards sequences (St : nat -> tensor Q -> tensor Q -> prog (tensor Q * tensor Q)) st :
  (forall X x S s, tends_to X x -> tends_to S s -> track tends_pair (fun n => St n (X n) (S n)) (st x s)) ->
  forall X x, tends_in X x -> track tends_to (fun n => rnn_prog u backwards sequences (St n) (X n)) (rnn_prog u backwards sequences st x).
Proof.
  intros H X x T. destruct x as [x|xs]; [|cbn [rnn_prog]; apply tr_raise]. destruct T as (V & E & T). cbn [rnn_prog]. pose proof (proj1 T) as Sh.
  apply (track_ext _ (fun n => rnn_prog u backwards sequences (St n) (One (V n)))); [intros n; rewrite E; reflexivity|]. destruct (shape x) as [|m [|L [|f [|? ?]]]] eqn:Ex; try apply tr_raise. cbv zeta.
  set (Us := map (fun t n => step_at (V n) m f t) (seq 0 L)). set (steps := map (step_at x m f) (seq 0 L)).
  assert (F : Forall2 tends_to Us steps).
  { unfold Us, steps. assert (G : forall l, (forall t, In t l -> (t < L)%nat) -> Forall2 tends_to (map (fun t n => step_at (V n) m f t) l) (map (step_at x m f) l)).
    { induction l as [|t l IH]; intros Hl; cbn [map]; constructor; [exact (lim_step V x m f t L T Ex (Hl t (or_introl eq_refl)))|]. apply IH. intros w Hw. apply Hl. right. exact Hw. }
    apply G. intros t Ht. apply in_seq in Ht. lia. }
  set (Us' := if backwards then rev Us else Us). set (steps' := if backwards then rev steps else steps).
  assert (F' : Forall2 tends_to Us' steps') by (unfold Us', steps'; destruct backwards; [clear -F; induction F; cbn [rev]; [constructor|]; apply Forall2_app; [assumption|constructor; [assumption|constructor]]|exact F]).
  apply (track_ext _ (fun n => run ys <- time_loop (St n) (map (fun U => U n) Us') (zeros [m; u]); lift (do s <- stack_steps m u ys; if sequences then Some s else nth_error ys (List.length ys - 1)))).
  { intros n. cbn [rnn_prog]. rewrite Sh. cbv zeta. do 2 f_equal. unfold Us', Us. destruct backwards; rewrite ?map_rev, map_map; reflexivity. }
  apply (track_then tends_all tends_to (fun n => time_loop (St n) (map (fun U => U n) Us') (zeros [m; u])) (time_loop st steps' (zeros [m; u])) (fun n ys => lift (do s <- stack_steps m u ys; if sequences then Some s else nth_error ys (List.length ys - 1)))).
  - exact (track_loop St st H Us' steps' F' (fun _ => zeros [m; u]) (zeros [m; u]) (tends_refl _)).
  - intros Zs zs (Ys & EZ & FZ). apply track_lift. apply (olim_ext _ (fun n => do s <- stack_steps m u (map (fun Y => Y n) Ys); if sequences then Some s else nth_error (map (fun Y => Y n) Ys) (List.length zs - 1))).
    { intros n. rewrite EZ, map_length, (Forall2_len _ _ _ FZ). reflexivity. }
    apply (olim_bind tends_to tends_to (fun n => stack_steps m u (map (fun Y => Y n) Ys)) _ (fun n s => if sequences then Some s else nth_error (map (fun Y => Y n) Ys) (List.length zs - 1))); [exact (lim_stack m u Ys zs FZ)|].
    intros As a Ta. destruct sequences; [apply olim_some, Ta|apply nth_error_all, FZ].
Qed.

(** ** QSimpleRNN *)
Lemma track_bias (b : option (nat * tensor Q)) : track tends_opt (fun _ => match b with Some (id, b) => run y <- ask id b; Ret (Some y) | None => Ret None end) (match b with Some (id, b) => run y <- ask id b; Ret (Some y) | None => Ret None end).
Proof.
  destruct b as [[id b]|]; [|apply (track_some tends_opt (fun _ => None)); intros n; reflexivity].
  apply (track_then tends_to tends_opt (fun _ => ask id b) (ask id b) (fun n y => Ret (Some y))); [apply (track_ask id (fun _ => b)), tends_refl|]. intros Y y Ty. apply (track_some tends_opt (fun n => Some (Y n))). exists Y. split; [reflexivity|exact Ty].
Qed.
Lemma srnn_step_tracks l K k RK rk B b X x S s : continuous (sr_act l) -> tends_to K k -> tends_to RK rk -> tends_opt B b -> tends_to X x -> tends_to S s ->
  track tends_pair (fun n => srnn_step l (K n) (RK n) (B n) (X n) (S n)) (srnn_step l k rk b x s).
Proof.
  intros C Tk Trk Tb Tx Ts. unfold srnn_step.
  match goal with |- track _ (fun n => then_ (@?P n) (@?F n)) (then_ ?p ?f) => apply (track_then tends_to tends_pair P p F f) end; [apply track_ask_opt, Ts|]. intros QS qs Tq. cbn beta.
  match goal with |- track _ (fun n => then_ (@?P n) (@?F n)) (then_ ?p ?f) => apply (track_then tends_to tends_pair P p F f) end; [apply track_ask, Tx|]. intros QX qx Tqx. cbn beta.
  match goal with |- track _ (fun n => then_ (@?P n) (@?F n)) (then_ ?p ?f) => apply (track_then tends_to tends_pair P p F f) end.
  - apply track_lift.
    match goal with |- olim _ (fun n => bind (@?P n) (@?F n)) (bind ?p ?f) => apply (olim_bind tends_to tends_to P p F f) end; [exact (lim_matmul _ _ _ _ Tqx Tk)|]. intros H1 h1 T1. cbn beta.
    match goal with |- olim _ (fun n => bind (@?P n) (@?F n)) (bind ?p ?f) => apply (olim_bind tends_to tends_to P p F f) end; [exact (lim_bias _ _ _ _ T1 Tb)|]. intros H2 h2 T2. cbn beta.
    match goal with |- olim _ (fun n => bind (@?P n) (@?F n)) (bind ?p ?f) => apply (olim_bind tends_to tends_to P p F f) end; [exact (lim_matmul _ _ _ _ Tq Trk)|]. intros H3 h3 T3. cbn beta.
    exact (lim_binary Qplus _ _ _ _ respects_plus T2 T3).
  - intros O o To. cbn beta. match goal with |- track _ (fun n => then_ (@?P n) (@?F n)) (then_ ?p ?f) => apply (track_then tends_to tends_pair P p F f) end; [apply track_ask, To|]. intros Y y Ty. cbn beta zeta.
    apply (track_some tends_pair (fun n => (tmap (sr_act l) (Y n), tmap (sr_act l) (Y n)))). split; cbn [fst snd]; apply lim_tmap; assumption.
Qed.
Lemma srnn_tracks l : continuous (sr_act l) -> tracks (srnn_prog l).
Proof.
  intros C X x T. unfold srnn_prog.
  match goal with |- track _ (fun n => then_ (@?P n) (@?F n)) (then_ ?p ?f) => apply (track_then tends_to tends_to P p F f) end; [apply (track_ask _ (fun _ => snd (sr_kernel l))), tends_refl|]. intros K k Tk. cbn beta.
  match goal with |- track _ (fun n => then_ (@?P n) (@?F n)) (then_ ?p ?f) => apply (track_then tends_to tends_to P p F f) end; [apply (track_ask _ (fun _ => snd (sr_rkernel l))), tends_refl|]. intros RK rk Trk. cbn beta.
  match goal with |- track _ (fun n => then_ (@?P n) (@?F n)) (then_ ?p ?f) => apply (track_then tends_opt tends_to P p F f) end; [apply track_bias|]. intros B b Tb. cbn beta.
  apply (rnn_tracks (sr_units l) (sr_backwards l) (sr_sequences l) (fun n => srnn_step l (K n) (RK n) (B n))); [|exact T]. intros Y y S s Ty Ts. exact (srnn_step_tracks l _ _ _ _ _ _ _ _ _ _ C Tk Trk Tb Ty Ts).
Qed.
