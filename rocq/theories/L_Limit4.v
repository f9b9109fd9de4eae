(** Lemmas for C68: QGRU, QSoftmax, attention, and networks. *)
From Coq Require Import String.
From Verif Require Import Num M_Fixed L_Fixed M_State M_Wrapper M_Mapper S_Mapper L_Mapper M_Contr M_Ebops L_Ebops M_Pow2 M_Patch L_Patch M_Ops L_Ops M_Mirror L_Mirror M_Trace L_Trace M_Softmax M_Net S_Net L_Net L_Net2 L_Net3 L_Net4 L_Net5 M_Causal L_Causal M_Calib S_Ops S_Calib L_Calib L_Calib2 L_Calib3 M_Prog S_Prog L_Prog L_Prog2 L_Prog3 S_Limit L_Limit L_Limit2 L_Limit3.
Local Open Scope list_scope.
Ltac tthen R S := match goal with |- track _ (fun n => then_ (@?P n) (@?F n)) (then_ ?p ?f) => apply (track_then R S P p F f) end.
Ltac obind R S := match goal with |- olim _ (fun n => bind (@?P n) (@?F n)) (bind ?p ?f) => apply (olim_bind R S P p F f) end.

Definition tends2 (R : nat -> tensor Q * tensor Q) (r : tensor Q * tensor Q) : Prop := exists U V, (forall n, R n = (U n, V n)) /\ tends_to U (fst r) /\ tends_to V (snd r).
Definition tends3 (R : nat -> tensor Q * tensor Q * tensor Q) (r : tensor Q * tensor Q * tensor Q) : Prop := exists U V W, (forall n, R n = (U n, V n, W n)) /\ tends_to U (fst (fst r)) /\ tends_to V (snd (fst r)) /\ tends_to W (snd r).
Lemma track_then2 {B} (S : (nat -> B) -> B -> Prop) P p (F : nat -> tensor Q * tensor Q -> prog B) f : track tends2 P p -> (forall U u V v, tends_to U u -> tends_to V v -> track S (fun n => F n (U n, V n)) (f (u, v))) ->
  track S (fun n => then_ (P n) (F n)) (then_ p f).
Proof. intros H K. apply (track_then tends2 S P p F f H). intros As [u v] (U & V & E & Tu & Tv). apply (track_ext S (fun n => F n (U n, V n))); [intros n; rewrite E; reflexivity|]. exact (K _ _ _ _ Tu Tv). Qed.
Lemma track_then3 {B} (S : (nat -> B) -> B -> Prop) P p (F : nat -> tensor Q * tensor Q * tensor Q -> prog B) f : track tends3 P p -> (forall U u V v W w, tends_to U u -> tends_to V v -> tends_to W w -> track S (fun n => F n (U n, V n, W n)) (f (u, v, w))) ->
  track S (fun n => then_ (P n) (F n)) (then_ p f).
Proof. intros H K. apply (track_then tends3 S P p F f H). intros As [[u v] w] (U & V & W & E & Tu & Tv & Tw). apply (track_ext S (fun n => F n (U n, V n, W n))); [intros n; rewrite E; reflexivity|]. exact (K _ _ _ _ _ _ Tu Tv Tw). Qed.

(** ** QGRU *)
Lemma lim_cols from len X x : tends_to X x -> tlim (fun n => cols from len (X n)) (cols from len x).
Proof.
  intros (S & A) y. unfold cols. destruct (shape x) as [|m [|c [|? ?]]] eqn:E; try discriminate. destruct (Nat.leb_spec (from + len) c) as [L|]; [|discriminate]. intros H. apply some_inj in H. subst y.
  exists (fun n => mk_tensor [m; len] (fun i => match i with [b; j] => at_ (X n) [b; (from + j)%nat] | _ => 0 end)). split; [intros n; rewrite S; destruct (Nat.leb_spec (from + len) c); [reflexivity|lia]|].
  split; [reflexivity|]. cbn [shape at_]. intros i Vi. inversion Vi as [|b ? i1 ? Hb V1]; subst. inversion V1 as [|j ? i2 ? Hj V2]; subst. inversion V2; subst. apply A. repeat constructor; lia.
Qed.
Definition tends_bb (P : nat -> option (tensor Q) * option (tensor Q)) (p : option (tensor Q) * option (tensor Q)) : Prop := exists U V, (forall n, P n = (U n, V n)) /\ tends_opt U (fst p) /\ tends_opt V (snd p).
Lemma topt_none : tends_opt (fun _ => None) None. Proof. intros n. reflexivity. Qed.
Lemma topt_some U u : tends_to U u -> tends_opt (fun n => Some (U n)) (Some u). Proof. intros T. exists U. split; [reflexivity|exact T]. Qed.
Lemma lim_biases l B b : tends_opt B b -> olim tends_bb (fun n => gru_biases l (B n)) (gru_biases l b).
Proof.
  intros T p H. destruct b as [b|]; cbn [tends_opt gru_biases] in *.
  2:{ apply some_inj in H. subst p. exists (fun _ => (None, None)). split; [intros n; rewrite T; reflexivity|]. exists (fun _ => None), (fun _ => None). split; [reflexivity|]. split; apply topt_none. }
  destruct T as (U & E & T). destruct (sg_reset_after l) eqn:R.
  - pose proof T as (Sh & A). destruct (shape b) as [|[|[|[|?]]] [|c [|? ?]]] eqn:Eb; try discriminate. apply some_inj in H. subst p.
    exists (fun n => (Some (mk_tensor [c] (fun i => at_ (U n) (0%nat :: i))), Some (mk_tensor [c] (fun i => at_ (U n) (1%nat :: i))))). split; [intros n; rewrite E; cbn [gru_biases]; rewrite R, Sh; reflexivity|].
    exists (fun n => Some (mk_tensor [c] (fun i => at_ (U n) (0%nat :: i)))), (fun n => Some (mk_tensor [c] (fun i => at_ (U n) (1%nat :: i)))). split; [reflexivity|]. cbn [fst snd].
    split; apply (topt_some (fun n => mk_tensor [c] _)); (split; [reflexivity|]); cbn [shape at_]; intros i Vi; apply A; constructor; try lia; exact Vi.
  - apply some_inj in H. subst p. exists (fun n => (Some (U n), None)). split; [intros n; rewrite E; cbn [gru_biases]; rewrite R; reflexivity|]. exists (fun n => Some (U n)), (fun _ => None). split; [reflexivity|]. split; [apply topt_some, T|apply topt_none].
Qed.
Lemma olim_bind_bb {A} (S : (nat -> A) -> A -> Prop) O o (F : nat -> option (tensor Q) * option (tensor Q) -> option A) f : olim tends_bb O o ->
  (forall U u V v, tends_opt U u -> tends_opt V v -> olim S (fun n => F n (U n, V n)) (f (u, v))) -> olim S (fun n => bind (O n) (F n)) (bind o f).
Proof. intros H K. apply (olim_bind tends_bb S O o F f H). intros As [u v] (U & V & E & Tu & Tv). apply (olim_ext S (fun n => F n (U n, V n))); [intros n; rewrite E; reflexivity|]. exact (K _ _ _ _ Tu Tv). Qed.
Lemma sgru_step_tracks l K k RK rk B b X x S s : continuous (sg_act l) -> continuous (sg_ract l) -> tends_to K k -> tends_to RK rk -> tends_opt B b -> tends_to X x -> tends_to S s ->
  track tends_pair (fun n => sgru_step l (K n) (RK n) (B n) (X n) (S n)) (sgru_step l k rk b x s).
Proof.
  intros C Cr Tk Trk Tb Tx Ts. unfold sgru_step. cbv zeta. tthen tends_to tends_pair; [apply track_ask, Ts|]. intros QH qh Th. cbn beta. tthen tends_to tends_pair; [apply track_ask_opt, Tx|]. intros QX qx Tqx. cbn beta.
  match goal with |- track _ (fun n => then_ (@?P n) (@?F n)) (then_ ?p ?f) => apply (track_then3 tends_pair P p F f) end.
  - apply track_lift. match goal with |- olim _ (fun n => bind (@?P n) (@?F n)) (bind ?p ?f) => apply (olim_bind_bb tends3 P p F f) end; [exact (lim_biases l B b Tb)|]. intros IB ib RB rb Tib Trb. cbn beta iota.
    obind tends_to tends3; [exact (lim_matmul _ _ _ _ Tqx Tk)|]. intros M m Tm. cbn beta. obind tends_to tends3; [exact (lim_bias _ _ _ _ Tm Tib)|]. intros XM xm Txm. cbn beta.
    obind tends_to tends3.
    { destruct (sg_reset_after l).
      - obind tends_to tends_to; [exact (lim_matmul _ _ _ _ Th Trk)|]. intros R r Tr. exact (lim_bias _ _ _ _ Tr Trb).
      - obind tends_to tends_to; [exact (lim_cols _ _ _ _ Trk)|]. intros R r Tr. exact (lim_matmul _ _ _ _ Th Tr). }
    intros IN inn Tin. cbn beta. obind tends_to tends3; [exact (lim_cols _ _ _ _ Txm)|]. intros XZ xz Txz. cbn beta. obind tends_to tends3; [exact (lim_cols _ _ _ _ Tin)|]. intros RZ rz Trz. cbn beta.
    obind tends_to tends3; [exact (lim_binary Qplus _ _ _ _ respects_plus Txz Trz)|]. intros Z z Tz. cbn beta. apply (olim_some tends3 (fun n => (XM n, IN n, tmap (sg_ract l) (Z n)))). exists XM, IN, (fun n => tmap (sg_ract l) (Z n)).
    split; [reflexivity|]. cbn [fst snd]. split; [exact Txm|]. split; [exact Tin|]. apply lim_tmap; assumption.
  - intros XM xm IN inn Z z Txm Tin Tz. cbn beta iota. tthen tends_to tends_pair; [apply track_ask, Tz|]. intros QZ qz Tq. cbn beta.
    match goal with |- track _ (fun n => then_ (@?P n) (@?F n)) (then_ ?p ?f) => apply (track_then2 tends_pair P p F f) end.
    { apply track_lift. obind tends_to tends2; [exact (lim_cols _ _ _ _ Tq)|]. intros A a Ta. cbn beta. obind tends_to tends2; [exact (lim_cols _ _ _ _ Tq)|]. intros D d Td. cbn beta.
      apply (olim_some tends2 (fun n => (A n, D n))). exists A, D. split; [reflexivity|]. split; assumption. }
    intros ZG zg R r Tzg Tr. cbn beta iota. tthen tends_to tends_pair.
    { destruct (sg_reset_after l).
      - tthen tends_to tends_to; [apply track_lift, lim_cols, Tin|]. intros A a Ta. cbn beta. tthen tends_to tends_to; [apply track_ask, Ta|]. intros D d Td. cbn beta. apply track_lift. exact (lim_binary Qmult _ _ _ _ respects_mult Tr Td).
      - tthen tends_to tends_to; [apply track_lift; exact (lim_binary Qmult _ _ _ _ respects_mult Tr Th)|]. intros A a Ta. cbn beta. tthen tends_to tends_to; [apply track_ask, Ta|]. intros D d Td. cbn beta. apply track_lift.
        obind tends_to tends_to; [exact (lim_cols _ _ _ _ Trk)|]. intros E e Te. exact (lim_matmul _ _ _ _ Td Te). }
    intros RH rh Trh. cbn beta. tthen tends_to tends_pair.
    { apply track_lift. obind tends_to tends_to; [exact (lim_cols _ _ _ _ Txm)|]. intros A a Ta. cbn beta. obind tends_to tends_to; [exact (lim_binary Qplus _ _ _ _ respects_plus Ta Trh)|]. intros D d Td. cbn beta.
      apply (olim_some tends_to (fun n => tmap (sg_act l) (D n))). apply lim_tmap; assumption. }
    intros H h Th2. cbn beta. tthen tends_to tends_pair; [apply track_ask, Th2|]. intros HH hh Thh. cbn beta. tthen tends_to tends_pair.
    { apply track_lift. obind tends_to tends_to; [exact (lim_binary Qmult _ _ _ _ respects_mult Tzg Th)|]. intros A a Ta. cbn beta.
      obind tends_to tends_to; [exact (lim_binary Qmult _ _ _ _ respects_mult (lim_tmap _ _ _ continuous_one_minus Tzg) Thh)|]. intros D d Td. cbn beta. exact (lim_binary Qplus _ _ _ _ respects_plus Ta Td). }
    intros Y y Ty. cbn beta. apply (track_some tends_pair (fun n => (Y n, Y n))). split; exact Ty.
Qed.
Lemma sgru_tracks l : continuous (sg_act l) -> continuous (sg_ract l) -> tracks (sgru_prog l).
Proof.
  intros C Cr X x T. unfold sgru_prog.
  tthen tends_to tends_to; [apply (track_ask _ (fun _ => snd (sg_kernel l))), tends_refl|]. intros K k Tk. cbn beta.
  tthen tends_to tends_to; [apply (track_ask _ (fun _ => snd (sg_rkernel l))), tends_refl|]. intros RK rk Trk. cbn beta.
  tthen tends_opt tends_to; [apply track_bias|]. intros B b Tb. cbn beta.
  apply (rnn_tracks (sg_units l) (sg_backwards l) (sg_sequences l) (fun n => sgru_step l (K n) (RK n) (B n))); [|exact T]. intros Y y S s Ty Ts. exact (sgru_step_tracks l _ _ _ _ _ _ _ _ _ _ C Cr Tk Trk Tb Ty Ts).
Qed.
