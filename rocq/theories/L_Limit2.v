(** Lemmas for C68: limits of the operations of M_Net. *)
From Coq Require Import String.
From Verif Require Import Num M_Fixed L_Fixed M_State M_Wrapper M_Mapper S_Mapper L_Mapper M_Contr M_Ebops L_Ebops M_Pow2 M_Patch L_Patch M_Ops L_Ops M_Mirror L_Mirror M_Trace L_Trace M_Softmax M_Net S_Net L_Net L_Net2 L_Net3 L_Net4 L_Net5 M_Causal L_Causal M_Calib S_Ops S_Calib L_Calib L_Calib2 M_Prog S_Prog L_Prog L_Prog2 L_Prog3 S_Limit L_Limit.
Local Open Scope list_scope.

(** ** lists of numbers *)
Definition tends_list (L : nat -> list Q) (l : list Q) : Prop := exists Fs : list (nat -> Q), (forall n, L n = map (fun F => F n) Fs) /\ Forall2 tends Fs l.
Definition respects (f : list Q -> Q) : Prop := forall Fs l, Forall2 tends Fs l -> tends (fun n => f (map (fun F => F n) Fs)) (f l).
Lemma respects_list f L l : respects f -> tends_list L l -> tends (fun n => f (L n)) (f l).
Proof. intros R (Fs & E & F). eapply tends_ext; [| |exact (R Fs l F)]; [intros n; cbn beta; rewrite (E n); reflexivity|reflexivity]. Qed.
Lemma tl_nil : tends_list (fun _ => []) []. Proof. exists []. split; [reflexivity|constructor]. Qed.
Lemma tl_cons a l L m : tends a l -> tends_list L m -> tends_list (fun n => a n :: L n) (l :: m).
Proof. intros H (Fs & E & F). exists (a :: Fs). split; [intros n; cbn [map]; rewrite (E n); reflexivity|constructor; assumption]. Qed.
Lemma tl_map {I} (F : nat -> I -> Q) f l : (forall i, In i l -> tends (fun n => F n i) (f i)) -> tends_list (fun n => map (F n) l) (map f l).
Proof. induction l as [|i l IH]; intros H; [exact tl_nil|]. cbn [map]. apply (tl_cons (fun n => F n i)); [apply H; left; reflexivity|]. apply IH. intros j Hj. apply H. right. exact Hj. Qed.
Lemma respects_qsum : respects qsum.
Proof. intros Fs l F. induction F as [|a x Fs l H F IH]; [exact (tends_const 0)|]. exact (tends_plus _ _ _ _ H IH). Qed.
Lemma tends_max a b l m : tends a l -> tends b m -> tends (fun n => Qmax (a n) (b n)) (Qmax l m). Proof. exact (tends_both Qmax a b l m max_dist). Qed.
Lemma tends_min a b l m : tends a l -> tends b m -> tends (fun n => Qmin (a n) (b n)) (Qmin l m). Proof. exact (tends_both Qmin a b l m min_dist). Qed.
Lemma respects_np_max : respects np_max.
Proof.
  intros Fs l F. destruct F as [|a x Fs l H F]; [exact (tends_const 0)|]. cbn [map np_max]. revert a x H. induction F as [|b y Fs l K F IH]; intros a x H; [exact H|]. cbn [map fold_left]. exact (IH (fun n => Qmax (a n) (b n)) (Qmax x y) (tends_max _ _ _ _ H K)).
Qed.
Lemma respects_qmax : respects qmax_of.
Proof.
  intros Fs l F. induction F as [|a x Fs l H F IH]; [exact (tends_const 0)|]. destruct F as [|b y Fs l K F]; [exact H|].
  change (tends (fun n => Qmax (a n) (qmax_of (map (fun F => F n) (b :: Fs)))) (Qmax x (qmax_of (y :: l)))). exact (tends_max _ _ _ _ H IH).
Qed.

(** ** tensors *)
Definition olim {A} (R : (nat -> A) -> A -> Prop) (O : nat -> option A) (o : option A) : Prop := forall a, o = Some a -> exists As, (forall n, O n = Some (As n)) /\ R As a.
Notation tlim := (olim tends_to).
Lemma olim_ext {A} (R : (nat -> A) -> A -> Prop) O O' o : (forall n, O n = O' n) -> olim R O o -> olim R O' o.
Proof. intros E H a Ha. destruct (H a Ha) as (As & X & Y). exists As. split; [intros n; rewrite <- E; apply X|exact Y]. Qed.
Lemma olim_bind {A B} (R : (nat -> A) -> A -> Prop) (S : (nat -> B) -> B -> Prop) O o F f : olim R O o -> (forall As a, R As a -> olim S (fun n => F n (As n)) (f a)) -> olim S (fun n => bind (O n) (F n)) (bind o f).
Proof.
  intros H K b Hb. destruct o as [a|]; [|discriminate]. cbn [bind] in Hb. destruct (H a eq_refl) as (As & X & Y). apply (olim_ext S (fun n => F n (As n))) with (3 := Hb); [|exact (K _ _ Y)]. intros n. rewrite X. reflexivity.
Qed.
Lemma olim_some {A} (R : (nat -> A) -> A -> Prop) As a : R As a -> olim R (fun n => Some (As n)) (Some a).
Proof. intros H b E. apply some_inj in E. subst b. exists As. split; [reflexivity|exact H]. Qed.
Lemma olim_none {A} (R : (nat -> A) -> A -> Prop) O : olim R O None. Proof. intros a H. discriminate. Qed.
Lemma tends_refl x : tends_to (fun _ => x) x.
Proof. split; [reflexivity|]. intros i _. apply tends_const. Qed.
Lemma tends_to_ext X Y x : (forall n, X n = Y n) -> tends_to X x -> tends_to Y x.
Proof. intros E (S & T). split; [intros n; rewrite <- E; apply S|]. intros i Vi. eapply tends_ext; [| |exact (T i Vi)]; [intros n; cbn beta; rewrite E; reflexivity|reflexivity]. Qed.
Lemma lim_tmap f X x : continuous f -> tends_to X x -> tends_to (fun n => tmap f (X n)) (tmap f x).
Proof. intros C (S & T). split; [intros n; apply S|]. intros i Vi. exact (tends_fn f _ _ (C _) (T i Vi)). Qed.
Definition respects2 (f : Q -> Q -> Q) : Prop := forall a b l m, tends a l -> tends b m -> tends (fun n => f (a n) (b n)) (f l m).
Lemma lim_bcast n X x i : tends_to X x -> valid_index (lpad n (shape x)) (bcast_index (lpad n (shape x)) i) -> tends (fun k => bcast_at n (X k) i) (bcast_at n x i).
Proof.
  intros (S & T) V. unfold lpad in V at 1. apply valid_app_r in V. rewrite repeat_length in V. eapply tends_ext; [| |exact (T _ V)]; [|reflexivity]. intros k. unfold bcast_at. rewrite S. reflexivity.
Qed.
Lemma lim_binary f X x Y y : respects2 f -> tends_to X x -> tends_to Y y -> tlim (fun n => np_binary f (X n) (Y n)) (np_binary f x y).
Proof.
  intros P Tx Ty z. pose proof (proj1 Tx) as Ex. pose proof (proj1 Ty) as Ey. unfold np_binary. set (r := Nat.max (List.length (shape x)) (List.length (shape y))).
  destruct (join_shape (lpad r (shape x)) (lpad r (shape y))) as [sh|] eqn:J; [|discriminate]. cbn [bind]. intros H. apply some_inj in H. subst z.
  exists (fun n => mk_tensor sh (fun idx => f (bcast_at r (X n) idx) (bcast_at r (Y n) idx))). split; [intros n; rewrite Ex, Ey; fold r; rewrite J; reflexivity|].
  split; [reflexivity|]. cbn [shape at_]. intros i Hi. destruct (join_valid _ _ _ _ J Hi) as (A & B). apply P; apply lim_bcast; assumption.
Qed.
Lemma respects_plus : respects2 Qplus. Proof. exact tends_plus. Qed.
Lemma respects_mult : respects2 Qmult. Proof. exact tends_mult. Qed.
Lemma respects_minus : respects2 Qminus. Proof. exact tends_minus. Qed.
Lemma lim_reshape sh X x : tends_to X x -> tlim (fun n => np_reshape sh (X n)) (np_reshape sh x).
Proof.
  intros (E & H) y. unfold np_reshape. destruct (Nat.eqb_spec (nprod sh) (nprod (shape x))) as [P|]; [|discriminate]. intros K. apply some_inj in K. subst y.
  exists (fun n => mk_tensor sh (fun idx => at_ (X n) (unflat (shape x) (flat sh idx)))). split; [intros n; rewrite E, P, Nat.eqb_refl; reflexivity|]. split; [reflexivity|]. cbn [shape at_]. intros i Hi. apply H. apply unflat_valid. rewrite <- P. apply flat_lt, Hi.
Qed.
Lemma lim_reduce f axes kd X x : respects f -> tends_to X x -> tends_to (fun n => np_reduce f axes kd (X n)) (np_reduce f axes kd x).
Proof.
  intros R (E & H). assert (C : forall g, tends (fun n => f (collect axes (X n) g)) (f (collect axes x g))).
  { intros g. apply respects_list; [exact R|]. unfold collect. pose proof (tl_map (fun n => at_ (X n)) (at_ x) (filter (fun idx => index_eqb (keep axes idx) g) (indices (shape x)))) as T.
    destruct T as (Fs & EF & F); [intros i Hi; apply filter_In in Hi; apply H, in_indices, Hi|]. exists Fs. split; [|exact F]. intros n. rewrite E. apply EF. }
  unfold np_reduce. destruct kd; (split; [intros n; cbn [shape reduce_keep]; rewrite E; reflexivity|]); intros i _; cbn [reduce_keep at_]; [apply C|].
  eapply tends_ext; [| |exact (C (undrop 0 axes (shape x) i))]; [intros n; rewrite E; reflexivity|reflexivity].
Qed.
Lemma lim_sum_over dims F f : forall ls e, (forall e', (forall m, ~ In m ls -> e' m = e m) -> (forall m, In m ls -> (e' m < dims m)%nat) -> tends (fun n => F n e') (f e')) ->
  tends (fun n => sum_over 0 Qplus dims ls (F n) e) (sum_over 0 Qplus dims ls f e).
Proof.
  induction ls as [|l ls IH]; intros e H; cbn [sum_over].
  - apply H; [reflexivity|intros m []].
  - unfold csum. change (fold_right Qplus 0) with qsum. apply (tends_qsum (fun n v => sum_over 0 Qplus dims ls (F n) (upd e l v))). intros v Hv. apply in_seq in Hv. apply IH. intros e' H1 H2. apply H.
    + intros m Hm. rewrite H1; [|intros X; apply Hm; right; exact X]. unfold upd. destruct (Nat.eqb_spec m l) as [->|]; [exfalso; apply Hm; left; reflexivity|reflexivity].
    + intros m [<-|Hm]; [|exact (H2 m Hm)]. destruct (in_dec Nat.eq_dec l ls) as [I|N]; [exact (H2 l I)|]. rewrite (H1 l N). unfold upd. rewrite Nat.eqb_refl. lia.
Qed.
Lemma lim_einsum li lk lo X x K k : tends_to X x -> tends_to K k -> tlim (fun n => np_einsum li lk lo (X n) (K n)) (np_einsum li lk lo x k).
Proof.
  intros (Sx & Ax) (Sk & Ak) y. unfold np_einsum. cbv zeta. set (dims := label_dims li (shape x) lk (shape k)).
  destruct ((List.length li =? List.length (shape x))%nat && (List.length lk =? List.length (shape k))%nat && _) eqn:E; [|discriminate]. intros H. apply some_inj in H. subst y.
  exists (fun n => mk_tensor (map dims lo) (einsum 0 Qplus Qmult dims li lk lo (at_ (X n)) (at_ (K n)))). split; [intros n; rewrite Sx, Sk; fold dims; rewrite E; reflexivity|].
  apply andb_true_iff in E as (E & E3). apply andb_true_iff in E as (E1 & E2). apply Nat.eqb_eq in E1, E2. rewrite forallb_app in E3. apply andb_true_iff in E3 as (E3 & E4).
  apply forallb_dims in E3; [|exact E1]. apply forallb_dims in E4; [|exact E2]. split; [reflexivity|]. cbn [shape at_]. intros i Vi. unfold einsum. apply (lim_sum_over dims (fun n e => at_ (X n) (map e li) * at_ (K n) (map e lk))). intros e H1 H2.
  assert (B : forall l, In l (li ++ lk) -> (e l < dims l)%nat).
  { intros l Hl. destruct (in_dec Nat.eq_dec l (contracted li lk lo)) as [I|N]; [exact (H2 l I)|]. rewrite (H1 l N). apply bind_lt; [exact Vi|].
    destruct (memb l lo) eqn:M; [apply memb_In, M|]. exfalso. apply N. unfold contracted. apply filter_In. rewrite M. split; [|reflexivity]. unfold all_labels. apply nodup_In, Hl. }
  apply (tends_mult (fun n => at_ (X n) (map e li)) (fun n => at_ (K n) (map e lk))); [apply Ax|apply Ak]; [rewrite <- E3|rewrite <- E4]; apply valid_map; intros l Hl; apply B, in_or_app; [left|right]; exact Hl.
Qed.
Lemma lim_matmul X x K k : tends_to X x -> tends_to K k -> tlim (fun n => keras_matmul (X n) (K n)) (keras_matmul x k).
Proof.
  intros (Sx & Ax) (Sk & Ak) y. unfold keras_matmul. destruct (shape k) as [|c [|u [|? ?]]] eqn:Ek; try discriminate.
  destruct (negb (nat_list_eqb (shape x) []) && _) eqn:E; [|discriminate]. intros H. apply some_inj in H. subst y.
  exists (fun n => mk_tensor (removelast (shape x) ++ [u]) (matmul 0 Qplus Qmult c (at_ (X n)) (at_ (K n)))). split; [intros n; rewrite Sk, Sx, E; reflexivity|]. split; [reflexivity|]. cbn [shape at_]. intros i Vi.
  apply andb_true_iff in E as (E1 & E2). apply Nat.eqb_eq in E2. assert (N : shape x <> []) by (intros Z; rewrite Z in E1; discriminate). apply valid_snoc_inv in Vi as (V1 & V2).
  unfold matmul, csum. change (fold_right Qplus 0) with qsum. apply (tends_qsum (fun n j => at_ (X n) (removelast i ++ [j]) * at_ (K n) [j; last i 0%nat])). intros j Hj. apply in_seq in Hj.
  apply (tends_mult (fun n => at_ (X n) (removelast i ++ [j])) (fun n => at_ (K n) [j; last i 0%nat])).
  - apply Ax. rewrite (last_split _ N), E2. apply valid_snoc; [exact V1|lia].
  - apply Ak. repeat constructor; lia.
Qed.
Definition tends_opt (B : nat -> option (tensor Q)) (b : option (tensor Q)) : Prop := match b with Some u => exists U, (forall n, B n = Some (U n)) /\ tends_to U u | None => forall n, B n = None end.
Lemma topt_refl b : tends_opt (fun _ => b) b.
Proof. destruct b as [u|]; cbn [tends_opt]; [exists (fun _ => u); split; [reflexivity|apply tends_refl]|reflexivity]. Qed.
Lemma lim_bias Y y B b : tends_to Y y -> tends_opt B b -> tlim (fun n => add_bias (Y n) (B n)) (add_bias y b).
Proof.
  intros T H. destruct b as [u|]; cbn [tends_opt add_bias] in *.
  - destruct H as (U & E & TU). apply (olim_ext _ (fun n => np_binary Qplus (Y n) (U n))); [intros n; rewrite E; reflexivity|]. exact (lim_binary Qplus _ _ _ _ respects_plus T TU).
  - apply (olim_ext _ (fun n => Some (Y n))); [intros n; rewrite H; reflexivity|]. apply olim_some, T.
Qed.
Lemma lim_conv pad cs g ci co X x K k : tends_to X x -> tends_to K k -> tlim (fun n => keras_conv pad cs g ci co (K n) (X n)) (keras_conv pad cs g ci co k x).
Proof.
  intros (Sx & Ax) (Sk & Ak) y. unfold keras_conv. destruct (shape x) as [|m s] eqn:Ex; [discriminate|]. unfold conv_fits.
  destruct (nat_list_eqb s _ && nat_list_eqb (shape k) _) eqn:F; [|discriminate]. intros H. apply some_inj in H. subst y.
  exists (fun n => mk_tensor (m :: conv_out_shape pad cs ++ [(g * co)%nat]) (fun i => conv 0 Qplus Qmult pad cs ci co (fun j => at_ (X n) (hd 0%nat i :: tl j)) (at_ (K n)) (removelast (tl i)) (last (tl i) 0%nat))).
  split; [intros n; rewrite Sx, Sk, F; reflexivity|]. apply andb_true_iff in F as (F1 & F2). apply nat_list_eqb_eq in F1, F2.
  split; [reflexivity|]. cbn [shape at_]. intros i Vi. inversion Vi as [|b ? i' ? Hb Vi']; subst. cbn [hd tl].
  apply valid_snoc_inv in Vi' as (Vo & Vc). unfold conv, csum. change (fold_right Qplus 0) with qsum.
  assert (G : forall t, In t (indices (map c_k cs)) -> forall c, (c < ci)%nat -> forall p, c_positions pad cs (removelast i') t = Some p ->
    tends (fun n => at_ (X n) (b :: tl (0%nat :: p ++ [(last i' 0%nat / co * ci + c)%nat]))) (at_ x (b :: tl (0%nat :: p ++ [(last i' 0%nat / co * ci + c)%nat]))) /\ tends (fun n => at_ (K n) (t ++ [c; last i' 0%nat])) (at_ k (t ++ [c; last i' 0%nat]))).
  { intros t Ht c Hc p Hp. assert (Hco : (0 < co)%nat) by (destruct co; lia). split.
    - apply Ax. cbn [tl]. constructor; [exact Hb|]. apply valid_snoc; [exact (c_positions_valid _ _ _ _ _ Hp)|].
      assert (last i' 0 / co < g)%nat by (apply Nat.div_lt_upper_bound; lia). nia.
    - apply Ak. rewrite F2. apply Forall2_app; [apply in_indices, Ht|]. repeat constructor; assumption. }
  revert G. induction (indices (map c_k cs)) as [|t ts IH]; intros G; [exact (tends_const 0)|]. cbn [flat_map].
  eapply tends_ext; [intros n; symmetry; apply qsum_app|symmetry; apply qsum_app|]. apply (tends_plus (fun n => qsum (map _ (seq 0 ci))) (fun n => qsum (flat_map _ ts))); [|apply IH; intros t' Ht'; apply G; right; exact Ht'].
  match goal with |- tends (fun n => qsum (map (@?FF n) _)) _ => apply (tends_qsum FF) end. intros c Hc. apply in_seq in Hc. destruct (c_positions pad cs (removelast i') t) as [p|] eqn:E; [|exact (tends_const 0)].
  destruct (G t (or_introl eq_refl) c) with (p := p) as (G1 & G2); [lia|exact E|]. exact (tends_mult _ _ _ _ G1 G2).
Qed.
Lemma lim_window pad cs ch (F : nat -> index -> Q) f o c : (c < ch)%nat -> (forall p, valid_index (map c_in cs) p -> tends (fun n => F n (0%nat :: p ++ [c])) (f (0%nat :: p ++ [c]))) ->
  exists Fs : list (nat -> Q), (forall n, window pad cs (F n) o c = map (fun G => G n) Fs) /\ Forall2 tends Fs (window pad cs f o c).
Proof.
  intros Hc H. unfold window. induction (indices (map c_k cs)) as [|t ts (Fs & E & T)]; [exists []; split; [reflexivity|constructor]|]. cbn [flat_map]. destruct (c_positions pad cs o t) as [p|] eqn:P; [|exists Fs; split; assumption].
  exists ((fun n => F n (0%nat :: p ++ [c])) :: Fs). split; [intros n; cbn [app map]; rewrite E; reflexivity|]. cbn [app]. constructor; [apply H; exact (c_positions_valid _ _ _ _ _ P)|exact T].
Qed.
Definition pool_lim (kpool : (index -> Q) -> index -> nat -> Q) (cs : list cdim) (ch : nat) : Prop :=
  forall (F : nat -> index -> Q) f o c, (c < ch)%nat -> (forall p, valid_index (map c_in cs) p -> tends (fun n => F n (0%nat :: p ++ [c])) (f (0%nat :: p ++ [c]))) -> tends (fun n => kpool (F n) o c) (kpool f o c).
Lemma lim_avg pad cs ch : pool_lim (avg_pool pad cs) cs ch.
Proof.
  intros F f o c Hc H. destruct (lim_window pad cs ch F f o c Hc H) as (Fs & E & T). unfold avg_pool.
  eapply tends_ext; [| |exact (tends_scale (/ inject_Z (Z.of_nat (List.length (window pad cs f o c)))) _ _ (respects_qsum Fs _ T))]; [|unfold Qdiv; apply Qmult_comm].
  intros n. cbn beta. rewrite E, map_length, (Forall2_len _ _ _ T). unfold Qdiv. apply Qmult_comm.
Qed.
Lemma lim_maxp pad cs ch : pool_lim (max_pool pad cs) cs ch.
Proof. intros F f o c Hc H. unfold max_pool. apply respects_list; [exact respects_np_max|]. exact (lim_window pad cs ch F f o c Hc H). Qed.
Lemma lim_pool kpool pad cs ch X x : pool_lim kpool cs ch -> tends_to X x -> tlim (fun n => keras_pool kpool pad cs ch (X n)) (keras_pool kpool pad cs ch x).
Proof.
  intros P (Sx & Ax) y. unfold keras_pool. destruct (shape x) as [|m s] eqn:Ex; [discriminate|]. destruct (nat_list_eqb s _) eqn:F; [|discriminate]. intros H. apply some_inj in H. subst y.
  exists (fun n => mk_tensor (m :: conv_out_shape pad cs ++ [ch]) (fun i => kpool (fun j => at_ (X n) (hd 0%nat i :: tl j)) (removelast (tl i)) (last (tl i) 0%nat))). split; [intros n; rewrite Sx, F; reflexivity|]. apply nat_list_eqb_eq in F.
  split; [reflexivity|]. cbn [shape at_]. intros i Vi. inversion Vi as [|b ? i' ? Hb Vi']; subst. cbn [hd tl]. apply valid_snoc_inv in Vi' as (Vo & Vc). apply (P (fun n j => at_ (X n) (b :: tl j))); [exact Vc|].
  intros p Vp. apply Ax. cbn [tl]. constructor; [exact Hb|]. apply valid_snoc; assumption.
Qed.
Lemma lim_expand1 X x : tends_to X x -> tends_to (fun n => expand1 (X n)) (expand1 x).
Proof.
  intros (E & A). unfold expand1. destruct (shape x) as [|b s] eqn:Ex.
  - apply (tends_to_ext X); [intros n; rewrite E; reflexivity|]. split; [intros n; rewrite E, Ex; reflexivity|]. rewrite Ex. exact A.
  - apply (tends_to_ext (fun n => mk_tensor (b :: 1%nat :: s) (fun i => at_ (X n) (hd 0%nat i :: tl (tl i))))); [intros n; rewrite E; reflexivity|]. split; [reflexivity|]. cbn [shape at_]. intros i Vi.
    inversion Vi as [|a ? i' ? Ha Vi']; subst. inversion Vi' as [|c ? i'' ? Hc Vi'']; subst. cbn [hd tl]. apply A. constructor; assumption.
Qed.
Lemma lim_expand r X x : tends_to X x -> tends_to (fun n => expand_to r (X n)) (expand_to r x).
Proof.
  intros T. apply (tends_to_ext (fun n => Nat.iter (r - List.length (shape x)) expand1 (X n))); [intros n; unfold expand_to; rewrite (proj1 T); reflexivity|]. unfold expand_to.
  induction (r - List.length (shape x))%nat as [|m IH]; [exact T|]. exact (lim_expand1 _ _ IH).
Qed.
(** lists of tensors *)
Definition tends_all (Xs : nat -> list (tensor Q)) (xs : list (tensor Q)) : Prop := exists Ys : list (nat -> tensor Q), (forall n, Xs n = map (fun Y => Y n) Ys) /\ Forall2 tends_to Ys xs.
Lemma ta_nil : tends_all (fun _ => []) []. Proof. exists []. split; [reflexivity|constructor]. Qed.
Lemma ta_cons X x Xs xs : tends_to X x -> tends_all Xs xs -> tends_all (fun n => X n :: Xs n) (x :: xs).
Proof. intros H (Ys & E & F). exists (X :: Ys). split; [intros n; cbn [map]; rewrite E; reflexivity|constructor; assumption]. Qed.
Lemma ta_ext Xs Ys xs : (forall n, Xs n = Ys n) -> tends_all Xs xs -> tends_all Ys xs.
Proof. intros E (Zs & F & T). exists Zs. split; [intros n; rewrite <- E; apply F|exact T]. Qed.
Lemma lim_fold f : respects2 f -> forall Ys xs, Forall2 tends_to Ys xs -> forall A a, tends_to A a -> tlim (fun n => fold_binary f (A n) (map (fun Y => Y n) Ys)) (fold_binary f a xs).
Proof.
  intros P Ys xs F. induction F as [|X x Ys xs S F IH]; intros A a T; cbn [map fold_binary]; [apply olim_some, T|].
  apply (olim_bind tends_to tends_to (fun n => np_binary f (A n) (X n)) (np_binary f a x) (fun n r => fold_binary f r (map (fun Y => Y n) Ys))); [exact (lim_binary f _ _ _ _ P T S)|]. intros As b Tb. exact (IH As b Tb).
Qed.
Lemma respects_bin op : respects2 (bin_op op).
Proof. destruct op; cbn [bin_op]; first [exact tends_plus|exact tends_minus|exact tends_mult|exact tends_max|exact tends_min]. Qed.
Lemma all_shapes Ys xs n : Forall2 tends_to Ys xs -> map shape (map (fun Y : nat -> tensor Q => Y n) Ys) = map shape xs.
Proof. induction 1 as [|Y x Ys xs (S & _) F IH]; [reflexivity|]. cbn [map]. rewrite S, IH. reflexivity. Qed.
Lemma lim_merge op Xs xs : tends_all Xs xs -> tlim (fun n => keras_merge op (Xs n)) (keras_merge op xs).
Proof.
  intros (Ys & E & F). apply (olim_ext _ (fun n => keras_merge op (map (fun Y => Y n) Ys))); [intros n; rewrite E; reflexivity|]. unfold keras_merge.
  apply (olim_ext _ (fun n => if merge_arity op (List.length xs) then match map (expand_to (max_ndim xs)) (map (fun Y => Y n) Ys) with [] => None | y :: ys => do r <- fold_binary (bin_op op) y ys; Some (match op with MAveragePow2 => tmap (fun v => v * pow2_scale (Z.of_nat (List.length xs))) r | _ => r end) end else None)).
  { intros n. rewrite map_length, (Forall2_len _ _ _ F). rewrite (max_ndim_shapes _ _ (all_shapes Ys xs n F)). reflexivity. }
  destruct (merge_arity op (List.length xs)); [|apply olim_none]. destruct F as [|Y x Ys xs T F]; [apply olim_none|]. cbn [map]. generalize (max_ndim (x :: xs)) (Z.of_nat (List.length (x :: xs))). intros r z.
  apply (olim_bind tends_to tends_to (fun n => fold_binary (bin_op op) (expand_to r (Y n)) (map (expand_to r) (map (fun Y => Y n) Ys))) (fold_binary (bin_op op) (expand_to r x) (map (expand_to r) xs)) (fun n s => Some (match op with MAveragePow2 => tmap (fun v => v * pow2_scale z) s | _ => s end))).
  - apply (olim_ext _ (fun n => fold_binary (bin_op op) (expand_to r (Y n)) (map (fun Z => Z n) (map (fun (Y : nat -> tensor Q) n => expand_to r (Y n)) Ys)))); [intros n; rewrite !map_map; reflexivity|].
    apply (lim_fold _ (respects_bin op)) with (A := fun n => expand_to r (Y n)); [|apply lim_expand, T]. clear -F. induction F; cbn [map]; constructor; [apply lim_expand|]; assumption.
  - intros As a Ta. apply (olim_some tends_to (fun n => match op with MAveragePow2 => tmap (fun v => v * pow2_scale z) (As n) | _ => As n end)). destruct op; try exact Ta. apply lim_tmap; [apply continuous_scale|exact Ta].
Qed.
Definition tends_in (X : nat -> tin) (x : tin) : Prop :=
  match x with One v => exists V, (forall n, X n = One (V n)) /\ tends_to V v | Many vs => exists Vs, (forall n, X n = Many (Vs n)) /\ tends_all Vs vs end.
Lemma lim_batchnorm sh S s O o X x : tends_to S s -> tends_to O o -> tends_to X x -> tlim (fun n => keras_batchnorm sh (S n) (O n) (X n)) (keras_batchnorm sh s o x).
Proof.
  intros Ts To Tx. unfold keras_batchnorm.
  apply (olim_bind tends_to tends_to (fun n => np_reshape sh (S n)) _ (fun n s => do o <- np_reshape sh (O n); do r <- np_binary Qmult (X n) s; np_binary Qplus r o)); [apply lim_reshape, Ts|]. intros S1 s1 T1.
  apply (olim_bind tends_to tends_to (fun n => np_reshape sh (O n)) _ (fun n o => do r <- np_binary Qmult (X n) (S1 n); np_binary Qplus r o)); [apply lim_reshape, To|]. intros O1 o1 T2.
  apply (olim_bind tends_to tends_to (fun n => np_binary Qmult (X n) (S1 n)) _ (fun n r => np_binary Qplus r (O1 n))); [exact (lim_binary Qmult _ _ _ _ respects_mult Tx T1)|]. intros R r T3. exact (lim_binary Qplus _ _ _ _ respects_plus T3 T2).
Qed.
(** the operations without weights, and those with the given weights *)
Lemma lim_two (op : tensor Q -> tensor Q -> option (tensor Q)) b B X x K k : tlim (fun n => op (X n) (K n)) (op x k) -> tends_opt B b ->
  tlim (fun n => do y <- op (X n) (K n); add_bias y (B n)) (do y <- op x k; add_bias y b).
Proof. intros H T. apply (olim_bind tends_to tends_to (fun n => op (X n) (K n)) _ (fun n y => add_bias y (B n)) (fun y => add_bias y b)); [exact H|]. intros Y y Ty. exact (lim_bias _ _ _ _ Ty T). Qed.
Lemma lim_if {A} (R : (nat -> A) -> A -> Prop) (b : bool) O o : olim R O o -> olim R (fun n => if b then O n else None) (if b then o else None).
Proof. destruct b; [exact (fun H => H)|intros _; apply olim_none]. Qed.
Lemma lim_other c X x : no_quantizer (TOther c) -> tends_in X x -> tlim (fun n => core_call c (X n)) (core_call c x).
Proof.
  intros NQ T. destruct x as [x|xs]; cbn [tends_in] in T.
  - destruct T as (V & E & T). apply (olim_ext _ (fun n => core_call c (One (V n)))); [intros n; rewrite E; reflexivity|]. clear X E. pose proof (proj1 T) as Sh.
    destruct c as [q|k b|li lk lo k b|pad cs g ci co k b|sh sc off|ndim axes kd scale|pad cs ch|pad cs ch|op|sh| | |]; cbn [no_quantizer core_call] in *; try contradiction NQ; try apply olim_none.
    + apply (lim_two keras_matmul b (fun _ => b) V x (fun _ => k) k); [exact (lim_matmul _ _ _ _ T (tends_refl k))|apply topt_refl].
    + apply (lim_two (np_einsum li lk lo) b (fun _ => b) V x (fun _ => k) k); [exact (lim_einsum _ _ _ _ _ _ _ T (tends_refl k))|apply topt_refl].
    + apply (lim_two (fun x k => keras_conv pad cs g ci co k x) b (fun _ => b) V x (fun _ => k) k); [exact (lim_conv _ _ _ _ _ _ _ _ _ T (tends_refl k))|apply topt_refl].
    + apply (olim_ext _ (fun n => if (List.length (shape x) =? List.length sh)%nat then keras_batchnorm sh sc off (V n) else None)); [intros n; rewrite Sh; reflexivity|]. apply lim_if. exact (lim_batchnorm sh _ _ _ _ _ _ (tends_refl sc) (tends_refl off) T).
    + apply (olim_ext _ (fun n => if (List.length (shape x) =? ndim)%nat then Some (layer_qsum axes kd scale (V n)) else None)); [intros n; rewrite Sh; reflexivity|]. apply lim_if. apply olim_some. unfold layer_qsum. apply (lim_tmap (fun v => v * scale) (fun n => np_reduce qsum axes kd (V n))); [apply continuous_scale|]. exact (lim_reduce _ _ _ _ _ respects_qsum T).
    + exact (lim_pool _ _ _ _ _ _ (lim_avg pad cs ch) T).
    + exact (lim_pool _ _ _ _ _ _ (lim_maxp pad cs ch) T).
    + apply (olim_ext _ (fun n => if (nprod sh =? nprod (tl (shape x)))%nat then keras_reshape sh (V n) else None)); [intros n; rewrite Sh; reflexivity|]. apply lim_if. unfold keras_reshape. destruct (shape x) as [|d s] eqn:Ex; [apply olim_none|].
      apply (olim_ext _ (fun n => np_reshape (d :: sh) (V n))); [intros n; rewrite Sh; reflexivity|]. apply lim_reshape, T.
    + unfold keras_flatten. destruct (shape x) as [|d s] eqn:Ex; [apply olim_none|]. apply (olim_ext _ (fun n => np_reshape [d; nprod s] (V n))); [intros n; rewrite Sh; reflexivity|]. apply lim_reshape, T.
    + apply (olim_some tends_to (fun n => tmap relu (V n))). apply lim_tmap; [exact continuous_relu|exact T].
    + apply olim_some, T.
  - destruct T as (Vs & E & T). apply (olim_ext _ (fun n => core_call c (Many (Vs n)))); [intros n; rewrite E; reflexivity|]. destruct c; cbn [core_call]; try apply olim_none. apply lim_merge, T.
Qed.
Lemma ta_split Ws ws : tends_all Ws ws -> match ws with [] => forall n, Ws n = [] | w :: ws' => exists W Ws', (forall n, Ws n = W n :: Ws' n) /\ tends_to W w /\ tends_all Ws' ws' end.
Proof.
  intros (Ys & E & F). destruct F as [|Y w Ys ws T F]; [exact E|]. exists Y, (fun n => map (fun Z => Z n) Ys). split; [exact E|]. split; [exact T|]. exists Ys. split; [reflexivity|exact F].
Qed.
Lemma lim_core_of t Ws ws X x : no_quantizer t -> tends_all Ws ws -> tends_in X x -> tlim (fun n => do c <- core_of t (Ws n); core_call c (X n)) (do c <- core_of t ws; core_call c x).
Proof.
  intros NQ TW T. pose proof (ta_split _ _ TW) as H1. destruct ws as [|w ws].
  - destruct t; cbn [core_of bind]; try apply olim_none. apply (olim_ext _ (fun n => core_call c (X n))); [intros n; rewrite H1; reflexivity|]. apply lim_other; assumption.
  - destruct H1 as (W & Ws1 & E1 & T1 & TW1). pose proof (ta_split _ _ TW1) as H2. destruct ws as [|v ws].
    + apply (olim_ext _ (fun n => do c <- core_of t [W n]; core_call c (X n))); [intros n; rewrite E1, H2; reflexivity|].
      destruct x as [x|xs]; [|destruct t; cbn [core_of bind core_call]; apply olim_none]. cbn [tends_in] in T. destruct T as (V & E & T).
      apply (olim_ext _ (fun n => do c <- core_of t [W n]; core_call c (One (V n)))); [intros n; rewrite E; reflexivity|]. destruct t as [|li lk lo|pad cs g ci co|sh|c]; cbn [core_of bind core_call]; try apply olim_none.
      * apply (lim_two keras_matmul None (fun _ => None) V x W w); [exact (lim_matmul _ _ _ _ T T1)|intros n; reflexivity].
      * apply (lim_two (np_einsum li lk lo) None (fun _ => None) V x W w); [exact (lim_einsum _ _ _ _ _ _ _ T T1)|intros n; reflexivity].
      * apply (lim_two (fun x k => keras_conv pad cs g ci co k x) None (fun _ => None) V x W w); [exact (lim_conv _ _ _ _ _ _ _ _ _ T T1)|intros n; reflexivity].
    + destruct H2 as (U & Ws2 & E2 & T2 & TW2). pose proof (ta_split _ _ TW2) as H3. destruct ws as [|u ws]; [|destruct t; cbn [core_of bind]; apply olim_none].
      apply (olim_ext _ (fun n => do c <- core_of t [W n; U n]; core_call c (X n))); [intros n; rewrite E1, E2, H3; reflexivity|].
      destruct x as [x|xs]; [|destruct t; cbn [core_of bind core_call]; apply olim_none]. cbn [tends_in] in T. destruct T as (V & E & T).
      apply (olim_ext _ (fun n => do c <- core_of t [W n; U n]; core_call c (One (V n)))); [intros n; rewrite E; reflexivity|].
      assert (TB : tends_opt (fun n => Some (U n)) (Some v)) by (exists U; split; [reflexivity|exact T2]). destruct t as [|li lk lo|pad cs g ci co|sh|c]; cbn [core_of bind core_call]; try apply olim_none.
      * apply (lim_two keras_matmul (Some v) (fun n => Some (U n)) V x W w); [exact (lim_matmul _ _ _ _ T T1)|exact TB].
      * apply (lim_two (np_einsum li lk lo) (Some v) (fun n => Some (U n)) V x W w); [exact (lim_einsum _ _ _ _ _ _ _ T T1)|exact TB].
      * apply (lim_two (fun x k => keras_conv pad cs g ci co k x) (Some v) (fun n => Some (U n)) V x W w); [exact (lim_conv _ _ _ _ _ _ _ _ _ T T1)|exact TB].
      * apply (olim_ext _ (fun n => if (List.length (shape x) =? List.length sh)%nat then keras_batchnorm sh (W n) (U n) (V n) else None)); [intros n; rewrite (proj1 T); reflexivity|]. apply lim_if. exact (lim_batchnorm sh _ _ _ _ _ _ T1 T2 T).
Qed.
Lemma lim_net_op t a Ws ws X x : no_quantizer t -> continuous (act_fn a) -> tends_all Ws ws -> tends_in X x -> tlim (fun n => net_op t a (Ws n) (X n)) (net_op t a ws x).
Proof.
  intros NQ C TW T. unfold net_op.
  apply (olim_ext _ (fun n => do y <- (do c <- core_of t (Ws n); core_call c (X n)); Some (tmap (act_fn a) y))); [intros n; destruct (core_of t (Ws n)); reflexivity|].
  intros r H. apply (olim_bind tends_to tends_to (fun n => do c <- core_of t (Ws n); core_call c (X n)) _ (fun n y => Some (tmap (act_fn a) y)) (fun y => Some (tmap (act_fn a) y)) (lim_core_of t Ws ws X x NQ TW T)); [|destruct (core_of t ws); exact H].
  intros Y y Ty. apply (olim_some tends_to (fun n => tmap (act_fn a) (Y n))). apply lim_tmap; assumption.
Qed.
