From Coq Require Import ZArith QArith List Bool Lia Lqa.
From Verif Require Import M_Callback S_Callback.

(** * StopIf *)
(** length of the run of [true] at the end *)
Fixpoint tail_run (h : list bool) (n : nat) : nat :=
  match h with [] => n | true :: t => tail_run t (S n) | false :: t => tail_run t 0 end.
Lemma tail_run_app h b n : tail_run (h ++ [b]) n = if b then S (tail_run h n) else 0%nat.
Proof.
  revert n. induction h as [|a h IH]; intros n; cbn [app tail_run]; [destruct b; reflexivity|].
  destruct a; apply IH.
Qed.
Lemma tail_run_spec h : exists a, h = a ++ repeat true (tail_run h 0) /\ (a = [] \/ exists a', a = a' ++ [false]).
Proof.
  induction h as [|b h IH] using rev_ind; [exists []; split; auto|].
  rewrite tail_run_app. destruct b.
  - destruct IH as (a & E & C). exists a. split; [|exact C]. 
    change (repeat true (S (tail_run h 0))) with (true :: repeat true (tail_run h 0)).
    rewrite repeat_cons, app_assoc, <- E. reflexivity.
  - exists (h ++ [false]). split; [rewrite app_nil_r; reflexivity|]. right. exists h. reflexivity.
Qed.
Lemma repeat_app_inv {A} (x y : A) n a b : x <> y -> repeat x n = a ++ [y] ++ b -> False.
Proof.
  intros H E. assert (In y (repeat x n)) by (rewrite E; apply in_or_app; right; left; reflexivity).
  apply repeat_spec in H0. congruence.
Qed.
(** a run ending at the very end *)
Lemma tail_run_le n a h : h = a ++ repeat true n -> (n <= tail_run h 0)%nat.
Proof.
  intros ->. induction n as [|n IH]; [lia|].
  change (repeat true (S n)) with (true :: repeat true n). rewrite repeat_cons, app_assoc, tail_run_app. lia.
Qed.
Lemma run_of_app n h b : (0 < n)%nat -> run_of n (h ++ [b]) <-> run_of n h \/ (b = true /\ (n <= S (tail_run h 0))%nat).
Proof.
  intros Hn. split.
  - intros (p & q & E). destruct q as [|z q] using rev_ind.
    + rewrite app_nil_r in E. right. destruct n as [|n]; [lia|].
      change (repeat true (S n)) with (true :: repeat true n) in E. rewrite repeat_cons, app_assoc in E.
      apply app_inj_tail in E. destruct E as [E ->]. split; [reflexivity|]. apply tail_run_le in E. lia.
    + left. rewrite !app_assoc in E. apply app_inj_tail in E. destruct E as [-> _]. exists p, q. rewrite app_assoc. reflexivity.
  - intros [(p & q & ->)|[-> L]].
    + exists p, (q ++ [b]). rewrite <- !app_assoc. reflexivity.
    + destruct (tail_run_spec h) as (a & E & _). set (m := tail_run h 0) in *.
      exists (a ++ repeat true (S m - n)), []. rewrite app_nil_r, <- app_assoc, <- repeat_app.
      replace (S m - n + n)%nat with (S m) by lia. change (repeat true (S m)) with (true :: repeat true m).
      rewrite repeat_cons, app_assoc, <- E. reflexivity.
Qed.
Lemma run_of_nil n : (0 < n)%nat -> ~ run_of n [].
Proof. intros Hn (a & b & E). destruct n; [lia|]. destruct a; discriminate. Qed.

Definition stopped_by (o : option nat) (h : list bool) : Prop := match o with Some p => run_of (S p) h | None => False end.
Definition cnt (o : option nat) (h : list bool) : nat := match o with Some _ => tail_run h 0 | None => 0 end.

Lemma si_run_inv pe ps es : let s := si_run (si_init pe ps) es in
  patience_epochs s = pe /\ patience_steps s = ps /\ counter_epochs s = cnt pe (epoch_conds es) /\ counter_steps s = cnt ps (step_conds es) /\
  (stop s = true <-> stopped_by pe (epoch_conds es) \/ stopped_by ps (step_conds es)).
Proof.
  induction es as [|e es IH] using rev_ind.
  - cbn. repeat split; try (destruct pe; reflexivity); try (destruct ps; reflexivity).
    + discriminate.
    + intros [H|H]; exfalso; [destruct pe|destruct ps]; try exact H; exact (run_of_nil _ (Nat.lt_0_succ _) H).
  - unfold si_run in *. rewrite fold_left_app. cbn [fold_left]. set (s := fold_left si_step es (si_init pe ps)) in *.
    destruct IH as (E1 & E2 & E3 & E4 & E5).
    unfold epoch_conds, step_conds. rewrite !flat_map_app. fold (epoch_conds es) (step_conds es). cbn [flat_map].
    destruct e as [c|c]; rewrite ?app_nil_r; unfold si_step.
    + rewrite E1. destruct pe as [p|]; cbn [stopped_by cnt] in *.
      * rewrite tail_run_app, run_of_app by lia. destruct c.
        -- cbn [patience_epochs patience_steps counter_epochs counter_steps stop]. rewrite E3.
           repeat split; auto.
           ++ destruct (Nat.ltb_spec p (S (tail_run (epoch_conds es) 0))); [intros _; left; right; split; [reflexivity|lia]|].
              intros H1. apply E5 in H1. tauto.
           ++ intros H1. destruct (Nat.ltb_spec p (S (tail_run (epoch_conds es) 0))); [reflexivity|]. apply E5.
              destruct H1 as [[H1|[_ H1]]|H1]; [tauto|lia|tauto].
        -- cbn. repeat split; auto; intros H1; [apply E5 in H1; tauto|apply E5]. destruct H1 as [[H1|[H1 _]]|H1]; [tauto|discriminate|tauto].
      * repeat split; auto; apply E5.
    + rewrite E2. destruct ps as [p|]; cbn [stopped_by cnt] in *.
      * rewrite tail_run_app, run_of_app by lia. destruct c.
        -- cbn [patience_epochs patience_steps counter_epochs counter_steps stop]. rewrite E4.
           repeat split; auto.
           ++ destruct (Nat.ltb_spec p (S (tail_run (step_conds es) 0))); [intros _; right; right; split; [reflexivity|lia]|].
              intros H1. apply E5 in H1. tauto.
           ++ intros H1. destruct (Nat.ltb_spec p (S (tail_run (step_conds es) 0))); [reflexivity|]. apply E5.
              destruct H1 as [H1|[H1|[_ H1]]]; [tauto|tauto|lia].
        -- cbn. repeat split; auto; intros H1; [apply E5 in H1; tauto|apply E5]. destruct H1 as [H1|[H1|[H1 _]]]; [tauto|tauto|discriminate].
      * repeat split; auto; apply E5.
Qed.
Theorem si_stop_iff pe ps es : stop (si_run (si_init pe ps) es) = true <->
  (exists p, pe = Some p /\ run_of (S p) (epoch_conds es)) \/ (exists p, ps = Some p /\ run_of (S p) (step_conds es)).
Proof.
  destruct (si_run_inv pe ps es) as (_ & _ & _ & _ & E). rewrite E. unfold stopped_by. split.
  - intros [H|H]; [left; destruct pe|right; destruct ps]; try contradiction; eauto.
  - intros [(p & -> & H)|(p & -> & H)]; auto.
Qed.

(** * Early stopping *)
Section ES.
Context {St Log : Type}.
Variable base : St -> Log -> bool -> St * bool.

Lemma es_above thres s l e f : thres < inject_Z e -> snd (es_epoch_end base thres s l e f) = f.
Proof.
  intros H. unfold es_epoch_end. destruct (base s l f) as [s' g]. cbn [snd].
  destruct (Qle_bool (inject_Z e) thres) eqn:E; [|reflexivity]. apply Qle_bool_iff in E. lra.
Qed.
Lemma es_within thres s l e f : inject_Z e <= thres -> es_epoch_end base thres s l e f = base s l f.
Proof.
  intros H. unfold es_epoch_end. destruct (base s l f) as [s' g].
  rewrite (proj2 (Qle_bool_iff _ _) H). reflexivity.
Qed.
Lemma es_state thres s l e f : fst (es_epoch_end base thres s l e f) = fst (base s l f).
Proof. unfold es_epoch_end. destruct (base s l f). reflexivity. Qed.

Lemma plain_app s a b : plain_state base s (a ++ b) = plain_state base (plain_state base s a) b.
Proof. revert s. induction a as [|[l e] a IH]; intros s; [reflexivity|]. cbn. apply IH. Qed.

Theorem es_fit_spec thres : forall hist s n f s', es_fit base thres s hist = (n, f, s') ->
  (n <= length hist)%nat /\ s' = plain_state base s (firstn n hist) /\
  (f = true -> exists m l e, n = S m /\ nth_error hist m = Some (l, e) /\ inject_Z e <= thres /\
     snd (base (plain_state base s (firstn m hist)) l false) = true) /\
  (f = false -> n = length hist) /\
  (forall m l e, nth_error hist m = Some (l, e) -> (S m < n \/ (f = false /\ m < n))%nat -> 
     inject_Z e <= thres -> snd (base (plain_state base s (firstn m hist)) l false) = false).
Proof.
  induction hist as [|[l e] t IH]; intros s n f s' H; cbn [es_fit] in H.
  - injection H as <- <- <-. cbn. split; [lia|]. split; [reflexivity|]. split; [discriminate|]. split; [reflexivity|].
    intros m l e Hm. destruct m; discriminate.
  - destruct (es_epoch_end base thres s l e false) as [s1 f1] eqn:E1.
    assert (ES : s1 = fst (base s l false)) by (rewrite <- (es_state thres s l e false), E1; reflexivity).
    assert (EF : f1 = true -> inject_Z e <= thres /\ snd (base s l false) = true).
    { intros ->. destruct (Qlt_le_dec thres (inject_Z e)) as [G|G].
      - pose proof (es_above thres s l e false G) as A. rewrite E1 in A. discriminate.
      - split; [exact G|]. rewrite <- (es_within thres s l e false G), E1. reflexivity. }
    assert (EN : f1 = false -> inject_Z e <= thres -> snd (base s l false) = false).
    { intros -> G. rewrite <- (es_within thres s l e false G), E1. reflexivity. }
    destruct f1.
    + injection H as <- <- <-. cbn [length firstn plain_state]. split; [lia|]. split; [exact ES|]. split; [|split].
      * intros _. exists 0%nat, l, e. destruct (EF eq_refl). repeat split; assumption.
      * discriminate.
      * intros m l' e' Hm [C|[C _]]; [lia|discriminate].
    + destruct (es_fit base thres s1 t) as [[n' f'] s''] eqn:E2. injection H as <- <- <-.
      destruct (IH _ _ _ _ E2) as (A & B & C & D & F). cbn [length firstn plain_state]. rewrite <- ES. split; [lia|]. split; [exact B|]. split; [|split].
      * intros Hf. destruct (C Hf) as (m & l' & e' & Hn & Hm & He & Hb). exists (S m), l', e'. cbn. rewrite <- ES. repeat split; auto.
      * intros Hf. rewrite (D Hf). reflexivity.
      * intros m l' e' Hm Hc He. destruct m as [|m]; cbn in Hm.
        -- injection Hm as <- <-. cbn. apply EN; auto.
        -- cbn. rewrite <- ES. apply (F m l' e' Hm); [|exact He]. destruct Hc as [Hc|[Hc1 Hc2]]; [left; lia|right; split; [exact Hc1|lia]].
Qed.
End ES.

(** * ParetoFront *)
Lemma combine_nth {A B} (a : list A) (b : list B) i : nth_error (combine a b) i =
  match nth_error a i, nth_error b i with Some x, Some y => Some (x, y) | _, _ => None end.
Proof.
  revert b i. induction a as [|x a IH]; intros [|y b] [|i]; cbn; try reflexivity.
  - destruct (nth_error a i); reflexivity.
  - apply IH.
Qed.
Lemma forallb_nth {A} (f : A -> bool) l : forallb f l = true <-> forall i x, nth_error l i = Some x -> f x = true.
Proof.
  rewrite forallb_forall. split.
  - intros H i x Hx. apply H. eapply nth_error_In; eassumption.
  - intros H x Hx. apply In_nth_error in Hx. destruct Hx as [i Hi]. eauto.
Qed.

Section PF.
Variable sides : list Q.
Let wf (m : list num) := length m = length sides.
Lemma all2_le a b : wf a -> wf b -> all2 le_num (scale sides a) (scale sides b) = true <-> better_eq sides a b.
Proof.
  intros Wa Wb. unfold all2, scale. rewrite forallb_nth. unfold better_eq. split.
  - intros H i s Hs. assert (Hi : (i < length sides)%nat) by (apply nth_error_Some; rewrite Hs; discriminate).
    destruct (nth_error a i) as [x|] eqn:Ea; [|apply nth_error_None in Ea; unfold wf in *; lia].
    destruct (nth_error b i) as [y|] eqn:Eb; [|apply nth_error_None in Eb; unfold wf in *; lia].
    specialize (H i). rewrite combine_nth, !nth_error_map, !combine_nth, Hs, Ea, Eb in H. cbn in H.
    specialize (H _ eq_refl). destruct x as [x|], y as [y|]; cbn in H; try discriminate.
    exists x, y. split; [reflexivity|]. split; [reflexivity|]. apply Qle_bool_iff. exact H.
  - intros H i p Hp. rewrite combine_nth, !nth_error_map, !combine_nth in Hp.
    destruct (nth_error sides i) as [s|] eqn:Es; [|discriminate]. destruct (H i s Es) as (x & y & Ea & Eb & L).
    rewrite Ea, Eb in Hp. cbn in Hp. injection Hp as <-. cbn. apply Qle_bool_iff. exact L.
Qed.
Lemma all2_gt a b : wf a -> wf b -> all2 gt_num (scale sides b) (scale sides a) = true <-> better sides a b.
Proof.
  intros Wa Wb. unfold all2, scale. rewrite forallb_nth. unfold better. split.
  - intros H i s Hs. assert (Hi : (i < length sides)%nat) by (apply nth_error_Some; rewrite Hs; discriminate).
    destruct (nth_error a i) as [x|] eqn:Ea; [|apply nth_error_None in Ea; unfold wf in *; lia].
    destruct (nth_error b i) as [y|] eqn:Eb; [|apply nth_error_None in Eb; unfold wf in *; lia].
    specialize (H i). rewrite combine_nth, !nth_error_map, !combine_nth, Hs, Ea, Eb in H. cbn in H.
    specialize (H _ eq_refl). destruct x as [x|], y as [y|]; cbn in H; try discriminate.
    exists x, y. split; [reflexivity|]. split; [reflexivity|]. apply negb_true_iff in H.
    destruct (Qlt_le_dec (s * x) (s * y)) as [L|L]; [exact L|]. apply Qle_bool_iff in L. congruence.
  - intros H i p Hp. rewrite combine_nth, !nth_error_map, !combine_nth in Hp.
    destruct (nth_error sides i) as [s|] eqn:Es; [|discriminate]. destruct (H i s Es) as (x & y & Ea & Eb & L).
    rewrite Ea, Eb in Hp. cbn in Hp. injection Hp as <-. cbn. apply negb_true_iff.
    destruct (Qle_bool (s * y) (s * x)) eqn:E; [|reflexivity]. apply Qle_bool_iff in E. lra.
Qed.
Lemma better_weak a b : better sides a b -> better_eq sides a b.
Proof. intros H i s Hs. destruct (H i s Hs) as (x & y & A & B & C). exists x, y. repeat split; auto. lra. Qed.
Lemma better_eq_trans a b c : better_eq sides a b -> better_eq sides b c -> better_eq sides a c.
Proof.
  intros H1 H2 i s Hs. destruct (H1 i s Hs) as (x & y & A & B & C). destruct (H2 i s Hs) as (y' & z & A' & B' & C').
  rewrite B in A'. injection A' as <-. exists x, z. repeat split; auto. lra.
Qed.

Definition removed (new old : list num) : bool := all2 gt_num (scale sides new) (scale sides old).
Lemma scan_spec new : forall rec i, scan sides new i rec =
  if existsb (fun old => all2 le_num (scale sides new) (scale sides old)) rec then None
  else Some (map fst (filter (fun '(_, old) => removed new old) (combine (seq i (length rec)) rec))).
Proof.
  induction rec as [|old t IH]; intros i; cbn [scan existsb length seq combine filter map]; [reflexivity|].
  destruct (all2 le_num (scale sides new) (scale sides old)); [reflexivity|]. cbn [orb]. rewrite IH.
  destruct (existsb _ t); [reflexivity|]. fold (removed new old). destruct (removed new old); reflexivity.
Qed.
Lemma pop_app {T} (a : list T) x b : pop (length a) (a ++ x :: b) = a ++ b.
Proof. induction a as [|h a IH]; cbn; [reflexivity|]. f_equal. exact IH. Qed.
Lemma nth_app {T} (a : list T) x b : nth_error (a ++ x :: b) (length a) = Some x.
Proof. induction a; cbn; auto. Qed.

(** the kept entries: metrics, path *)
Definition entries (s : pareto) : list (list num * nat) := combine (record s) (paths s).
Definition sync (s : pareto) : Prop := length (record s) = length (paths s).
Definition disk_ok (s : pareto) : Prop :=
  NoDup (paths s) /\ NoDup (map fst (disk s)) /\ forall p m, In (p, m) (disk s) <-> In (m, p) (entries s).

Lemma disk_has_in p d : disk_has p d = true <-> In p (map fst d).
Proof.
  induction d as [|[q m] d IH]; cbn; [split; [discriminate|intros []]|].
  rewrite orb_true_iff, IH, Nat.eqb_eq. split; intros [H|H]; auto.
Qed.
Lemma disk_rm_in p d q m : In (q, m) (disk_rm p d) <-> In (q, m) d /\ q <> p.
Proof. unfold disk_rm. rewrite filter_In. rewrite negb_true_iff, Nat.eqb_neq. split; intros [A B]; auto. Qed.
Lemma NoDup_filter_fst {B} (f : nat * B -> bool) d : NoDup (map fst d) -> NoDup (map fst (filter f d)).
Proof.
  induction d as [|a d IH]; cbn; [auto|]. intros H. inversion H as [|? ? N1 N2]; subst. destruct (f a); cbn; [|auto].
  constructor; [|auto]. intros F. apply N1. apply in_map_iff in F. destruct F as (z & E & I). apply filter_In in I. rewrite <- E. apply in_map. tauto.
Qed.

(** removing position [length a] *)
Lemma remove_one r1 x r2 p1 p p2 d : length r1 = length p1 ->
  disk_ok (mk_pf (r1 ++ x :: r2) (p1 ++ p :: p2) d) -> length r2 = length p2 ->
  disk_has p d = true /\ disk_ok (mk_pf (r1 ++ r2) (p1 ++ p2) (disk_rm p d)).
Proof.
  intros L1 (ND & NDd & Hd) L2. unfold entries in Hd. cbn [record paths disk] in *.
  assert (EC : forall y z, combine (r1 ++ y) (p1 ++ z) = combine r1 p1 ++ combine y z).
  { clear -L1. revert p1 L1. induction r1 as [|a r IH]; intros [|b q] L y z; try discriminate; [reflexivity|]. cbn. f_equal. apply IH. cbn in L. congruence. }
  rewrite EC in Hd. cbn [combine] in Hd. split.
  - apply disk_has_in. apply in_map_iff. exists (p, x). split; [reflexivity|]. apply Hd. apply in_or_app. right. left. reflexivity.
  - split; [exact (NoDup_remove_1 _ _ _ ND)|]. split; [apply NoDup_filter_fst; exact NDd|].
    intros q m. cbn [record paths disk]. unfold entries. cbn [record paths]. rewrite EC, disk_rm_in, Hd.
    pose proof (NoDup_remove_2 _ _ _ ND) as NP. rewrite !in_app_iff. cbn [In]. split.
    + intros [[H|[H|H]] N]; auto. injection H as -> ->. contradiction.
    + intros H. split; [tauto|]. intros ->. apply NP. apply in_or_app. destruct H as [H|H]; apply in_combine_r in H; auto.
Qed.

Definition keepb (new : list num) (e : list num * nat) : bool := negb (removed new (fst e)).
(** [remove_all] on the reversed list of removable positions leaves exactly the entries to keep *)
Lemma remove_all_spec new : forall es r1 p1 d, length r1 = length p1 ->
  disk_ok (mk_pf (r1 ++ map fst es) (p1 ++ map snd es) d) ->
  exists d', remove_all (rev (map fst (filter (fun '(_, old) => removed new old) (combine (seq (length r1) (length es)) (map fst es)))))
      (mk_pf (r1 ++ map fst es) (p1 ++ map snd es) d) =
    Some (mk_pf (r1 ++ map fst (filter (keepb new) es)) (p1 ++ map snd (filter (keepb new) es)) d') /\
    disk_ok (mk_pf (r1 ++ map fst (filter (keepb new) es)) (p1 ++ map snd (filter (keepb new) es)) d').
Proof.
  assert (RA : forall a b s, remove_all (a ++ b) s = match remove_all a s with Some s' => remove_all b s' | None => None end).
  { induction a as [|i a IH]; intros b s; cbn; [reflexivity|]. destruct (nth_error (paths s) i); [|reflexivity]. destruct (disk_has _ _); [apply IH|reflexivity]. }
  induction es as [|[x p] es IH]; intros r1 p1 d L H; cbn [map fst snd length seq combine filter].
  - exists d. cbn. split; [reflexivity|exact H].
  - assert (IH' : exists d', remove_all (rev (map fst (filter (fun '(_, old) => removed new old) (combine (seq (S (length r1)) (length es)) (map fst es)))))
      (mk_pf (r1 ++ x :: map fst es) (p1 ++ p :: map snd es) d) =
      Some (mk_pf (r1 ++ x :: map fst (filter (keepb new) es)) (p1 ++ p :: map snd (filter (keepb new) es)) d') /\
      disk_ok (mk_pf (r1 ++ x :: map fst (filter (keepb new) es)) (p1 ++ p :: map snd (filter (keepb new) es)) d')).
    { specialize (IH (r1 ++ [x]) (p1 ++ [p]) d). rewrite !app_length in IH. cbn [length] in IH.
      replace (length r1 + 1)%nat with (S (length r1)) in IH by lia.
      destruct IH as (d' & A & B); [lia|rewrite <- !app_assoc; exact H|].
      rewrite <- !app_assoc in A. rewrite <- !app_assoc in B. exists d'. split; [exact A|exact B]. }
    destruct IH' as (d' & A & B). assert (EK : keepb new (x, p) = negb (removed new x)) by reflexivity. rewrite EK. clear EK.
    destruct (removed new x) eqn:ER; cbn [negb map fst rev].
    + rewrite RA, A. cbn [remove_all paths disk record].
      replace (nth_error (p1 ++ p :: map snd (filter (keepb new) es)) (length r1)) with (Some p) by (rewrite L; symmetry; apply nth_app).
      destruct (remove_one r1 x (map fst (filter (keepb new) es)) p1 p (map snd (filter (keepb new) es)) d' L B) as [C D]; [rewrite !map_length; reflexivity|].
      rewrite C, pop_app. replace (pop (length r1) (p1 ++ p :: map snd (filter (keepb new) es))) with (p1 ++ map snd (filter (keepb new) es)) by (rewrite L; symmetry; apply pop_app).
      exists (disk_rm p d'). split; [reflexivity|exact D].
    + exists d'. split; [exact A|exact B].
Qed.

Lemma combine_fst_snd {A B} (l : list (A * B)) : combine (map fst l) (map snd l) = l.
Proof. induction l as [|[a b] l IH]; cbn; [reflexivity|f_equal; exact IH]. Qed.
Lemma map_fst_combine {A B} (a : list A) (b : list B) : length a = length b -> map fst (combine a b) = a.
Proof. revert b; induction a as [|x a IH]; intros [|y b] H; try discriminate; cbn; [reflexivity|]. f_equal. apply IH. cbn in H; congruence. Qed.
Lemma map_snd_combine {A B} (a : list A) (b : list B) : length a = length b -> map snd (combine a b) = b.
Proof. revert b; induction a as [|x a IH]; intros [|y b] H; try discriminate; cbn; [reflexivity|]. f_equal. apply IH. cbn in H; congruence. Qed.

(** one epoch *)
Lemma pf_step s m n : sync s -> disk_ok s -> ~ In n (paths s) -> 
  (existsb (fun old => all2 le_num (scale sides m) (scale sides old)) (record s) = true /\ pf_epoch_end sides s true m n = Some s) \/
  (existsb (fun old => all2 le_num (scale sides m) (scale sides old)) (record s) = false /\
   exists s', pf_epoch_end sides s true m n = Some s' /\ sync s' /\ disk_ok s' /\
     entries s' = filter (keepb m) (entries s) ++ [(m, n)]).
Proof.
  intros Hs Hd Hn. unfold pf_epoch_end. rewrite scan_spec.
  destruct (existsb _ (record s)); [left; auto|right]. split; [reflexivity|].
  destruct s as [rec pth d]. unfold sync in Hs. cbn [record paths disk] in *.
  assert (E1 : rec = map fst (combine rec pth)) by (symmetry; apply map_fst_combine; exact Hs).
  assert (E2 : pth = map snd (combine rec pth)) by (symmetry; apply map_snd_combine; exact Hs).
  set (es := combine rec pth) in *. clearbody es. subst rec pth. clear Hs.
  destruct (remove_all_spec m es [] [] d eq_refl Hd) as (d' & A & B). cbn [app length] in A, B.
  rewrite map_length, A. eexists. split; [reflexivity|]. cbn [record paths disk].
  assert (N2 : ~ In n (map snd (filter (keepb m) es))).
  { intros F. apply Hn. apply in_map_iff in F. destruct F as (z & <- & I). apply filter_In in I. apply in_map. tauto. }
  unfold sync, entries. cbn [record paths disk]. destruct B as (B1 & B2 & B3). unfold entries in B3. cbn [record paths disk] in *.
  assert (EE : combine (map fst (filter (keepb m) es) ++ [m]) (map snd (filter (keepb m) es) ++ [n]) = filter (keepb m) es ++ [(m, n)]).
  { rewrite <- (combine_fst_snd (filter (keepb m) es ++ [(m, n)])), !map_app. reflexivity. }
  split; [rewrite !app_length, !map_length; reflexivity|]. split; [|rewrite EE, combine_fst_snd; reflexivity].
  rewrite combine_fst_snd in B3. split; [|split]; cbn [record paths disk].
  - apply NoDup_Add with (a := n) (l := map snd (filter (keepb m) es)); [|split; assumption].
    rewrite <- (app_nil_r (map snd (filter (keepb m) es))) at 1. apply Add_app.
  - cbn [map fst]. constructor; [|apply NoDup_filter_fst; exact B2].
    intros F. apply in_map_iff in F. destruct F as ([q v] & E & I). cbn in E. subst q. apply disk_rm_in in I. tauto.
  - intros q v. unfold entries. cbn [record paths]. rewrite EE, in_app_iff. cbn [In]. rewrite disk_rm_in, B3. split.
    + intros [E|[I _]]; [injection E as <- <-; auto|auto].
    + intros [I|[E|[]]]; [right|left; congruence]. split; [exact I|]. intros ->. apply N2. change n with (snd (v, n)). apply in_map. exact I.
Qed.

Definition matched (m k : list num) : Prop := m = k \/ better_eq sides m k.
Definition ordered (l : list (list num)) : Prop := forall a x b y c, l = a ++ x :: b ++ y :: c -> ~ better_eq sides y x /\ ~ better sides x y.
Record good (seen : list (list num)) (s : pareto) : Prop := {
  g_sync : sync s; g_disk : disk_ok s;
  g_wf : forall m, In m (record s) -> wf m;
  g_cov : forall m, In m seen -> exists k, In k (record s) /\ matched m k;
  g_sub : forall m, In m (record s) -> In m seen;
  g_ord : ordered (record s) }.

Lemma ordered_filter (f : list num -> bool) l : ordered l -> ordered (filter f l).
Proof.
  intros H. assert (G : forall l, ordered l <-> ForallOrdPairs (fun x y => ~ better_eq sides y x /\ ~ better sides x y) l).
  { clear. induction l as [|h t IH].
    - split; [constructor|]. intros _ a x b y c E. destruct a; discriminate.
    - split.
      + intros H. constructor.
        * rewrite Forall_forall. intros y Hy. apply in_split in Hy. destruct Hy as (b & c & ->). apply (H [] h b y c eq_refl).
        * apply IH. intros a x b y c ->. apply (H (h :: a) x b y c). reflexivity.
      + intros H a x b y c E. inversion H as [|? ? Hf Ht]; subst. destruct a as [|z a]; cbn in E; injection E as <- ->.
        * rewrite Forall_forall in Hf. apply Hf. apply in_or_app. right. left. reflexivity.
        * apply (proj2 IH Ht a x b y c eq_refl). }
  apply G. apply G in H. clear G. induction H as [|h t Hf Ht IH]; cbn; [constructor|].
  destruct (f h); [|exact IH]. constructor; [|exact IH]. rewrite Forall_forall in *. intros y Hy. apply filter_In in Hy. apply Hf. tauto.
Qed.

Lemma good_step seen s m n : good seen s -> wf m -> ~ In n (paths s) ->
  exists s', pf_epoch_end sides s true m n = Some s' /\ good (seen ++ [m]) s' /\
    (forall p, In p (paths s') -> In p (paths s) \/ p = n).
Proof.
  intros [Gs Gd Gw Gc Gu Go] Wm Hn. destruct (pf_step s m n Gs Gd Hn) as [[Ex E]|[Ex (s' & E & S' & D' & En)]].
  - exists s. split; [exact E|]. split; [|auto]. constructor; auto.
    + intros m' Hm'. apply in_app_iff in Hm'. destruct Hm' as [Hm'|[<-|[]]]; [auto|].
      apply existsb_exists in Ex. destruct Ex as (k & Ik & Ek). exists k. split; [exact Ik|]. right. apply all2_le; auto.
    + intros m' Hm'. apply in_or_app. left. auto.
  - exists s'. split; [exact E|].
    assert (ER : record s' = map fst (filter (keepb m) (entries s)) ++ [m]).
    { rewrite <- (map_fst_combine (record s') (paths s') S'). fold (entries s'). rewrite En, map_app. reflexivity. }
    assert (EP : paths s' = map snd (filter (keepb m) (entries s)) ++ [n]).
    { rewrite <- (map_snd_combine (record s') (paths s') S'). fold (entries s'). rewrite En, map_app. reflexivity. }
    assert (EF : map fst (filter (keepb m) (entries s)) = filter (fun o => negb (removed m o)) (record s)).
    { replace (record s) with (map fst (combine (record s) (paths s))) by (apply map_fst_combine; exact Gs). fold (entries s). clear. induction (entries s) as [|[x p] l IH]; cbn; [reflexivity|].
      unfold keepb at 1. cbn [fst]. destruct (removed m x); cbn; [exact IH|f_equal; exact IH]. }
    assert (NE : forall k, In k (record s) -> ~ better_eq sides m k).
    { intros k Ik Hk. apply all2_le in Hk; auto. assert (C : existsb (fun old => all2 le_num (scale sides m) (scale sides old)) (record s) = true) by (apply existsb_exists; eauto). congruence. }
    split.
    + constructor; auto.
      * intros k Hk. rewrite ER, EF in Hk. apply in_app_iff in Hk. destruct Hk as [Hk|[<-|[]]]; [|exact Wm]. apply filter_In in Hk. apply Gw. tauto.
      * intros m' Hm'. rewrite ER, EF. apply in_app_iff in Hm'. destruct Hm' as [Hm'|[<-|[]]].
        -- destruct (Gc m' Hm') as (k & Ik & Mk). destruct (removed m k) eqn:Rk.
           ++ exists m. split; [apply in_or_app; right; left; reflexivity|]. right.
              assert (B : better_eq sides k m) by (apply better_weak; apply all2_gt; auto).
              destruct Mk as [->|Mk]; [exact B|eapply better_eq_trans; eassumption].
           ++ exists k. split; [apply in_or_app; left; apply filter_In; rewrite Rk; auto|exact Mk].
        -- exists m. split; [apply in_or_app; right; left; reflexivity|left; reflexivity].
      * intros k Hk. rewrite ER, EF in Hk. apply in_app_iff in Hk. apply in_or_app. destruct Hk as [Hk|Hk]; [left|right; exact Hk]. apply filter_In in Hk. apply Gu. tauto.
      * rewrite ER, EF. intros a x b y c EQ. destruct c as [|z c] using rev_ind.
        -- rewrite app_comm_cons, app_assoc in EQ. apply app_inj_tail in EQ. destruct EQ as [EQ <-].
           assert (Ix : In x (filter (fun o => negb (removed m o)) (record s))) by (rewrite EQ; apply in_or_app; right; left; reflexivity).
           apply filter_In in Ix. destruct Ix as [Ix Rx]. split; [apply NE; exact Ix|].
           intros Hb. apply all2_gt in Hb; auto. fold (removed m x) in Hb. rewrite Hb in Rx. discriminate.
        -- clear IHc.
           assert (QQ : a ++ x :: b ++ y :: c ++ [z] = (a ++ x :: b ++ y :: c) ++ [z]) by (repeat (rewrite <- app_assoc; cbn [app]); reflexivity).
           rewrite QQ in EQ.
           apply app_inj_tail in EQ. destruct EQ as [EQ _]. exact (ordered_filter _ _ Go a x b y c EQ).
    + intros p Hp. rewrite EP in Hp. apply in_app_iff in Hp. destruct Hp as [Hp|[<-|[]]]; [left|auto].
      apply in_map_iff in Hp. destruct Hp as ([x q] & <- & I). apply filter_In in I. cbn. apply in_combine_r with (l := record s) (x := x). exact (proj1 I).
Qed.


Lemma good_run : forall h s seen, good seen s -> (forall e m n, In (e, m, n) h -> length m = length sides) ->
  NoDup (names h) -> (forall p, In p (paths s) -> ~ In p (names h)) ->
  exists s', pf_run sides s h = Some s' /\ good (seen ++ enabled_metrics h) s'.
Proof.
  induction h as [|[[e m] n] h IH]; intros s seen G W ND DJ.
  - exists s. split; [reflexivity|]. rewrite app_nil_r. exact G.
  - cbn [pf_run enabled_metrics names flat_map] in *. destruct e.
    + cbn [app] in *. inversion ND as [|? ? N1 N2]; subst.
      destruct (good_step seen s m n G) as (s1 & E & G1 & P1).
      * apply (W true m n). left. reflexivity.
      * intros F. apply (DJ n F). left. reflexivity.
      * rewrite E. destruct (IH s1 (seen ++ [m]) G1) as (s' & E' & G').
        -- intros e' m' n' I. apply (W e' m' n'). right. exact I.
        -- exact N2.
        -- intros p Hp F. destruct (P1 p Hp) as [Q| ->]; [apply (DJ p Q); right; exact F|contradiction].
        -- exists s'. split; [exact E'|]. rewrite <- app_assoc in G'. exact G'.
    + cbn [pf_epoch_end app]. apply IH; auto. intros e' m' n' I. apply (W e' m' n'). right. exact I.
Qed.
Lemma good_init : good [] pf_init.
Proof.
  constructor; cbn.
  - reflexivity.
  - split; [constructor|]. split; [constructor|]. intros p m. cbn. tauto.
  - intros m [].
  - intros m [].
  - intros m [].
  - intros a x b y c E. destruct a; discriminate.
Qed.
End PF.
