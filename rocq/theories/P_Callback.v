(** Properties C21 (StopIf), C22 (EarlyStoppingWithEbopsThres), C23 (ParetoFront). *)
From Coq Require Import ZArith QArith List Bool Lia Lqa.
From Verif Require Import M_Callback S_Callback L_Callback.

(** C21: training is stopped exactly when the condition has held in [patience + 1] consecutive epochs
    (or steps), for every interleaving of epoch and batch ends. *)
Theorem C21_stops_iff_run_completed :
  forall pe ps es, stop (si_run (si_init pe ps) es) = true <->
    (exists p, pe = Some p /\ run_of (S p) (epoch_conds es)) \/ (exists p, ps = Some p /\ run_of (S p) (step_conds es)).
Proof. exact si_stop_iff. Qed.
Print Assumptions C21_stops_iff_run_completed.
(** the documentation promises [patience] consecutive epochs (its example: 3 epochs, patience_epochs=3) *)
Theorem C21_documented_patience_refuted :
  ~ (forall p es, (0 < p)%nat -> run_of p (epoch_conds es) -> stop (si_run (si_init (Some p) None) es) = true).
Proof.
  intros H. specialize (H 3%nat [EpochEnd true; EpochEnd true; EpochEnd true] ltac:(lia)).
  assert (R : run_of 3 (epoch_conds [EpochEnd true; EpochEnd true; EpochEnd true])) by (exists [], []; reflexivity).
  specialize (H R). vm_compute in H. discriminate.
Qed.
Print Assumptions C21_documented_patience_refuted.
Example C21_case :
  stop (si_run (si_init (Some 2%nat) (Some 4%nat)) [EpochEnd true; BatchEnd true; EpochEnd true; EpochEnd false; BatchEnd true; EpochEnd true; EpochEnd true]) = false /\
  stop (si_run (si_init (Some 2%nat) (Some 4%nat)) [EpochEnd false; EpochEnd true; BatchEnd false; EpochEnd true; EpochEnd true]) = true.
Proof. split; reflexivity. Qed.

(** C22, for every base callback and history.  Above the threshold the flag is left as it was found;
    within it the callback is the base callback; its state always evolves as the base's. *)
Theorem C22_never_stops_above_threshold :
  forall (St Log : Type) (base : St -> Log -> bool -> St * bool) thres s l e f,
    (thres < inject_Z e)%Q -> snd (es_epoch_end base thres s l e f) = f.
Proof. exact @es_above. Qed.
Print Assumptions C22_never_stops_above_threshold.
Theorem C22_is_early_stopping_within_threshold :
  forall (St Log : Type) (base : St -> Log -> bool -> St * bool) thres s l e f,
    (inject_Z e <= thres)%Q -> es_epoch_end base thres s l e f = base s l f.
Proof. exact @es_within. Qed.
Print Assumptions C22_is_early_stopping_within_threshold.
(** a whole training run: it ends at the first epoch whose EBOPs are within the threshold and at which the
    base, having seen all earlier epochs, asks to stop *)
Theorem C22_whole_training :
  forall (St Log : Type) (base : St -> Log -> bool -> St * bool) thres hist s n f s',
  es_fit base thres s hist = (n, f, s') ->
  (n <= length hist)%nat /\ s' = plain_state base s (firstn n hist) /\
  (f = true -> exists m l e, n = S m /\ nth_error hist m = Some (l, e) /\ (inject_Z e <= thres)%Q /\
     snd (base (plain_state base s (firstn m hist)) l false) = true) /\
  (f = false -> n = length hist) /\
  (forall m l e, nth_error hist m = Some (l, e) -> (S m < n \/ (f = false /\ m < n))%nat ->
     (inject_Z e <= thres)%Q -> snd (base (plain_state base s (firstn m hist)) l false) = false).
Proof. exact @es_fit_spec. Qed.
Print Assumptions C22_whole_training.
(** with Keras' EarlyStopping, patience 2: no improvement from epoch 1 on, EBOPs fall below 100 at epoch 4 *)
Example C22_case :
  es_fit (keras_es 2 0) (100#1) (mk_kes 0 None)
    [((0%Z, 3#1), 300%Z); ((1%Z, 3#1), 300%Z); ((2%Z, 4#1), 200%Z); ((3%Z, 4#1), 150%Z); ((4%Z, 4#1), 100%Z); ((5%Z, 1#1), 90%Z)]
  = (5%nat, true, mk_kes 4 (Some (3#1))).
Proof. reflexivity. Qed.

(** C23, for every history with as many metric values as sides and pairwise different file names:
    no exception, every enabled epoch is kept or matched/beaten by a kept checkpoint, every kept
    checkpoint is an epoch seen, none is strictly beaten in all metrics by another nor at most as
    good as an earlier one, and the files on disk are exactly the kept checkpoints. *)
Theorem C23_pareto_front :
  (* not claimed: a kept checkpoint that is nowhere better and somewhere worse than a later one is not removed, refuted below *)
  forall sides h, (forall e m n, In (e, m, n) h -> length m = length sides) -> NoDup (names h) ->
  exists s, pf_run sides pf_init h = Some s /\
    (forall m, In m (enabled_metrics h) -> exists k, In k (record s) /\ (m = k \/ better_eq sides m k)) /\
    (forall k, In k (record s) -> In k (enabled_metrics h)) /\
    (forall a x b y c, record s = a ++ x :: b ++ y :: c -> ~ better_eq sides y x /\ ~ better sides x y) /\
    length (record s) = length (paths s) /\ NoDup (map fst (disk s)) /\
    (forall p m, In (p, m) (disk s) <-> In (m, p) (combine (record s) (paths s))).
Proof.
  intros sides h W ND. destruct (good_run sides h pf_init [] (good_init sides) W ND (fun p F => False_ind _ F)) as (s & E & G).
  exists s. cbn [app] in G. destruct G as [G1 G2 G3 G4 G5 G6]. destruct G2 as (D1 & D2 & D3).
  exact (conj E (conj G4 (conj G5 (conj G6 (conj G1 (conj D2 D3)))))).
Qed.
Print Assumptions C23_pareto_front.
Theorem C23_no_dominated_checkpoint_refuted :
  exists sides h s x y, pf_run sides pf_init h = Some s /\ NoDup (names h) /\ In x (record s) /\ In y (record s) /\ x <> y /\ better_eq sides x y.
Proof.
  exists [1; 1], [(true, [Some 1; Some 1], 0%nat); (true, [Some 2; Some 1], 1%nat)].
  eexists. exists [Some 1; Some 1], [Some 2; Some 1]. split; [reflexivity|].
  split; [repeat constructor; cbn; intuition discriminate|]. split; [left; reflexivity|]. split; [right; left; reflexivity|].
  split; [discriminate|]. intros i s. destruct i as [|[|i]]; cbn; intros E; [| |destruct i; discriminate]; injection E as <-;
    do 2 eexists; (split; [reflexivity|]); (split; [reflexivity|]); lra.
Qed.
Print Assumptions C23_no_dominated_checkpoint_refuted.
(** with a file name format that repeats a name, removing superseded checkpoints raises *)
Theorem C23_repeated_file_name_refuted :
  exists sides h, (forall e m n, In (e, m, n) h -> length m = length sides) /\ pf_run sides pf_init h = None.
Proof.
  exists [1; 1], [(true, [Some 1; Some 2], 0%nat); (true, [Some 2; Some 1], 0%nat); (true, [Some 3; Some 3], 0%nat)].
  split; [intros e m n; cbn; intuition (try (injection H as <- <- <-; reflexivity)); injection H0 as <- <- <-; reflexivity|reflexivity].
Qed.
Print Assumptions C23_repeated_file_name_refuted.
Example C23_case :
  option_map (fun s => (record s, paths s, map fst (disk s)))
    (pf_run [1; -1] pf_init [(true, [Some 1; Some 9], 0%nat); (false, [Some 7; Some 1], 1%nat); (true, [Some 2; Some 5], 2%nat); (true, [Some 1; Some 7], 3%nat); (true, [None; Some 7], 4%nat)])
  = Some ([[Some 2; Some 5]; [None; Some 7]], [2%nat; 4%nat], [4%nat; 2%nat]).
Proof. reflexivity. Qed.
