(** Model of [src/hgq/utils/sugar/stop_if.py], [early_stopping_ebops.py] and [pareto.py]. *)
From Coq Require Import ZArith QArith List Bool Lia.
Export ListNotations.

(** * StopIf *)
(** fields, stop_if.py 52-56; [stop] is [model.stop_training] *)
Record stopif := mk_si { patience_epochs : option nat; patience_steps : option nat; counter_epochs : nat; counter_steps : nat; stop : bool }.
Definition si_init (pe ps : option nat) : stopif := mk_si pe ps 0 0 false.
(** calls made by Keras, carrying the value of [stop_condition(logs, model)] *)
Inductive event := EpochEnd (cond : bool) | BatchEnd (cond : bool).
(** [on_epoch_end], stop_if.py 68-76, and [on_train_batch_end], 78-86; [kill], 58-66, sets the flag *)
Definition si_step (s : stopif) (e : event) : stopif :=
  match e with
  | EpochEnd cond =>
      match patience_epochs s with
      | None => s
      | Some p =>
          if cond then
            let n := S (counter_epochs s) in
            mk_si (patience_epochs s) (patience_steps s) n (counter_steps s) (if (p <? n)%nat then true else stop s)
          else mk_si (patience_epochs s) (patience_steps s) 0 (counter_steps s) (stop s)
      end
  | BatchEnd cond =>
      match patience_steps s with
      | None => s
      | Some p =>
          if cond then
            let n := S (counter_steps s) in
            mk_si (patience_epochs s) (patience_steps s) (counter_epochs s) n (if (p <? n)%nat then true else stop s)
          else mk_si (patience_epochs s) (patience_steps s) (counter_epochs s) 0 (stop s)
      end
  end.
Definition si_run (s : stopif) (es : list event) : stopif := fold_left si_step es s.

(** * EarlyStoppingWithEbopsThres *)
Section Early.
Context {St Log : Type}.
(** [keras.callbacks.EarlyStopping.on_epoch_end]: any function of its own state, the logs and
    [model.stop_training] (third-party code, left abstract) *)
Variable base : St -> Log -> bool -> St * bool.
(** early_stopping_ebops.py 81-92.  [ebops] is the sum over the enabled quantized layers (85-88) *)
Definition es_epoch_end (thres : Q) (s : St) (l : Log) (ebops : Z) (stop_training : bool) : St * bool :=
  let '(s', flag) := base s l stop_training in
  (s', if negb (Qle_bool (inject_Z ebops) thres) then stop_training else flag).
(** Keras trains until [stop_training] is set; returns the epochs run and the flag.  [model.fit] resets the flag first. *)
Fixpoint es_fit (thres : Q) (s : St) (hist : list (Log * Z)) : nat * bool * St :=
  match hist with
  | [] => (0%nat, false, s)
  | (l, e) :: t =>
      let '(s', f) := es_epoch_end thres s l e false in
      if f then (1%nat, true, s') else let '(n, f', s'') := es_fit thres s' t in (S n, f', s'')
  end.
(** plain EarlyStopping whose stop request is ignored, as a reference: state after the history *)
Fixpoint plain_state (s : St) (hist : list (Log * Z)) : St :=
  match hist with [] => s | (l, _) :: t => plain_state (fst (base s l false)) t end.
End Early.

(** the Keras callback used as base, keras/src/callbacks/early_stopping.py (third party): [on_epoch_end]
    without weight restoring; mode 'min', [min_delta] and [baseline] as given *)
Record kes := mk_kes { wait : nat; best : option Q }.
Definition improves (md : Q) (cur : Q) (ref : option Q) : bool :=
  match ref with None => true | Some r => negb (Qle_bool r (cur + md)) end.
Definition keras_es (patience : nat) (md : Q) (s : kes) (l : Z * Q) (flag : bool) : kes * bool :=
  let '(epoch, cur) := l in
  if improves md cur (best s) then (mk_kes 0 (Some cur), flag)
  else (mk_kes (S (wait s)) (best s), if (patience <=? S (wait s))%nat && (0 <? epoch)%Z then true else flag).

(** * ParetoFront *)
(** a metric value; [None] is nan, for which every comparison is False *)
Notation num := (option Q).
Definition le_num (a b : num) : bool := match a, b with Some x, Some y => Qle_bool x y | _, _ => false end.
Definition gt_num (a b : num) : bool := match a, b with Some x, Some y => negb (Qle_bool x y) | _, _ => false end.
(** [self.sides * metrics], pareto.py 56-57 *)
Definition scale (sides : list Q) (m : list num) : list num :=
  map (fun '(s, v) => match v with Some v => Some (s * v)%Q | None => None end) (combine sides m).
(** [np.all(a <= b)], [np.all(a > b)], 58, 60 *)
Definition all2 (f : num -> num -> bool) (a b : list num) : bool := forallb (fun '(x, y) => f x y) (combine a b).

(** the callback and the directory it writes to: file name -> metrics of the saved model *)
Record pareto := mk_pf { record : list (list num); paths : list nat; disk : list (nat * list num) }.
Fixpoint disk_has (p : nat) (d : list (nat * list num)) : bool :=
  match d with [] => false | (q, _) :: t => (p =? q)%nat || disk_has p t end.
Definition disk_rm (p : nat) (d : list (nat * list num)) := filter (fun '(q, _) => negb (p =? q)%nat) d.
(** [list.pop(i)] *)
Fixpoint pop {T} (i : nat) (l : list T) : list T :=
  match l, i with [], _ => [] | _ :: t, O => t | h :: t, S i => h :: pop i t end.

(** the loop of lines 55-61 starting at position [i]: [None] is the early return of line 59 *)
Fixpoint scan (sides : list Q) (new : list num) (i : nat) (rec : list (list num)) : option (list nat) :=
  match rec with
  | [] => Some []
  | old :: t =>
      let o := scale sides old in let n := scale sides new in
      if all2 le_num n o then None
      else match scan sides new (S i) t with
           | None => None
           | Some r => Some (if all2 gt_num n o then i :: r else r)
           end
  end.
(** lines 62-65 for the indices [is] in the order they are removed; [None]: FileNotFoundError *)
Fixpoint remove_all (is : list nat) (s : pareto) : option pareto :=
  match is with
  | [] => Some s
  | i :: t =>
      match nth_error (paths s) i with
      | None => None
      | Some p =>
          if disk_has p (disk s) then remove_all t (mk_pf (pop i (record s)) (pop i (paths s)) (disk_rm p (disk s)))
          else None
      end
  end.
(** [on_epoch_end], 44-73: [enabled] is the outcome of lines 51-52, [name] that of the formatting in 67 *)
Definition pf_epoch_end (sides : list Q) (s : pareto) (enabled : bool) (new : list num) (name : nat) : option pareto :=
  if enabled then
    match scan sides new 0 (record s) with
    | None => Some s
    | Some rm =>
        match remove_all (rev rm) s with
        | None => None
        | Some s' => Some (mk_pf (record s' ++ [new]) (paths s' ++ [name]) ((name, new) :: disk_rm name (disk s')))
        end
    end
  else Some s.
(** a history of epochs: enabled, metrics, file name *)
Fixpoint pf_run (sides : list Q) (s : pareto) (h : list (bool * list num * nat)) : option pareto :=
  match h with
  | [] => Some s
  | (e, m, n) :: t => match pf_epoch_end sides s e m n with Some s' => pf_run sides s' t | None => None end
  end.
Definition pf_init : pareto := mk_pf [] [] [].
