(** Model of [src/hgq/utils/sugar/beta_scheduler.py] (PieceWiseSchedule, BetaScheduler) and
    [src/hgq/utils/sugar/beta_pid.py] (PID, BaseBetaPID, BetaPID).
    Python floats are taken as real numbers (no rounding, no inf/nan); a raised exception is [None]. *)
From Coq Require Import Reals ZArith List Bool Lra Lia.
Export ListNotations.
Open Scope R_scope.

(** * PieceWiseSchedule *)
Inductive interp := Linear | Log | Constant.
Record knot := mk_knot { k_epoch : Z; k_beta : R; k_interp : interp }.

(** [sorted(intervals, key=lambda v: v[0])], beta_scheduler.py 50 (Python's sort is stable) *)
Fixpoint insert (k : knot) (l : list knot) : list knot :=
  match l with
  | [] => [k]
  | h :: t => if (k_epoch k <=? k_epoch h)%Z then k :: l else h :: insert k t
  end.
Fixpoint sort (l : list knot) : list knot :=
  match l with [] => [] | k :: t => insert k (sort t) end.

(** [np.searchsorted(self.epochs, epoch, side='right')], 61, on a sorted list *)
Fixpoint searchsorted_right (l : list knot) (e : Z) : nat :=
  match l with
  | [] => 0
  | h :: t => if (k_epoch h <=? e)%Z then S (searchsorted_right t e) else 0
  end.

(** [max(0, min(idx, len - 1))], 63-64 *)
Definition clamp_idx (i : Z) (n : nat) : Z := Z.max 0 (Z.min i (Z.of_nat n - 1)).

(** Python [a ** b] on floats as used in line 74.  A negative base with a fractional exponent gives a
    complex number, on which [float()] (79) raises; integral exponents other than 0 of a negative
    base cannot occur here and are not modelled. *)
Definition pypow (a b : R) : option R :=
  if Rlt_dec 0 a then Some (Rpower a b)
  else if Req_EM_T b 0 then Some 1
  else if Req_EM_T a 0 then (if Rlt_dec 0 b then Some 0 else None)
  else None.
Definition pydiv (a b : R) : option R := if Req_EM_T b 0 then None else Some (a / b).

Definition eps : R := / 10 ^ 9. (* 69 *)

(** [PieceWiseSchedule.__call__], 60-79, on the sorted knots stored by [__init__] *)
Definition pws_sorted (ks : list knot) (epoch : Z) : option R :=
  let i0 := (Z.of_nat (searchsorted_right ks epoch) - 1)%Z in
  let i1 := (i0 + 1)%Z in
  match nth_error ks (Z.to_nat (clamp_idx i0 (length ks))), nth_error ks (Z.to_nat (clamp_idx i1 (length ks))) with
  | Some k0, Some k1 =>
      let de := IZR epoch - IZR (k_epoch k0) in
      let den := IZR (k_epoch k1) - IZR (k_epoch k0) + eps in
      match k_interp k0 with
      | Linear => match pydiv ((k_beta k1 - k_beta k0) * de) den with Some q => Some (k_beta k0 + q) | None => None end
      | Log =>
          match pydiv (k_beta k1) (k_beta k0), pydiv de den with
          | Some r, Some t => match pypow r t with Some p => Some (k_beta k0 * p) | None => None end
          | _, _ => None
          end
      | Constant => Some (k_beta k0)
      end
  | _, _ => None
  end.
Definition PieceWiseSchedule (intervals : list knot) (epoch : Z) : option R := pws_sorted (sort intervals) epoch.

(** * The layers of a model: [_beta] of every layer in [model._flatten_layers()].  A plain Keras layer
    has no such attribute, a quantized layer has None when its EBOPs are disabled and a variable
    otherwise (layers/core/base.py 189-205). *)
Inductive lbeta := NoAttr | BetaNone | BetaVar (b : R).
(** [set_beta], beta_pid.py 49-53, and BetaScheduler.on_epoch_begin, beta_scheduler.py 24-27 *)
Definition set_beta (b : R) (layers : list lbeta) : list lbeta :=
  map (fun o => match o with BetaVar _ => BetaVar b | o => o end) layers.
(** [get_avg_beta], beta_pid.py 116-123: [hasattr] holds for a [_beta] that is None, and
    [None.numpy()] raises *)
Fixpoint sum_betas (layers : list lbeta) (n : nat) (c : R) : option (nat * R) :=
  match layers with
  | [] => Some (n, c)
  | NoAttr :: t => sum_betas t n c
  | BetaNone :: _ => None
  | BetaVar b :: t => sum_betas t (S n) (c + b)
  end.
Definition get_avg_beta (layers : list lbeta) : option R :=
  match sum_betas layers 0 0 with
  | Some (n, c) => Some (if (0 <? n)%nat then c / INR n else 0)
  | None => None
  end.
Definition scheduler_epoch_begin (fn : Z -> option R) (epoch : Z) (layers : list lbeta) : option (list lbeta) :=
  match fn epoch with Some b => Some (set_beta b layers) | None => None end.

(** * PID *)
(** beta_pid.py 8-15 *)
Record pid := mk_pid { gp : R; gi : R; gd : R; integral : R; prev_error : R }.
(** [PID.__call__] with neg = True (BaseBetaPID.__init__, 38), 27-32 *)
Definition pid_call (c : pid) (sv pv : R) : pid * R :=
  let err := pv - sv in
  let integ := integral c + err in
  let der := err - prev_error c in
  (mk_pid (gp c) (gi c) (gd c) integ err, gp c * err + gi c * integ + gd c * der).

(** [math.log10]: ValueError unless positive *)
Definition log10 (v : R) : R := ln v / ln 10.
Definition pylog10 (v : R) : option R := if Rlt_dec 0 v then Some (log10 v) else None.
Definition exp10 (v : R) : R := Rpower 10 v. (* [10.0 ** v] *)

(** constructor arguments of BetaPID, 95-114; [max_beta = inf] is [None] *)
Record pid_conf := mk_conf {
  target_ebops : R; init_beta : option R; warmup : Z; log : bool; max_beta : option R; min_beta : R; damp : R }.
Record pid_state := mk_st { ctl : pid; beta : R; ebops : R; layers : list lbeta }.

(** on_train_begin, 125-129; [e] is what [get_ebops] returns *)
Definition on_train_begin (c : pid_conf) (ctl0 : pid) (ls : list lbeta) (e : R) : option pid_state :=
  match init_beta c with
  | Some b => Some (mk_st ctl0 b e (set_beta b ls))
  | None => match get_avg_beta ls with Some b => Some (mk_st ctl0 b e ls) | None => None end
  end.

Definition with_integral (c : pid) (v : R) : pid := mk_pid (gp c) (gi c) (gd c) v (prev_error c).
(** lines 140-148 *)
Definition match_integral (c : pid_conf) (s : pid_state) : option pid :=
  let r := ebops s / target_ebops c in
  if log c then
    match pylog10 (r + / 10 ^ 9), pylog10 (beta s) with
    | Some err, Some lb => match pydiv (lb - gp (ctl s) * err) (gi (ctl s)) with
                           | Some q => Some (with_integral (ctl s) (q - err)) | None => None end
    | _, _ => None
    end
  else
    let err := 1 - r in
    match pydiv (beta s - gp (ctl s) * err) (gi (ctl s)) with
    | Some q => Some (with_integral (ctl s) (q - err)) | None => None end.
(** lines 150-153 *)
Definition control (c : pid_conf) (k : pid) (e : R) : option (pid * R) :=
  let r := e / target_ebops c in
  if log c then
    match pylog10 r with
    | Some l => let (k', o) := pid_call k 0 l in Some (k', exp10 o)
    | None => None
    end
  else Some (pid_call k 1 r).
(** [max(min(beta, max_beta), min_beta)], 158 *)
Definition clamp_beta (c : pid_conf) (b : R) : R :=
  Rmax (match max_beta c with Some m => Rmin b m | None => b end) (min_beta c).
(** [BetaPID.on_epoch_begin], 131-160 *)
Definition on_epoch_begin (c : pid_conf) (epoch : Z) (s : pid_state) : option pid_state :=
  if (epoch <? warmup c)%Z then
    Some (match init_beta c with Some b => mk_st (ctl s) (beta s) (ebops s) (set_beta b (layers s)) | None => s end)
  else
    match (if (epoch =? warmup c)%Z then match_integral c s else Some (ctl s)) with
    | None => None
    | Some k =>
        match control c k (ebops s) with
        | None => None
        | Some (k', b) =>
            let b := if Rlt_dec (ebops s) (target_ebops c) then b * (1 - damp c) else b in
            let b := clamp_beta c b in
            Some (mk_st k' b (ebops s) (set_beta b (layers s)))
        end
    end.
(** [BetaPID.on_epoch_end], 162-167: [e] is what [get_ebops] returns then *)
Definition on_epoch_end (e : R) (s : pid_state) : pid_state := mk_st (ctl s) (beta s) e (layers s).

(** [BaseBetaPID.on_epoch_begin], 55-62 *)
Definition base_epoch_begin (target : R) (k : pid) (e : R) (ls : list lbeta) : pid * R * list lbeta :=
  let (k', b) := pid_call k target e in
  let b := Rmax b 0 in (k', b, set_beta b ls).

(** a training run: epochs [epoch, epoch+1, ...] where the training of each epoch leaves the next
    EBOPs value of the history; returns the state after each on_epoch_begin *)
Fixpoint run_epochs (c : pid_conf) (epoch : Z) (hist : list R) (s : pid_state) : option (list pid_state) :=
  match hist with
  | [] => Some []
  | e :: t =>
      match on_epoch_begin c epoch s with
      | None => None
      | Some s1 => match run_epochs c (epoch + 1) t (on_epoch_end e s1) with
                   | Some l => Some (s1 :: l) | None => None end
      end
  end.
