(** Model of the stateful fixed-point quantizers FixedPointQuantizerKIF and
    FixedPointQuantizerKBI: what a call does to the stored widths and what it returns.

    Source: /repo/src/hgq/quantizer/internal/fixed_point_quantizer.py,
            /repo/src/hgq/constraints/__init__.py, /repo/src/hgq/utils/minmax_trace.py.

    One value of [kif_state]/[kbi_state] is the state of one bit-width group; a batch is the
    list of the elements of that group in one call (how a tensor splits into groups is
    modelled in M_Mapper).  Reductions over an empty group raise in the backend: modelled by
    [None].  Tensor values are exact rationals. *)
From Verif Require Import Num M_Fixed.

(** hgq/constraints/__init__.py 11-67. The bounds are floats in the code; the model takes
    integers (all bounds used for integer widths in the repository are integers). *)
Inductive constr := CMinMax (lo hi : Z) | CConstant (v : Z) | CMin (lo : Z) | CMax (hi : Z).

Definition apply_c (c : option constr) (w : Q) : Q :=
  match c with
  | None => w                                          (* [if self._i.constraint is not None] *)
  | Some (CMinMax lo hi) => clip (inject_Z lo) (inject_Z hi) w
  | Some (CConstant v) => inject_Z v
  | Some (CMin lo) => Qmax w (inject_Z lo)
  | Some (CMax hi) => Qmin w (inject_Z hi)
  end.

(** the same constraint on an integer-valued width *)
Definition apply_cz (c : option constr) (w : Z) : Z :=
  match c with
  | None => w
  | Some (CMinMax lo hi) => Z.min (Z.max w lo) hi
  | Some (CConstant v) => v
  | Some (CMin lo) => Z.max w lo
  | Some (CMax hi) => Z.min w hi
  end.

(** [training] argument: True, the TrainingFlagWrapper('tracing') of minmax_trace.py 24-32,
    or anything else (None/False). *)
Inductive mode := Infer | Train | Trace.

(** keras.backend.epsilon(), default value *)
Definition keras_eps : Q := 1 # 10000000.

(** [x_to_bw_absmax] on one group: base.py 185-186 *)
Fixpoint absmax (xs : list Q) : option Q :=
  match xs with
  | [] => None
  | x :: xs' => Some (match absmax xs' with None => Qabs x | Some m => Qmax (Qabs x) m end)
  end.
(** [x_to_bw_sign] on one group: base.py 188-189 *)
Definition any_neg (xs : list Q) : bool := existsb (fun x => negb (Qle_bool 0 x)) xs.

(** [minimal_i_given_xf], fixed_point_quantizer.py 25-31, at x = absmax >= 0 (the only call, 451-453; overflow_mode is
    WRAP there, so [symmetric] is False and the [i_neg] branch is not taken). *)
Definition minimal_i_xf (x : Q) (f : Z) : Z := ceil_log2 (x + pow2 (- f)).
(** [minimal_i_given_xb], fixed_point_quantizer.py 16-22, at x = absmax >= 0 (the only call, 267-269). *)
Definition minimal_i_xb (x : Q) (b : Z) : Z :=
  if (0 <? b)%Z then ceil_log2 ((x + keras_eps) / (1 - pow2 (- b) + keras_eps)) else 32%Z.

(** [_i - i_decay_speed]; the default decay speed is infinity ([None]). *)
Definition decayed_max (i : Q) (decay : option Q) (m : Q) : Q :=
  match decay with None => m | Some d => Qmax (i - d) m end.

(** ** KIF *)
Record kif_state := mk_kif { kif_k : bool; kif_i : Q; kif_f : Q }.     (* _k, _i, _f: 374-397 *)
Definition kif_iz (s : kif_state) : Z := round_even (kif_i s).          (* property i, 439-441 *)
Definition kif_fz (s : kif_state) : Z := round_even (kif_f s).          (* property f, 443-445 *)

Record qconf := mk_qconf {
  c_rm : rmode; c_om : omode;
  c_trainable : bool;          (* layer.trainable *)
  c_weight : bool;             (* is_weight *)
  c_ic : option constr;        (* constraint on _i *)
  c_decay : option Q }.        (* i_decay_speed, None = inf *)

Definition is_wrap (om : omode) : bool := match om with WRAP => true | _ => false end.
Definition is_train (m : mode) : bool := match m with Train => true | _ => false end.

(** FixedPointQuantizerKIF.call, fixed_point_quantizer.py 401-429 *)
Definition kif_call (c : qconf) (m : mode) (s : kif_state) (xs : list Q) : option (kif_state * list Q) :=
  let f := kif_fz s in
  let base := map (base_call (c_rm c) (c_om c) (is_train m) (kif_k s) (kif_iz s) f) xs in
  if is_wrap (c_om c) && c_trainable c then
    let rinputs := map (round_f (c_rm c) f) xs in
    match m with
    | Train =>
        match absmax rinputs with
        | None => None
        | Some x =>
            let _new_i := inject_Z (minimal_i_xf x f) in
            let new_i := decayed_max (kif_i s) (c_decay c) _new_i in
            (* 411-412 apply the constraint to _new_i, which is not used afterwards; 413 assigns new_i *)
            Some (mk_kif (kif_k s) new_i (kif_f s), rinputs)
        end
    | Trace =>
        match absmax rinputs with
        | None => None
        | Some x =>
            let _new_i := apply_cz (c_ic c) (minimal_i_xf x f) in
            let new_i := Z.max (kif_iz s) _new_i in
            let new_k := kif_k s || any_neg rinputs in
            Some (mk_kif new_k (inject_Z new_i) (kif_f s), rinputs)
        end
    | Infer => Some (s, if c_weight c then rinputs else base)
    end
  else Some (s, base).

(** ** KBI *)
Record kbi_state := mk_kbi { kbi_k : bool; kbi_b : Q; kbi_i : Q }.      (* _k, _b, _i: 218-241 *)
Definition kbi_bz (s : kbi_state) : Z := round_even (kbi_b s).          (* property b, 248-250 *)
Definition kbi_iz (s : kbi_state) : Z := round_even (kbi_i s).          (* property i, 252-254 *)
Definition kbi_fz (s : kbi_state) : Z := (kbi_bz s - kbi_iz s)%Z.       (* property f, 256-258 *)

(** FixedPointQuantizerKBI.call, fixed_point_quantizer.py 277-307 *)
Definition kbi_call (c : qconf) (m : mode) (s : kbi_state) (xs : list Q) : option (kbi_state * list Q) :=
  let b := kbi_bz s in
  let base := map (base_call (c_rm c) (c_om c) (is_train m) (kbi_k s) (kbi_iz s) (kbi_fz s)) xs in
  if is_wrap (c_om c) && c_trainable c then
    match m with
    | Train =>
        match absmax xs with
        | None => None
        | Some x =>
            let new_i := decayed_max (kbi_i s) (c_decay c) (inject_Z (minimal_i_xb x b)) in
            let new_i := apply_c (c_ic c) new_i in
            let s' := mk_kbi (kbi_k s) (kbi_b s) new_i in
            Some (s', map (round_f (c_rm c) (kbi_fz s')) xs)
        end
    | Trace =>
        match absmax xs with
        | None => None
        | Some x =>
            let new_i := apply_cz (c_ic c) (Z.max (kbi_iz s) (minimal_i_xb x b)) in
            let rinputs := map (round_f (c_rm c) (b - new_i)) xs in
            let new_k := kbi_k s || (any_neg rinputs && (0 <? b)%Z) in
            Some (mk_kbi new_k (kbi_b s) (inject_Z new_i), rinputs)
        end
    | Infer =>
        Some (s, if c_weight c then
                   match c_rm c with
                   | RND => map (round_f (c_rm c) (kbi_fz s)) xs
                   | _ => base
                   end
                 else base)
    end
  else Some (s, base).

(** A history of calls: [None] when one of them raises; otherwise the final state and the
    outputs of the calls in order. *)
Fixpoint kif_run (c : qconf) (s : kif_state) (h : list (mode * list Q)) : option (kif_state * list (list Q)) :=
  match h with
  | [] => Some (s, [])
  | (m, xs) :: h' =>
      match kif_call c m s xs with
      | None => None
      | Some (s', out) =>
          match kif_run c s' h' with
          | None => None
          | Some (s'', outs) => Some (s'', out :: outs)
          end
      end
  end.
Fixpoint kbi_run (c : qconf) (s : kbi_state) (h : list (mode * list Q)) : option (kbi_state * list (list Q)) :=
  match h with
  | [] => Some (s, [])
  | (m, xs) :: h' =>
      match kbi_call c m s xs with
      | None => None
      | Some (s', out) =>
          match kbi_run c s' h' with
          | None => None
          | Some (s'', outs) => Some (s'', out :: outs)
          end
      end
  end.

(** [_reset_minmax], minmax_trace.py 13-21: only quantizers with WRAP overflow have
    [_i_decay_speed] (fixed_point_quantizer.py 61-62). *)
Definition kif_reset (c : qconf) (s : kif_state) : kif_state :=
  if is_wrap (c_om c) && c_trainable c then mk_kif false (inject_Z (-1000000000)) (kif_f s) else s.
Definition kbi_reset (c : qconf) (s : kbi_state) : kbi_state :=
  if is_wrap (c_om c) && c_trainable c then mk_kbi false (kbi_b s) (inject_Z (-1000000000)) else s.

(** what [trace_minmax(model, data, reset)] does to one quantizer whose inputs in the
    successive batches are [batches]: minmax_trace.py 67-80 *)
Definition kif_trace (c : qconf) (reset : bool) (s : kif_state) (batches : list (list Q)) :=
  kif_run c (if reset then kif_reset c s else s) (map (fun b => (Trace, b)) batches).
Definition kbi_trace (c : qconf) (reset : bool) (s : kbi_state) (batches : list (list Q)) :=
  kbi_run c (if reset then kbi_reset c s else s) (map (fun b => (Trace, b)) batches).
