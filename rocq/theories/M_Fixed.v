(** Model of the fixed-point quantizer on scalars.

    Source: /repo/src/hgq/quantizer/internal/fixed_point_quantizer.py.

    The rounding and overflow primitives come from the external package [quantizers]
    ([_get_fixed_quantizer], imported at fixed_point_quantizer.py 9), which is not in the
    repository.  They are modelled from that package's documented meaning:
      TRN: floor to a multiple of 2^-f; RND: half up; RND_CONV: half to even;
      WRAP: reduction modulo 2^(i+k) into the range; SAT: clip to [-k 2^i, 2^i - 2^-f];
      SAT_SYM: clip to [-k (2^i - 2^-f), 2^i - 2^-f].
    The stochastic modes S_RND/S_RND_CONV round deterministically outside training; only
    that case is modelled. *)
From Verif Require Import Num.

Inductive rmode := TRN | RND | RND_CONV.
Inductive omode := WRAP | SAT | SAT_SYM.

(** The sign flag [k] as a number: [_k] is a uint8 holding 0 or 1 (fixed_point_quantizer.py 218-224, 374-381). *)
Definition kz (k : bool) : Z := if k then 1%Z else 0%Z.

(** rounding of a scaled value to an integer ([stateless_quantizer.round], external) *)
Definition rnd_int (rm : rmode) (y : Q) : Z :=
  match rm with
  | TRN => Qfloor y
  | RND => Qfloor (y + (1#2))
  | RND_CONV => round_even y
  end.

(** [stateless_quantizer.round(x, f, ...)] (external; used at fixed_point_quantizer.py 305, 405) *)
Definition round_f (rm : rmode) (f : Z) (x : Q) : Q :=
  inject_Z (rnd_int rm (x * pow2 f)) * pow2 (- f).

(** [ops.clip] *)
Definition clip (lo hi x : Q) : Q := Qmin (Qmax x lo) hi.

(** properties [max], [min], [epsilon] of the quantizer: fixed_point_quantizer.py 107-121 *)
Definition q_max (i f : Z) : Q := pow2 i - pow2 (- f).
Definition symmetric (om : omode) : bool := match om with SAT_SYM => true | _ => false end. (* 64: overflow_mode.endswith('SYM') *)
Definition q_min (om : omode) (k : bool) (i f : Z) : Q :=
  if symmetric om then - (inject_Z (kz k)) * (pow2 i - pow2 (- f))
  else - (inject_Z (kz k)) * pow2 i.
Definition q_epsilon (f : Z) : Q := pow2 (- f).

(** overflow handling (external) *)
Definition overflow (om : omode) (k : bool) (i f : Z) (x : Q) : Q :=
  match om with
  | WRAP =>
      let bias := inject_Z (kz k) * pow2 i in
      let m := pow2 (i + kz k) in
      (x + bias) - inject_Z (Qfloor ((x + bias) / m)) * m - bias
  | SAT => clip (- (inject_Z (kz k)) * pow2 i) (pow2 i - pow2 (- f)) x
  | SAT_SYM => clip (- (inject_Z (kz k)) * (pow2 i - pow2 (- f))) (pow2 i - pow2 (- f)) x
  end.

(** [self.stateless_quantizer(x, k, i, f, training, seed)]: external; with WRAP the training
    call only rounds. *)
Definition stateless (rm : rmode) (om : omode) (training : bool) (k : bool) (i f : Z) (x : Q) : Q :=
  match om, training with
  | WRAP, true => round_f rm f x
  | _, _ => overflow om k i f (round_f rm f x)
  end.

(** [FixedPointQuantizerBase.call], fixed_point_quantizer.py 142-150, on one element with its
    own (k, i, f) (the broadcast of the widths to elements is modelled in M_Mapper). *)
Definition base_call (rm : rmode) (om : omode) (training : bool) (k : bool) (i f : Z) (x : Q) : Q :=
  let ret := stateless rm om training k i f x in
  if training then ret
  else if (0 <? kz k + i + f)%Z then ret else 0.

(** the advertised bit counts: [bits] 92-97, [fbits] 99-105 ([b] is the width without sign) *)
Definition q_bits (om : omode) (k : bool) (b : Z) : Z :=
  match om with SAT => (b + kz k)%Z | _ => b end.
Definition q_fbits (om : omode) (k : bool) (b : Z) : Z :=
  match om with
  | WRAP => (b + kz k * (if 0 <? b then 1 else 0))%Z
  | _ => (b + kz k)%Z
  end.
(** [b] of the KIF quantizer, 435-437: relu(i + f) *)
Definition kif_b (i f : Z) : Z := Z.max 0 (i + f).
