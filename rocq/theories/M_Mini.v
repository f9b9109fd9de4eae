(** Model of the minifloat quantizer.

    Source: /repo/src/hgq/quantizer/internal/float_point_quantizer.py.  The rounding primitive
    [float_quantize(inputs, m, e, e0)] (imported at float_point_quantizer.py 7) is in the external
    package [quantizers] and not in the repository: it is a parameter [fq] of the model, and the
    theorems assume of it only the contract written down in S_Mini.  [round_conv] (6) is rounding
    half to even, as for the fixed-point quantizer. *)
From Coq Require Import Reals.
From Verif Require Import Num M_Fixed M_State M_Mapper.
Open Scope Q_scope.

(** properties [m], [e], [e0]: float_point_quantizer.py 89-99; the stored weights are arbitrary numbers *)
Definition p_m (w : Q) : Z := round_even w.
Definition p_e (w : Q) : Z := round_even w.
Definition p_e0 (w : Q) : Z := round_even w.

(** [bits], [fbits]: float_point_quantizer.py 101-107 *)
Definition mf_bits (m e : Z) : Z := (m + e + 1)%Z.
Definition mf_fbits (m e : Z) : Z := mf_bits m e.

(** [max], [min], [epsilon]: float_point_quantizer.py 109-119.  Powers with real exponents: with
    e = 0 the exponent 2 ** (e - 1) is one half. *)
Definition mf_max (m e e0 : Z) : R :=
  (Rpower 2 (Rpower 2 (IZR e - 1) + IZR e0 - 1) * (2 - Rpower 2 (- IZR m)))%R.
Definition mf_min (m e e0 : Z) : R := (- mf_max m e e0)%R.
Definition mf_epsilon (m e e0 : Z) : R :=
  (Rpower 2 (- Rpower 2 (IZR e - 1) + IZR e0 + 1) * Rpower 2 (- IZR m))%R.

(** the weights of a built quantizer: float_point_quantizer.py 61-87 *)
Record mf_tstate := mk_mf { f_m : tensor Q; f_e : tensor Q; f_e0 : tensor Q }.

(** [call]: float_point_quantizer.py 121-125.  [fq x m e e0] is the external function on scalars. *)
Definition mf_tcall (fq : Q -> Z -> Z -> Z -> Q) (s : mf_tstate) (x : tensor Q) : option (tensor Q) :=
  do m <- broadcast_to (tmap p_m (f_m s)) (shape x);
  do e <- broadcast_to (tmap p_e (f_e s)) (shape x);
  do e0 <- broadcast_to (tmap p_e0 (f_e0 s)) (shape x);
  Some (mk_tensor (shape x) (fun i => fq (at_ x i) (at_ m i) (at_ e i) (at_ e0 i))).

(** constraints applied to the weights after every update: [Min(-1)] for m (float_point_quantizer.py
    48, constraints/__init__.py 43-54), [NonNeg] for e (float_point_quantizer.py 49; keras:
    w * (w >= 0)) *)
Definition c_min (lo w : Q) : Q := if Qle_bool w lo then lo else w.
Definition c_nonneg (w : Q) : Q := if Qle_bool 0 w then w else 0.
Definition mf_constrain (s : mf_tstate) : mf_tstate :=
  mk_mf (tmap (c_min (-1)) (f_m s)) (tmap c_nonneg (f_e s)) (f_e0 s).
