(** Specification of minifloat numbers, as in the class documentation (float_point_quantizer.py 14-17):
    a sign, [e] exponent bits, [m] mantissa bits, subnormal numbers, no infinities and no NaN; the
    exponent codes stand for consecutive signed exponents around the offset [e0]; with m = -1 only
    zero can be written.  Nothing here refers to the model. *)
From Verif Require Import Num.

Definition sgn (s : bool) : Q := if s then -(1) else 1.
(** the exponent of the smallest normal number: code 1.  Code 0 is for the subnormal numbers. *)
Definition emin (e e0 : Z) : Z := (e0 - 2 ^ (e - 1) + 1)%Z.
(** the number with sign [s], exponent code [c], mantissa code [k] *)
Definition decode (m e e0 : Z) (s : bool) (c k : Z) : Q :=
  if (c =? 0)%Z then sgn s * (inject_Z k * pow2 (- m)) * pow2 (emin e e0)
  else sgn s * (1 + inject_Z k * pow2 (- m)) * pow2 (emin e e0 + (c - 1)).
Definition minifloat (m e e0 : Z) (v : Q) : Prop :=
  (m = -1 /\ v == 0)%Z \/
  (0 <= m /\ exists s c k, 0 <= c < 2 ^ e /\ 0 <= k < 2 ^ m /\ v == decode m e e0 s c k)%Z.

(** What is assumed of the external rounding primitive: it returns one of the two minifloats next to
    its input (whichever), and the input itself when that is a minifloat.  Rounding to nearest, with
    any tie rule, is an instance. *)
Definition faithful (P : Q -> Prop) (x y : Q) : Prop :=
  P y /\ forall z, P z -> (x <= z -> y <= z) /\ (z <= x -> z <= y).
Definition conforms (fq : Q -> Z -> Z -> Z -> Q) : Prop :=
  forall x m e e0, (-1 <= m)%Z -> (1 <= e)%Z -> faithful (minifloat m e e0) x (fq x m e e0).
