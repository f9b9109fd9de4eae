(** Specification vocabulary for fixed-point formats, independent of the model:
    a number of format (k, i, f) is an integer code times 2^-f. *)
From Verif Require Import Num M_Fixed.

(** smallest and largest code of the format; [k] = has a sign bit, [b = i + f] magnitude bits *)
Definition code_hi (b : Z) : Z := (2 ^ b - 1)%Z.
Definition code_lo (om : omode) (k : bool) (b : Z) : Z :=
  if k then match om with SAT_SYM => (- (2 ^ b - 1))%Z | _ => (- 2 ^ b)%Z end else 0%Z.

Definition has_code (f : Z) (y : Q) (n : Z) : Prop := y == inject_Z n * pow2 (- f).

Definition representable (om : omode) (k : bool) (i f : Z) (y : Q) : Prop :=
  exists n, has_code f y n /\ (code_lo om k (i + f) <= n <= code_hi (i + f))%Z.

(** [r] is an admissible rounding of [x] to the grid of step 2^-f *)
Definition rounds_to (rm : rmode) (f : Z) (x r : Q) : Prop :=
  exists n, has_code f r n /\
  match rm with
  | TRN => r <= x /\ x < r + pow2 (- f)                                   (* downwards *)
  | RND => r - pow2 (- f) / 2 <= x /\ x < r + pow2 (- f) / 2              (* nearest, ties up *)
  | RND_CONV => Qabs (x - r) <= pow2 (- f) / 2 /\                         (* nearest, ties to even *)
                (Qabs (x - r) == pow2 (- f) / 2 -> Z.even n = true)
  end.

(** [n] fits a machine integer of [w] bits: two's complement when signed *)
Definition fits (signed : bool) (w n : Z) : Prop :=
  if signed then (1 <= w /\ - 2 ^ (w - 1) <= n < 2 ^ (w - 1))%Z
  else (0 <= w /\ 0 <= n < 2 ^ w)%Z.
