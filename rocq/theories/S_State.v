(** Specification vocabulary for the stateful quantizers. *)
From Verif Require Import Num M_Fixed M_State S_Fixed.

(** what a width constraint promises *)
Definition satisfies (c : option constr) (w : Q) : Prop :=
  match c with
  | None => True
  | Some (CMinMax lo hi) => inject_Z lo <= w /\ w <= inject_Z hi
  | Some (CConstant v) => w == inject_Z v
  | Some (CMin lo) => inject_Z lo <= w
  | Some (CMax hi) => w <= inject_Z hi
  end.
(** the interval is not empty *)
Definition well_formed (c : option constr) : Prop :=
  match c with Some (CMinMax lo hi) => (lo <= hi)%Z | _ => True end.

(** largest integer width the constraint allows, if any *)
Definition upper_bound (c : option constr) : option Z :=
  match c with
  | Some (CMinMax _ hi) | Some (CConstant hi) | Some (CMax hi) => Some hi
  | _ => None
  end.
(** the constraint allows integer widths of at least [z] bits *)
Definition leaves_room (c : option constr) (z : Z) : Prop :=
  forall hi, upper_bound c = Some hi -> (z <= hi)%Z.

(** overflow-free: every value of the batch is within the largest value of width [i] when
    rounded to fraction width [f] *)
Definition fits_width (rm : rmode) (i f : Z) (x : Q) : Prop := Qabs (round_f rm f x) <= pow2 i - pow2 (- f).

Definition same_samples (bs1 bs2 : list (list Q)) : Prop := forall x, In x (concat bs1) <-> In x (concat bs2).

(** the constraint does not cut the range needed by [x]:
    KIF: [x] rounded to fraction width [f] fits the widest allowed format;
    KBI with [b] bits: [x] is below the largest value of the widest allowed format, up to the
    epsilon 1e-7 used by the code on both sides. *)
Definition kif_reachable (c : qconf) (f : Z) (x : Q) : Prop :=
  forall hi, upper_bound (c_ic c) = Some hi -> fits_width (c_rm c) hi f x.
Definition kbi_reachable (c : qconf) (b : Z) (x : Q) : Prop :=
  forall hi, upper_bound (c_ic c) = Some hi ->
    Qabs x + (1#10000000) <= pow2 hi * (1 - pow2 (- b) + (1#10000000)).

(** a WRAP quantizer that is not frozen: the case in which calls update the widths *)
Definition wrap_trainable (c : qconf) : Prop := c_om c = WRAP /\ c_trainable c = true.
(** the bounds of the constraint are above the width -10^9 that a reset stores *)
Definition above_reset (c : option constr) : Prop :=
  match c with
  | None => True
  | Some (CMinMax lo _) | Some (CConstant lo) | Some (CMin lo) | Some (CMax lo) => (-1000000000 <= lo)%Z
  end.
