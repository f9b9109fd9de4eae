(** Specification vocabulary for C14: the documented parameters of a quantizer wrapper. *)
From Verif Require Import Num M_Fixed M_Wrapper.

Definition scale_of (w : wrapper) : Q := match w_scaler w with Some s => s | None => 1 end.
Definition affine_a (w : wrapper) : Q := match w_affine w with Some (a, _) => a | None => 1 end.
Definition affine_b (w : wrapper) : Q := match w_affine w with Some (_, b) => b | None => 0 end.
Definition respectful (q : Q -> Q) : Prop := forall x y, x == y -> q x == q y.

Definition step_bound (rm : rmode) (f : Z) : Q := match rm with TRN => pow2 (- f) | _ => pow2 (- f) * (1#2) end.
