(** Specification vocabulary for QSoftmax. *)
From Verif Require Import Num M_Fixed M_State M_Mapper M_Ebops M_Softmax.

(** the tables and quantizers are functions of the value (not of the way a rational is written) *)
Definition sm_functions (s : softmax) : Prop :=
  (forall p x y, x == y -> sm_iq s p x == sm_iq s p y) /\ (forall p x y, x == y -> sm_exp s p x == sm_exp s p y) /\
  (forall x y, x == y -> sm_inv s x == sm_inv s y).
(** the softmax the layer is meant to compute on the positions [ps] with tables [E], [I] and inputs
    [y]: E(max - y_p) * I(sum_q E(max - y_q)), where the maximum is any upper bound that is attained *)
Definition is_max (m : Q) (l : list Q) : Prop := (exists x, In x l /\ x == m) /\ forall x, In x l -> x <= m.
Definition stable_softmax (E : nat -> Q -> Q) (I : Q -> Q) (y : nat -> Q) (ps : list nat) (p : nat) (out : Q) : Prop :=
  forall m, is_max m (map y ps) -> out == E p (m - y p) * I (qsum (map (fun q => E q (m - y q)) ps)).
(** no unmasked score is below the constant -1e9 that stands for "masked" *)
Definition above_mask (s : softmax) (m : nat -> bool) (x : nat -> Q) (ps : list nat) : Prop :=
  forall q, In q ps -> m q = true -> -1000000000 <= sm_iq s q (x q).
