(** Model of the leak parameter of LIF cells through training.

    Source: /repo/src/hgq/layers/snn/base.py 222-234, 505-517 (lif_beta: Constant initializer, MinMax(0, 1) constraint), 501-503 (qlif_beta);
    /repo/src/hgq/constraints/__init__.py 12-24 (MinMax).  The dynamics of the cells are those of M_Rnn. *)
From Verif Require Import Num M_Fixed M_State M_Rnn.

(** Keras (external) applies a variable's constraint after each optimizer step, and does not apply it to the initial value.
    [updates]: the values the optimizer writes, one after the other; none if learn_beta is off *)
Definition lif_beta (beta0 : Q) (updates : list Q) : Q := fold_left (fun _ w => apply_c (Some (CMinMax 0 1)) w) updates beta0.
(** qlif_beta, snn/base.py 501-503: the quantized leak (one parameter; per-unit leaks have one each) *)
Definition qlif_beta (rm : rmode) (om : omode) (k : bool) (i f : Z) (beta0 : Q) (updates : list Q) : Q := base_call rm om false k i f (lif_beta beta0 updates).
