(** Specification vocabulary for C34. *)
From Verif Require Import Num M_Fixed S_Fixed M_Wrapper M_Ebops M_Table.

(** the variable takes the values l, l+s, ..., l+N*s *)
Definition var_ok (v : lhs) (N : nat) : Prop := 0 < v_s v /\ v_h v == v_l v + inject_Z (Z.of_nat N) * v_s v.
Definition var_value (v : lhs) (N : nat) (x : Q) : Prop := exists t, (t <= N)%nat /\ x == v_l v + inject_Z (Z.of_nat t) * v_s v.

Definition format_lhs (om : omode) (k : bool) (i f : Z) : lhs := mk_lhs (q_min om k i f) (q_max i f) (pow2 (- f)).

Definition dflt_lhs : lhs := mk_lhs 0 0 1.

(** [act'] translates the activations used exactly *)
Definition translates (act' : (Q -> Q) -> Q -> Q) (ls : list elayer) : Prop :=
  forall l, In l ls -> forall x y, x == y -> act' (e_act l) x == e_act l y.
