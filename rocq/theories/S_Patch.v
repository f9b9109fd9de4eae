(** Specification vocabulary for C31 and C45. *)
From Verif Require Import Num M_Fixed M_State M_Mapper M_Contr M_Patch.

(** ** convolution: the replay is the convolution of the image with shuffled channels *)
Definition shuffled (groups cin_g : nat) (x : index -> Q) : index -> Q :=
  fun idx => x (removelast idx ++ [((last idx 0 mod cin_g) * groups + last idx 0 / cin_g)%nat]).

Definition pool_ok (cs : list cdim) : Prop := forall c, In c cs -> (0 < c_stride c)%nat /\ (0 < c_k c)%nat /\ c_dil c = 1%nat.
