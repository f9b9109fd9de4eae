(** Specification vocabulary for C28: widths that fit int8. *)
From Verif Require Import Num M_Fixed M_State M_Mapper S_Mapper.

Definition int8_widths (z : tensor Z) := forall g, valid_index (shape z) g -> (-128 <= at_ z g <= 127)%Z.
