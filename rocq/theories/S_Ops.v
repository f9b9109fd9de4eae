(** Specification vocabulary for traced array operations (C49). *)
From Verif Require Import Num M_Fixed M_State M_Mapper S_Mapper.

(** sample [b] of a batch *)
Definition sample (b : nat) (x : tensor Q) : tensor Q := mk_tensor (tl (shape x)) (fun i => at_ x (b :: i)).
Definition same_tensor (x y : tensor Q) : Prop := shape x = shape y /\ forall i, valid_index (shape x) i -> at_ x i == at_ y i.
(** [x] is a batch of [n] samples *)
Definition batch_of (n : nat) (x : tensor Q) : Prop := exists sh, shape x = n :: sh.
(** [y] is the layer's result on a batch of [n] samples, [replay b] the traced result on sample [b] *)
Definition traced_right (n : nat) (y : tensor Q) (replay : nat -> option (tensor Q)) : Prop :=
  batch_of n y /\ forall b, (b < n)%nat -> exists z, replay b = Some z /\ same_tensor (sample b y) z.
