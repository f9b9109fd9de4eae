(** The mathematical softmax over the reals (C37). *)
From Coq Require Import Reals List.
Import ListNotations.
Open Scope R_scope.

Fixpoint rsum (l : list R) : R := match l with [] => 0 | x :: l' => x + rsum l' end.
(** the mathematical softmax, masked positions excluded *)
Definition softmaxR (scale : R) (m : nat -> bool) (x : nat -> R) (ps : list nat) (p : nat) : R :=
  if m p then exp (scale * x p) / rsum (map (fun q => if m q then exp (scale * x q) else 0) ps) else 0.
Definition scoresR (dk : nat) (query : nat -> R) (key : nat -> nat -> R) (bias : nat -> R) (p : nat) : R :=
  rsum (map (fun d => query d * (key p d + bias d)) (seq 0 dk)).
