(** Specification for C19 and C20. *)
From Coq Require Import Reals ZArith List.
From Verif Require Import M_Beta.
Open Scope R_scope.

(** [k0] and [k1] are neighbouring knots around the epoch [e] *)
Definition neighbours (ks : list knot) (k0 k1 : knot) (e : Z) : Prop :=
  In k0 ks /\ In k1 ks /\ (k_epoch k0 <= e < k_epoch k1)%Z /\
  forall k, In k ks -> (k_epoch k <= k_epoch k0 \/ k_epoch k1 <= k_epoch k)%Z.
Definition is_first (ks : list knot) (k : knot) : Prop := In k ks /\ forall k', In k' ks -> (k_epoch k <= k_epoch k')%Z.
Definition is_last (ks : list knot) (k : knot) : Prop := In k ks /\ forall k', In k' ks -> (k_epoch k' <= k_epoch k)%Z.
Definition distinct_epochs (ks : list knot) : Prop := NoDup (map k_epoch ks).
(** position of [e] between two epochs, from 0 to 1 *)
Definition frac (e0 e1 e : Z) : R := (IZR e - IZR e0) / (IZR e1 - IZR e0).
(** ideal interpolations *)
Definition lin (b0 b1 t : R) : R := b0 + (b1 - b0) * t.
Definition log_interp (b0 b1 t : R) : R := exp (lin (ln b0) (ln b1) t).
(** every layer that has a beta has this one *)
Definition all_have (b : R) (ls : list lbeta) : Prop := forall v, In (BetaVar v) ls -> v = b.
(** does the layer have a beta at all *)
Definition has_beta (o : lbeta) : bool := match o with BetaVar _ => true | _ => false end.
(** the documented damping once the target is reached *)
Definition damped (c : pid_conf) (e b : R) : R := if Rlt_dec e (target_ebops c) then b * (1 - damp c) else b.
