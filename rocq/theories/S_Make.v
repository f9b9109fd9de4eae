(** Specification of the saturating activations hard tanh and hard sigmoid. *)
From Verif Require Import Num M_Fixed S_Fixed.

(** [z] is [u] rounded to the grid of step 2^-f and then limited to [lo, hi] *)
Definition saturated (rm : rmode) (lo hi : Q) (f : Z) (u z : Q) : Prop :=
  exists r, rounds_to rm f u r /\ ((r <= lo /\ z == lo) \/ (lo <= r <= hi /\ z == r) \/ (hi <= r /\ z == hi)).
(** hard tanh with [f] fractional bits: between -1 and the largest number below 1 (symmetric: its opposite); without any
    bits left, zero *)
Definition hard_tanh (rm : rmode) (symmetric : bool) (f : Z) (u z : Q) : Prop :=
  if (0 <? f + 1)%Z then saturated rm (if symmetric then - (1 - pow2 (- f)) else -(1)) (1 - pow2 (- f)) f u z else z == 0.
(** hard sigmoid: u/4 + 1/2 limited to [0, 1), [f] the fractional bits of u *)
Definition hard_sigmoid (rm : rmode) (f : Z) (u y : Q) : Prop :=
  exists z, y == z / 4 + (1 # 2) /\ if (0 <? f + 2)%Z then saturated rm (-(2)) (2 - pow2 (- f)) f u z else z == 0.

(** the objects named in the shipped defaults (config.py 75-184) *)
From Coq Require Import String.
From Verif Require Import M_State M_Make.
Definition shipped_objects (I : string -> option obj) : Prop :=
  (I "MinMax(0,23)" = Some (OConstr (CMinMax 0 23)) /\ I "MinMax(0,24)" = Some (OConstr (CMinMax 0 24)) /\
   I "MinMax(-23,23)" = Some (OConstr (CMinMax (-23) 23)) /\ I "MinMax(-24,24)" = Some (OConstr (CMinMax (-24) 24)) /\
   I "MonoL1(1e-8)" = Some OReg /\ I "inf" = Some OInf /\
   I "Constant(0)" = Some (OConstr (CConstant 0)) /\ I "Constant(1)" = Some (OConstr (CConstant 1)))%string.
