(** Model of binary32 evaluation.

    Source: /repo/src/hgq/layers/core/dense.py 59-67 (QDense.call: matmul of quantized inputs and kernel, plus
    bias), /repo/src/hgq/layers/snn/base.py 27-33 (ATan).

    [b32] is IEEE-754 binary32 rounding (nearest, ties to even, subnormals), from Flocq; infinities are
    excluded by the theorems' bounds.  The order in which a backend adds the products is not specified, and
    products may be fused with the addition: an evaluation is any tree. *)
From Coq Require Import Reals List.
From Flocq Require Import Core.
Import ListNotations.
Local Open Scope R_scope.

Definition b32 (x : R) : R := round radix2 (FLT_exp (-149) 24) ZnearestE x.

(** one way to evaluate a sum of products of floats *)
Inductive sumtree :=
| Prod (a b : R)                       (* a product, rounded *)
| Value (c : R)                        (* a float: bias, initial accumulator *)
| Add (l r : sumtree)                  (* rounded addition *)
| Fma (a b : R) (t : sumtree).         (* a*b + t with one rounding *)
Fixpoint fl_eval (t : sumtree) : R :=
  match t with
  | Prod a b => b32 (a * b)
  | Value c => c
  | Add l r => b32 (fl_eval l + fl_eval r)
  | Fma a b t => b32 (a * b + fl_eval t)
  end.
(** the terms of the sum: products and single values *)
Fixpoint terms (t : sumtree) : list R :=
  match t with
  | Prod a b => [a * b]
  | Value c => [c]
  | Add l r => terms l ++ terms r
  | Fma a b t => a * b :: terms t
  end.
(** ATan.__call__ 27-33 in binary32: [at_] is the arc tangent times 1/pi as computed *)
Definition fl_soft (at_ : R) : R := b32 (at_ + 1 / 2).
Definition fl_spike (hard soft : R) : R := b32 (b32 (hard - soft) + soft).
