(** Model of the averaging layers QSum, QMeanPow2 (/repo/src/hgq/layers/ops/accum.py) and
    QAveragePow2 (/repo/src/hgq/layers/ops/merge.py 33-42), inputs already quantized. *)
From Verif Require Import Num M_Fixed M_State M_Mapper M_Ebops.

(** round(log2(n)) for an integer n >= 1: the code computes [round(log2(1.0 / n))] (accum.py 75-76,
    merge.py 36) in binary64; here log2 is exact.  The logarithm of an integer is never half-way
    between integers, so the nearest integer is decided by comparing n^2 with 2^(2e+1). *)
Definition round_log2 (n : Z) : Z :=
  let e := Z.log2 n in if (2 ^ (2 * e + 1) <? n * n)%Z then (e + 1)%Z else e.
(** 2.0 ** round(log2(1.0 / n)) *)
Definition pow2_scale (n : Z) : Q := pow2 (- round_log2 n).

(** accum.py 28-29: normalisation of the axes (sorting does not matter for a sum) *)
Definition norm_axes (axes : list Z) (ndim : nat) : list nat :=
  map (fun i => Z.to_nat (if (0 <=? i)%Z then i else (i + Z.of_nat ndim)%Z)) axes.
(** QSum.call 45-49 with keepdims=True (keepdims=False only removes the axes of size one) *)
Definition qsum_call (axes : list nat) (scale : Q) (x : tensor Q) : tensor Q :=
  tmap (fun s => s * scale) (reduce_keep qsum axes x).
(** QMeanPow2.build 73-76: prod([input_shape[i] for i in self.axes]) *)
Definition mean_count (axes : list nat) (sh : list nat) : nat := nprod (map (fun a => nth a sh 0%nat) axes).
Definition qmeanpow2_call (axes : list nat) (x : tensor Q) : tensor Q :=
  qsum_call axes (pow2_scale (Z.of_nat (mean_count axes (shape x)))) x.
(** QAveragePow2: merge.py 38-42, on one element of the inputs *)
Definition qaveragepow2 (xs : list Q) : option Q :=
  match xs with
  | [] => None
  | x0 :: rest => Some (fold_left Qplus rest x0 * pow2_scale (Z.of_nat (length xs)))
  end.
