(** Specification for C38: the exact value of a quantized dot product. *)
From Coq Require Import Reals List Qreals.
From Flocq Require Import Core.
From Verif Require Import Num M_Fixed M_Ebops M_Float.
Import ListNotations.
Local Open Scope R_scope.

Fixpoint rsum (l : list R) : R := match l with [] => 0 | x :: l' => x + rsum l' end.
(** a number format, and the quantizer of that format (C01-C06) *)
Record qfmt := mk_qfmt { f_rm : rmode; f_om : omode; f_k : bool; f_i : Z; f_f : Z }.
Definition quantize (q : qfmt) (x : Q) : Q := base_call (f_rm q) (f_om q) false (f_k q) (f_i q) (f_f q) x.
(** the terms of q(x)_0 q(w)_0 + ... + q(x)_{n-1} q(w)_{n-1} + q(b), as exact rationals *)
Definition exact_terms (n : nat) (qx qw : nat -> qfmt) (qb : option qfmt) (x w : nat -> Q) (b : Q) : list Q :=
  map (fun i => (quantize (qx i) (x i) * quantize (qw i) (w i))%Q) (seq 0 n) ++ match qb with Some q => [quantize q b] | None => [] end.
(** the sum of the largest magnitudes the formats allow *)
Definition largest (n : nat) (qx qw : nat -> qfmt) (qb : option qfmt) : R :=
  rsum (map (fun i => bpow radix2 (f_i (qx i) + f_i (qw i))) (seq 0 n)) + match qb with Some q => bpow radix2 (f_i q) | None => 0 end.
(** no intermediate result reaches 2^128, where binary32 overflows *)
Fixpoint no_overflow (t : sumtree) : Prop :=
  Rabs (fl_eval t) < bpow radix2 128 /\ match t with Add l r => no_overflow l /\ no_overflow r | Fma _ _ t' => no_overflow t' | _ => True end.
(** multiples of 2^e *)
Definition on_grid (e : Z) (x : R) : Prop := exists z, x = IZR z * bpow radix2 e.
