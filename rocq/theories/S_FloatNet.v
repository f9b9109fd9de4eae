(** Specification vocabulary for C61: which exact values binary32 can carry without rounding. *)
From Coq Require Import String Permutation.
From Verif Require Import Num M_Fixed M_State M_Wrapper M_Mapper S_Mapper M_Contr M_Ebops M_Pow2 M_Patch M_Ops M_Mirror M_Trace M_Net M_FloatNet.
Local Open Scope list_scope.

(** the order of a backend: all terms, once *)
Definition sums_all (ord : layer -> index -> list term -> ftree) : Prop := forall l i ts, Permutation (fterms (ord l i ts)) ts.

(** [x] is a multiple of 2^e *)
Definition is_int (x : Q) : bool := Qeq_bool (inject_Z (Qfloor x)) x.
Definition multiple (e : Z) (x : Q) : bool := is_int (x * pow2 (- e)).
(** [x] has at most [n] significant bits, is a multiple of 2^-149 and below 2^128 *)
Definition carried (n : Z) (x : Q) : bool :=
  (Qeq_bool x 0 || multiple (expo x - n) x) && multiple (-149) x && qlt_b (Qabs x) (pow2 128).
(** the terms of a sum are multiples of a common power of two, and the sum of their magnitudes is at most 2^24 times it: then
    no partial sum, in any order, needs more than 24 bits *)
Definition sum_fits (l : list Q) : bool :=
  let s := qsum (map Qabs l) in
  Qeq_bool s 0 || (let e := Z.max (-149) (ceil_log2 s - 24) in (e <=? 103)%Z && forallb (multiple e) l).
(** a quantizer's input: 23 significant bits when rounding is RND (x * 2^f + 0.5 is computed), 24 otherwise; the scaled and the
    rounded value can be carried; the format is not too wide *)
Definition quant_fits (rm : rmode) (om : omode) (k : bool) (i f : Z) (x : Q) : bool :=
  (kz k + i + f <=? 0)%Z ||
  ((-126 <=? f) && (f <=? 126) && (-126 <=? i) && (i <=? 126))%Z &&
  carried (match rm with RND => 23 | _ => 24 end) x && carried 24 (x * pow2 f) && carried 24 (round_f rm f x) &&
  match om with
  | WRAP => (i + f + kz k <=? 24)%Z && carried 24 (round_f rm f x + inject_Z (kz k) * pow2 i)
  | _ => (i + f <=? 24)%Z
  end.

(** the exact arithmetic, refusing what binary32 might round *)
Definition checked_arith : arith :=
  mk_arith (fun _ l => let vs := map tval l in if sum_fits vs then Some (qsum vs) else None)
           (fun x => if carried 24 x then Some x else None)
           (fun rm om k i f x => if quant_fits rm om k i f x then Some (base_call rm om false k i f x) else None).
(** a layer called on values for which nothing is refused *)
Definition checked_layer (l : layer) (args : list (varg (tensor Q))) (kw : kwargs_t) : option (list (string * list (tensor Q))) :=
  match layer_in checked_arith l args kw with Some _ => keras_layer l args kw | None => None end.
(** activations of lookup tables are functions of the value *)
Definition value_act (l : layer) : Prop :=
  match l with LPlain _ (AFn f) | LQ _ _ (AFn f) _ => forall x y, x == y -> f x == f y | _ => True end.

(** a dense layer's budget: inputs (feature j) multiples of 2^ex and at most [B j] in magnitude, kernel on the grid 2^ek, bias on
    2^(ex+ek), and for each unit the largest possible sum of magnitudes is at most 2^24 steps of 2^(ex+ek) *)
Definition dense_budget (c u : nat) (ex ek : Z) (B : nat -> Q) (k b : tensor Q) : Prop :=
  (-149 <= ex + ek <= 103)%Z /\ shape k = [c; u] /\ shape b = [u] /\
  (forall j o, (j < c)%nat -> (o < u)%nat -> exists z, at_ k [j; o] == inject_Z z * pow2 ek) /\
  (forall o, (o < u)%nat -> exists z, at_ b [o] == inject_Z z * pow2 (ex + ek)) /\
  (forall o, (o < u)%nat -> qsum (map (fun j => B j * Qabs (at_ k [j; o])) (seq 0 c)) + Qabs (at_ b [o]) <= pow2 (24 + (ex + ek))).
Definition within (c : nat) (ex : Z) (B : nat -> Q) (x : tensor Q) : Prop :=
  exists s, shape x = s ++ [c] /\
    forall i j, valid_index s i -> (j < c)%nat -> (exists z, at_ x (i ++ [j]) == inject_Z z * pow2 ex) /\ Qabs (at_ x (i ++ [j])) <= B j.
