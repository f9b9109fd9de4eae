(** What C32, C33 and C46 mean, without the model's cells. *)
From Verif Require Import Num M_Fixed M_Rnn.

(** two vectors of size n are the same *)
Definition same_vec (n : nat) (u v : nat -> Q) : Prop := forall j, (j < n)%nat -> u j == v j.
Definition same_seq (n : nat) (us vs : list (nat -> Q)) : Prop := Forall2 (same_vec n) us vs.

(** the widths of a quantizer on n positions fit the 8-bit integers of the hardware description *)
Definition widths_ok (n : nat) (q : vquant) : Prop := forall j, (j < n)%nat -> (-128 <= q_i q j <= 127)%Z /\ (-128 <= q_f q j <= 127)%Z.
Definition owidths_ok (n : nat) (q : option vquant) : Prop := forall q', q = Some q' -> widths_ok n q'.

(** unit [w] is the winner: above threshold, no unit has a higher score, and none before it has the same *)
Definition winner (n : nat) (score : nat -> Q) (w : nat) : Prop :=
  (w < n)%nat /\ 0 < score w /\ (forall j, (j < n)%nat -> score j <= score w) /\ (forall j, (j < w)%nat -> score j < score w).

(** the outcomes of a history of weight updates, calls and weight reads, when nothing is cached *)
Fixpoint uncached {W X Y} (quant : W -> W) (run : W -> X -> option Y) (es : list (event W X)) (w : W) : list (outcome W Y) :=
  match es with
  | [] => []
  | SetWeights w' :: es' => Done :: uncached quant run es' w'
  | CallLayer x :: es' => match run (quant w) x with Some y => Result y | None => Raised end :: uncached quant run es' w
  | ReadWeights :: es' => Weights (quant w) :: uncached quant run es' w
  end.
(** the outcomes of the calls only *)
Definition call_outcomes {W Y} (os : list (outcome W Y)) : list (outcome W Y) := filter (fun o => match o with Weights _ => false | _ => true end) os.
