(** Specification for C21, C22 and C23. *)
From Coq Require Import ZArith QArith List Bool.
From Verif Require Import M_Callback.

(** somewhere in the history the condition held [n] times in a row *)
Definition run_of (n : nat) (h : list bool) : Prop := exists a b, h = a ++ repeat true n ++ b.
Definition epoch_conds (es : list event) : list bool := flat_map (fun e => match e with EpochEnd c => [c] | _ => [] end) es.
Definition step_conds (es : list event) : list bool := flat_map (fun e => match e with BatchEnd c => [c] | _ => [] end) es.

(** metrics: [better_eq sides a b] — b is at least as good as a in every metric (sides = +1: larger is
    better, -1: smaller is better, any weight of that sign); [better] strictly *)
Definition better_eq (sides : list Q) (a b : list num) : Prop :=
  forall i s, nth_error sides i = Some s -> exists x y, nth_error a i = Some (Some x) /\ nth_error b i = Some (Some y) /\ s * x <= s * y.
Definition better (sides : list Q) (a b : list num) : Prop :=
  forall i s, nth_error sides i = Some s -> exists x y, nth_error a i = Some (Some x) /\ nth_error b i = Some (Some y) /\ s * x < s * y.

(** metrics and file names of the epochs in which saving was enabled *)
Definition enabled_metrics (h : list (bool * list num * nat)) : list (list num) :=
  flat_map (fun '(e, m, _) => if e : bool then [m] else []) h.
Definition names (h : list (bool * list num * nat)) : list nat :=
  flat_map (fun '(e, _, n) => if e : bool then [n] else []) h.
