(** Specification for C47: what one call of a layer should do, independent of other layers. *)
From Verif Require Import Num M_Call.
From Coq Require Import List Bool Arith.
Import ListNotations.
(** one application of the output quantizer, one recording of the EBOPs, one loss term *)
Definition expected {V} (handled_ : bool) (core : V) (oq : V -> V) (enable_ebops enable_oq : bool) (ebops beta : Q) (t : flag) : outcome :=
  mk_outcome (if enable_oq && negb handled_ then oq core else core)
    (match t with NotTraining => None | _ => if enable_ebops then Some (Qfloor ebops) else None end)
    (match t with NotTraining => [] | _ => if enable_ebops then [ebops * beta]%Q else [] end).
(** the same with the loss term added [n] times *)
Definition expected_n {V} (n : nat) (handled_ : bool) (core : V) (oq : V -> V) (enable_ebops enable_oq : bool) (ebops beta : Q) (t : flag) : outcome :=
  mk_outcome (out (expected handled_ core oq enable_ebops enable_oq ebops beta t)) (ebops_var (expected handled_ core oq enable_ebops enable_oq ebops beta t))
    (match t with NotTraining => [] | _ => if enable_ebops then repeat (ebops * beta)%Q n else [] end).
(** [a] occurs in the history before the first occurrence of [k] *)
Fixpoint before (a k : nat) (h : list nat) : bool :=
  match h with [] => false | c :: h' => if Nat.eqb c k then false else if Nat.eqb c a then true else before a k h' end.
(** the first class of an MRO whose body defines [call] *)
Fixpoint provider (T : class_table) (cs : list nat) : option nat := match cs with [] => None | c :: cs' => if own_call T c then Some c else provider T cs' end.
