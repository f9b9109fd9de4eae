(** Specification for C17 and C18: which samples a batch shows. *)
From Verif Require Import M_Dataset.
From Coq Require Import ZArith List Permutation.

Section Spec.
Context {A : Type}.
(** tensor [b] consists of the rows number [ps] of tensor [t] *)
Definition rows_of (t : list A) (ps : list nat) (b : list A) : Prop :=
  map Some b = map (nth_error t) ps.

(** indexing with [idx] returns, for every input and output tensor, exactly its samples [ps]
    (the same sample numbers in every tensor) *)
Definition shows (d : ds A) (idx : Z) (ps : list nat) : Prop :=
  exists bx by_, getitem d idx = Some (bx, by_) /\
    Forall2 (fun t b => rows_of t ps b) (x d) bx /\
    match y d, by_ with
    | Some ts, Some bs => Forall2 (fun t b => rows_of t ps b) ts bs
    | None, None => True
    | _, _ => False
    end.

(** one pass over the data set: batch number i shows the samples [nth i pss] *)
Definition epoch (d : ds A) (pss : list (list nat)) : Prop :=
  length pss = len d /\ forall i ps, nth_error pss i = Some ps -> shows d (Z.of_nat i) ps.
End Spec.
