(** What an einsum equation with an ellipsis means (the numpy manual), independently of the layer.

    An equation is a list of operand terms and an output term; a term is a list of letters and at most one ellipsis.
    The ellipsis stands for the same axes, of sizes [es], wherever it occurs (QEinsum demands the same number of axes in all
    operands; sizes of a shared axis are equal: broadcasting an axis of size 1 is not modelled). *)
From Verif Require Import Num M_State M_Mapper S_Mapper M_Contr M_Ebops S_Ops.

Inductive sym := Let (c : nat) | Ell.
Notation term := (list sym).
Record equation := mk_eq { e_ins : list term; e_out : term }.
Definition letters (t : term) : list nat := flat_map (fun s => match s with Let c => [c] | Ell => [] end) t.
Definition has_ell (t : term) : Prop := In Ell t.
Definition ells (t : term) : nat := length (filter (fun s => match s with Ell => true | _ => false end) t).

(** the coordinates (or sizes) along a term's axes, given those of the letters and of the ellipsis *)
Definition along (env : nat -> nat) (e : list nat) (t : term) : list nat := flat_map (fun s => match s with Let c => [env c] | Ell => e end) t.

(** operands fit the equation: letter c has size [dims c] in every operand, the ellipsis axes have sizes [es] *)
Definition operands_fit (dims : nat -> nat) (es : list nat) (q : equation) (xs : list (tensor Q)) : Prop :=
  Forall2 (fun t x => shape x = along dims es t) (e_ins q) xs /\ Forall (fun t => (ells t <= 1)%nat) (e_ins q) /\
  (es <> [] -> exists t, In t (e_ins q) /\ has_ell t).
(** every output letter occurs in an operand, none twice.  [sum_ell]: backends differ in whether an ellipsis that is missing in the
    output is summed (true) or refused (false) *)
Definition output_legal (sum_ell : bool) (es : list nat) (q : equation) : Prop :=
  NoDup (letters (e_out q)) /\ (ells (e_out q) <= 1)%nat /\ (forall c, In c (letters (e_out q)) -> exists t, In t (e_ins q) /\ In c (letters t)) /\
  (has_ell (e_out q) -> exists t, In t (e_ins q) /\ has_ell t) /\
  (sum_ell = false -> es <> [] -> has_ell (e_out q)).

(** split the coordinates of an output element *)
Fixpoint read_out (d : nat) (out : term) (idx : index) : (nat -> nat) * list nat :=
  match out with
  | [] => (fun _ => 0%nat, [])
  | Let c :: out' => match idx with
      | v :: idx' => let r := read_out d out' idx' in (upd (fst r) c v, snd r)
      | [] => (fun _ => 0%nat, [])
      end
  | Ell :: out' => (fst (read_out d out' (skipn d idx)), firstn d idx)
  end.
Fixpoint product (ts : list term) (xs : list (tensor Q)) (env : nat -> nat) (e : list nat) : Q :=
  match ts, xs with t :: ts', x :: xs' => at_ x (along env e t) * product ts' xs' env e | _, _ => 1 end.
Definition is_ell (s : sym) : bool := match s with Ell => true | _ => false end.
Definition summed (q : equation) : list nat := filter (fun l => negb (memb l (letters (e_out q)))) (nodup Nat.eq_dec (flat_map letters (e_ins q))).
(** the element at [idx]: the sum over all coordinates of the letters not in the output (and of the ellipsis, if it is not) *)
Definition element (dims : nat -> nat) (es : list nat) (q : equation) (xs : list (tensor Q)) (idx : index) : Q :=
  let r := read_out (length es) (e_out q) idx in
  qsum (map (fun e => sum_over 0 Qplus dims (summed q) (fun env => product (e_ins q) xs env e) (fst r))
    (if existsb is_ell (e_out q) then [snd r] else indices es)).
Definition einsum_result (dims : nat -> nat) (es : list nat) (q : equation) (xs : list (tensor Q)) : tensor Q :=
  mk_tensor (along dims es (e_out q)) (element dims es q xs).
(** [y] is the value of einsum(q, *xs) *)
Definition is_einsum (sum_ell : bool) (q : equation) (xs : list (tensor Q)) (y : tensor Q) : Prop :=
  exists dims es, operands_fit dims es q xs /\ output_legal sum_ell es q /\ same_tensor y (einsum_result dims es q xs).

(** every letter of an operand without ellipsis also occurs in an operand with one *)
Definition letters_covered (q : equation) : Prop :=
  forall t c, In t (e_ins q) -> ~ has_ell t -> In c (letters t) -> exists t', In t' (e_ins q) /\ has_ell t' /\ In c (letters t').
(** there are letters left for the [d] axes of the ellipsis *)
Definition enough_letters (q : equation) (d : nat) : Prop := (d + length (nodup Nat.eq_dec (flat_map letters (e_ins q))) <= 52)%nat.
(** letter [b] is the first axis of every operand and of the output, and occurs nowhere else *)
Definition batch_letter (b : nat) (q : equation) : Prop :=
  forall t, In t (e_out q :: e_ins q) -> exists t', t = Let b :: t' /\ ~ In b (letters t').
(** the batch axis of every operand and of the output is that letter, or the first axis under the ellipsis *)
Definition batch_first (q : equation) : Prop :=
  (exists b, batch_letter b q) \/ forall t, In t (e_out q :: e_ins q) -> exists t', t = Ell :: t'.
