(** Model of [src/hgq/utils/dataset.py], class [Dataset].
    A tensor is the list of its rows.  [x_set] is modelled as the list of its input tensors
    (the single-tensor case of lines 98-99 is the one-element list) and [y_set] as an optional
    list of output tensors; keras device placement and the float nan that stands for a missing [y]
    are not modelled.  Randomness is nondeterminism: see [step]. *)
From Coq Require Import ZArith List Lia Bool Permutation.
Export ListNotations.

Section Ds.
Context {A : Type}.

(** fields set by [__init__] (12-58) and [batch] (66-79); [batch_size = None] is not a state in
    which anything but [batch] may be called, so [batch_size] is a number here *)
Record ds := mk_ds {
  x : list (list A); y : option (list (list A)); data_len : nat; shuffle : bool; drop_last : bool;
  batch_size : nat; init_shift : nat; index_map : option (list nat) }.

(** [math.ceil(a / b)] for a batch size > 0 (line 64; the float division is taken as exact) *)
Definition ceil_div (a b : nat) : nat := (a + b - 1) / b.

(** [Dataset.__len__], 60-64 *)
Definition len (d : ds) : nat :=
  if drop_last d then data_len d / batch_size d else ceil_div (data_len d) (batch_size d).

(** [_reminder] as assigned in [batch], 69 *)
Definition reminder (d : ds) : nat := data_len d mod batch_size d.

(** Python slice [t[low:high]] with [0 <= low] and [0 <= high] (99, 101, 104, 106) *)
Definition slice (low high : nat) (t : list A) : list A := firstn (high - low) (skipn low t).

(** [Dataset.__getitem__], 81-109; [None] is an AssertionError, IndexError or ZeroDivisionError *)
Definition getitem (d : ds) (idx : Z) : option (list (list A) * option (list (list A))) :=
  let n := Z.of_nat (len d) in
  if (idx <? 0)%Z && (n =? 0)%Z then None else
  let idx := if (idx <? 0)%Z then (idx mod n)%Z else idx in
  if (idx <? n)%Z then
    match (match index_map d with Some m => nth_error m (Z.to_nat idx) | None => Some (Z.to_nat idx) end) with
    | None => None
    | Some k =>
        let low := k * batch_size d in
        let high := Nat.min (low + batch_size d) (data_len d) in
        let low' := if drop_last d then low + init_shift d else low in
        let high' := if drop_last d then high + init_shift d else high in
        Some (map (slice low' high') (x d), option_map (map (slice low' high')) (y d))
    end
  else None.

(** [__init__], 37-55: every tensor must have the length of the first *)
Definition init_ok (xs : list (list A)) (ys : option (list (list A))) (n : nat) : Prop :=
  (exists t ts, xs = t :: ts /\ length t = n) /\ (forall t, In t xs -> length t = n) /\
  match ys with Some l => forall t, In t l -> length t = n | None => True end.

(** [batch], 66-79: the shift is any value [rnd_uniform(0, _reminder)] can return (both ends
    included), the index map any rearrangement [rnd_shuffle] can produce *)
Inductive batched (d : ds) (bs : nat) : ds -> Prop :=
| batched_intro sh m :
    let d1 := mk_ds (x d) (y d) (data_len d) (shuffle d) (drop_last d) bs 0 None in
    0 < bs -> sh <= reminder d1 ->
    match m with
    | Some l => shuffle d = true /\ Permutation (seq 0 (len d1)) l
    | None => shuffle d = false
    end ->
    batched d bs (mk_ds (x d) (y d) (data_len d) (shuffle d) (drop_last d) bs sh m).

(** one call of [batch], [on_epoch_end] (111-113) or [on_epoch_begin] (115-117) *)
Inductive step : ds -> ds -> Prop :=
| step_batch d bs d' : batched d bs d' -> step d d'
| step_epoch_end_map d l l' : index_map d = Some l -> Permutation l l' ->
    step d (mk_ds (x d) (y d) (data_len d) (shuffle d) (drop_last d) (batch_size d) (init_shift d) (Some l'))
| step_epoch_end d : index_map d = None -> step d d
| step_epoch_begin_drop d sh : drop_last d = true -> sh <= reminder d ->
    step d (mk_ds (x d) (y d) (data_len d) (shuffle d) (drop_last d) (batch_size d) sh (index_map d))
| step_epoch_begin d : drop_last d = false -> step d d.

(** states reached from the constructor by any sequence of those calls *)
Inductive reachable (xs : list (list A)) (ys : option (list (list A))) (n : nat) : ds -> Prop :=
| r_init sh0 dl bs d : init_ok xs ys n -> batched (mk_ds xs ys n sh0 dl 1 0 None) bs d -> reachable xs ys n d
| r_step d d' : reachable xs ys n d -> step d d' -> reachable xs ys n d'.
End Ds.
Arguments ds : clear implicits.
