(** What C60 means: rearranging the positions of the inputs of an attention layer. *)
From Verif Require Import Num M_Fixed M_Attn S_Attn.

(** a rearrangement of the positions 0 .. n-1 *)
Definition rearrangement (n : nat) (p : nat -> nat) : Prop :=
  (forall i, (i < n)%nat -> (p i < n)%nat) /\ (forall i j, (i < n)%nat -> (j < n)%nat -> p i = p j -> i = j).
(** the sequence read in another order: row [i] of the new one is row [p i] of the old one *)
Definition reorder (p : nat -> nat) (x : nat -> nat -> Q) : nat -> nat -> Q := fun i j => x (p i) j.
Definition reorder_opt (p : nat -> nat) (x : option (nat -> nat -> Q)) : option (nat -> nat -> Q) := match x with Some x => Some (reorder p x) | None => None end.
(** the masks of the two calls allow the same pairs of rows *)
Definition masks_follow (c : mha) (m m' : masks) (p s : nat -> nat) : Prop :=
  forall i j, (i < a_T c)%nat -> (j < a_S c)%nat -> (may_attend m' i j <-> may_attend m (p i) (s j)).

(** a quantizer whose formats do not depend on the first, second, third index *)
Definition blind1 (q : tq) : Prop := forall a a' b c, t_k q a b c = t_k q a' b c /\ t_i q a b c = t_i q a' b c /\ t_f q a b c = t_f q a' b c.
Definition blind2 (q : tq) : Prop := forall a b b' c, t_k q a b c = t_k q a b' c /\ t_i q a b c = t_i q a b' c /\ t_f q a b c = t_f q a b' c.
Definition blind23 (q : tq) : Prop := forall a b b' c c', t_k q a b c = t_k q a b' c' /\ t_i q a b c = t_i q a b' c' /\ t_f q a b c = t_f q a b' c'.
(** no quantizer and no table of the layer has formats or entries of its own for a position: the positions are the first index of
    the inputs, of the projections and of the context; the second (query) and third (key) of the scores and weights *)
Definition position_blind (c : mha) : Prop :=
  (forall q, query_iq c = Some q \/ key_iq c = Some q \/ value_iq c = Some q -> blind1 q) /\
  blind1 (p_oq (a_q c)) /\ blind1 (p_oq (a_k c)) /\ blind1 (p_oq (a_v c)) /\ blind1 (a_o_iq c) /\
  blind23 (a_exp_iq c) /\ blind23 (a_exp_oq c) /\ blind23 (a_sm_oq c) /\ blind2 (a_inv_iq c) /\ blind2 (a_inv_oq c) /\
  (forall n t t' s s' v, a_exp c n t s v == a_exp c n t' s' v).

(** the second result is the first one with queries and keys reordered: outputs by the queries, weights by both *)
Definition reordered (c : mha) (p s : nat -> nat) (r r' : (nat -> nat -> Q) * (nat -> nat -> nat -> Q)) : Prop :=
  (forall i e, (i < a_T c)%nat -> (e < a_out c)%nat -> fst r' i e == fst r (p i) e) /\
  (forall n i j, (n < a_heads c)%nat -> (i < a_T c)%nat -> (j < a_S c)%nat -> snd r' n i j == snd r n (p i) (s j)).
(** the sum of an output feature over the positions (global pooling) *)
Definition pooled (T : nat) (y : nat -> nat -> Q) (e : nat) : Q := fold_right Qplus 0 (map (fun i => y i e) (seq 0 T)).
