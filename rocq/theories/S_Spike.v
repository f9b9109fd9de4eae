(** Vocabulary of C57: what a neuron receives and emits over a sequence. *)
From Verif Require Import Num M_Fixed S_Fixed M_Ebops M_Rnn.

Fixpoint power (b : Q) (n : nat) : Q := match n with O => 1 | S m => b * power b m end.
(** what unit [j] receives at each step, after the input quantizer *)
Definition received (c : snn_cell) (xs : list (nat -> Q)) (j : nat) : list Q := map (fun x => opt_q layer_q (s_iq c) x j) xs.
(** v_1 + ... + v_T, discounted: b^(T-1) v_1 + ... + b v_(T-1) + v_T *)
Fixpoint discounted (b : Q) (vs : list Q) : Q := match vs with [] => 0 | v :: vs' => power b (length vs') * v + discounted b vs' end.
Definition leak (c : snn_cell) (j : nat) : Q := match s_beta c with Some b => b j | None => 1 end.
(** the outputs and the final membrane of a layer that starts at [s] *)
Definition outputs (c : snn_cell) (xs : list (nat -> Q)) (s : nat -> Q) : list (nat -> Q) := fst (keras_rnn (snn_call c) false xs s).
Definition membrane (c : snn_cell) (xs : list (nat -> Q)) (s : nat -> Q) : nat -> Q := snd (keras_rnn (snn_call c) false xs s).
(** the membrane when one more input [x] has arrived, before the neuron fires *)
Definition charged (c : snn_cell) (xs : list (nat -> Q)) (s x : nat -> Q) : nat -> Q :=
  fun j => leak c j * membrane c xs s j + opt_q layer_q (s_iq c) x j.
(** thresholds a subtracting neuron can reach, on the grid of its inputs *)
Definition good_threshold (c : snn_cell) (q : vquant) (j : nat) : Prop :=
  0 <= s_threshold c j /\ (s_reset c = RSubtract -> exists n, has_code (q_f q j) (s_threshold c j) n).
