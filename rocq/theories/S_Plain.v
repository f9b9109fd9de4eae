(** Specification vocabulary for C69: the recurrent layers of Keras, on vectors (functions of the position). *)
From Coq Require Import String.
From Verif Require Import Num M_Ebops M_Mapper S_Mapper M_Net M_Calib M_Prog S_Prog S_Limit.
Local Open Scope list_scope.

(** position j of the product of a vector of length [n] with a matrix *)
Definition dot (n : nat) (v : nat -> Q) (m : nat -> nat -> Q) (j : nat) : Q := qsum (map (fun i => v i * m i j) (seq 0 n)).
(** keras.layers.SimpleRNNCell: activation(x K + b + h U) *)
Definition keras_simple (act : Q -> Q) (f u : nat) (k rk : nat -> nat -> Q) (b : nat -> Q) (x h : nat -> Q) : nat -> Q :=
  fun j => act (dot f x k j + b j + dot u h rk j).
(** keras.layers.GRUCell with the gates z, r and the candidate in columns 0.., u.., 2u.. of the kernels; [bi] and [br] are the input and the recurrent bias *)
Definition keras_gru (act ract : Q -> Q) (reset_after : bool) (f u : nat) (k rk : nat -> nat -> Q) (bi br : nat -> Q) (x h : nat -> Q) : nat -> Q :=
  let z j := ract (dot f x k j + bi j + (dot u h rk j + br j)) in
  let r j := ract (dot f x k (u + j)%nat + bi (u + j)%nat + (dot u h rk (u + j)%nat + br (u + j)%nat)) in
  let c j := act (dot f x k (2 * u + j)%nat + bi (2 * u + j)%nat +
                  (if reset_after then r j * (dot u h rk (2 * u + j)%nat + br (2 * u + j)%nat) else dot u (fun i => r i * h i) rk (2 * u + j)%nat)) in
  fun j => z j * h j + (1 - z j) * c j.
(** the outputs of a recurrent layer: the state after every step *)
Fixpoint states (cell : (nat -> Q) -> (nat -> Q) -> nat -> Q) (xs : list (nat -> Q)) (h : nat -> Q) : list (nat -> Q) :=
  match xs with [] => [] | x :: xs' => let h' := cell x h in h' :: states cell xs' h' end.
Definition outputs (cell : (nat -> Q) -> (nat -> Q) -> nat -> Q) (backwards : bool) (xs : list (nat -> Q)) : list (nat -> Q) :=
  states cell (if backwards then rev xs else xs) (fun _ => 0).
(** biases of the layers: none is zero; QGRU with reset_after has two rows *)
Definition bias_row (b : option (nat * tensor Q)) (j : nat) : Q := match b with Some (_, t) => at_ t [j] | None => 0 end.
Definition gru_bias_rows (l : sgru) : (nat -> Q) * (nat -> Q) :=
  match sg_bias l with
  | Some (_, t) => if sg_reset_after l then (fun j => at_ t [0; j]%nat, fun j => at_ t [1; j]%nat) else (fun j => at_ t [j], fun _ => 0)
  | None => (fun _ => 0, fun _ => 0)
  end.
(** weights of the right shapes, for inputs of [f] features *)
Definition rnn_shapes (l : srnn) (f : nat) : Prop :=
  shape (snd (sr_kernel l)) = [f; sr_units l] /\ shape (snd (sr_rkernel l)) = [sr_units l; sr_units l] /\ forall id b, sr_bias l = Some (id, b) -> shape b = [sr_units l].
Definition gru_shapes (l : sgru) (f : nat) : Prop :=
  shape (snd (sg_kernel l)) = [f; (3 * sg_units l)%nat] /\ shape (snd (sg_rkernel l)) = [sg_units l; (3 * sg_units l)%nat] /\
  forall id b, sg_bias l = Some (id, b) -> shape b = if sg_reset_after l then [2; 3 * sg_units l]%nat else [(3 * sg_units l)%nat].
(** keras.layers.Softmax on a vector of length [n]: [g] is the argument of the exponential; [inv] is the reciprocal.  With [stable] the argument of the
    (decreasing) exponential is the distance to the greatest element *)
Definition is_softmax (exp inv : Q -> Q) (n : nat) (g y : nat -> Q) : Prop := forall j, (j < n)%nat -> y j == exp (g j) * inv (qsum (map (fun k => exp (g k)) (seq 0 n))).
Definition greatest (n : nat) (x : nat -> Q) (m : Q) : Prop := (exists k, (k < n)%nat /\ x k == m) /\ forall k, (k < n)%nat -> x k <= m.
