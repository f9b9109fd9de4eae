(** Specification vocabulary for C68: quantized networks whose widths grow without bound. *)
From Verif Require Import Num M_Fixed M_State M_Wrapper M_Mapper S_Mapper M_Mirror M_Net M_Calib M_Softmax M_Prog S_Prog.

(** limits of sequences of numbers and of tensors of one shape *)
Definition tends (a : nat -> Q) (l : Q) : Prop := forall e, 0 < e -> exists N, forall n, (N <= n)%nat -> Qabs (a n - l) < e.
Definition tends_to (X : nat -> tensor Q) (x : tensor Q) : Prop :=
  (forall n, shape (X n) = shape x) /\ forall i, valid_index (shape x) i -> tends (fun n => at_ (X n) i) (at_ x i).
Definition continuous_at (f : Q -> Q) (x : Q) : Prop := forall e, 0 < e -> exists d, 0 < d /\ forall y, Qabs (y - x) < d -> Qabs (f y - f x) < e.
Definition continuous (f : Q -> Q) : Prop := forall x, continuous_at f x.

(** a quantizer all of whose formats are signed and have at least [k] integer and at least [k] fractional bits; no scaler, no affine *)
Definition fine (k : Z) (q : quant) : Prop :=
  w_scaler (q_w q) = None /\ w_affine (q_w q) = None /\
  match q_s q with
  | inl s => (forall g, valid_index (shape (t_k s)) g -> at_ (t_k s) g = true) /\
      (forall g, valid_index (shape (t_i s)) g -> (k <= round_even (at_ (t_i s) g))%Z) /\ (forall g, valid_index (shape (t_f s)) g -> (k <= round_even (at_ (t_f s) g))%Z)
  | inr s => shape (u_b s) = shape (u_i s) /\ (forall g, valid_index (shape (u_k s)) g -> at_ (u_k s) g = true) /\
      (forall g, valid_index (shape (u_i s)) g -> (k <= round_even (at_ (u_i s) g))%Z /\ (k <= round_even (at_ (u_b s) g) - round_even (at_ (u_i s) g))%Z)
  end.
(** the n-th network has the quantizers [tab n]; the widths of all of them grow beyond every bound *)
Definition widening (tab : nat -> nat -> quant) : Prop := forall k, exists N, forall n, (N <= n)%nat -> forall id, fine k (tab n id).

(** the layer, and the network, without quantizers: every quantizer returns what it is given (the DummyQuantizer, quantizer/internal/base.py) *)
Fixpoint plain {A} (p : prog A) : option A :=
  match p with Ret a => Some a | Raise => None | Ask _ x k => plain (k x) end.
Fixpoint plain_net (net : list pnode) (env : list (tensor Q)) : option (list (tensor Q)) :=
  match net with
  | [] => Some env
  | n :: net' => do x <- args_of env (pn_args n); do y <- plain (pn_call n x); plain_net net' (env ++ [y])
  end.

(** layers with continuous functions: the operations of M_Net with their input, weight and output quantizers, QSimpleRNN, QGRU,
    QSoftmax (the exponential is continuous and not negative, the inverse 1/(v + epsilon), softmax.py 46-47, is continuous where v is not
    negative, and a mask has no negative entry), and attention *)
Definition no_quantizer (t : template) : Prop := match t with TOther (CQuantizer _) => False | _ => True end.
Definition op_layer (l : clayer) : Prop := exists t a, y_op l = net_op t a /\ no_quantizer t /\ continuous (act_fn a).
Definition soft_layer (l : ssoft) : Prop := continuous (so_exp l) /\ (forall v, 0 <= so_exp l v) /\ (forall v, 0 <= v -> continuous_at (so_inv l) v) /\
  forall m, so_mask l = Some m -> forall i, valid_index (shape m) i -> 0 <= at_ m i.
Inductive smooth : (tin -> prog (tensor Q)) -> Prop :=
  | smooth_op l : op_layer l -> smooth (layer_prog l)
  | smooth_rnn l : continuous (sr_act l) -> smooth (srnn_prog l)
  | smooth_gru l : continuous (sg_act l) -> continuous (sg_ract l) -> smooth (sgru_prog l)
  | smooth_soft l : soft_layer l -> smooth (ssoft_prog l)
  | smooth_attn l : op_layer (sm_query l) -> op_layer (sm_key l) -> op_layer (sm_value l) -> op_layer (sm_out l) -> soft_layer (sm_soft l) -> smooth (smha_prog l).
