(** Specification vocabulary for C66: one sample in two batches. *)
From Verif Require Import Num M_Fixed M_State M_Wrapper M_Mapper M_Mirror M_Net S_Net M_Calib M_Ops S_Ops M_Rnn S_Rnn M_Prog S_Prog S_ProgAttn.

(** sample [b] of the batch [x] of [n] samples is sample [b'] of the batch [x'] of [n'] samples *)
Definition same_sample (n b n' b' : nat) (x x' : tensor Q) : Prop :=
  batch_in n x /\ batch_in n' x' /\ same_tensor (sample b x) (sample b' x').
(** for the arguments of a call *)
Definition same_samples (n b n' b' : nat) (x x' : tin) : Prop :=
  match x, x' with
  | One x, One x' => same_sample n b n' b' x x'
  | Many xs, Many xs' => Forall2 (same_sample n b n' b') xs xs'
  | _, _ => False
  end.

(** a data quantizer whose widths are shared by all samples of a batch *)
Definition over_batch {A} (w : tensor A) : Prop := exists t, shape w = 1%nat :: t.
Definition shared_quant (q : quant) : Prop :=
  c_weight (q_c q) = false /\
  match q_s q with
  | inl s => over_batch (t_k s) /\ over_batch (t_i s) /\ over_batch (t_f s)
  | inr s => over_batch (u_k s) /\ over_batch (u_b s) /\ over_batch (u_i s)
  end.
Definition small_bias (b : option (tensor Q)) (r : nat) : Prop := forall t, b = Some t -> (length (shape t) <= r)%nat.
(** the computation of a layer leaves the batch axis alone *)
Definition per_sample (c : core) : Prop :=
  match c with
  | CQuantizer q => shared_quant q
  | CDense _ b => small_bias b 1
  | CEinsum li lk lo _ b => exists a li' lo', li = a :: li' /\ lo = a :: lo' /\ ~ In a (li' ++ lk ++ lo') /\ lo' <> [] /\ small_bias b (length lo')
  | CConv _ cs _ _ _ _ b => small_bias b 1
  | CBatchNorm sh _ _ => exists d sh', sh = 1%nat :: d :: sh'
  | CSum ndim axes keepdims _ => ~ In 0%nat axes /\ (2 <= ndim)%nat /\ (keepdims = true \/ exists a, (0 < a < ndim)%nat /\ ~ In a axes)
  | CReshape sh => sh <> []
  | CAvgPool _ _ _ | CMaxPool _ _ _ | CMerge _ | CFlatten | CReLU | CLut => True
  end.
(** a call [call] with the quantizers [tab]: the entry of its result for a sample depends on that sample of the arguments [x] only *)
Definition samplewise (tab : nat -> quant) (n b n' b' : nat) (call : tin -> prog (tensor Q)) (x : tin) : Prop :=
  forall x' y y', same_samples n b n' b' x x' -> eval tab (call x) = Some y -> eval tab (call x') = Some y' -> same_sample n b n' b' y y'.
(** a layer (M_Calib) whose data quantizers and whose computation, with the quantized weights, leave the batch axis alone *)
Definition shared_iq (tab : nat -> quant) (iq : iqs) : Prop :=
  match iq with IqNone => True | IqOne id => shared_quant (tab id) | IqMany ids => forall id, In id ids -> shared_quant (tab id) end.
Definition sample_layer (tab : nat -> quant) (iq : iqs) (ws : list (option nat * tensor Q)) (t : template) (oq : option nat) : Prop :=
  shared_iq tab iq /\ (forall id, oq = Some id -> shared_quant (tab id)) /\
  forall qs c, eval tab (ask_ws ws) = Some qs -> core_of t qs = Some c -> per_sample c.
