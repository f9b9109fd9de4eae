(** Specification vocabulary for C58: causal one-dimensional convolution. *)
From Verif Require Import Num M_Fixed M_State M_Wrapper M_Mapper S_Mapper M_Ebops M_Mirror M_Net M_Causal.

(** a layer as the constructor and build leave it *)
Definition conv1d_ok (v : conv1d) : Prop :=
  (0 < v_k v)%nat /\ (0 < v_stride v)%nat /\ (0 < v_dil v)%nat /\ (0 < v_groups v)%nat /\ (0 < v_cin_g v)%nat /\ (0 < v_cout_g v)%nat /\
  shape (v_kernel v) = [v_k v; v_cin_g v; (v_groups v * v_cout_g v)%nat] /\
  (forall b, v_bias v = Some b -> shape b = [(v_groups v * v_cout_g v)%nat]) /\
  (forall a b, a == b -> act_fn (v_act v) a == act_fn (v_act v) b).
Definition channels (v : conv1d) : nat := (v_groups v * v_cin_g v)%nat.
Definition filters (v : conv1d) : nat := (v_groups v * v_cout_g v)%nat.

(** the input quantizer maps, at inference, every element by a function of its channel and its value only *)
Definition channelwise (nch : nat) (iq : option quant) (qf : nat -> Q -> Q) : Prop :=
  (forall c a b, a == b -> qf c a == qf c b) /\
  match iq with
  | None => forall c a, qf c a == a
  | Some q => forall x b n, shape x = [b; n; nch] ->
      exists y, quant_call q x = Some y /\ shape y = [b; n; nch] /\
        forall i t c, (i < b)%nat -> (t < n)%nat -> (c < nch)%nat -> at_ y [i; t; c] == qf c (at_ x [i; t; c])
  end.
(** a data quantizer whose widths do not differ between steps, for inputs of [nch] channels *)
Definition step_homogeneous (nch : nat) (q : quant) : Prop :=
  c_weight (q_c q) = false /\
  exists het_arg hom_arg n0 het wsh, built_for het_arg hom_arg [None; n0; Some nch] het (q_hom q) wsh /\ ~ In 1%nat het /\
    match q_s q with inl s => kif_built wsh s | inr s => kbi_built wsh s end.
(** the default for data: homogeneous_axis = (0,), i.e. every step of every channel has its own width (quantizer/config.py 105, 142) *)
Definition default_axes (n nch : nat) (q : quant) : Prop :=
  c_weight (q_c q) = false /\
  exists het wsh, built_for None (Some [0%Z]) [None; Some n; Some nch] het (q_hom q) wsh /\
    match q_s q with inl s => kif_built wsh s | inr s => kbi_built wsh s end.

(** how far back the first tap reaches: (kernel_size - 1) * dilation_rate steps *)
Definition reach (v : conv1d) : nat := ((v_k v - 1) * v_dil v)%nat.
(** quantized input, [d] steps before step [t]; before the first step there are quantized zeros *)
Definition past (qf : nat -> Q -> Q) (x : tensor Q) (i c t d : nat) : Q :=
  if (d <=? t)%nat then qf c (at_ x [i; (t - d)%nat; c]) else qf c 0.
(** the causal convolution: tap [j] weighs the input (k - 1 - j) * dilation steps before step t * stride; filter [co] reads the channels of its group *)
Definition causal_conv (v : conv1d) (qf : nat -> Q -> Q) (x : tensor Q) (i t co : nat) : Q :=
  let first := (co / v_cout_g v * v_cin_g v)%nat in
  act_fn (v_act v)
    (qsum (map (fun j => qsum (map (fun ci => past qf x i (first + ci)%nat (t * v_stride v)%nat ((v_k v - 1 - j) * v_dil v)%nat * at_ (v_kernel v) [j; ci; co]) (seq 0 (v_cin_g v)))) (seq 0 (v_k v)))
     + match v_bias v with Some b => at_ b [co] | None => 0 end).
(** two inputs agree up to and including step [t] *)
Definition agree_until (t nch : nat) (x x' : tensor Q) : Prop :=
  shape x = shape x' /\ forall i s c, (i < nth 0 (shape x) 0)%nat -> (s <= t)%nat -> (s < nth 1 (shape x) 0)%nat -> (c < nch)%nat -> at_ x [i; s; c] == at_ x' [i; s; c].
