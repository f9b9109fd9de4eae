(** Specification vocabulary for C59: calibration of a whole network. *)
From Verif Require Import Num M_Fixed M_State S_State M_Wrapper M_Mapper S_Mapper M_Net M_Causal M_Calib S_Ops.

(** the same number of arrays, with equal values *)
Definition same_inputs (x y : tin) : Prop :=
  match x, y with One a, One b => same_tensor a b | Many xs, Many ys => Forall2 same_tensor xs ys | _, _ => False end.
(** an operation that depends on the values of its arguments only *)
Definition by_value (op : list (tensor Q) -> tin -> option (tensor Q)) : Prop :=
  forall ws ws' x x' y, Forall2 same_tensor ws ws' -> same_inputs x x' -> op ws x = Some y -> exists y', op ws' x' = Some y' /\ same_tensor y y'.

(** what the quantizer inside a wrapper receives *)
Definition scaled (q : quant) (x : tensor Q) : tensor Q := match w_scaler (q_w q) with Some s => tmap (fun x => x / s) x | None => x end.

(** calls do not change the widths: overflow mode other than WRAP, or not trainable *)
Definition static (q : quant) : Prop := is_wrap (c_om (q_c q)) && c_trainable (q_c q) = false.
(** KIF (the default for data), on inputs of the shape it was built for; if the constraint on the integer widths has an upper bound, it does not cut
    what these inputs need.  Quantizers of weights need neither. *)
Definition kif_tracks (q : quant) (xs : list (tensor Q)) : Prop :=
  exists s, q_s q = inl s /\
    (c_weight (q_c q) = true \/
     exists het_arg hom_arg built het w, built_for het_arg hom_arg built het (q_hom q) w /\ kif_built w s /\
       forall x, In x xs -> shape_matches built (shape x) /\
         forall f i, broadcast_to (tmap round_even (t_f s)) (shape x) = Some f -> valid_index (shape x) i -> kif_reachable (q_c q) (at_ f i) (at_ (scaled q x) i)).
(** KBI (the default for weights), with one input throughout: always so for a weight.  Unless it quantizes weights with rounding RND: between 1 and
    22 bits, shapes and constraint as for KIF. *)
Definition kbi_constant (q : quant) (xs : list (tensor Q)) : Prop :=
  exists s x0, q_s q = inr s /\ (forall x, In x xs -> x = x0) /\
    ((c_weight (q_c q) = true /\ c_rm (q_c q) = RND) \/
     exists het_arg hom_arg built het w, built_for het_arg hom_arg built het (q_hom q) w /\ kbi_built w s /\ shape_matches built (shape x0) /\
       forall b i, broadcast_to (tmap round_even (u_b s)) (shape x0) = Some b -> valid_index (shape x0) i ->
         (0 < at_ b i <= 22)%Z /\ kbi_reachable (q_c q) (at_ b i) (at_ (scaled q x0) i)).
Definition calibratable (q : quant) (xs : list (tensor Q)) : Prop := static q \/ kif_tracks q xs \/ kbi_constant q xs.

(** the inputs a quantizer received, in order *)
Definition inputs_of (id : nat) (log : list event) : list (tensor Q) := map e_in (filter (fun e => (e_q e =? id)%nat) log).
(** the quantizers of a layer's inputs and output *)
Definition data_ids (l : clayer) : list nat :=
  (match y_iq l with IqNone => [] | IqOne q => [q] | IqMany qs => qs end) ++ (match y_oq l with Some q => [q] | None => [] end).
(** a trainable KIF quantizer with overflow mode WRAP, for data *)
Definition kif_wrap (q : quant) (s : kif_tstate) : Prop := q_s q = inl s /\ wrap_trainable (q_c q) /\ w_scaler (q_w q) = None /\ w_affine (q_w q) = None.
(** [y] is [x] rounded to the fraction widths of the quantizer: nothing was cut or wrapped around *)
Definition only_rounded (q : quant) (s : kif_tstate) (x y : tensor Q) : Prop :=
  exists f, broadcast_to (tmap round_even (t_f s)) (shape x) = Some f /\ shape y = shape x /\
    forall i, valid_index (shape x) i -> at_ y i == round_f (c_rm (q_c q)) (at_ f i) (at_ x i).
