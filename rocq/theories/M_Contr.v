(** Model of the tensor contractions the layers perform: matrix product, einsum with two operands
    and (grouped, strided, dilated, padded) convolution.

    The operations are those of Keras ([ops.matmul], [ops.einsum], [ops.conv], called at
    /repo/src/hgq/layers/core/dense.py 63 and 73, core/einsum_dense.py 75 and 88, conv.py 75 and
    94).  They are written once, for arbitrary types of left operands, right operands and results,
    so the same definition gives the forward pass (rationals), the EBOPs (bit-widths) and the list
    of multiplications that are performed. *)
From Verif Require Import Num M_Fixed M_State M_Mapper.

Section Contr.
  Context {A B C : Type} (zero : C) (add : C -> C -> C) (mul : A -> B -> C).

  Definition csum (l : list C) : C := fold_right add zero l.

  (** ops.matmul(x, k): x of shape lead ++ [n], k of shape [n; u], result lead ++ [u] *)
  Definition matmul (n : nat) (x : index -> A) (k : index -> B) (idx : index) : C :=
    csum (map (fun i => mul (x (removelast idx ++ [i])) (k [i; last idx 0%nat])) (seq 0 n)).

  (** einsum: axis labels are natural numbers; an environment gives every label a coordinate *)
  Definition upd (e : nat -> nat) (l v : nat) : nat -> nat := fun m => if (m =? l)%nat then v else e m.
  Fixpoint bind_idx (labels : list nat) (idx : index) (e : nat -> nat) : nat -> nat :=
    match labels, idx with
    | l :: labels', v :: idx' => upd (bind_idx labels' idx' e) l v
    | _, _ => e
    end.
  (** sum over all coordinates of the labels [ls], where label l has size [dims l] *)
  Fixpoint sum_over (dims : nat -> nat) (ls : list nat) (F : (nat -> nat) -> C) (e : nat -> nat) : C :=
    match ls with
    | [] => F e
    | l :: ls' => csum (map (fun v => sum_over dims ls' F (upd e l v)) (seq 0 (dims l)))
    end.
  (** the labels that are summed: those of the operands that are not output labels *)
  Definition all_labels (li lk : list nat) : list nat := nodup Nat.eq_dec (li ++ lk).
  Definition contracted (li lk lo : list nat) : list nat := filter (fun l => negb (memb l lo)) (all_labels li lk).
  (** ops.einsum('li,lk->lo', x, k)[idx] *)
  Definition einsum (dims : nat -> nat) (li lk lo : list nat) (x : index -> A) (k : index -> B) (idx : index) : C :=
    sum_over dims (contracted li lk lo) (fun e => mul (x (map e li)) (k (map e lk))) (bind_idx lo idx (fun _ => 0%nat)).
End Contr.

(** ** Convolution geometry (Keras/TensorFlow convention), per spatial axis *)
Inductive padding := VALID | SAME.
Record cdim := mk_cdim { c_in : nat; c_k : nat; c_stride : nat; c_dil : nat }.
Definition c_eff (c : cdim) : nat := (c_k c - 1) * c_dil c + 1.
Definition c_out (pad : padding) (c : cdim) : nat :=
  match pad with
  | VALID => if (c_in c <? c_eff c)%nat then 0%nat else ((c_in c - c_eff c) / c_stride c + 1)%nat
  | SAME => ((c_in c + c_stride c - 1) / c_stride c)%nat
  end.
Definition c_left (pad : padding) (c : cdim) : nat :=
  match pad with
  | VALID => 0%nat
  | SAME => (((c_out SAME c - 1) * c_stride c + c_eff c - c_in c) / 2)%nat
  end.
(** input coordinate read by output coordinate [o] and kernel tap [t]; [None]: in the padding *)
Definition c_pos (pad : padding) (c : cdim) (o t : nat) : option nat :=
  let p := (o * c_stride c + t * c_dil c)%nat in
  if (p <? c_left pad c)%nat then None
  else if (p - c_left pad c <? c_in c)%nat then Some (p - c_left pad c)%nat else None.
Fixpoint c_positions (pad : padding) (cs : list cdim) (o t : index) : option index :=
  match cs, o, t with
  | [], _, _ => Some []
  | c :: cs', o1 :: o', t1 :: t' =>
      match c_pos pad c o1 t1, c_positions pad cs' o' t' with
      | Some p, Some ps => Some (p :: ps)
      | _, _ => None
      end
  | _, _, _ => None
  end.
Definition conv_out_shape (pad : padding) (cs : list cdim) : list nat := map (c_out pad) cs.

Section Conv.
  Context {A B C : Type} (zero : C) (add : C -> C -> C) (mul : A -> B -> C).
  (** BaseConv.convolution_op with data_format channels_last; x has shape [1] ++ spatial ++ [cin],
      k has shape ksize ++ [cin/groups; cout]; [cin_g] = cin/groups, [cout_g] = cout/groups.
      [idx] is the spatial output position, [co] the output channel. *)
  Definition conv (pad : padding) (cs : list cdim) (cin_g cout_g : nat) (x : index -> A) (k : index -> B)
      (idx : index) (co : nat) : C :=
    csum zero add (flat_map (fun t => map (fun ci =>
        match c_positions pad cs idx t with
        | Some p => mul (x (0%nat :: p ++ [co / cout_g * cin_g + ci]%nat)) (k (t ++ [ci; co]))
        | None => zero
        end) (seq 0 cin_g)) (indices (map c_k cs))).
End Conv.
