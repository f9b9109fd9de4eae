(** Specification vocabulary for bit-width groups. *)
From Verif Require Import Num M_Fixed M_State M_Mapper.

Definition valid_index (sh : list nat) (idx : index) : Prop := Forall2 lt idx sh.

(** two elements share their bit-widths: same coordinates on the heterogeneous axes *)
Definition same_group (het : list nat) (i j : index) : Prop :=
  forall a, In a het -> nth a i 0%nat = nth a j 0%nat.

(** the tensor shape is the one the quantizer was built for, up to axes of unknown size *)
Definition shape_matches (built : list (option nat)) (sh : list nat) : Prop :=
  Forall2 (fun b d => match b with Some d' => d' = d | None => True end) built sh.

(** widths of the group of element [idx] *)
Definition kif_at (s : kif_tstate) (g : index) : kif_state := mk_kif (at_ (t_k s) g) (at_ (t_i s) g) (at_ (t_f s) g).
Definition kbi_at (s : kbi_tstate) (g : index) : kbi_state := mk_kbi (at_ (u_k s) g) (at_ (u_b s) g) (at_ (u_i s) g).

Definition kif_built (w : list nat) (s : kif_tstate) : Prop := shape (t_k s) = w /\ shape (t_i s) = w /\ shape (t_f s) = w.
Definition kbi_built (w : list nat) (s : kbi_tstate) : Prop := shape (u_k s) = w /\ shape (u_b s) = w /\ shape (u_i s) = w.

(** the quantizer was built for an input of shape [built] ([None]: unknown size) with the given
    axis arguments; [het]/[hom] are the resolved axes and [w] the shape of its weights *)
Definition built_for (het_arg hom_arg : option (list Z)) (built : list (option nat)) (het hom w : list nat) : Prop :=
  resolve_axes het_arg hom_arg (length built) = Some (het, hom) /\ weight_shape het built = Some w.
(** elements of a tensor in the group of element [i] *)
Definition group_mate {A} (het : list nat) (x : tensor A) (i j : index) : Prop :=
  valid_index (shape x) j /\ same_group het i j.
