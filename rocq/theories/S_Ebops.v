(** Specification vocabulary for EBOPs: lists of multiplications and their cost. *)
From Verif Require Import Num M_Fixed M_State M_Mapper M_Contr M_Ebops.

(** one multiplication: index of the input element, index of the kernel element *)
Definition mult := (index * index)%type.

(** cost: the product of the two bit-widths, summed *)
Definition cost (bx bk : index -> Q) (l : list mult) : Q := qsum (map (fun m => bx (fst m) * bk (snd m)) l).
(** value: the sum of the products *)
Definition value (x k : index -> Q) (l : list mult) : Q := qsum (map (fun m => x (fst m) * k (snd m)) l).

(** QDense: y[l, j] = sum_i x[l, i] * kernel[i, j] for every leading position l *)
Definition dense_mults (sh : list nat) (units : nat) : list mult :=
  flat_map (fun l => flat_map (fun j => map (fun i => (l ++ [i], [i; j])) (seq 0 (last sh 0%nat))) (seq 0 units))
           (indices (removelast sh)).

(** a convolution reads, for the output position [o] and the kernel tap [t], the input coordinate
    o*stride + t*dilation - (padding on the left), if it lies inside the input *)
Definition reads (pad : padding) (c : cdim) (o t p : nat) : Prop :=
  (p + c_left pad c = o * c_stride c + t * c_dil c)%nat /\ (p < c_in c)%nat.

(** QConv (channels last, G groups of gi input and go output channels):
    multiplication of input element (p, ch) and kernel element (t, ci, co) for output (o, co) *)
Definition conv_mult (pad : padding) (cs : list cdim) (gi go : nat) (o : index) (co : nat) (m : mult) : Prop :=
  exists p t ci,
    m = (0%nat :: p ++ [co / go * gi + ci]%nat, t ++ [ci; co]) /\
    Forall2 (fun c tc => (tc < c_k c)%nat) cs t /\ (ci < gi)%nat /\
    length o = length cs /\ length p = length cs /\
    forall d c, nth_error cs d = Some c -> reads pad c (nth d o 0%nat) (nth d t 0%nat) (nth d p 0%nat).
Definition conv_mults_spec (pad : padding) (cs : list cdim) (G gi go : nat) (l : list (index * nat * mult)) : Prop :=
  NoDup l /\
  forall o co m, In (o, co, m) l <->
    Forall2 (fun c oc => (oc < c_out pad c)%nat) cs o /\ (co < G * go)%nat /\ conv_mult pad cs gi go o co m.

(** einsum: the multiplications of the forward pass, one per coordinate of every label *)
Definition einsum_mults (dims : nat -> nat) (li lk : list nat) (idxs : list nat) : list mult :=
  sum_over [] (@app mult) dims idxs (fun e => [(map e li, map e lk)]) (fun _ => 0%nat).

(** widths *)
Definition widths_ok (q : qbits) : Prop := forall g, (0 <= at_ (qb_b q) g)%Z.
(** [q'] is at least as wide as [q], everywhere *)
Definition wider (q q' : qbits) : Prop :=
  qb_om q = qb_om q' /\ shape (qb_k q) = shape (qb_k q') /\ shape (qb_b q) = shape (qb_b q') /\
  forall g, (at_ (qb_k q) g = true -> at_ (qb_k q') g = true) /\ (at_ (qb_b q) g <= at_ (qb_b q') g)%Z.
Definition wider_opt (q q' : option qbits) : Prop :=
  match q, q' with None, None => True | Some a, Some b => wider a b | _, _ => False end.
Definition widths_ok_opt (q : option qbits) : Prop := match q with None => True | Some q => widths_ok q end.
Definition wider_list (l l' : list qbits) : Prop := Forall2 wider l l'.

(** the multiplications of the forward einsum for the output position [o] (the forward einsum
    evaluated on element names instead of numbers) *)
Definition out_mults (dims : nat -> nat) (li lk lo : list nat) (o : index) : list mult :=
  einsum [] (@app mult) (fun a b => [(a, b)]) dims li lk lo (fun a => a) (fun b => b) o.

(** one bias addition per output element, at the width of the bias element it uses *)
Definition dense_bias_cost (sh : list nat) (units : nat) (bq : option qbits) (c : Q) : Prop :=
  match bq with
  | None => c == 0
  | Some bq => exists bb, bits_ bq [units] = Some bb /\
                 c == qsum (map (fun o => at_ bb [last o 0%nat]) (indices (removelast sh ++ [units])))
  end.
(** the same for a bias of shape [bsh] broadcast (aligned at the last axis) to the output *)
Definition einsum_bias_cost (osh : list nat) (bq : option (list nat * qbits)) (c : Q) : Prop :=
  match bq with
  | None => c == 0
  | Some (bsh, bq) => exists bb, bits_ bq bsh = Some bb /\
      c == qsum (map (fun o => at_ bb (bcast_index bsh (skipn (length (tl osh) - length bsh) o))) (indices (tl osh)))
  end.
Definition bias_fits (osh : list nat) (bq : option (list nat * qbits)) : Prop :=
  match bq with
  | None => True
  | Some (bsh, _) => (length bsh <= length (tl osh))%nat /\ (0 < nprod bsh)%nat /\
      bcast_ok bsh (skipn (length (tl osh) - length bsh) (tl osh)) = true
  end.
Definition factor_of (pf : Z) (n : nat) : Q := if (pf <? 0)%Z then nQ n else inject_Z pf.
Definition factor_of_conv (pf : Z) (n : nat) : Q := if (pf <=? 0)%Z then nQ n else inject_Z pf.
Definition wider_bias (a b : option (list nat * qbits)) : Prop :=
  match a, b with None, None => True | Some (s, q), Some (s', q') => s = s' /\ wider q q' | _, _ => False end.
Definition widths_ok_bias (a : option (list nat * qbits)) : Prop := match a with None => True | Some (_, q) => widths_ok q end.

(** an axis along which the kernel is applied repeatedly: not the batch axis, absent from the
    kernel, present in the output *)
Definition free_label (li lk lo : list nat) (l : nat) : bool := memb l (tl li) && negb (memb l lk) && memb l lo.
(** one application: the free axes reduced to a single position *)
Definition one_application (li lk lo : list nat) (dims : nat -> nat) : list mult :=
  einsum_mults (fun l => if free_label li lk lo l then 1%nat else dims l) li lk (all_labels li lk).
(** [m] is the smallest entry of [l] *)
Definition is_min (m : Q) (l : list Q) : Prop := (exists x, In x l /\ x == m) /\ forall x, In x l -> m <= x.
(** the elements of [sh] that share their coordinates off the reduced axes with [g] *)
Definition group_of (axes : list nat) (sh : list nat) (g : index) : list index :=
  filter (fun idx => index_eqb (keep axes idx) g) (indices sh).
