(** Model of the hardware replay of array operations.

    Source: /repo/src/hgq/_dais_tracer/layers/ops.py 48-243 and the Keras layers and operations it
    replays (/repo/src/hgq/layers/ops/merge.py, accum.py; the Keras ones are external and modelled
    from their documented meaning).  A Keras tensor has the batch as its first axis; the replay works
    on one sample, without that axis.  FixedVariableArray follows numpy (external).  [None]: the
    operation raises.  Quantizers are left out here (see M_Mirror). *)
From Verif Require Import Num M_Fixed M_State M_Mapper M_Contr M_Ebops M_Pow2 M_Patch.

(** ** numpy on arrays (external) *)
(** x[None] *)
Definition newaxis (x : tensor Q) : tensor Q := mk_tensor (1%nat :: shape x) (fun i => at_ x (tl i)).
(** x[0] *)
Definition first (x : tensor Q) : option (tensor Q) :=
  match shape x with
  | S _ :: sh => Some (mk_tensor sh (fun i => at_ x (0%nat :: i)))
  | _ => None
  end.
(** an axis argument; negative axes count from the end *)
Definition np_axis (a : Z) (ndim : nat) : option nat :=
  let a' := if (a <? 0)%Z then (a + Z.of_nat ndim)%Z else a in
  if ((0 <=? a') && (a' <? Z.of_nat ndim))%Z then Some (Z.to_nat a') else None.
Fixpoint put_nth {A} (n : nat) (v : A) (l : list A) : list A :=
  match l, n with
  | [], _ => []
  | _ :: l', 0%nat => v :: l'
  | x :: l', S n' => x :: put_nth n' v l'
  end.
(** np.concatenate(xs, axis) *)
Fixpoint cat_at (a : nat) (xs : list (tensor Q)) (idx : index) : Q :=
  match xs with
  | [] => 0
  | x :: xs' =>
      let i := nth a idx 0%nat in let d := nth a (shape x) 0%nat in
      if (i <? d)%nat then at_ x idx else cat_at a xs' (put_nth a (i - d)%nat idx)
  end.
Definition agree_off (a : nat) (s t : list nat) : bool := if list_eq_dec Nat.eq_dec (put_nth a 0%nat s) (put_nth a 0%nat t) then true else false.
Definition np_concatenate (axis : Z) (xs : list (tensor Q)) : option (tensor Q) :=
  match xs with
  | [] => None
  | x :: _ =>
      do a <- np_axis axis (length (shape x));
      if forallb (fun y => agree_off a (shape x) (shape y)) xs
      then Some (mk_tensor (put_nth a (fold_right Nat.add 0%nat (map (fun y => nth a (shape y) 0%nat) xs)) (shape x)) (cat_at a xs))
      else None
  end.
(** np.repeat(x, n, axis) *)
Definition np_repeat (n : nat) (axis : Z) (x : tensor Q) : option (tensor Q) :=
  do a <- np_axis axis (length (shape x));
  Some (mk_tensor (put_nth a (nth a (shape x) 0 * n)%nat (shape x)) (fun idx => at_ x (put_nth a (nth a idx 0 / n)%nat idx))).
(** np.transpose(x, axes): axes must be a permutation of range(ndim) *)
Fixpoint index_of (a : nat) (l : list nat) : nat :=
  match l with [] => 0%nat | b :: l' => if (a =? b)%nat then 0%nat else S (index_of a l') end.
Definition transpose_by (order : list nat) (x : tensor Q) : tensor Q :=
  mk_tensor (map (fun a => nth a (shape x) 0%nat) order)
    (fun idx => at_ x (map (fun a => nth (index_of a order) idx 0%nat) (seq 0 (length (shape x))))).
Definition np_transpose (axes : list Z) (x : tensor Q) : option (tensor Q) :=
  do order <- check_axis axes (length (shape x));
  if ((length order =? length (shape x))%nat && forallb (fun a => memb a order) (seq 0 (length (shape x))))%bool
  then Some (transpose_by order x) else None.
(** np.moveaxis(x, source, destination) *)
Fixpoint insert_at {A} (n : nat) (v : A) (l : list A) : list A :=
  match n, l with
  | 0%nat, _ => v :: l
  | S n', x :: l' => x :: insert_at n' v l'
  | S _, [] => [v]
  end.
Definition np_moveaxis (source destination : Z) (x : tensor Q) : option (tensor Q) :=
  do s <- np_axis source (length (shape x));
  do d <- np_axis destination (length (shape x));
  Some (transpose_by (insert_at d s (filter (fun n => negb (n =? s)%nat) (seq 0 (length (shape x))))) x).
(** np.reshape to sizes that are all given; row-major *)
Definition np_reshape (sh : list nat) (x : tensor Q) : option (tensor Q) :=
  if (nprod sh =? nprod (shape x))%nat then Some (mk_tensor sh (fun idx => at_ x (unflat (shape x) (flat sh idx)))) else None.
(** reductions over [axes]; without keepdims the axes are removed *)
Fixpoint drop_axes (a : nat) (axes sh : list nat) : list nat :=
  match sh with [] => [] | d :: sh' => if memb a axes then drop_axes (S a) axes sh' else d :: drop_axes (S a) axes sh' end.
Fixpoint undrop (a : nat) (axes sh : list nat) (idx : index) : index :=
  match sh with
  | [] => []
  | _ :: sh' => if memb a axes then 0%nat :: undrop (S a) axes sh' idx else hd 0%nat idx :: undrop (S a) axes sh' (tl idx)
  end.
Definition np_reduce (f : list Q -> Q) (axes : list nat) (keepdims : bool) (x : tensor Q) : tensor Q :=
  let r := reduce_keep f axes x in
  if keepdims then r else mk_tensor (drop_axes 0 axes (shape x)) (fun idx => at_ r (undrop 0 axes (shape x) idx)).
(** np.broadcast_arrays: shapes aligned at the end *)
Definition lpad (n : nat) (sh : list nat) : list nat := repeat 1%nat (n - length sh) ++ sh.
Definition join_dim (d e : nat) : option nat := if (d =? 1)%nat then Some e else if ((e =? 1) || (d =? e))%nat then Some d else None.
Fixpoint join_shape (s t : list nat) : option (list nat) :=
  match s, t with
  | [], [] => Some []
  | d :: s', e :: t' => do f <- join_dim d e; do r <- join_shape s' t'; Some (f :: r)
  | _, _ => None
  end.
Definition join_shapes (n : nat) (ss : list (list nat)) : option (list nat) :=
  fold_left (fun acc s => do r <- acc; join_shape r (lpad n s)) ss (Some (repeat 1%nat n)).
Definition max_ndim (xs : list (tensor Q)) : nat := fold_right Nat.max 0%nat (map (fun x => length (shape x)) xs).
Definition bcast_at (n : nat) (x : tensor Q) (idx : index) : Q :=
  at_ x (skipn (n - length (shape x)) (bcast_index (lpad n (shape x)) idx)).
Definition broadcast_arrays (xs : list (tensor Q)) : option (list (tensor Q)) :=
  let n := max_ndim xs in
  do sh <- join_shapes n (map shape xs);
  Some (map (fun x => mk_tensor sh (bcast_at n x)) xs).

(** ** merging layers *)
Inductive merge_op := MAdd | MAveragePow2 | MSubtract | MMultiply | MMaximum | MMinimum.
Definition np_min (l : list Q) : Q := - np_max (map Qopp l).
Definition qprod (l : list Q) : Q := fold_right Qmult 1 l.
(** np.sum / np.prod / np.amax / np.amin over the stacking axis, on the values of one element *)
Definition replay_merge_fn (op : merge_op) (l : list Q) : Q :=
  match op with
  | MAdd => qsum l
  | MAveragePow2 => qsum l * pow2_scale (Z.of_nat (length l))
  | MSubtract => nth 0 l 0 - nth 1 l 0
  | MMultiply => qprod l
  | MMaximum => np_max l
  | MMinimum => np_min l
  end.
Definition merge_arity (op : merge_op) (n : nat) : bool := match op with MSubtract => (n =? 2)%nat | _ => (0 <? n)%nat end.
(** ReplayMerge.call, _dais_tracer/layers/ops.py 65-89, all cases but Concatenate *)
Definition replay_merge (op : merge_op) (xs : list (tensor Q)) : option (tensor Q) :=
  if merge_arity op (length xs) then
    do ys <- broadcast_arrays xs;
    match ys with
    | [] => None
    | y :: _ => Some (mk_tensor (shape y) (fun idx => replay_merge_fn op (map (fun z => at_ z idx) ys)))
    end
  else None.
(** the Keras layers: inputs of lower rank are expanded at axis 1 (keras Merge.call, external), then
    [_merge_function] folds a binary operation with broadcasting; QAveragePow2: merge.py 33-42 *)
Definition expand1 (x : tensor Q) : tensor Q :=
  match shape x with
  | b :: sh => mk_tensor (b :: 1%nat :: sh) (fun i => at_ x (hd 0%nat i :: tl (tl i)))
  | [] => x
  end.
Definition expand_to (n : nat) (x : tensor Q) : tensor Q := Nat.iter (n - length (shape x)) expand1 x.
Definition bin_op (op : merge_op) : Q -> Q -> Q :=
  match op with
  | MAdd | MAveragePow2 => Qplus
  | MSubtract => Qminus
  | MMultiply => Qmult
  | MMaximum => Qmax
  | MMinimum => Qmin
  end.
Definition np_binary (f : Q -> Q -> Q) (x y : tensor Q) : option (tensor Q) :=
  let n := Nat.max (length (shape x)) (length (shape y)) in
  do sh <- join_shape (lpad n (shape x)) (lpad n (shape y));
  Some (mk_tensor sh (fun idx => f (bcast_at n x idx) (bcast_at n y idx))).
Fixpoint fold_binary (f : Q -> Q -> Q) (acc : tensor Q) (xs : list (tensor Q)) : option (tensor Q) :=
  match xs with [] => Some acc | x :: xs' => do r <- np_binary f acc x; fold_binary f r xs' end.
Definition keras_merge (op : merge_op) (xs : list (tensor Q)) : option (tensor Q) :=
  if merge_arity op (length xs) then
    match map (expand_to (max_ndim xs)) xs with
    | [] => None
    | y :: ys =>
        do r <- fold_binary (bin_op op) y ys;
        Some (match op with MAveragePow2 => tmap (fun v => v * pow2_scale (Z.of_nat (length xs))) r | _ => r end)
    end
  else None.
(** ReplayArithmetic, ops.py 133-152 (Add, Subtract, Multiply, Maximum, Minimum, Divide): the numpy operation [f] on the samples; the Keras
    operation (external) is the same on the batches *)
Definition replay_arith (f : Q -> Q -> Q) (x y : tensor Q) : option (tensor Q) := np_binary f x y.

(** ** concatenation *)
(** ReplayMerge.call, case Concatenate (for keras.layers.Concatenate): on the broadcast samples, with the layer's axis *)
Definition replay_concatenate_layer (axis : Z) (xs : list (tensor Q)) : option (tensor Q) :=
  do ys <- broadcast_arrays xs; np_concatenate axis ys.
(** ReplayConcatenate, ops.py 155-160 (for keras.ops.concatenate) *)
Definition replay_concatenate (axis : Z) (xs : list (tensor Q)) : option (tensor Q) :=
  do r <- np_concatenate axis (map newaxis xs); first r.
(** keras.layers.Concatenate, keras.ops.concatenate (external): np.concatenate on the batches *)
Definition keras_concatenate (axis : Z) (xs : list (tensor Q)) : option (tensor Q) := np_concatenate axis xs.

(** ** ReplayRepeat, ops.py 163-168, ReplayTranspose 171-176, ReplayMoveaxis 179-184 *)
Definition replay_repeat (n : nat) (axis : Z) (x : tensor Q) : option (tensor Q) := do r <- np_repeat n axis (newaxis x); first r.
Definition replay_transpose (axes : list Z) (x : tensor Q) : option (tensor Q) := np_transpose axes x.
Definition replay_moveaxis (s d : Z) (x : tensor Q) : option (tensor Q) := do r <- np_moveaxis s d (newaxis x); first r.
(** ** ReplayRepeatVector, ops.py 92-99; keras.layers.RepeatVector (external) turns (B, f) into (B, n, f) *)
Definition replay_repeat_vector (n : nat) (x : tensor Q) : option (tensor Q) :=
  if (n =? 1)%nat then Some x else do r <- np_repeat n 0 (newaxis x); first r.
Definition keras_repeat_vector (n : nat) (x : tensor Q) : option (tensor Q) :=
  match shape x with
  | [b; f] => Some (mk_tensor [b; n; f] (fun i => at_ x [nth 0 i 0%nat; nth 2 i 0%nat]))
  | _ => None
  end.
(** ** ReplayReshape, ops.py 48-59 on sizes without -1 (numpy replaces a -1 by the size that fits), and Flatten *)
Definition replay_reshape (sh : list nat) (x : tensor Q) : option (tensor Q) := np_reshape sh x.
Definition replay_flatten (x : tensor Q) : option (tensor Q) := np_reshape [nprod (shape x)] x.
(** keras: reshape to (B, *sh); Flatten (channels_last): to (B, product of the other sizes) *)
Definition keras_reshape (sh : list nat) (x : tensor Q) : option (tensor Q) :=
  match shape x with b :: _ => np_reshape (b :: sh) x | [] => None end.
Definition keras_flatten (x : tensor Q) : option (tensor Q) :=
  match shape x with b :: s => np_reshape [b; nprod s] x | [] => None end.
(** ** reductions: ReplayReduction, ops.py 111-121, ReplayQReduction 124-130 (layer.axes is sorted and non-negative, accum.py 28-29);
    QSum.call accum.py 45-49 *)
Definition replay_reduction (f : list Q -> Q) (axes : list nat) (keepdims : bool) (x : tensor Q) : option (tensor Q) :=
  first (np_reduce f axes keepdims (newaxis x)).
Definition replay_qsum (axes : list nat) (keepdims : bool) (scale : Q) (x : tensor Q) : option (tensor Q) :=
  do r <- replay_reduction qsum axes keepdims x; Some (tmap (fun v => v * scale) r).
Definition layer_qsum (axes : list nat) (keepdims : bool) (scale : Q) (x : tensor Q) : tensor Q :=
  tmap (fun v => v * scale) (np_reduce qsum axes keepdims x).

(** ** QDot / Dot: keras batch_dot (external) contracts axis [a0] of x with axis [a1] of y, per sample *)
Definition keras_dot (a0 a1 : nat) (x y : tensor Q) : option (tensor Q) :=
  match shape x, shape y with
  | b :: s, b' :: t =>
      if ((0 <? a0) && (a0 <? S (length s)) && (0 <? a1) && (a1 <? S (length t)) && (b =? b') && (nth (a0 - 1) s 0 =? nth (a1 - 1) t 0))%nat%bool then
        let s' := firstn (a0 - 1) s ++ skipn a0 s in let t' := firstn (a1 - 1) t ++ skipn a1 t in
        let val := fun b i j => qsum (map (fun v => at_ x (b :: insert_at (a0 - 1) v i) * at_ y (b :: insert_at (a1 - 1) v j)) (seq 0 (nth (a0 - 1) s 0%nat))) in
        match s', t' with
        | [], [] => Some (mk_tensor [b; 1%nat] (fun i => val (hd 0%nat i) [] []))     (* expand_dims at the end *)
        | _, _ => Some (mk_tensor (b :: s' ++ t') (fun i => val (hd 0%nat i) (firstn (length s') (tl i)) (skipn (length s') (tl i))))
        end
      else None
  | _, _ => None
  end.
(** einsum with labels; the sizes of the labels must agree *)
Definition label_dims (li : list nat) (s : list nat) (lk : list nat) (t : list nat) (l : nat) : nat :=
  if memb l li then nth (index_of l li) s 0%nat else nth (index_of l lk) t 0%nat.
Definition np_einsum (li lk lo : list nat) (x y : tensor Q) : option (tensor Q) :=
  let dims := label_dims li (shape x) lk (shape y) in
  if ((length li =? length (shape x))%nat && (length lk =? length (shape y))%nat &&
      forallb (fun p => (dims (fst p) =? snd p)%nat) (combine li (shape x) ++ combine lk (shape y)))%bool
  then Some (mk_tensor (map dims lo) (einsum 0 Qplus Qmult dims li lk lo (at_ x) (at_ y))) else None.
Fixpoint remove_first (a : nat) (l : list nat) : list nat :=
  match l with [] => [] | b :: l' => if (a =? b)%nat then l' else b :: remove_first a l' end.
(** ReplayEinsum.call, ops.py 204-229, QDot/Dot: letters are numbers; the batch axes get different letters *)
Definition dais_dot_labels (d0 d1 a0 a1 : nat) : list nat * list nat * list nat :=
  let sub0 := seq 0 d0 in
  let sub1 := put_nth a1 a0 (seq d0 d1) in
  (sub0, sub1, remove_first a0 (remove_first a0 (sub0 ++ sub1))).
Definition replay_dot (a0 a1 : nat) (x y : tensor Q) : option (tensor Q) :=
  let '(l0, l1, lo) := dais_dot_labels (S (length (shape x))) (S (length (shape y))) a0 a1 in
  do r <- np_einsum l0 l1 lo (newaxis x) (newaxis y); first r.
(** _QEinsum.call (/repo/src/hgq/_alkaid_keras_plugin/ops.py 38-58), QDot: arrays keep their batch axis *)
Definition alkaid_dot_labels (d0 d1 a0 a1 : nat) : list nat * list nat * list nat :=
  let sub0 := seq 0 d0 in
  let sub1 := put_nth a1 a0 (0%nat :: seq d0 (d1 - 1)) in
  (sub0, sub1, filter (fun c => negb (c =? a0)%nat) sub0 ++ filter (fun c => negb (c =? a0)%nat) (tl sub1)).
Definition alkaid_dot (a0 a1 : nat) (x y : tensor Q) : option (tensor Q) :=
  let '(l0, l1, lo) := alkaid_dot_labels (length (shape x)) (length (shape y)) a0 a1 in np_einsum l0 l1 lo x y.
