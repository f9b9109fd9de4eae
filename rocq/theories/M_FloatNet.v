(** Model of a network evaluated in binary32.

    Source: the layers of M_Net (/repo/src/hgq/layers/core/base.py 82-118 and the layers' own [call]), computed as a
    backend computes them, rounding every elementary operation to binary32 (Keras' default floatx).

    Floats are rationals; an operation whose result reaches 2^128 (an infinity) gives [None], and so does everything
    computed from it.  Signed zeros and NaN are not modelled.  A sum of products is evaluated in an order chosen by the
    backend for each layer and position, with or without fused multiply-add, with or without accumulators starting at 0.
    The operations inside the quantizers (external package [quantizers]) are assumed to be: x * 2^f, [floor], [floor] of
    + 0.5, or [round], then / 2^f; for WRAP (v + bias) % 2^(i+k) - bias, % being fmod corrected by one addition; for
    SAT a clip.  Weights and the activation functions of lookup tables are given. *)
From Coq Require Import String.
From Verif Require Import Num M_Fixed M_State M_Wrapper M_Mapper M_Contr M_Ebops M_Pow2 M_Patch M_Ops M_Mirror M_Trace M_Net.
Local Open Scope list_scope.

(** ** binary32 on rationals (the arithmetic of the backend, external) *)
(** the exponent: 2^(expo x - 1) <= |x| < 2^(expo x), for x <> 0 *)
Definition expo (x : Q) : Z := (1 - ceil_log2 (/ Qabs x))%Z.
(** nearest, ties to even, 24 significant bits, subnormals: multiples of 2^-149 *)
Definition fl32 (x : Q) : Q :=
  if Qeq_bool x 0 then 0
  else let e := Z.max (-149) (expo x - 24) in inject_Z (round_even (x * pow2 (- e))) * pow2 e.
(** one operation with exact result [x]; [None]: overflow *)
Definition fl (x : Q) : option Q := let r := fl32 x in if Qle_bool (pow2 128) (Qabs r) then None else Some r.

(** ** sums *)
Inductive term := Val (c : Q) | Mul (a b : Q).
Definition tval (t : term) : Q := match t with Val c => c | Mul a b => a * b end.
Inductive ftree := FZero | FVal (c : Q) | FMul (a b : Q) | FAdd (l r : ftree) | FFma (a b : Q) (t : ftree).
Fixpoint feval (t : ftree) : option Q :=
  match t with
  | FZero => Some 0
  | FVal c => Some c
  | FMul a b => fl (a * b)
  | FAdd l r => do x <- feval l; do y <- feval r; fl (x + y)
  | FFma a b t => do y <- feval t; fl (a * b + y)
  end.
Fixpoint fterms (t : ftree) : list term :=
  match t with
  | FZero => []
  | FVal c => [Val c]
  | FMul a b => [Mul a b]
  | FAdd l r => fterms l ++ fterms r
  | FFma a b t => Mul a b :: fterms t
  end.

(** ** quantizers, element by element *)
(** rounding to a multiple of 2^-f: self.round, used in fixed_point_quantizer.py 142-150, from the external package *)
Definition fl_round (rm : rmode) (f : Z) (x : Q) : option Q :=
  do p <- fl (pow2 f);
  if Qeq_bool p 0 then None
  else
    do y <- fl (x * p);
    do r <- match rm with
            | TRN => Some (Qfloor y)
            | RND => do s <- fl (y + (1#2)); Some (Qfloor s)
            | RND_CONV => Some (round_even y)
            end;
    fl (inject_Z r / p).
(** C's fmod (external): exact in binary32 *)
Definition qtrunc (x : Q) : Z := if Qle_bool 0 x then Qfloor x else (- Qfloor (- x))%Z.
Definition fmod (s m : Q) : Q := s - inject_Z (qtrunc (s / m)) * m.
(** the overflow step of the same call: get_fixed_quantizer_np's sat or wrap (external package), fixed_point_quantizer.py 142-150 *)
Definition fl_overflow (om : omode) (k : bool) (i f : Z) (v : Q) : option Q :=
  match om with
  | WRAP =>
      do m <- fl (pow2 (i + kz k));
      do bias <- fl (inject_Z (kz k) * pow2 i);
      do s <- fl (v + bias);
      if Qeq_bool m 0 then None
      else
        let r := fmod s m in
        do r <- (if Qle_bool 0 r then Some r else fl (r + m));
        fl (r - bias)
  | SAT | SAT_SYM =>
      do p <- fl (pow2 i);
      do q <- fl (pow2 (- f));
      do hi <- fl (p - q);
      let lo := match om with SAT_SYM => - inject_Z (kz k) * hi | _ => - inject_Z (kz k) * p end in
      Some (clip lo hi v)
  end.
(** FixedPointQuantizerBase.call, fixed_point_quantizer.py 142-150, in inference *)
Definition fl_base_call (rm : rmode) (om : omode) (k : bool) (i f : Z) (x : Q) : option Q :=
  if (0 <? kz k + i + f)%Z then do v <- fl_round rm f x; fl_overflow om k i f v else Some 0.

(** ** The layers, over some arithmetic: a sum of terms (at a position of the result), one rounded operation, a quantizer *)
Record arith := mk_arith { a_sum : index -> list term -> option Q; a_rnd : Q -> option Q; a_quant : rmode -> omode -> bool -> Z -> Z -> Q -> option Q }.
(** binary32, summing in the order [ord] *)
Definition float_arith (ord : index -> list term -> ftree) : arith := mk_arith (fun i l => feval (ord i l)) fl fl_base_call.
(** no rounding *)
Definition exact_arith : arith :=
  mk_arith (fun _ l => Some (qsum (map tval l))) (fun x => Some x) (fun rm om k i f x => Some (base_call rm om false k i f x)).

(** an array of results, none of which overflowed *)
Definition tall (t : tensor (option Q)) : option (tensor Q) :=
  if forallb (fun g => match at_ t g with Some _ => true | None => false end) (indices (shape t))
  then Some (mk_tensor (shape t) (fun g => match at_ t g with Some v => v | None => 0 end)) else None.
Definition sum_terms (A : arith) (t : tensor (list term)) : option (tensor Q) := tall (mk_tensor (shape t) (fun i => a_sum A i (at_ t i))).
Definition trnd (A : arith) (f : Q -> Q) (t : tensor Q) : option (tensor Q) := tall (tmap (fun x => a_rnd A (f x)) t).

(** broadcasting (M_Ops.np_binary) and reductions (M_Ops.np_reduce) with any results *)
Definition gbcast_at {A} (n : nat) (x : tensor A) (idx : index) : A :=
  at_ x (skipn (n - List.length (shape x)) (bcast_index (lpad n (shape x)) idx)).
Definition gbinary {A B C} (f : A -> B -> C) (x : tensor A) (y : tensor B) : option (tensor C) :=
  let n := Nat.max (List.length (shape x)) (List.length (shape y)) in
  do sh <- join_shape (lpad n (shape x)) (lpad n (shape y));
  Some (mk_tensor sh (fun idx => f (gbcast_at n x idx) (gbcast_at n y idx))).
Definition greduce {A B} (f : list A -> B) (axes : list nat) (keepdims : bool) (x : tensor A) : tensor B :=
  let r := reduce_keep f axes x in
  if keepdims then r else mk_tensor (drop_axes 0 axes (shape x)) (fun idx => at_ r (undrop 0 axes (shape x) idx)).

(** Quantizer.call, quantizer.py 49-60, for a quantizer of activations (c_weight = false) *)
Definition quant_in (A : arith) (q : quant) (x : tensor Q) : option (tensor Q) :=
  if c_weight (q_c q) then None
  else
    do x <- match w_scaler (q_w q) with Some s => trnd A (fun x => x / s) x | None => Some x end;
    let '(k, i, f) := match q_s q with inl s => kif_widths s | inr s => kbi_widths s end in
    do kx <- broadcast_to k (shape x);
    do ix <- broadcast_to i (shape x);
    do fx <- broadcast_to f (shape x);
    do y <- tall (mk_tensor (shape x) (fun j => a_quant A (c_rm (q_c q)) (c_om (q_c q)) (at_ kx j) (at_ ix j) (at_ fx j) (at_ x j)));
    do y <- match w_scaler (q_w q) with Some s => trnd A (fun y => y * s) y | None => Some y end;
    match w_affine (q_w q) with Some (a, b) => sum_terms A (tmap (fun y => [Mul y a; Val b]) y) | None => Some y end.
(** MultipleQuantizers.call, core/base.py 286-288, and a single Quantizer *)
Definition iq_in (A : arith) (iq : quants) (x : tin) : option tin :=
  match iq, x with
  | QSingle q, One x => do y <- quant_in A q x; Some (One y)
  | QMulti qs, Many xs => if (List.length qs =? List.length xs)%nat then do ys <- map2o qs (quant_in A) xs; Some (Many ys) else None
  | _, _ => None
  end.

(** the terms of the elements of a result; bias: core/dense.py 64-65, core/einsum_dense.py 76-77, conv.py 79-85 *)
Notation prod1 := (fun a b : Q => [Mul a b]).
Definition bias_terms (t : tensor (list term)) (bias : option (tensor Q)) : option (tensor (list term)) :=
  match bias with Some b => gbinary (fun l c => l ++ [Val c]) t b | None => Some t end.
(** ops.matmul(inputs, self.qkernel), core/dense.py 63 *)
Definition matmul_terms (x k : tensor Q) : option (tensor (list term)) :=
  match shape k with
  | [c; u] =>
      if (negb (nat_list_eqb (shape x) []) && (last (shape x) 0 =? c)%nat)%bool
      then Some (mk_tensor (removelast (shape x) ++ [u]) (matmul [] (@app term) prod1 c (at_ x) (at_ k))) else None
  | _ => None
  end.
(** ops.einsum(self.equation, inputs, qkernel), core/einsum_dense.py 75 *)
Definition einsum_terms (li lk lo : list nat) (x y : tensor Q) : option (tensor (list term)) :=
  let dims := label_dims li (shape x) lk (shape y) in
  if ((List.length li =? List.length (shape x))%nat && (List.length lk =? List.length (shape y))%nat &&
      forallb (fun p => (dims (fst p) =? snd p)%nat) (combine li (shape x) ++ combine lk (shape y)))%bool
  then Some (mk_tensor (map dims lo) (einsum [] (@app term) prod1 dims li lk lo (at_ x) (at_ y))) else None.
(** QBaseConv.call, conv.py 73-89 *)
Definition conv_terms (pad : padding) (cs : list cdim) (groups cin_g cout_g : nat) (kernel x : tensor Q) : option (tensor (list term)) :=
  match shape x with
  | n :: s =>
      if conv_fits cs groups cin_g cout_g kernel s then
        Some (mk_tensor (n :: conv_out_shape pad cs ++ [(groups * cout_g)%nat])
          (fun i => conv [] (@app term) prod1 pad cs cin_g cout_g (fun j => at_ x (hd 0%nat i :: tl j)) (at_ kernel) (removelast (tl i)) (last (tl i) 0%nat)))
      else None
  | [] => None
  end.
(** inputs * qscale + qoffset, batch_normalization.py 178-184 *)
Definition batchnorm_terms (sh : list nat) (scale offset x : tensor Q) : option (tensor (list term)) :=
  do s <- np_reshape sh scale; do o <- np_reshape sh offset;
  do r <- gbinary (fun a b => [Mul a b]) x s; gbinary (fun l c => l ++ [Val c]) r o.
(** AveragePooling (Keras, external): the window's elements *)
Definition pool_terms (pad : padding) (cs : list cdim) (ch : nat) (x : tensor Q) : option (tensor (list term)) :=
  match shape x with
  | n :: s =>
      if nat_list_eqb s (map c_in cs ++ [ch]) then
        Some (mk_tensor (n :: conv_out_shape pad cs ++ [ch]) (fun i => map Val (window pad cs (fun j => at_ x (hd 0%nat i :: tl j)) (removelast (tl i)) (last (tl i) 0%nat))))
      else None
  | [] => None
  end.
(** AveragePooling (Keras, external): the sum is divided by the number of its terms *)
Definition mean_in (A : arith) (t : tensor (list term)) : option (tensor Q) :=
  do y <- sum_terms A t;
  tall (mk_tensor (shape t) (fun i => a_rnd A (at_ y i / inject_Z (Z.of_nat (List.length (at_ t i)))))).
(** one operation of a merging layer, ops/merge.py 10-16 and 38-43 (Keras merge functions, external): comparisons need no rounding *)
Definition bin_in (A : arith) (op : merge_op) (x y : Q) : option Q :=
  match op with MMaximum | MMinimum => Some (bin_op op x y) | _ => a_rnd A (bin_op op x y) end.
Fixpoint fold_in (A : arith) (op : merge_op) (acc : tensor Q) (xs : list (tensor Q)) : option (tensor Q) :=
  match xs with [] => Some acc | x :: xs' => do t <- gbinary (bin_in A op) acc x; do r <- tall t; fold_in A op r xs' end.
Definition merge_in (A : arith) (op : merge_op) (xs : list (tensor Q)) : option (tensor Q) :=
  if merge_arity op (List.length xs) then
    match map (expand_to (max_ndim xs)) xs with
    | [] => None
    | y :: ys =>
        do r <- fold_in A op y ys;
        match op with MAveragePow2 => trnd A (fun v => v * pow2_scale (Z.of_nat (List.length xs))) r | _ => Some r end
    end
  else None.

(** M_Net.core_call in the arithmetic [A] *)
Definition core_in (A : arith) (c : core) (x : tin) : option (tensor Q) :=
  match c, x with
  | CQuantizer q, One x => quant_in A q x
  | CDense k b, One x => do t <- matmul_terms x k; do t <- bias_terms t b; sum_terms A t
  | CEinsum li lk lo k b, One x => do t <- einsum_terms li lk lo x k; do t <- bias_terms t b; sum_terms A t
  | CConv pad cs g ci co k b, One x => do t <- conv_terms pad cs g ci co k x; do t <- bias_terms t b; sum_terms A t
  | CBatchNorm sh s o, One x => if (List.length (shape x) =? List.length sh)%nat then do t <- batchnorm_terms sh s o x; sum_terms A t else None
  | CSum ndim axes kd scale, One x =>
      if (List.length (shape x) =? ndim)%nat then do s <- sum_terms A (greduce (map Val) axes kd x); trnd A (fun v => v * scale) s else None
  | CAvgPool pad cs ch, One x => do t <- pool_terms pad cs ch x; mean_in A t
  | CMaxPool pad cs ch, One x => keras_pool (max_pool pad cs) pad cs ch x
  | CMerge op, Many xs => merge_in A op xs
  | CReshape sh, One x => if (nprod sh =? nprod (tl (shape x)))%nat then keras_reshape sh x else None
  | CFlatten, One x => keras_flatten x
  | CReLU, One x => Some (tmap relu x)
  | CLut, One x => Some x
  | _, _ => None
  end.
(** M_Net.keras_layer in the arithmetic [A] *)
Definition layer_in (A : arith) (l : layer) (args : list (varg (tensor Q))) (kw : kwargs_t) : option (list (string * list (tensor Q))) :=
  do x <- one_arg args;
  do y <- match l with
          | LPlain c a => if no_kwargs kw then do y <- core_in A c x; Some (tmap (act_fn a) y) else None
          | LQ iq c a oq =>
              if training_off kw then
                do x <- match iq with Some q => iq_in A q x | None => Some x end;
                do y <- core_in A c x;
                let y := tmap (act_fn a) y in
                match oq with Some q => quant_in A q y | None => Some y end
              else None
          end;
  Some [("final"%string, [y])].
(** the layers in binary32; [ord l i ts]: the order in which layer [l] sums the terms [ts] at position [i] of its result *)
Definition fl_layer (ord : layer -> index -> list term -> ftree) (l : layer) := layer_in (float_arith (ord l)) l.
(** running a functional model layer by layer, keras Function._run_through_graph (external): nodes by decreasing depth, as main.py 67-143 *)
Definition run_fl (ord : layer -> index -> list term -> ftree) (fuel : nat) (m : model layer) (xs : list (tensor Q)) : option (list (string * list (tensor Q))) :=
  trace_model (fl_layer ord) fuel 0 m xs.
