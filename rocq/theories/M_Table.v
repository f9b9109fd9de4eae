(** Model of the lookup-table layers and of their hardware.

    Source: /repo/src/hgq/layers/activation.py 58-61, 105-109 (QUnaryFunctionLUT,
    QAffinedUnaryFunctionLUT), /repo/src/hgq/layers/table/dense.py 64-143 (QDenseT),
    /repo/src/hgq/_dais_tracer/layers/activation.py 47-61 (ReplayQFunctionLUT) and
    /repo/src/hgq/_dais_tracer/layers/table.py 18-156 (ReplayDenseTable).

    A traced variable of the tracing package (external) has a low end [l], a high end [h] and a step [s];
    its values are l, l+s, ..., h.  variable.lookup(table) and variable.apply(f) select the entry of
    the value's position. *)
From Verif Require Import Num M_Fixed M_Wrapper M_Ebops.

Record lhs := mk_lhs { v_l : Q; v_h : Q; v_s : Q }.
(** np.round((h - l) / s).astype(uint32) + 1, table.py 88 *)
Definition table_size (v : lhs) : nat := S (Z.to_nat (round_even ((v_h v - v_l v) / v_s v))).
(** np.linspace(l, h, n), entry t (external) *)
Definition linspace (l h : Q) (n t : nat) : Q :=
  l + inject_Z (Z.of_nat t) * ((h - l) / inject_Z (Z.of_nat (n - 1))).
(** lookup(table) (external): entry number (x - l) / s *)
Definition lookup (v : lhs) (table : list Q) (x : Q) : Q := nth (Z.to_nat (round_even ((x - v_l v) / v_s v))) table 0.

(** ** unary functions: x.apply(f) tabulates f over all values of the variable *)
Definition apply_table (v : lhs) (f : Q -> Q) : list Q := map (fun t => f (v_l v + inject_Z (Z.of_nat t) * v_s v)) (seq 0 (table_size v)).
Definition hw_apply (v : lhs) (f : Q -> Q) (x : Q) : Q := lookup v (apply_table v f) x.
(** ReplayQFunctionLUT.call, _dais_tracer/layers/activation.py 51-61, on one variable; [affined] holds scale and bias for QAffinedUnaryFunctionLUT *)
Definition replay_lut (v : lhs) (act : Q -> Q) (affined : option (Q * Q)) (x : Q) : Q :=
  hw_apply v (fun kx => act (match affined with Some (a, b) => kx * a + b | None => kx end)) x.
(** call, layers/activation.py 58-61 and 105-109, after the input quantizer *)
Definition lut_call (act : Q -> Q) (affined : option (Q * Q)) (x : Q) : Q :=
  act (match affined with Some (a, b) => x * a + b | None => x end).

(** ** QDenseT: for every (input i, output o) a small network of EinsumDense layers *)
(** kernel entry of cell [c = i * n_out + o], hidden input [d], hidden output [e]; bias entry of the cell *)
Record elayer := mk_elayer { e_w : nat -> nat -> nat -> Q; e_b : option (nat -> nat -> Q); e_in : nat; e_out : nat; e_act : Q -> Q }.
(** EinsumDense '...iod,iodD->...ioD' (and '...iod,iod->...io': e_out = 1), at cell [c] *)
Definition dense_apply (l : elayer) (c : nat) (v : list Q) : list Q :=
  map (fun e => e_act l (qsum (map (fun d => nth d v 0 * e_w l c d e) (seq 0 (e_in l))) + match e_b l with Some b => b c e | None => 0 end))
      (seq 0 (e_out l)).
(** module(x[..., None]) at cell [c] *)
Definition subnet (ls : list elayer) (c : nat) (x : Q) : Q := nth 0 (fold_left (fun v l => dense_apply l c v) ls [x]) 0.

(** keras.layers.BatchNormalization(axis=-1) in inference at output [o] (external): 1/sqrt(variance + epsilon)
    is [bn_istd]; gamma/beta are absent without scale/center *)
Record bnorm := mk_bnorm { bn_gamma : option (nat -> Q); bn_beta : option (nat -> Q); bn_mean : nat -> Q; bn_istd : nat -> Q }.
Definition bn_apply (b : bnorm) (o : nat) (x : Q) : Q :=
  (x - bn_mean b o) * (match bn_gamma b with Some g => g o | None => 1 end * bn_istd b o) + match bn_beta b with Some be => be o | None => 0 end.

Record table_layer := mk_table {
  tl_in : nat; tl_out : nat;                      (* n_in, n_out *)
  tl_net : list elayer;                           (* self.module *)
  tl_bn : option bnorm; tl_isqrt : Q;             (* self.bn_module; 1/sqrt(n_in) *)
  tl_toq : nat -> Q -> Q }.                       (* self.toq at flattened position (b, i, o) *)

(** QDenseT.call, table/dense.py 119-130, for output [o] at leading position [b]; [xq p] is the broadcast and quantized
    input at flattened position p = (b * n_in + i) * n_out + o *)
Definition dense_t_call (L : table_layer) (act : Q -> Q) (xq : nat -> Q) (b o : nat) : Q :=
  act (qsum (map (fun i =>
    let p := ((b * tl_in L + i) * tl_out L + o)%nat in
    let t := subnet (tl_net L) (i * tl_out L + o) (xq p) in
    let t := match tl_bn L with Some bn => bn_apply bn o t * tl_isqrt L | None => t end in
    tl_toq L p t) (seq 0 (tl_in L)))).

(** ** ReplayDenseTable.call *)
(** mask.reshape(-1, n_in, n_out) and np.concatenate([w[_mask] for _mask in mask]), table.py 105-113: rows of [m]
    cells; each row selects the entries of [w] where the mask is set *)
Fixpoint chunks {A} (fuel m : nat) (l : list A) : list (list A) :=
  match fuel, l with
  | S fuel', _ :: _ => firstn m l :: chunks fuel' m (skipn m l)
  | _, _ => []
  end.
Definition select {A} (w : nat -> A) (row : list bool) : list A :=
  map (fun cb => w (fst cb)) (filter snd (combine (seq 0 (length row)) row)).
Definition gather {A} (m : nat) (w : nat -> A) (mask : list bool) : list A :=
  concat (map (select w) (chunks (length mask) m mask)).
(** np.einsum('...ni,nij->...nj', _out, w) + b and the activation [act], table.py 114, for the vectors at the
    gathered positions of one table row *)
Fixpoint map2 {A B C} (f : A -> B -> C) (l : list A) (l' : list B) : list C :=
  match l, l' with a :: l, b :: l' => f a b :: map2 f l l' | _, _ => [] end.
Definition replay_layer (m : nat) (mask : list bool) (l : elayer) (act' : (Q -> Q) -> Q -> Q) (vs : list (list Q)) : list (list Q) :=
  let w := gather m (e_w l) mask in
  let b := match e_b l with Some b => gather m b mask | None => map (fun _ _ => 0) w end in
  map2 (fun v wb => map (fun e => act' (e_act l) (qsum (map (fun d => nth d v 0 * fst wb d e) (seq 0 (e_in l))) + snd wb e)) (seq 0 (e_out l)))
       vs (combine w b).
(** one group of positions with the same table size [n], table.py 98-118: the tables of the masked positions, in
    order.  Row t of [inp] are the t-th inputs of all of them; tables[idx] is a column of the result *)
Definition group_rows (m : nat) (ls : list elayer) (act' : (Q -> Q) -> Q -> Q) (vars : list lhs) (mask : list bool) (n : nat) : list (list Q) :=
  let sel := map snd (filter fst (combine mask vars)) in
  map (fun t =>
    map (fun v => nth 0 v 0)
        (fold_left (fun vs l => replay_layer m mask l act' vs) ls (map (fun v => [linspace (v_l v) (v_h v) n t]) sel)))
      (seq 0 n).
Definition true_at (mask : list bool) : list nat := map fst (filter snd (combine (seq 0 (length mask)) mask)).
Definition set_table (tabs : nat -> option (list Q)) (p : nat) (t : list Q) : nat -> option (list Q) :=
  fun q => if (q =? p)%nat then Some t else tabs q.
Definition scatter (rows : list (list Q)) (mask : list bool) (tabs : nat -> option (list Q)) : nat -> option (list Q) :=
  fold_left (fun tabs ji => set_table tabs (snd ji) (map (fun r => nth (fst ji) r 0) rows))
            (combine (seq 0 (length (true_at mask))) (true_at mask)) tabs.
(** np.unique(table_sizes): the sorted distinct sizes *)
Definition unique_sizes (vars : list lhs) : list nat :=
  filter (fun n => existsb (fun v => (table_size v =? n)%nat) vars) (seq 0 (S (list_max (map table_size vars)))).
Definition raw_tables (m : nat) (ls : list elayer) (act' : (Q -> Q) -> Q -> Q) (vars : list lhs) : nat -> option (list Q) :=
  fold_left (fun tabs n =>
    let mask := map (fun v => (table_size v =? n)%nat) vars in
    scatter (group_rows m ls act' vars mask n) mask tabs) (unique_sizes vars) (fun _ => None).
(** table.py 120-131: batch normalization folded into the tables; without [center] the code takes beta = 1 *)
Definition replay_bn (b : bnorm) (o : nat) (t : Q) : Q :=
  let scaler := match bn_gamma b with Some g => g o | None => 1 end * bn_istd b o in
  let offset := match bn_beta b with Some be => be o | None => 1 end - bn_mean b o * scaler in
  t * scaler + offset.
(** table.py 135-149: the table output quantizer with the widths at position [p]; [w_toq] is the Quantizer layer:
    its scaler and affine map are ignored *)
Definition replay_tables (L : table_layer) (act' : (Q -> Q) -> Q -> Q) (quant : nat -> Q -> Q) (vars : list lhs) (p : nat) : option (list Q) :=
  match raw_tables (tl_in L * tl_out L) (tl_net L) act' vars p with
  | None => None                                                                       (* 133: assert *)
  | Some t =>
      let t := match tl_bn L with Some bn => map (fun y => replay_bn bn (p mod tl_out L) y * tl_isqrt L) t | None => t end in
      Some (map (quant p) t)
  end.
(** table.py 151-155: lookup of every position and sum over axis -2; [None]: a table is missing *)
Fixpoint opt_sum (l : list (option Q)) : option Q :=
  match l with
  | [] => Some 0
  | Some x :: l' => match opt_sum l' with Some y => Some (x + y) | None => None end
  | None :: _ => None
  end.
Definition replay_dense_table (L : table_layer) (act' : (Q -> Q) -> Q -> Q) (quant : nat -> Q -> Q) (vars : list lhs) (xq : nat -> Q) (b o : nat) : option Q :=
  opt_sum (map (fun i =>
    let p := ((b * tl_in L + i) * tl_out L + o)%nat in
    match replay_tables L act' quant vars p, nth_error vars p with
    | Some t, Some v => Some (lookup v t (xq p))
    | _, _ => None
    end) (seq 0 (tl_in L))).

(** ** keras_act_to_numpy, table.py 18-49, the rational cases, and the Keras functions (external) *)
Definition np_relu (x : Q) : Q := Qmax 0 x.
Definition np_softsign (x : Q) : Q := x / (1 + Qabs x).
Definition np_hard_silu (x : Q) : Q := x * Qmin 1 (Qmax 0 ((x + 1) / 2)).               (* 46-47 *)
Definition keras_hard_silu (x : Q) : Q := x * (Qmin 6 (Qmax 0 (x + 3)) / 6).
