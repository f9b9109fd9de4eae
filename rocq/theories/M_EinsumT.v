(** Model of QEinsumDenseT and of its hardware.

    Source: /repo/src/hgq/layers/table/dense.py 171-404 (QEinsumDenseT) and
    /repo/src/hgq/_alkaid_keras_plugin/table.py 156-268 (_QEinsumDenseTable).

    The equation is given as its three lists of letters (natural numbers below 52), as
    _einsum_idxs_from_keras (15-19) returns them: the ellipsis already expanded by Keras (external).  Keras' EinsumDense,
    einsum, reshape, broadcast_to, sum and transpose are external: documented meaning.  [None]: an exception. *)
From Verif Require Import Num M_Fixed M_State M_Mapper M_Contr M_Ebops M_Patch M_Ops M_Cebops M_Table M_Trace.

Record tconf := mk_tconf {
  t_li : list nat; t_lw : list nat; t_lo : list nat;     (* input_idxs, weight_idxs, output_idxs *)
  t_bias : option (list nat); t_norm : option (list nat); (* bias_axes, normalize_axes *)
  t_bn : bool }.                                         (* batch_norm *)
Record tbuilt := mk_tbuilt {
  tb_presum : list nat; tb_shape : list (option nat);    (* presum_idxs, presum_shape; None: unknown when built *)
  tb_extra : nat;                                        (* len(extra_idxs) *)
  tb_contract : list nat; tb_transpose : list nat; tb_kernel_axes : list nat;
  tb_n_in : nat; tb_bn_axes : list nat; tb_bn_shape : list nat }.

(** letters of the kernel that the input does not have, dense.py 269 *)
Definition extra_idxs (c : tconf) : list nat := filter (fun l => negb (memb l (t_li c))) (t_lw c).
Definition presum_idxs (c : tconf) : list nat := t_li c ++ extra_idxs c.                              (* 272 *)
(** the axes that are summed, dense.py 276 *)
Definition contract_axes (c : tconf) : list nat := filter (fun a => negb (memb (nth a (t_li c) 0%nat) (t_lo c))) (seq 0 (length (t_li c))).
Definition post_idxs (c : tconf) : list nat := filter (fun l => memb l (t_lo c)) (t_li c) ++ extra_idxs c.   (* 277 *)
(** normalize_axes, dense.py 306-309 *)
Definition norm_idxs (c : tconf) : list nat :=
  match t_norm c with
  | Some n => n
  | None => match t_bias c with
            | Some (l :: r) => l :: r
            | _ => filter (fun l => memb l (t_lo c)) (t_lw c)
            end
  end.
(** build, dense.py 256-318; [ish]: the input shape, [ksh]: the kernel shape Keras derives from the equation.  A letter without axis (KeyError in
    279, 291 or 311), kernel-only contracted letters (270-271) and contracted or normalized axes of unknown size (281-285, add_weight) raise *)
Definition build_t (c : tconf) (ish : list (option nat)) (ksh : list nat) : option tbuilt :=
  if forallb (fun l => memb l (t_lo c)) (extra_idxs c) then
    let psh := ish ++ map (fun l => label_dim (t_lw c) ksh l) (extra_idxs c) in
    if forallb (fun l => memb l (post_idxs c)) (t_lo c) then
      do csh <- opt_all (map (fun a => nth a psh None) (contract_axes c));
      if forallb (fun l => memb l (presum_idxs c)) (t_lw c) then
        let nx := if t_bn c then norm_idxs c else [] in
        if forallb (fun l => memb l (presum_idxs c)) nx then
          let ax := map (fun l => index_of l (presum_idxs c)) nx in
          do bsh <- opt_all (map (fun a => nth a psh None) ax);
          Some (mk_tbuilt (presum_idxs c) psh (length (extra_idxs c)) (contract_axes c) (map (fun l => index_of l (post_idxs c)) (t_lo c))
                          (map (fun l => index_of l (presum_idxs c)) (t_lw c)) (nprod csh) ax bsh)
        else None
      else None
    else None
  else None.
(** _broadcast_shapes, dense.py 353-362, for an input of shape [sh]: the sizes that were unknown when the layer was built are taken from
    the input.  The second component of [_bcast] is the presum shape, the first the input shape with ones for the new axes (294-298) *)
Definition presum_shape (b : tbuilt) (sh : list nat) : list nat :=
  map (fun a => match nth a (tb_shape b) None with Some d => d | None => nth a sh 0%nat end) (seq 0 (length (tb_shape b))).
Definition reshape_shape (b : tbuilt) (sh : list nat) : list nat :=
  firstn (length (tb_shape b) - tb_extra b) (presum_shape b sh) ++ repeat 1%nat (tb_extra b).

(** ** the sub-networks *)
(** one keras.layers.EinsumDense: kernel, bias, activation *)
Record edense := mk_edense { ed_w : tensor Q; ed_b : option (tensor Q); ed_act : Q -> Q }.
(** EinsumDense('li,lk->lo').call (external) *)
Definition einsum_dense_call (li lk lo : list nat) (l : edense) (x : tensor Q) : option (tensor Q) :=
  if einsum_fits li (shape x) lk (shape (ed_w l)) then
    let dims := einsum_dims li (shape x) lk (shape (ed_w l)) in
    let y := mk_tensor (map dims lo) (einsum 0 Qplus Qmult dims li lk lo (at_ x) (at_ (ed_w l))) in
    do z <- match ed_b l with Some b => np_binary Qplus y b | None => Some y end;
    Some (tmap (ed_act l) z)
  else None.
(** the shape of the bias of an EinsumDense with output letters [lo] and bias_axes [ax] (Keras, external): the axes from the first
    letter of [ax] on, those that are not in [ax] have size 1 *)
Fixpoint from_first (ax : list nat) (lo : list nat) : list nat :=
  match lo with [] => [] | l :: lo' => if memb l ax then l :: lo' else from_first ax lo' end.
Definition keras_bias_shape (dims : nat -> nat) (lo ax : list nat) : list nat :=
  map (fun l => if memb l ax then dims l else 1%nat) (from_first ax lo).
(** _build_module, dense.py 214-216: two unused letters *)
Definition hidden_labels (c : tconf) : option (nat * nat) :=
  match filter (fun l => negb (memb l (presum_idxs c)) && negb (memb l (t_lw c))) (seq 0 52) with
  | h :: h' :: _ => Some (h, h')
  | _ => None
  end.
(** the layers of the module, dense.py 218-243: the letters of the hidden axis are swapped after each layer *)
Fixpoint module_call (presum lw : list nat) (hin hout : nat) (ls : list edense) (x : tensor Q) : option (tensor Q) :=
  match ls with
  | [] => None
  | [l] => einsum_dense_call (presum ++ [hin]) (lw ++ [hin]) presum l x
  | l :: ls' =>
      do y <- einsum_dense_call (presum ++ [hin]) (lw ++ [hin; hout]) (presum ++ [hout]) l x;
      module_call presum lw hout hin ls' y
  end.
(** the shapes of the weights Keras creates: hidden layers with [d_hl] units, the first with one input, dense.py 216-243; a bias exists if
    bias_axes is given and there is no batch normalization (219, 233) *)
Definition has_bias (c : tconf) : bool := match t_bias c with Some _ => negb (t_bn c) | None => false end.
Fixpoint module_fits (c : tconf) (dims : nat -> nat) (d_hl : nat) (hin hout din : nat) (ls : list edense) : Prop :=
  match ls with
  | [] => False
  | [l] => shape (ed_w l) = map dims (t_lw c) ++ [din] /\
           match ed_b l with
           | Some b => has_bias c = true /\ shape b = keras_bias_shape dims (presum_idxs c) (t_lw c)
           | None => has_bias c = false
           end
  | l :: ls' => shape (ed_w l) = map dims (t_lw c) ++ [din; d_hl] /\
                match ed_b l with
                | Some b => has_bias c = true /\ shape b = keras_bias_shape (upd dims hout d_hl) (presum_idxs c ++ [hout]) (t_lw c ++ [hout])
                | None => has_bias c = false
                end /\ module_fits c dims d_hl hout hin d_hl ls'
  end.

(** ** batch normalization in inference, dense.py 364-388 (375-388) *)
(** bn_gamma, bn_beta (absent without bn_scale/bn_center), moving_mean, and 1/sqrt(moving_variance + epsilon) *)
Record tbn := mk_tbn { n_gamma : option (tensor Q); n_beta : option (tensor Q); n_mean : tensor Q; n_istd : tensor Q }.
Definition bn_scaler (bn : tbn) : tensor Q :=
  mk_tensor (shape (n_istd bn)) (fun i => match n_gamma bn with Some g => at_ g i | None => 1 end * at_ (n_istd bn) i).
Definition bn_offset (bn : tbn) : tensor Q :=
  mk_tensor (shape (n_mean bn)) (fun i => - at_ (n_mean bn) i * at_ (bn_scaler bn) i + match n_beta bn with Some be => at_ be i | None => 0 end).
(** bn_broadcast_shape, dense.py 313-315 *)
Definition bn_bshape (b : tbuilt) : list nat :=
  fold_left (fun sh ad => put_nth (fst ad) (snd ad) sh) (combine (tb_bn_axes b) (tb_bn_shape b)) (repeat 1%nat (length (tb_shape b))).
(** [isqrt] is 1 / sqrt(n_in) *)
Definition bn_call (b : tbuilt) (isqrt : Q) (bn : tbn) (x : tensor Q) : option (tensor Q) :=
  do s <- np_reshape (bn_bshape b) (bn_scaler bn);
  do o <- np_reshape (bn_bshape b) (bn_offset bn);
  do y <- np_binary Qmult x s;
  do z <- np_binary Qplus y o;
  Some (tmap (fun v => v * isqrt) z).

(** ** call *)
Record tlayer := mk_tlayer {
  tl_conf : tconf; tl_built : tbuilt; tl_hin : nat; tl_hout : nat;
  tl_module : list edense; tl_bnorm : option tbn; tl_rsqrt : Q;
  tl_iq : index -> Q -> Q;         (* self.iq at a position of the presum tensor without the batch axis (identity if disabled) *)
  tl_toq : index -> Q -> Q;        (* self.toq *)
  tl_act : Q -> Q }.               (* self.activation *)
(** dense.py 398-401: sum, transpose, activation *)
Definition post_sum (b : tbuilt) (act : Q -> Q) (t : tensor Q) : option (tensor Q) :=
  do y <- np_transpose (map Z.of_nat (tb_transpose b)) (np_reduce qsum (tb_contract b) false t);
  Some (tmap act y).
(** the broadcast input, dense.py 391-393 *)
Definition spread (b : tbuilt) (x : tensor Q) : option (tensor Q) :=
  do r <- np_reshape (reshape_shape b (shape x)) x;
  broadcast_to r (presum_shape b (shape x)).
(** call, dense.py 390-401 *)
Definition call_t (L : tlayer) (x : tensor Q) : option (tensor Q) :=
  let b := tl_built L in
  do xb <- spread b x;
  let xq := mk_tensor (shape xb) (fun p => tl_iq L (tl p) (at_ xb p)) in
  do t <- module_call (tb_presum b) (t_lw (tl_conf L)) (tl_hin L) (tl_hout L) (tl_module L)
            (mk_tensor (shape xq ++ [1%nat]) (fun i => at_ xq (removelast i)));
  do t <- match tl_bnorm L with Some bn => bn_call b (tl_rsqrt L) bn t | None => Some t end;
  post_sum b (tl_act L) (mk_tensor (shape t) (fun p => tl_toq L (tl p) (at_ t p))).
(** compute_output_shape, dense.py 350-351 (Keras, external): the sizes of the output letters *)
Definition output_shape_t (c : tconf) (dims : nat -> nat) : list nat := map dims (t_lo c).

(** ** _QEinsumDenseTable *)
(** _gather_layer_weights, table.py 164-184, for the variable at flat position [p]: w[kernel_coords] and b[0][kernel_coords].  The bias is indexed with the
    kernel coordinates; if its rank does not fit or a coordinate is out of range: None (in numpy an IndexError or shapes that do not fit) *)
Definition kernel_coords (b : tbuilt) (psh : list nat) (p : nat) : index :=
  map (fun a => nth a (unflat psh p) 0%nat) (tb_kernel_axes b).
Definition in_range (sh idx : list nat) : bool := ((length sh =? length idx)%nat && forallb (fun p => (snd p <? fst p)%nat) (combine sh idx))%bool.
Definition cell_layer (b : tbuilt) (psh : list nat) (l : edense) (p : nat) : option elayer :=
  let kc := kernel_coords b psh p in
  let n := length kc in
  let last := (length (shape (ed_w l)) =? S n)%nat in                                               (* 174: w.ndim == 2 *)
  let w := fun (_ : nat) d e => at_ (ed_w l) (kc ++ if last then [d] else [d; e]) in
  let din := nth n (shape (ed_w l)) 0%nat in
  let dout := if last then 1%nat else nth (S n) (shape (ed_w l)) 0%nat in
  match ed_b l with
  | None => Some (mk_elayer w None din dout (ed_act l))
  | Some bias =>
      if (in_range (firstn n (shape bias)) kc && (length (shape bias) =? if last then n else S n)%nat)%bool
      then Some (mk_elayer w (Some (fun _ e => at_ bias (kc ++ if last then [] else [e]))) din dout (ed_act l))
      else None
  end.
(** one group of variables with the same table size, table.py 229-247: the tables, as rows *)
Definition run_cells (act' : (Q -> Q) -> Q -> Q) (els : list elayer) (vs : list (list Q)) : list (list Q) :=
  map2 (fun v el => dense_apply (mk_elayer (e_w el) (e_b el) (e_in el) (e_out el) (act' (e_act el))) 0%nat v) vs els.
Definition group_t (b : tbuilt) (psh : list nat) (ls : list edense) (act' : (Q -> Q) -> Q -> Q) (vars : list lhs) (mask : list bool) (n : nat) : option (list (list Q)) :=
  let sel := map snd (filter fst (combine mask vars)) in                                          (* 231 *)
  do els <- opt_all (map (fun l => opt_all (map (cell_layer b psh l) (true_at mask))) ls);         (* 235-238 *)
  Some (map (fun t =>
    map (fun v => nth 0 v 0) (fold_left (fun vs el => run_cells act' el vs) els (map (fun v => [linspace (v_l v) (v_h v) n t]) sel)))
    (seq 0 n)).
(** table.py 223-247 *)
Definition raw_tables_t (b : tbuilt) (psh : list nat) (ls : list edense) (act' : (Q -> Q) -> Q -> Q) (vars : list lhs) : option (nat -> option (list Q)) :=
  fold_left (fun acc n =>
    do tabs <- acc;
    let mask := map (fun v => (table_size v =? n)%nat) vars in
    do rows <- group_t b psh ls act' vars mask n;
    Some (scatter rows mask tabs)) (unique_sizes vars) (Some (fun _ => None)).
(** _apply_batch_norm, table.py 186-201, on the table of position [p] *)
Definition bn_table (b : tbuilt) (psh : list nat) (isqrt : Q) (bn : tbn) (p : nat) (t : Q) : Q :=
  let c := map (fun a => nth a (unflat psh p) 0%nat) (tb_bn_axes b) in
  let scaler := match n_gamma bn with Some g => at_ g c | None => 1 end * at_ (n_istd bn) c in
  let offset := match n_beta bn with Some be => at_ be c | None => 0 end - at_ (n_mean bn) c * scaler in
  (t * scaler + offset) * isqrt.
(** table.py 203-268.  [vars] are the traced variables after the input quantizer, in flat order, [xq] their values; [quant p] is _quantize with the widths
    of position [p] (253-266).  The result is the value of the returned array *)
Definition replay_t (L : tlayer) (act' : (Q -> Q) -> Q -> Q) (quant : nat -> Q -> Q) (psh : list nat) (vars : list lhs) (xq : nat -> Q) : option (tensor Q) :=
  let b := tl_built L in
  do tabs <- raw_tables_t b psh (tl_module L) act' vars;
  do vals <- opt_all (map (fun p =>
      match tabs p, nth_error vars p with
      | Some t, Some v =>
          let t := match tl_bnorm L with Some bn => map (bn_table b psh (tl_rsqrt L) bn p) t | None => t end in
          Some (lookup v (map (quant p) t) (xq p))
      | _, _ => None                                                                              (* 249: assert *)
      end) (seq 0 (nprod psh)));
  post_sum b (act' (tl_act L)) (mk_tensor psh (fun i => nth (flat psh i) vals 0)).
