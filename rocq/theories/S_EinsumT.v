(** What QEinsumDenseT is supposed to compute (C56): the einsum of its equation, with the product
    "input * kernel entry" replaced by "the small network of that kernel entry, applied to the input". *)
From Verif Require Import Num M_State M_Mapper S_Mapper M_Contr M_Ebops M_Patch M_Ops M_Table S_Table M_EinsumT.

(** the equation: no letter twice in a term, output letters occur in an operand, every letter of the kernel occurs in the input or the output *)
Definition good_equation (c : tconf) : Prop :=
  NoDup (t_li c) /\ NoDup (t_lw c) /\ NoDup (t_lo c) /\ incl (t_lo c) (t_li c ++ t_lw c) /\ (forall l, In l (t_lw c) -> In l (t_li c) \/ In l (t_lo c)).
(** the batch axis comes first, in the input and in the output, and the kernel does not have it *)
Definition batch_led (c : tconf) : Prop := exists l li lo, t_li c = l :: li /\ t_lo c = l :: lo /\ ~ In l (t_lw c).
(** what is known of a size when the layer is built agrees with the size of the input *)
Definition known_sizes (ish : list (option nat)) (sh : list nat) : Prop := Forall2 (fun o d => o = None \/ o = Some d) ish sh.

(** the network of the kernel entry at [kc]; its biases are at [bc] *)
Fixpoint entry_net (d_hl din : nat) (ls : list edense) (kc bc : index) (v : nat -> Q) : Q :=
  match ls with
  | [] => 0
  | [l] => ed_act l (qsum (map (fun d => v d * at_ (ed_w l) (kc ++ [d])) (seq 0 din)) + match ed_b l with Some b => at_ b bc | None => 0 end)
  | l :: ls' => entry_net d_hl d_hl ls' kc bc
      (fun e => ed_act l (qsum (map (fun d => v d * at_ (ed_w l) (kc ++ [d; e])) (seq 0 din)) + match ed_b l with Some b => at_ b (bc ++ [e]) | None => 0 end))
  end.
(** where the biases of a kernel entry are: along the axes of the kernel's letters, 0 along the others *)
Definition bias_index (c : tconf) (env : nat -> nat) : index :=
  map (fun l => if memb l (t_lw c) then env l else 0%nat) (from_first (t_lw c) (presum_idxs c)).
(** batch normalization, with the statistics of the normalized letters *)
Definition normalized (bn : tbn) (isqrt : Q) (nc : index) (t : Q) : Q :=
  ((t - at_ (n_mean bn) nc) * (match n_gamma bn with Some g => at_ g nc | None => 1 end * at_ (n_istd bn) nc) + match n_beta bn with Some be => at_ be nc | None => 0 end) * isqrt.
(** the term of one assignment of coordinates to the letters *)
Definition table_term (L : tlayer) (d_hl : nat) (x : tensor Q) (env : nat -> nat) : Q :=
  let c := tl_conf L in
  let p := tl (map env (presum_idxs c)) in
  let y := entry_net d_hl 1 (tl_module L) (map env (t_lw c)) (bias_index c env) (fun _ => tl_iq L p (at_ x (map env (t_li c)))) in
  let y := match tl_bnorm L with Some bn => normalized bn (tl_rsqrt L) (map env (norm_idxs c)) y | None => y end in
  tl_toq L p y.
(** an output element: the sum over the letters that the output does not have *)
Definition table_einsum (L : tlayer) (dims : nat -> nat) (d_hl : nat) (x : tensor Q) (o : index) : Q :=
  let c := tl_conf L in
  tl_act L (sum_over 0 Qplus dims (filter (fun l => negb (memb l (t_lo c))) (t_li c)) (table_term L d_hl x) (bind_idx (t_lo c) o (fun _ => 0%nat))).

(** a layer built for letter sizes [dims] *)
Record good_layer (L : tlayer) (dims : nat -> nat) (d_hl : nat) (ish : list (option nat)) : Prop := {
  gl_eq : good_equation (tl_conf L);
  gl_sizes : known_sizes ish (map dims (t_li (tl_conf L)));
  gl_built : build_t (tl_conf L) ish (map dims (t_lw (tl_conf L))) = Some (tl_built L);
  gl_labels : hidden_labels (tl_conf L) = Some (tl_hin L, tl_hout L);
  gl_module : module_fits (tl_conf L) dims d_hl (tl_hin L) (tl_hout L) 1 (tl_module L);
  gl_bn : match tl_bnorm L with
          | Some bn => t_bn (tl_conf L) = true /\ shape (n_mean bn) = map dims (norm_idxs (tl_conf L)) /\ shape (n_istd bn) = map dims (norm_idxs (tl_conf L))
          | None => True
          end;
  gl_proper : Proper (Qeq ==> Qeq) (tl_act L) /\ (forall p, Proper (Qeq ==> Qeq) (tl_toq L p)) /\ (forall l, In l (tl_module L) -> Proper (Qeq ==> Qeq) (ed_act l)) }.
(** the normalized letters are listed in the order of the axes of the table input *)
Definition norm_ordered (c : tconf) : Prop := norm_idxs c = filter (fun l => memb l (norm_idxs c)) (presum_idxs c).
(** the kernel's letters, in their order, are the last ones of the table input; or there are no biases *)
Definition bias_aligned (c : tconf) : Prop := has_bias c = true -> from_first (t_lw c) (presum_idxs c) = t_lw c.

(** [act'] translates the activations of the layer exactly *)
Definition translates_t (act' : (Q -> Q) -> Q -> Q) (ls : list edense) : Prop := forall l, In l ls -> forall x y, x == y -> act' (ed_act l) x == ed_act l y.
(** one sample, as the tracer sees it: a batch of one *)
Definition one_sample (b : nat) (x : tensor Q) : tensor Q := mk_tensor (1%nat :: tl (shape x)) (fun i => at_ x (b :: tl i)).
(** what the trace of one sample [x] starts from: [vars] are the variables behind the input quantizer (in row-major order of the table input, of shape
    [psh]), [xq] their values, [quant] the output quantizers of the tables *)
Record traced_inputs (L : tlayer) (act' : (Q -> Q) -> Q -> Q) (quant : nat -> Q -> Q) (psh : list nat) (vars : list lhs) (codes : nat -> nat) (xq : nat -> Q) (x : tensor Q) : Prop := {
  ti_len : length vars = nprod psh;
  ti_var : forall p, (p < length vars)%nat -> var_ok (nth p vars dflt_lhs) (codes p) /\ var_value (nth p vars dflt_lhs) (codes p) (xq p);
  ti_xq : forall idx, valid_index psh idx -> xq (flat psh idx) == tl_iq L (tl idx) (at_ x (firstn (length (t_li (tl_conf L))) idx));
  ti_quant : forall idx u v, valid_index psh idx -> u == v -> quant (flat psh idx) u == tl_toq L (tl idx) v;
  ti_module : translates_t act' (tl_module L);
  ti_act : forall u v, u == v -> act' (tl_act L) u == tl_act L v }.
