(** Model of a whole network under calibration: the quantizers of a model as its mutable state, forward passes in every mode, and
    trace_minmax.

    Source: /repo/src/hgq/utils/minmax_trace.py 13-80 (reset, the loop over the batches), /repo/src/hgq/layers/core/base.py 82-113
    (the wrapped call: output quantizer), the calls of the layers, e.g. core/dense.py 60-68, core/einsum_dense.py 70-81,
    conv.py 72-89, batch_normalization.py 151-185, ops/merge.py 11-15, and quantizer/quantizer.py 49-60.

    The quantizers are numbered, and a layer refers to its quantizers by number: a layer used at several nodes is the same
    state at each of them.  [qkernel] and [qbias] call the quantizer without [training]; inside a layer's call Keras passes on the flag of
    the call (external), so they are stepped in the mode of the pass, as kq and bq in einsum_dense.py 71 and 77.
    The EBOPs (base.py 95-104) are not values of the network and are left out (M_Ebops, M_Cebops).  Exact rationals. *)
From Coq Require Import String.
From Verif Require Import Num M_Fixed M_State M_Wrapper M_Mapper M_Contr M_Ebops M_Pow2 M_Patch M_Ops M_Mirror M_Trace M_Net M_Causal.
Local Open Scope list_scope.

(** layer.iq: none (enable_iq is off), a Quantizer, or MultipleQuantizers *)
Inductive iqs := IqNone | IqOne (q : nat) | IqMany (qs : list nat).
(** a layer: input quantizers; weights as they are stored, each with its quantizer ([None]: not quantized); the operation and the
    activation, as a function of the quantized weights and the quantized inputs; output quantizer ([None]: enable_oq is off) *)
Record clayer := mk_clayer {
  y_iq : iqs; y_ws : list (option nat * tensor Q);
  y_op : list (tensor Q) -> tin -> option (tensor Q);
  y_oq : option nat }.
(** a call of a quantizer: which one, on what, and what it returned.  Not in the code: read by the theorems only *)
Record event := mk_event { e_q : nat; e_in : tensor Q; e_out : tensor Q }.
Record nstate := mk_nstate { n_tab : nat -> quant; n_log : list event }.

(** Quantizer.__call__, quantizer.py 49-60 *)
Definition call_q (m : mode) (st : nstate) (id : nat) (x : tensor Q) : option (nstate * tensor Q) :=
  do (q', y) <- quant_step m (n_tab st id) x;
  Some (mk_nstate (fun j => if (j =? id)%nat then q' else n_tab st j) (n_log st ++ [mk_event id x y]), y).
Fixpoint call_qs (m : mode) (st : nstate) (ids : list nat) (xs : list (tensor Q)) : option (nstate * list (tensor Q)) :=
  match ids, xs with
  | id :: ids', x :: xs' =>
      do (st1, y) <- call_q m st id x;
      do (st2, ys) <- call_qs m st1 ids' xs';
      Some (st2, y :: ys)
  | [], [] => Some (st, [])
  | _, _ => None                       (* MultipleQuantizers.call asserts the number of inputs, core/base.py 286-288 *)
  end.
Definition call_iq (m : mode) (st : nstate) (iq : iqs) (x : tin) : option (nstate * tin) :=
  match iq, x with
  | IqNone, x => Some (st, x)
  | IqOne id, One x => do (st1, y) <- call_q m st id x; Some (st1, One y)
  | IqMany ids, Many xs => do (st1, ys) <- call_qs m st ids xs; Some (st1, Many ys)
  | _, _ => None
  end.
Fixpoint call_ws (m : mode) (st : nstate) (ws : list (option nat * tensor Q)) : option (nstate * list (tensor Q)) :=
  match ws with
  | [] => Some (st, [])
  | (None, w) :: ws' => do (st1, ys) <- call_ws m st ws'; Some (st1, w :: ys)
  | (Some id, w) :: ws' =>
      do (st1, y) <- call_q m st id w;
      do (st2, ys) <- call_ws m st1 ws';
      Some (st2, y :: ys)
  end.
(** the wrapped call of a layer.  Input quantizers are called before the weights' here; in einsum_dense.py 71-73 the kernel's is
    called first (they are different quantizers, so the order has no effect on the result) *)
Definition layer_call (m : mode) (l : clayer) (st : nstate) (x : tin) : option (nstate * tensor Q) :=
  do (st1, x') <- call_iq m st (y_iq l) x;
  do (st2, ws) <- call_ws m st1 (y_ws l);
  do y <- y_op l ws x';
  match y_oq l with
  | None => Some (st2, y)
  | Some id => call_q m st2 id y
  end.

(** a functional model as its nodes in the order of evaluation: each node calls a layer on earlier values, one or a list of them
    (Keras' Functional, external).  Values are numbered: first the inputs, then the results of the nodes. *)
Record cnode := mk_cnode { d_layer : clayer; d_args : inp nat }.
Definition value (env : list (tensor Q)) (i : nat) : option (tensor Q) := nth_error env i.
Definition args_of (env : list (tensor Q)) (a : inp nat) : option tin :=
  match a with
  | One i => do x <- value env i; Some (One x)
  | Many is => do xs <- opt_all (map (value env) is); Some (Many xs)
  end.
Fixpoint run_nodes (m : mode) (net : list cnode) (st : nstate) (env : list (tensor Q)) : option (nstate * list (tensor Q)) :=
  match net with
  | [] => Some (st, env)
  | n :: net' =>
      do x <- args_of env (d_args n);
      do (st1, y) <- layer_call m (d_layer n) st x;
      run_nodes m net' st1 (env ++ [y])
  end.
(** model(inputs, training=...): the state after the pass and every value of the network *)
Definition forward (m : mode) (net : list cnode) (st : nstate) (inputs : list (tensor Q)) : option (nstate * list (tensor Q)) := run_nodes m net st inputs.

(** _reset_minmax on every quantizer of the model, minmax_trace.py 13-21 *)
Definition quant_reset (q : quant) : quant :=
  mk_quant (q_w q) (q_c q) (q_hom q) (match q_s q with inl s => inl (kif_treset (q_c q) s) | inr s => inr (kbi_treset (q_c q) s) end).
(** the loop over the batches, minmax_trace.py 75-80 *)
Fixpoint trace_batches (net : list cnode) (st : nstate) (batches : list (list (tensor Q))) : option (nstate * list (list (tensor Q))) :=
  match batches with
  | [] => Some (st, [])
  | b :: bs =>
      do (st1, vs) <- forward Trace net st b;
      do (st2, rest) <- trace_batches net st1 bs;
      Some (st2, vs :: rest)
  end.
(** trace_minmax, minmax_trace.py 35-80: the quantizers afterwards, and every value computed on each batch *)
Definition trace_minmax (net : list cnode) (reset : bool) (tab : nat -> quant) (batches : list (list (tensor Q))) :=
  trace_batches net (mk_nstate (if reset then fun i => quant_reset (tab i) else tab) []) batches.

(** ** the operations of M_Net as functions of their quantized weights *)
Inductive template :=
  | TDense | TEinsum (li lk lo : list nat)                              (* weights: kernel, or kernel and bias *)
  | TConv (pad : padding) (cs : list cdim) (groups cin_g cout_g : nat)
  | TBatchNorm (sh : list nat)                                          (* weights: scale and offset, batch_normalization.py 104-122, 178-184 *)
  | TOther (c : core).                                                  (* no weights *)
Definition core_of (t : template) (ws : list (tensor Q)) : option core :=
  match t, ws with
  | TDense, [k] => Some (CDense k None) | TDense, [k; b] => Some (CDense k (Some b))
  | TEinsum li lk lo, [k] => Some (CEinsum li lk lo k None) | TEinsum li lk lo, [k; b] => Some (CEinsum li lk lo k (Some b))
  | TConv pad cs g ci co, [k] => Some (CConv pad cs g ci co k None) | TConv pad cs g ci co, [k; b] => Some (CConv pad cs g ci co k (Some b))
  | TBatchNorm sh, [s; o] => Some (CBatchNorm sh s o)
  | TOther c, [] => Some c
  | _, _ => None
  end.
Definition net_op (t : template) (a : act) (ws : list (tensor Q)) (x : tin) : option (tensor Q) :=
  do c <- core_of t ws; do y <- core_call c x; Some (tmap (act_fn a) y).
(** the layer of M_Net that inference with the quantizers [tab] amounts to *)
Definition frozen_iq (tab : nat -> quant) (iq : iqs) : option quants :=
  match iq with IqNone => None | IqOne id => Some (QSingle (tab id)) | IqMany ids => Some (QMulti (map tab ids)) end.
Definition frozen_ws (tab : nat -> quant) (ws : list (option nat * tensor Q)) : option (list (tensor Q)) :=
  opt_all (map (fun w => match fst w with Some id => quant_call (tab id) (snd w) | None => Some (snd w) end) ws).
Definition frozen_layer (tab : nat -> quant) (iq : iqs) (ws : list (option nat * tensor Q)) (t : template) (a : act) (oq : option nat) : option layer :=
  do qs <- frozen_ws tab ws; do c <- core_of t qs; Some (LQ (frozen_iq tab iq) c a (option_map tab oq)).
(** ** the network as the tracer sees it *)
(** a node whose layer is one of M_Net's *)
Record tnode := mk_tnode { x_iq : iqs; x_ws : list (option nat * tensor Q); x_t : template; x_a : act; x_oq : option nat; x_args : inp nat }.
Definition node_of (n : tnode) : cnode := mk_cnode (mk_clayer (x_iq n) (x_ws n) (net_op (x_t n) (x_a n)) (x_oq n)) (x_args n).
Definition frozen (tab : nat -> quant) (n : tnode) : option layer := frozen_layer tab (x_iq n) (x_ws n) (x_t n) (x_a n) (x_oq n).
Definition frozen_nodes (tab : nat -> quant) (net : list tnode) : option (list (layer * inp nat)) := opt_all (map (fun n => do l <- frozen tab n; Some (l, x_args n)) net).
(** the first positional argument of a layer's call, core/base.py 82-95 *)
Definition varg_of (x : tin) : varg (tensor Q) := match x with One v => VArr v | Many vs => VList (map VArr vs) end.
Definition indices_in (a : inp nat) : list nat := match a with One i => [i] | Many is => is end.
Definition model_arg (a : inp nat) : arg := match a with One i => ATensor (dec i) | Many is => AList (map (fun i => ATensor (dec i)) is) end.
(** main.py 35-52: the nodes of the functional model, the last node at depth 0, the inputs at the largest depth; value [i] is called [dec i] *)
Fixpoint model_nodes (n : nat) (ls : list (layer * inp nat)) : list (nat * list (opobj layer)) :=
  match ls with
  | [] => []
  | (l, a) :: ls' => (List.length ls', [mk_op (KLayer l) "layer"%string [model_arg a] [] [dec n] (map dec (indices_in a))]) :: model_nodes (S n) ls'
  end.
Definition model_of (n_in : nat) (ls : list (layer * inp nat)) (outs : list nat) : model layer :=
  mk_model (map dec (seq 0 n_in)) ((List.length ls, [mk_op KInput "input"%string [] [] (map dec (seq 0 n_in)) []]) :: model_nodes n_in ls) (map dec outs).
