(** Model of the total EBOPs figures of a model.

    Source: /repo/src/hgq/utils/minmax_trace.py 82-99 (trace_minmax), utils/sugar/ebops.py 7-15 (FreeEBOPs),
    utils/sugar/beta_pid.py 41-47 (BaseBetaPID.get_ebops), the [ebops] properties (core/base.py 178-182,
    softmax.py 183-192, attn/mha.py 418-432, attn/linformer.py 156-167, attn/salt.py 188-201,
    rnn/simple_rnn.py 374-378).

    Layers are objects with an identity (Python's id); [None] for the EBOPs variable means enable_ebops is False.
    Quantizers and other sublayers without EBOPs are left out. *)
From Verif Require Import Num.
From Coq Require Import List Bool Arith ZArith.
Import ListNotations.
Local Open Scope Z_scope.

(** a quantized layer without quantized sublayers: identity and EBOPs variable *)
Record leaf := mk_leaf { lf_id : nat; lf_own : option Z }.
(** QSoftmax with its two tables (softmax.py 76-101) *)
Record softmax := mk_sm { sm_id : nat; sm_own : option Z; sm_exp : leaf; sm_inv : leaf }.
(** QMultiHeadAttention (mha.py 148-219) *)
Record attention := mk_attn { at_id : nat; at_own : option Z; at_query : leaf; at_key : leaf; at_value : leaf; at_softmax : softmax; at_output : leaf }.
Inductive obj :=
| Leaf (l : leaf)
| Softmax (s : softmax)
| Attention (a : attention)
| Linformer (a : attention) (lin_k lin_v : leaf)                            (* linformer.py 111-118 *)
| Salt (a : attention) (lin_k lin_v : leaf) (conv : option leaf)           (* salt.py 112-140 *)
| Recurrent (id : nat) (own : option Z) (cell : leaf)                      (* QRNN: not a QLayerBase *)
| Other (id : nat) (subs : list obj).                                      (* nested models, wrappers, plain layers *)

Definition val (o : option Z) : Z := match o with Some z => z | None => 0 end.
(** the [ebops] properties *)
Definition leaf_ebops (l : leaf) : Z := val (lf_own l).
Definition softmax_ebops (s : softmax) : Z := val (sm_own s) + leaf_ebops (sm_exp s) + leaf_ebops (sm_inv s).
Definition attention_ebops (a : attention) : Z :=
  match at_own a with
  | None => 0
  | Some own => leaf_ebops (at_query a) + leaf_ebops (at_key a) + leaf_ebops (at_value a) + softmax_ebops (at_softmax a) + leaf_ebops (at_output a) + own
  end.
Definition linformer_ebops (a : attention) (lk lv : leaf) : Z :=
  match at_own a with None => 0 | Some own => leaf_ebops lk + leaf_ebops lv + own end.
Definition salt_ebops (a : attention) (lk lv : leaf) (conv : option leaf) : Z :=
  match at_own a with
  | None => 0
  | Some own => leaf_ebops lk + leaf_ebops lv + own + match conv with Some c => leaf_ebops c | None => 0 end
  end.
(** getattr(layer, 'enable_ebops', False) *)
Definition is_some {A} (o : option A) : bool := match o with Some _ => true | None => false end.
Definition enabled (o : obj) : bool :=
  match o with
  | Leaf l => is_some (lf_own l) | Softmax s => is_some (sm_own s)
  | Attention a | Linformer a _ _ | Salt a _ _ _ => is_some (at_own a)
  | Recurrent _ own _ => is_some own
  | Other _ _ => false
  end.
(** layer.ebops of a layer that has one *)
Definition reported (o : obj) : Z :=
  match o with
  | Leaf l => leaf_ebops l | Softmax s => softmax_ebops s | Attention a => attention_ebops a
  | Linformer a lk lv => linformer_ebops a lk lv | Salt a lk lv c => salt_ebops a lk lv c
  | Recurrent _ own _ => val own
  | Other _ _ => 0
  end.

Fixpoint zsum (l : list Z) : Z := match l with [] => 0 | x :: l' => x + zsum l' end.
(** trace_minmax, minmax_trace.py 82-85: a dictionary keyed by the layer names, values of a repeated name replaced *)
Fixpoint dict_set (name : nat) (v : Z) (d : list (nat * Z)) : list (nat * Z) :=
  match d with [] => [(name, v)] | (n, w) :: d' => if (n =? name)%nat then (n, v) :: d' else (n, w) :: dict_set name v d' end.
Definition trace_total (layers : list (nat * obj)) : Z :=
  let record := fold_left (fun d p => if enabled (snd p) then dict_set (fst p) (reported (snd p)) d else d) layers [] in
  zsum (map snd record).
(** BaseBetaPID.get_ebops: every layer with an [ebops] attribute; reading it from a QSoftmax whose EBOPs are
    disabled raises (softmax.py 186: convert_to_tensor(None)) *)
Definition pid_total (layers : list (nat * obj)) : option Z :=
  fold_left (fun acc p => match acc, snd p with
                          | None, _ => None
                          | Some z, Softmax s => if is_some (sm_own s) then Some (z + softmax_ebops s) else None
                          | Some z, Other _ _ => Some z
                          | Some z, o => Some (z + reported o)
                          end) layers (Some 0).

(** ** Object graph and Layer._flatten_layers of Keras: depth first with extendleft, skipping seen objects *)
Inductive node := Node (id : nat) (quantized : bool) (own : option Z) (subs : list node).
Definition nid (n : node) : nat := match n with Node i _ _ _ => i end.
Definition leaf_node (l : leaf) : node := Node (lf_id l) true (lf_own l) [].
Definition softmax_node (s : softmax) : node := Node (sm_id s) true (sm_own s) [leaf_node (sm_inv s); leaf_node (sm_exp s)].
Definition attention_subs (a : attention) : list node :=
  [leaf_node (at_query a); leaf_node (at_key a); leaf_node (at_value a); softmax_node (at_softmax a); leaf_node (at_output a)].
Fixpoint to_node (o : obj) : node :=
  match o with
  | Leaf l => leaf_node l
  | Softmax s => softmax_node s
  | Attention a => Node (at_id a) true (at_own a) (attention_subs a)
  | Linformer a lk lv => Node (at_id a) true (at_own a) (leaf_node lk :: leaf_node lv :: attention_subs a)
  | Salt a lk lv c => Node (at_id a) true (at_own a) (leaf_node lk :: leaf_node lv :: match c with Some c => [leaf_node c] | None => [] end ++ attention_subs a)
  | Recurrent id own cell => Node id false own [leaf_node cell]
  | Other id subs => Node id false None (map to_node subs)
  end.
Fixpoint size (n : node) : nat := match n with Node _ _ _ subs => S (fold_right Nat.add 0%nat (map size subs)) end.
Fixpoint flatten (fuel : nat) (yielded : list node) (work : list node) : list node :=
  match fuel, work with
  | S fuel', n :: work' =>
      if existsb (Nat.eqb (nid n)) (map nid yielded) then flatten fuel' yielded work'
      else match n with Node _ _ _ subs => flatten fuel' (yielded ++ [n]) (rev subs ++ work') end
  | _, _ => yielded
  end.
Definition flatten_layers (root : node) : list node := flatten (size root) [] [root].
(** FreeEBOPs.on_epoch_end; the model object itself is a plain layer holding [layers] *)
Definition contribution (n : node) : Z := match n with Node _ q own _ => if q && is_some own then val own else 0 end.
Definition free_total (root : node) : Z := zsum (map contribution (flatten_layers root)).
Definition model_node (id : nat) (layers : list (nat * obj)) : node := to_node (Other id (map snd layers)).
