(** Specification for C39. *)
From Verif Require Import Num M_Total.
From Coq Require Import List Bool Arith ZArith.
Import ListNotations.
Local Open Scope Z_scope.
(** every occurrence of an object below a node *)
Fixpoint occurrences (n : node) : list node := match n with Node _ _ _ subs => n :: flat_map occurrences subs end.
(** one object per identity *)
Definition same_identity_same_object (root : node) : Prop :=
  forall m n, In m (occurrences root) -> In n (occurrences root) -> nid m = nid n -> m = n.
(** no object occurs twice *)
Definition no_sharing (root : node) : Prop := NoDup (map nid (occurrences root)).
(** the EBOPs variable of an object, if it is a quantized layer with EBOPs enabled *)
Definition own_ebops (n : node) : Z := match n with Node _ true (Some z) _ => z | _ => 0 end.
(** sublayers get the enable_ebops setting of the layer that creates them *)
Definition leaf_off (l : leaf) : Prop := lf_own l = None.
Definition softmax_ok (s : softmax) : Prop := sm_own s = None -> leaf_off (sm_exp s) /\ leaf_off (sm_inv s).
Definition attention_ok (a : attention) : Prop :=
  softmax_ok (at_softmax a) /\
  (at_own a = None -> leaf_off (at_query a) /\ leaf_off (at_key a) /\ leaf_off (at_value a) /\ sm_own (at_softmax a) = None /\ leaf_off (at_output a)).
Fixpoint built_ok (o : obj) : Prop :=
  match o with
  | Leaf _ => True
  | Softmax s => softmax_ok s
  | Attention a => attention_ok a
  | Linformer a lk lv => attention_ok a /\ (at_own a = None -> leaf_off lk /\ leaf_off lv)
  | Salt a lk lv c => attention_ok a /\ (at_own a = None -> leaf_off lk /\ leaf_off lv /\ match c with Some c => leaf_off c | None => True end)
  | Recurrent _ _ cell => leaf_off cell
  | Other _ subs => fold_right (fun s P => built_ok s /\ P) True subs
  end.
(** kinds of top level layers whose own figure covers all of their quantized sublayers *)
Definition self_contained (o : obj) : Prop := match o with Leaf _ | Softmax _ | Attention _ => True | _ => False end.
(** what the figure of a top level layer leaves out *)
Definition left_out (o : obj) : Z :=
  match o with
  | Linformer a _ _ | Salt a _ _ _ =>
      leaf_ebops (at_query a) + leaf_ebops (at_key a) + leaf_ebops (at_value a) + softmax_ebops (at_softmax a) + leaf_ebops (at_output a)
  | Other _ _ => zsum (map own_ebops (occurrences (to_node o)))
  | _ => 0
  end.
(** what FreeEBOPs leaves out *)
Definition recurrent_ebops (o : obj) : Z := match o with Recurrent _ own _ => val own | _ => 0 end.
