(** Specification of a functional model: the data-flow equations. *)
From Coq Require Import String.
From Verif Require Import Num M_Trace.
Local Open Scope string_scope.

Section Spec.
  Context {V layer : Type} (replay : layer -> list (varg V) -> list (string * varg V) -> option (list (string * list V))).
  Notation model := (@model layer). Notation opobj := (@opobj layer).

  Definition is_input (o : opobj) : bool := match o_kind o with KInput => true | _ => false end.
  Definition all_ops (m : model) : list opobj := flat_map snd (m_nodes_by_depth m).
  Definition op_at (m : model) (d : nat) (o : opobj) : Prop := exists os, In (d, os) (m_nodes_by_depth m) /\ In o os.

  (** the depths of the operations are 0, 1, ..., D, each listed once *)
  Definition contiguous (m : model) : Prop :=
    NoDup (map fst (m_nodes_by_depth m)) /\ exists D, forall d, In d (map fst (m_nodes_by_depth m)) <-> (d <= D)%nat.

  (** an argument under a valuation of the tensors *)
  Fixpoint arg_value (val : string -> option V) (a : arg) : option (varg V) :=
    match a with
    | ATensor t => match val t with Some v => Some (VArr v) | None => None end
    | AList l => match opt_all (map (arg_value val) l) with Some vs => Some (VList vs) | None => None end
    | AConst n => Some (VConst n)
    end.
  Fixpoint tensors_of (a : arg) : list string :=
    match a with ATensor t => [t] | AList l => flat_map tensors_of l | AConst _ => [] end.
  (** the arrays in an argument, in order: what Keras passes to the inputs of a nested model *)
  Fixpoint arrays_of (a : varg V) : list V :=
    match a with VArr v => [v] | VList l => flat_map arrays_of l | VConst _ => [] end.

  (** [evaluates n m ins outs]: some valuation of the tensors of [m] satisfies all data-flow equations
      (inputs, one per operation, outputs); [n] bounds the nesting of models *)
  Fixpoint evaluates (n : nat) (m : model) (ins outs : list V) : Prop :=
    match n with
    | 0%nat => False
    | S n' =>
        exists val : string -> option V,
          map val (m_inputs m) = map Some ins /\
          map val (m_outputs m) = map Some outs /\
          forall o, In o (all_ops m) -> is_input o = false ->
            exists args kwargs final,
              map (arg_value val) (o_args o) = map Some args /\
              map (fun ka => (fst ka, arg_value val (snd ka))) (o_kwargs o) = map (fun ka => (fst ka, Some (snd ka))) kwargs /\
              map val (o_produces o) = map Some final /\
              match o_kind o with
              | KInput => True
              | KLayer l => exists d, replay l args kwargs = Some d /\ assoc "final" d = Some final
              | KModel sub => evaluates n' sub (flat_map arrays_of args) final
              end
    end.

  (** what Keras guarantees of a functional model: depths are 0..max without repetition; the arguments
      of a node only use its required tensors; these are inputs of the model or come from nodes of a
      larger depth; nested models likewise.  [direct]: nested models are called as sub(x) or
      sub(x, y), not sub([x, y]). *)
  Definition direct (o : opobj) : Prop := forall a, In a (o_args o) -> exists t, a = ATensor t.
  Fixpoint well_formed (n : nat) (m : model) : Prop :=
    match n with
    | 0%nat => False
    | S n' =>
        NoDup (map fst (m_nodes_by_depth m)) /\
        (exists D, forall d, In d (map fst (m_nodes_by_depth m)) <-> (d <= D)%nat) /\
        (forall t, In t (m_outputs m) -> In t (m_inputs m) \/ exists d o, op_at m d o /\ is_input o = false /\ In t (o_produces o)) /\
        forall d o, op_at m d o ->
          (forall t, In t (o_requires o) -> In t (m_inputs m) \/ exists d' o', (d < d')%nat /\ op_at m d' o' /\ is_input o' = false /\ In t (o_produces o')) /\
          (forall a, In a (o_args o) -> incl (tensors_of a) (o_requires o)) /\
          (forall ka, In ka (o_kwargs o) -> incl (tensors_of (snd ka)) (o_requires o)) /\
          (forall sub, o_kind o = KModel sub -> direct o /\ well_formed n' sub)
    end.
End Spec.

(** no occurrence of a character in a string *)
Fixpoint free_of (c : Ascii.ascii) (s : string) : Prop :=
  match s with EmptyString => True | String a s' => a <> c /\ free_of c s' end.
