(** Model of the model tracer /repo/src/hgq/_dais_tracer/main.py: replay of a Keras functional
    model, with nested models and reused layers.

    Arrays and Keras layers are abstract: [V] is the type of traced arrays, [layer] of Keras
    operations, and [replay l args kwargs] what the registered replay class returns for the layer: a
    dictionary of named results that contains 'final' (layers/_base.py 90-142), or [None] when it
    raises. *)
From Coq Require Import String DecimalString.
From Verif Require Import Num.
Local Open Scope string_scope.

(** ** MaybeRename, main.py 22-32 *)
Notation counter := (list (string * nat)).
Fixpoint assoc {A} (k : string) (d : list (string * A)) : option A :=
  match d with [] => None | (k', v) :: d' => if String.eqb k k' then Some v else assoc k d' end.
(** d[k] = v on a dict: keeps the position of an existing key *)
Fixpoint dict_set {A} (k : string) (v : A) (d : list (string * A)) : list (string * A) :=
  match d with
  | [] => [(k, v)]
  | (k', v') :: d' => if String.eqb k k' then (k, v) :: d' else (k', v') :: dict_set k v d'
  end.
(** decimal notation of a natural number, as in an f-string *)
Definition dec (n : nat) : string := NilZero.string_of_uint (Nat.to_uint n).
Definition maybe_rename (c : counter) (name : string) : counter * string :=
  match assoc name c with
  | None => (dict_set name 0%nat c, name)                                          (* 27-29 *)
  | Some n => (dict_set name (S n) c, name ++ "#" ++ dec (S n))                    (* 30-32 *)
  end.
Fixpoint rename_all (c : counter) (names : list string) : list string :=
  match names with
  | [] => []
  | x :: names' => let (c', y) := maybe_rename c x in y :: rename_all c' names'
  end.

Section Tracer.
  Context {V layer : Type}.

  (** arguments of a node: Keras tensors (by name) in nested Python structures *)
  Inductive arg := ATensor (t : string) | AList (l : list arg) | AConst (n : nat).
  Inductive varg := VArr (v : V) | VList (l : list varg) | VConst (n : nat).

  (** OpObj, main.py 13-19: operation, operation.name, args, kwargs, produces, requires;
      a model: inputs, _nodes_by_depth, outputs *)
  Inductive kind := KInput | KLayer (l : layer) | KModel (m : model)
  with opobj := mk_op (k : kind) (name : string) (args : list arg) (kwargs : list (string * arg)) (produces requires : list string)
  with model := mk_model (inputs : list string) (nodes_by_depth : list (nat * list opobj)) (outputs : list string).
  Definition o_kind (o : opobj) : kind := let (k, _, _, _, _, _) := o in k.
  Definition o_name (o : opobj) : string := let (_, n, _, _, _, _) := o in n.
  Definition o_args (o : opobj) : list arg := let (_, _, a, _, _, _) := o in a.
  Definition o_kwargs (o : opobj) : list (string * arg) := let (_, _, _, kw, _, _) := o in kw.
  Definition o_produces (o : opobj) : list string := let (_, _, _, _, p, _) := o in p.
  Definition o_requires (o : opobj) : list string := let (_, _, _, _, _, r) := o in r.
  Definition m_inputs (m : model) : list string := let (i, _, _) := m in i.
  Definition m_nodes_by_depth (m : model) : list (nat * list opobj) := let (_, n, _) := m in n.
  Definition m_outputs (m : model) : list string := let (_, _, o) := m in o.

  (** parse_model, main.py 35-52 (the conversion of a node to an OpObj copies its fields); [None]: KeyError for
      a missing depth, ValueError for an empty dict *)
  Fixpoint depth_get (d : nat) (l : list (nat * list opobj)) : option (list opobj) :=
    match l with [] => None | (d', v) :: l' => if (d =? d')%nat then Some v else depth_get d l' end.
  Fixpoint opt_all {A} (l : list (option A)) : option (list A) :=
    match l with
    | [] => Some []
    | Some x :: l' => match opt_all l' with Some xs => Some (x :: xs) | None => None end
    | None :: _ => None
    end.
  Definition max_depth (l : list (nat * list opobj)) : nat := fold_right Nat.max 0%nat (map fst l).
  Definition parse_model (m : model) : option (list (list opobj)) :=
    match m_nodes_by_depth m with
    | [] => None
    | l => opt_all (map (fun d => depth_get d l) (rev (seq 0 (S (max_depth l)))))
    end.

  Notation tmap := (list (string * V)).
  (** replace_tensors, main.py 55-64 *)
  Fixpoint replace_tensors (tm : tmap) (a : arg) : option varg :=
    match a with
    | ATensor t => match assoc t tm with Some v => Some (VArr v) | None => None end
    | AList l => match opt_all (map (replace_tensors tm) l) with Some vs => Some (VList vs) | None => None end
    | AConst n => Some (VConst n)
    end.
  Definition replace_kwargs (tm : tmap) (kw : list (string * arg)) : option (list (string * varg)) :=
    opt_all (map (fun ka => match replace_tensors tm (snd ka) with Some v => Some (fst ka, v) | None => None end) kw).

  (** a dictionary of named result tuples *)
  Notation dump := (list (string * list V)).
  Context (replay : layer -> list varg -> list (string * varg) -> option dump).

  (** zip(keys, values) written into the tensor map: main.py 89-91 and 128-129; a zip stops at the shorter *)
  Fixpoint set_zip (tm : tmap) (ks : list string) (vs : list V) : tmap :=
    match ks, vs with k :: ks', v :: vs' => set_zip (dict_set k v tm) ks' vs' | _, _ => tm end.
  (** the inputs of a nested model must be arrays (da_tensor is used as one) *)
  Fixpoint all_arr (l : list varg) : option (list V) :=
    match l with [] => Some [] | VArr v :: l' => match all_arr l' with Some vs => Some (v :: vs) | None => None end | _ => None end.

  Record tstate := mk_tstate { s_tm : tmap; s_trace : dump; s_names : counter; s_log : list (opobj * dump) (* the evaluated operations and their results, in order; not in the code, read by the theorems only *) }.

  Definition key (n_nested : nat) (name k : string) : string :=                      (* 133 *)
    match n_nested with 0%nat => "/" ++ name ++ "/" ++ k | _ => name ++ "/" ++ k end.
  Definition record (n_nested : nat) (name : string) (d tr : dump) : dump :=          (* 131-134 *)
    fold_left (fun tr kv => dict_set (key n_nested name (fst kv)) (snd kv) tr) d tr.

  (** the body of the loop, main.py 101-134, [sub] traces a nested model *)
  Definition trace_op (sub : model -> list V -> option dump) (n_nested : nat) (o : opobj) (s : tstate) : option tstate :=
    if forallb (fun t => match assoc t (s_tm s) with Some _ => true | None => false end) (o_requires o) then
      match opt_all (map (replace_tensors (s_tm s)) (o_args o)), replace_kwargs (s_tm s) (o_kwargs o) with
      | Some args, Some kwargs =>
          match o_kind o with
          | KInput => Some s
          | k =>
              let d := match k with
                       | KModel m => match all_arr args with Some vs => sub m vs | None => None end
                       | KLayer l => replay l args kwargs
                       | KInput => None
                       end in
              match d with
              | None => None
              | Some d =>
                  match assoc "final" d with
                  | None => None
                  | Some final =>
                      let (c, name) := maybe_rename (s_names s) (o_name o) in
                      Some (mk_tstate (set_zip (s_tm s) (o_produces o) final) (record n_nested name d (s_trace s)) c (s_log s ++ [(o, d)]))
                  end
              end
          end
      | _, _ => None
      end
    else None.
  Fixpoint trace_ops (sub : model -> list V -> option dump) (n_nested : nat) (os : list opobj) (s : tstate) : option tstate :=
    match os with
    | [] => Some s
    | o :: os' => match trace_op sub n_nested o s with Some s' => trace_ops sub n_nested os' s' | None => None end
    end.
  (** _trace_model, main.py 67-143; [fuel] bounds the nesting of models *)
  Fixpoint trace_model_log (fuel : nat) (n_nested : nat) (m : model) (inputs : list V) : option (dump * list (opobj * dump)) :=
    match fuel with
    | 0%nat => None
    | S fuel' =>
        if (List.length (m_inputs m) =? List.length inputs)%nat then                           (* 88 *)
          match parse_model m with
          | None => None
          | Some levels =>
              match trace_ops (fun m' vs => match trace_model_log fuel' (S n_nested) m' vs with Some (d, _) => Some d | None => None end)
                      n_nested (concat levels)
                      (mk_tstate (set_zip [] (m_inputs m) inputs) [] [] []) with
              | None => None
              | Some s =>
                  match opt_all (map (fun t => assoc t (s_tm s)) (m_outputs m)) with           (* 140 *)
                  | None => None
                  | Some final => Some (dict_set "final" final (s_trace s), s_log s)           (* 141-143 *)
                  end
              end
          end
        else None
    end.
  Definition trace_model fuel n_nested m inputs : option dump :=
    match trace_model_log fuel n_nested m inputs with Some (d, _) => Some d | None => None end.
End Tracer.
Arguments arg : clear implicits. Arguments varg : clear implicits. Arguments kind : clear implicits. Arguments opobj : clear implicits.
Arguments model : clear implicits.
