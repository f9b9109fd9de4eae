(** C29: tracing replays the data-flow graph; C30: recorded names. *)
From Coq Require Import Ascii String Permutation.
From Verif Require Import Num M_Trace S_Trace L_Trace.
Local Open Scope string_scope. Local Open Scope list_scope.

Section C29.
  Context {V layer : Type} (replay : layer -> list (varg V) -> list (string * varg V) -> option (list (string * list V))).

  (** every solution of the data-flow equations is what the tracer computes (so there is only one) *)
  Theorem C29_replay_computes_the_graph :
    forall fuel k m ins outs, well_formed fuel m -> evaluates replay fuel m ins outs ->
    exists d, trace_model replay fuel k m ins = Some d /\ assoc "final" d = Some outs.
  Proof. exact (trace_correct replay). Qed.
  (** every operation other than the input placeholders is evaluated exactly once *)
  Theorem C29_evaluated_once :
    forall fuel k m ins d log, contiguous m -> trace_model_log replay fuel k m ins = Some (d, log) ->
    Permutation (map fst log) (filter (fun o => negb (is_input o)) (all_ops m)).
  Proof. exact (executed_once replay). Qed.
  (** and only after the tensors it reads *)
  Theorem C29_evaluated_after_its_inputs :
    forall fuel k m ins d log, trace_model_log replay fuel k m ins = Some (d, log) ->
    forall l1 o l2, map fst log = l1 ++ o :: l2 -> forall t, In t (o_requires o) -> In t (m_inputs m) \/ exists o', In o' l1 /\ In t (o_produces o').
  Proof. exact (executed_in_order replay). Qed.
  (** a nested model with several inputs, called the usual way sub([x, y]), cannot be traced *)
  Theorem C29_nested_multi_input_refuted :
    forall fuel k m ins o sub l, contiguous m -> In o (all_ops m) -> o_kind o = KModel sub -> (2 <= List.length (m_inputs sub))%nat -> o_args o = [AList l] ->
    trace_model replay fuel k m ins = None.
  Proof. intros fuel k m ins o sub l C Ho Hk _ Ha. exact (nested_list_call_fails replay fuel k m ins o sub l C Ho Hk Ha). Qed.

  (** nothing is overwritten in the record: the i-th evaluated operation's results are all found under
      its (renamed) name *)
  Theorem C30_record_is_complete :
    (forall l a kw d, replay l a kw = Some d -> NoDup (map fst d)) ->
    forall fuel k m ins d log, (forall o, In o (all_ops m) -> free_of "#" (o_name o) /\ free_of "/" (o_name o)) ->
    trace_model_log replay fuel k m ins = Some (d, log) ->
    forall i o dd nm kk v, nth_error log i = Some (o, dd) -> nth_error (rename_all [] (map (fun od => o_name (fst od)) log)) i = Some nm ->
    assoc kk dd = Some v -> assoc (key k nm kk) d = Some v.
  Proof. intros HD fuel k m ins d log HF E. exact (trace_recorded replay HD fuel k m ins d log HF E). Qed.
End C29.
Print Assumptions C29_replay_computes_the_graph.
Print Assumptions C29_evaluated_once.
Print Assumptions C29_evaluated_after_its_inputs.
Print Assumptions C29_nested_multi_input_refuted.
Print Assumptions C30_record_is_complete.

(** the names given to a sequence of layer uses are distinct, however often a layer is used, when no
    layer name contains '#' *)
Theorem C30_names_distinct :
  forall names, Forall (free_of "#") names -> NoDup (rename_all [] names).
Proof. intros names H. exact (rename_distinct names H []). Qed.
Print Assumptions C30_names_distinct.
(** not claimed: layer names with '#'.  There the claim fails: a reused layer "a" and a layer "a#1" collide *)
Theorem C30_hash_in_name_refuted : exists names, ~ NoDup (rename_all [] names).
Proof.
  exists ["a"; "a#1"; "a"]. vm_compute. intros H. inversion H as [|? ? H1 H2]; subst. inversion H2 as [|? ? H3 H4]; subst. apply H3. left. reflexivity.
Qed.
Print Assumptions C30_hash_in_name_refuted.

(** ** concrete cases *)
Definition ex_replay (l : nat) (a : list (varg Z)) (_ : list (string * varg Z)) : option (list (string * list Z)) :=
  match l, a with
  | 0%nat, [VList [VArr x; VArr y]] => Some [("post_iq", [x; y]); ("final", [(x + y)%Z])]
  | 1%nat, [VArr x] => Some [("final", [(2 * x)%Z])]
  | _, _ => None
  end.
(** x -> double -> add(x, double x) -> nested(double, double) -> out; layer "dbl" is used twice *)
Definition ex_sub : @model nat := mk_model ["s_in"]
  [(0%nat, [mk_op (KLayer 1%nat) "dbl" [ATensor "s_1"] [] ["s_2"] ["s_1"]]);
   (1%nat, [mk_op (KLayer 1%nat) "dbl" [ATensor "s_in"] [] ["s_1"] ["s_in"]]);
   (2%nat, [mk_op KInput "inp" [] [] ["s_in"] []])] ["s_2"].
Definition ex_model : @model nat := mk_model ["x"]
  [(3%nat, [mk_op KInput "inp" [] [] ["x"] []]);
   (2%nat, [mk_op (KLayer 1%nat) "dbl" [ATensor "x"] [] ["d"] ["x"]]);
   (1%nat, [mk_op (KLayer 0%nat) "add" [AList [ATensor "x"; ATensor "d"]] [] ["e"] ["x"; "d"]]);
   (0%nat, [mk_op (KModel ex_sub) "sub" [ATensor "e"] [] ["y"] ["e"]; mk_op (KLayer 1%nat) "dbl" [ATensor "e"] [] ["z"] ["e"]])] ["y"; "z"].
Example ex_trace : trace_model ex_replay 2 0 ex_model [5%Z] =
  Some [("/dbl/final", [10%Z]); ("/add/post_iq", [5%Z; 10%Z]); ("/add/final", [15%Z]);
        ("/sub/dbl/final", [30%Z]); ("/sub/dbl#1/final", [60%Z]); ("/sub/final", [60%Z]); ("/dbl#1/final", [30%Z]); ("final", [60%Z; 30%Z])].
Proof. vm_compute. reflexivity. Qed.
Definition ex_val (t : string) : option Z :=
  assoc t [("x", 5%Z); ("d", 10%Z); ("e", 15%Z); ("y", 60%Z); ("z", 30%Z)].
Definition ex_val_sub (t : string) : option Z := assoc t [("s_in", 15%Z); ("s_1", 30%Z); ("s_2", 60%Z)].
Example ex_evaluates : evaluates ex_replay 2 ex_model [5%Z] [60%Z; 30%Z].
Proof.
  exists ex_val. split; [reflexivity|]. split; [reflexivity|]. intros o Ho Hi. cbn in Ho.
  destruct Ho as [<-|[<-|[<-|[<-|[<-|[]]]]]]; [discriminate Hi| | | |].
  - exists [VArr 5%Z], [], [10%Z]. repeat (split; [reflexivity|]). eexists. split; reflexivity.
  - exists [VList [VArr 5%Z; VArr 10%Z]], [], [15%Z]. repeat (split; [reflexivity|]). eexists. split; reflexivity.
  - exists [VArr 15%Z], [], [60%Z]. repeat (split; [reflexivity|]). exists ex_val_sub. split; [reflexivity|]. split; [reflexivity|].
    intros o Ho Hi'. cbn in Ho. destruct Ho as [<-|[<-|[<-|[]]]]; [| |discriminate Hi'].
    + exists [VArr 30%Z], [], [60%Z]. repeat (split; [reflexivity|]). eexists. split; reflexivity.
    + exists [VArr 15%Z], [], [30%Z]. repeat (split; [reflexivity|]). eexists. split; reflexivity.
  - exists [VArr 15%Z], [], [30%Z]. repeat (split; [reflexivity|]). eexists. split; reflexivity.
Qed.
Ltac op_cases := match goal with H : op_at _ _ _ |- _ => destruct H as (os & H1 & H2); cbn in H1; repeat (destruct H1 as [H1|H1]; [injection H1 as <- <-; cbn in H2; repeat (destruct H2 as [H2|H2]; [subst; cbn|]); try contradiction|]); try contradiction end.
Lemma ex_sub_wf : well_formed 1 ex_sub.
Proof.
  split; [|split; [|split]].
  - cbn. repeat constructor; cbn; intuition discriminate.
  - exists 2%nat. intros d. cbn. lia.
  - intros t [<-|[]]. right. exists 0%nat, (mk_op (KLayer 1%nat) "dbl" [ATensor "s_1"] [] ["s_2"] ["s_1"]). split; [eexists; split; [left; reflexivity|left; reflexivity]|]. split; [reflexivity|left; reflexivity].
  - intros d o Ho. op_cases.
    + split; [|split; [|split]].
      * intros t [<-|[]]. right. exists 1%nat, (mk_op (KLayer 1%nat) "dbl" [ATensor "s_in"] [] ["s_1"] ["s_in"]). split; [lia|]. split; [eexists; split; [right; left; reflexivity|left; reflexivity]|]. split; [reflexivity|left; reflexivity].
      * intros a [<-|[]]. cbn. apply incl_refl.
      * intros ka [].
      * discriminate.
    + split; [|split; [|split]].
      * intros t [<-|[]]. left. left. reflexivity.
      * intros a [<-|[]]. cbn. apply incl_refl.
      * intros ka [].
      * discriminate.
    + split; [intros t []|split; [intros a []|split; [intros ka []|discriminate]]].
Qed.
Example ex_well_formed : well_formed 2 ex_model.
Proof.
  split; [|split; [|split]].
  - cbn. repeat constructor; cbn; intuition discriminate.
  - exists 3%nat. intros d. cbn. lia.
  - intros t [<-|[<-|[]]]; right; exists 0%nat; eexists; (split; [eexists; split; [right; right; right; left; reflexivity|]|]).
    + left. reflexivity.
    + split; [reflexivity|left; reflexivity].
    + right. left. reflexivity.
    + split; [reflexivity|left; reflexivity].
  - intros d o Ho. op_cases.
    + split; [intros t []|split; [intros a []|split; [intros ka []|discriminate]]].
    + split; [|split; [|split]].
      * intros t [<-|[]]. left. left. reflexivity.
      * intros a [<-|[]]. cbn. apply incl_refl.
      * intros ka [].
      * discriminate.
    + split; [|split; [|split]].
      * intros t [<-|[<-|[]]]; [left; left; reflexivity|right]. exists 2%nat. eexists. split; [lia|]. split; [eexists; split; [right; left; reflexivity|left; reflexivity]|]. split; [reflexivity|left; reflexivity].
      * intros a [<-|[]]. cbn. apply incl_refl.
      * intros ka [].
      * discriminate.
    + split; [|split; [|split]].
      * intros t [<-|[]]. right. exists 1%nat. eexists. split; [lia|]. split; [eexists; split; [right; right; left; reflexivity|left; reflexivity]|]. split; [reflexivity|left; reflexivity].
      * intros a [<-|[]]. cbn. apply incl_refl.
      * intros ka [].
      * intros sub [= <-]. split; [|exact ex_sub_wf]. intros a [<-|[]]. eauto.
    + split; [|split; [|split]].
      * intros t [<-|[]]. right. exists 1%nat. eexists. split; [lia|]. split; [eexists; split; [right; right; left; reflexivity|left; reflexivity]|]. split; [reflexivity|left; reflexivity].
      * intros a [<-|[]]. cbn. apply incl_refl.
      * intros ka [].
      * discriminate.
Qed.
Example ex_C30 : rename_all [] ["a"; "b"; "a"; "a"; "b"] = ["a"; "b"; "a#1"; "a#2"; "b#1"].
Proof. vm_compute. reflexivity. Qed.
