(** C39: the total EBOPs of a model as returned by trace_minmax, logged by FreeEBOPs and used by BetaPID. *)
From Verif Require Import Num M_Total S_Total L_Total.
From Coq Require Import List Bool Arith ZArith Lia.
Import ListNotations.
Local Open Scope Z_scope.

(** FreeEBOPs adds the EBOPs variable of every distinct quantized layer object of the model, at any depth, once *)
Theorem C39_free_counts_every_layer_once :
  forall root objs, same_identity_same_object root -> NoDup objs -> (forall n, In n objs <-> In n (occurrences root)) ->
    free_total root = zsum (map own_ebops objs).
Proof. exact free_total_spec. Qed.
Print Assumptions C39_free_counts_every_layer_once.
(** trace_minmax adds the figures of the model's enabled top level layers (names are unique) *)
Theorem C39_trace_sums_layers :
  forall layers, NoDup (map fst layers) -> trace_total layers = zsum (map (fun p => if enabled (snd p) then reported (snd p) else 0) layers).
Proof. exact trace_total_spec. Qed.
Print Assumptions C39_trace_sums_layers.
(** if two layers had the same name only the later one would be counted *)
Theorem C39_repeated_name :
  forall layers n o o', enabled o = true -> enabled o' = true -> trace_total (layers ++ [(n, o); (n, o')]) = trace_total (layers ++ [(n, o')]).
Proof. exact repeated_name. Qed.
Print Assumptions C39_repeated_name.
(** the two agree on models of plain quantized layers, softmax and multi-head attention layers, in any number *)
Theorem C39_totals_agree :
  forall id layers, NoDup (map fst layers) -> no_sharing (model_node id layers) ->
    (forall p, In p layers -> built_ok (snd p) /\ self_contained (snd p)) ->
    free_total (model_node id layers) = trace_total layers.
Proof. exact totals_agree. Qed.
Print Assumptions C39_totals_agree.
(** for every model without shared layers: the exact difference *)
Theorem C39_difference :
  forall id layers, NoDup (map fst layers) -> no_sharing (model_node id layers) -> (forall p, In p layers -> built_ok (snd p)) ->
    free_total (model_node id layers) + zsum (map (fun p => recurrent_ebops (snd p)) layers) =
    trace_total layers + zsum (map (fun p => left_out (snd p)) layers).
Proof. exact totals_balance. Qed.
Print Assumptions C39_difference.
(** BetaPID steers on the figure trace_minmax reports, unless a QSoftmax has its EBOPs disabled *)
Theorem C39_pid_uses_trace_total :
  forall layers, NoDup (map fst layers) -> (forall n s, In (n, Softmax s) layers -> sm_own s <> None) -> pid_total layers = Some (trace_total layers).
Proof. exact pid_total_spec. Qed.
Print Assumptions C39_pid_uses_trace_total.

(** Linformer attention: trace_minmax misses the projections, the softmax and the output layer *)
Definition sample_attention (i : nat) : attention :=
  mk_attn i (Some 10) (mk_leaf (i + 1) (Some 1)) (mk_leaf (i + 2) (Some 2)) (mk_leaf (i + 3) (Some 3)) (mk_sm (i + 4) (Some 4) (mk_leaf (i + 5) (Some 5)) (mk_leaf (i + 6) (Some 6))) (mk_leaf (i + 7) (Some 7)).
Theorem C39_linformer_refuted :
  exists id layers, NoDup (map fst layers) /\ no_sharing (model_node id layers) /\ (forall p, In p layers -> built_ok (snd p)) /\ trace_total layers < free_total (model_node id layers).
Proof.
  exists 0%nat, [(0%nat, Linformer (sample_attention 1) (mk_leaf 20 (Some 100)) (mk_leaf 21 (Some 200)))].
  split; [repeat constructor; intros []|]. split; [vm_compute; repeat constructor; cbn; lia|]. split; [intros p [<-|[]]; cbn; repeat split; discriminate|]. vm_compute. reflexivity.
Qed.
Print Assumptions C39_linformer_refuted.
(** one projection shared by keys and values: trace_minmax counts it twice *)
Theorem C39_shared_projection_refuted :
  exists id a l, same_identity_same_object (model_node id [(0%nat, Linformer a l l)]) /\ built_ok (Linformer a l l) /\
    trace_total [(0%nat, Linformer a l l)] = val (at_own a) + leaf_ebops l + leaf_ebops l /\ 0 < leaf_ebops l /\
    free_total (model_node id [(0%nat, Linformer a l l)]) = own_ebops (leaf_node l) + own_ebops (Node (at_id a) true (at_own a) []) + zsum (map own_ebops (flat_map occurrences (attention_subs a))).
Proof.
  exists 0%nat, (sample_attention 1), (mk_leaf 20 (Some 100)). split.
  - intros m n Hm Hn. vm_compute in Hm, Hn. repeat (destruct Hm as [<-|Hm]; [repeat (destruct Hn as [<-|Hn]; [cbn; intros E; (reflexivity || discriminate)|]); destruct Hn|]). destruct Hm.
  - split; [cbn; repeat split; discriminate|]. split; [reflexivity|]. split; reflexivity.
Qed.
Print Assumptions C39_shared_projection_refuted.
(** recurrent layers are missing from FreeEBOPs, layers in nested models or wrappers from trace_minmax *)
Theorem C39_recurrent_refuted :
  exists id layers, NoDup (map fst layers) /\ no_sharing (model_node id layers) /\ (forall p, In p layers -> built_ok (snd p)) /\ free_total (model_node id layers) < trace_total layers.
Proof.
  exists 0%nat, [(0%nat, Recurrent 1 (Some 50) (mk_leaf 2 None))].
  split; [repeat constructor; intros []|]. split; [vm_compute; repeat constructor; cbn; lia|]. split; [intros p [<-|[]]; reflexivity|]. vm_compute. reflexivity.
Qed.
Print Assumptions C39_recurrent_refuted.
Theorem C39_nested_refuted :
  exists id layers, NoDup (map fst layers) /\ no_sharing (model_node id layers) /\ (forall p, In p layers -> built_ok (snd p)) /\ trace_total layers = 0 /\ 0 < free_total (model_node id layers).
Proof.
  exists 0%nat, [(0%nat, Other 1 [Leaf (mk_leaf 2 (Some 50))])].
  split; [repeat constructor; intros []|]. split; [vm_compute; repeat constructor; cbn; lia|]. split; [intros p [<-|[]]; cbn; tauto|]. split; vm_compute; reflexivity.
Qed.
Print Assumptions C39_nested_refuted.
(** BetaPID with a QSoftmax whose EBOPs are disabled raises *)
Theorem C39_pid_disabled_softmax_refuted : exists layers, NoDup (map fst layers) /\ (forall p, In p layers -> built_ok (snd p)) /\ pid_total layers = None.
Proof.
  exists [(0%nat, Softmax (mk_sm 1 None (mk_leaf 2 None) (mk_leaf 3 None)))]. split; [repeat constructor; intros []|]. split; [|reflexivity]. intros p [<-|[]]. cbn. intros _. split; reflexivity.
Qed.
Print Assumptions C39_pid_disabled_softmax_refuted.

Example C39_nontrivial :
  let layers := [(0%nat, Leaf (mk_leaf 1 (Some 30))); (1%nat, Attention (sample_attention 10)); (2%nat, Softmax (mk_sm 30 (Some 8) (mk_leaf 31 None) (mk_leaf 32 (Some 9)))); (3%nat, Leaf (mk_leaf 40 None))] in
  NoDup (map fst layers) /\ no_sharing (model_node 0 layers) /\ (forall p, In p layers -> built_ok (snd p) /\ self_contained (snd p)) /\ trace_total layers = 85 /\ free_total (model_node 0 layers) = 85.
Proof.
  cbv zeta. split; [repeat constructor; cbn; lia|]. split; [vm_compute; repeat constructor; cbn; lia|]. split; [|split; reflexivity].
  intros p Hp. cbn [In] in Hp. repeat (destruct Hp as [<-|Hp]; [cbn; repeat split; discriminate|]). destruct Hp.
Qed.
