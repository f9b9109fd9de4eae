(** Properties C17 and C18: batches of a [Dataset]. *)
From Verif Require Import M_Dataset S_Dataset L_Dataset.
From Coq Require Import ZArith List Permutation Lia.

(** C17: without drop_last one pass shows every sample number exactly once (in every tensor of x
    and y at once), in non-empty batches of which at most one is short; without shuffling the
    samples come in order and only the last batch may be short.  [reachable] covers any number of
    epochs and re-batching, any shuffle outcome. *)
Theorem C17_epoch_covers_once :
  forall (A : Type) xs ys n (d : ds A), reachable xs ys n d -> drop_last d = false ->
  exists pss, epoch d pss /\ Permutation (concat pss) (seq 0 n) /\
    (forall ps, In ps pss -> 0 < length ps <= batch_size d) /\
    (forall i j ps ps', nth_error pss i = Some ps -> nth_error pss j = Some ps' ->
       length ps < batch_size d -> length ps' < batch_size d -> i = j) /\
    (shuffle d = false -> concat pss = seq 0 n /\
       forall i ps, nth_error pss i = Some ps -> S i < len d -> length ps = batch_size d).
Proof. exact @epoch_nodrop. Qed.
Print Assumptions C17_epoch_covers_once.
(** what a batch shows determines the sample numbers when the samples are distinguishable *)
Theorem C17_batch_determines_samples :
  forall (A : Type) (d : ds A) idx ps ps', (exists t, In t (x d) /\ NoDup t) ->
    shows d idx ps -> shows d idx ps' -> ps = ps'.
Proof. exact @shows_unique. Qed.
Print Assumptions C17_batch_determines_samples.
Theorem C17_negative_index :
  forall (A : Type) (d : ds A) k, k < len d -> getitem d (- Z.of_nat (S k)) = getitem d (Z.of_nat (len d - S k)).
Proof. exact @negative_index. Qed.
Print Assumptions C17_negative_index.
Theorem C17_index_out_of_range :
  forall (A : Type) (d : ds A) idx, (Z.of_nat (len d) <= idx)%Z -> getitem d idx = None.
Proof. exact @past_the_end. Qed.
Print Assumptions C17_index_out_of_range.

(** C18: with drop_last all batches are full, no sample is shown twice and exactly
    [n mod batch_size] samples are skipped, for every random shift and shuffle. *)
Theorem C18_drop_last_full_disjoint :
  forall (A : Type) xs ys n (d : ds A), reachable xs ys n d -> drop_last d = true ->
  exists pss skipped, epoch d pss /\ Permutation (concat pss ++ skipped) (seq 0 n) /\
    length skipped = n mod batch_size d /\
    (forall ps, In ps pss -> length ps = batch_size d).
Proof. exact @epoch_drop. Qed.
Print Assumptions C18_drop_last_full_disjoint.

(** reachable states: 7 samples in two tensors, batches of 3, shuffled / shifted *)
Definition ex_x : list (list nat) := [[10;11;12;13;14;15;16]; [20;21;22;23;24;25;26]].
Lemma ex_ok : init_ok ex_x (Some [[0;1;2;3;4;5;6]]) 7.
Proof.
  split; [do 2 eexists; split; reflexivity|].
  split; intros t; cbn; intuition (subst; reflexivity).
Qed.
Example C17_case : exists d, reachable ex_x (Some [[0;1;2;3;4;5;6]]) 7 d /\ drop_last d = false /\
  map (getitem d) [0%Z; 1%Z; (-1)%Z; 3%Z] =
  [Some ([[16]; [26]], Some [[6]]); Some ([[10;11;12]; [20;21;22]], Some [[0;1;2]]);
   Some ([[13;14;15]; [23;24;25]], Some [[3;4;5]]); None].
Proof.
  exists (mk_ds ex_x (Some [[0;1;2;3;4;5;6]]) 7 true false 3 0 (Some [2;0;1])).
  split; [|split; reflexivity].
  eapply (r_init _ _ _ true false 3); [exact ex_ok|].
  apply (batched_intro (mk_ds ex_x (Some [[0;1;2;3;4;5;6]]) 7 true false 1 0 None) 3 0 (Some [2;0;1])); cbn; [lia|lia|].
  split; [reflexivity|].
  apply Permutation_sym. apply (Permutation_trans (l' := [0;2;1])); [apply perm_swap|]. apply perm_skip. apply perm_swap.
Qed.
Example C18_case : exists d, reachable ex_x None 7 d /\ drop_last d = true /\
  map (getitem d) [0%Z; 1%Z; 2%Z] =
  [Some ([[11;12;13]; [21;22;23]], None); Some ([[14;15;16]; [24;25;26]], None); None].
Proof.
  exists (mk_ds ex_x None 7 false true 3 1 None).
  split; [|split; reflexivity].
  eapply r_step.
  - eapply (r_init _ _ _ false true 3 (mk_ds ex_x None 7 false true 3 0 None)).
    + split; [do 2 eexists; split; reflexivity|]. split; [intros t; cbn; intuition (subst; reflexivity)|exact I].
    + apply (batched_intro (mk_ds ex_x None 7 false true 1 0 None) 3 0 None); cbn; try lia; reflexivity.
  - apply (step_epoch_begin_drop (mk_ds ex_x None 7 false true 3 0 None) 1); cbn; [reflexivity|lia].
Qed.
