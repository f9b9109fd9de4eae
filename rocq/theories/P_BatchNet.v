(** C66 on the model of C63 (attention with scores, a lookup table, pooling, einsum, softmax, ...): its batch of two, and the second sample alone *)
From Coq Require Import String.
From Verif Require Import Num M_Fixed M_State M_Wrapper M_Mapper M_Mirror M_Trace S_Trace M_Table M_Net S_Net M_NetX S_NetX M_Ops S_Ops S_Batch P_NetX P_Batch.
Local Open Scope list_scope. Local Open Scope string_scope.
Definition one : tensor Q := mk_tensor [1;3;2]%nat (fun g => match g with _ :: r => at_ ex_x (1%nat :: r) | [] => 0 end).
Definition y_a := out 0 L_abs [VArr one] []. Definition y_m := out 0 L_max [VArr one; VArr y_a] []. Definition y_r := out 0 L_rev [VArr y_m; VConst 7] [].
Definition y_g := out 0 L_drop [VArr y_r] [("training", VConst 0%nat)].
Definition y_h := out 0 L_att [VArr y_g; VArr y_g] ex_kw. Definition y_w := out 1 L_att [VArr y_g; VArr y_g] ex_kw. Definition y_t := out 0 L_tab [VArr y_h] [].
Definition y_p := out 0 L_pool [VArr y_t] []. Definition y_e := out 0 L_ein [VList [VArr y_h; VArr one]] []. Definition y_l := out 0 L_leaky [VArr y_p] []. Definition y_s := out 0 L_soft [VArr y_p] [].
Lemma evaluates_one : evaluates keras_x 1 ex_net [one] [y_e; y_l; y_s; y_w].
Proof.
  exists (fun t => assoc t [("x", one); ("a", y_a); ("m", y_m); ("r", y_r); ("g", y_g); ("h", y_h); ("w", y_w); ("t", y_t); ("p", y_p); ("e", y_e); ("l", y_l); ("s", y_s)]). split; [reflexivity|]. split; [reflexivity|]. intros o Ho Hi. cbn in Ho.
  repeat (destruct Ho as [<-|Ho]; [try discriminate Hi; clear Hi|]); [| | | | | | | | | |destruct Ho].
  - exists [VArr one], [], [y_a]. repeat (split; [reflexivity|]). eexists. split; [apply runs1; vm_compute; reflexivity|reflexivity].
  - exists [VArr one; VArr y_a], [], [y_m]. repeat (split; [reflexivity|]). eexists. split; [apply runs1; vm_compute; reflexivity|reflexivity].
  - exists [VArr y_m; VConst 7], [], [y_r]. repeat (split; [reflexivity|]). eexists. split; [apply runs1; vm_compute; reflexivity|reflexivity].
  - exists [VArr y_r], [("training", VConst 0%nat)], [y_g]. repeat (split; [reflexivity|]). eexists. split; [apply runs1; vm_compute; reflexivity|reflexivity].
  - exists [VArr y_g; VArr y_g], ex_kw, [y_h; y_w]. repeat (split; [reflexivity|]). eexists. split; [apply runs2; vm_compute; reflexivity|reflexivity].
  - exists [VArr y_h], [], [y_t]. repeat (split; [reflexivity|]). eexists. split; [apply runs1; vm_compute; reflexivity|reflexivity].
  - exists [VArr y_t], [], [y_p]. repeat (split; [reflexivity|]). eexists. split; [apply runs1; vm_compute; reflexivity|reflexivity].
  - exists [VList [VArr y_h; VArr one]], [], [y_e]. repeat (split; [reflexivity|]). eexists. split; [apply runs1; vm_compute; reflexivity|reflexivity].
  - exists [VArr y_p], [], [y_l]. repeat (split; [reflexivity|]). eexists. split; [apply runs1; vm_compute; reflexivity|reflexivity].
  - exists [VArr y_p], [], [y_s]. repeat (split; [reflexivity|]). eexists. split; [apply runs1; vm_compute; reflexivity|reflexivity].
Qed.
Lemma same_one : same_sample 2 1 1 0 ex_x one.
Proof. split; [exists 3%nat, [2]%nat; reflexivity|]. split; [exists 3%nat, [2]%nat; reflexivity|]. split; [reflexivity|]. intros i _. reflexivity. Qed.
Example C66_network_case : Forall2 (same_sample 2 1 1 0) [ex_e; ex_l; ex_s; ex_w] [y_e; y_l; y_s; y_w].
Proof. exact (C66_network 1 ex_net 2 1 1 0 [ex_x] [one] _ _ C63_well_formed C63_traceable C63_evaluates evaluates_one ltac:(lia) ltac:(lia) ltac:(constructor; [exact same_one|constructor])). Qed.
