(** C51: QEinsum computes the einsum its equation denotes, ellipsis included. *)
From Verif Require Import Num M_State M_Mapper S_Mapper M_Contr M_Ebops M_Ops S_Ops S_Einsum M_Einsum L_Einsum.
From Coq Require Import Permutation.

(** The meaning of an equation is a function of the operands: at most one value. *)
Theorem C51_einsum_functional :
  forall flag q xs y y', is_einsum flag q xs y -> is_einsum flag q xs y' -> same_tensor y y'.
Proof. exact einsum_functional. Qed.
Print Assumptions C51_einsum_functional.
(** Whatever order the set of free letters is iterated in, the layer's output is exactly the einsum of the equation the user
    wrote, for any number of operands and any number of axes under the ellipsis. *)
Theorem C51_layer_computes_equation :
  forall flag order q xs y, set_order order -> letters_covered q ->
  (forall dims es, operands_fit dims es q xs -> enough_letters q (length es)) -> (exists y0, is_einsum flag q xs y0) ->
  (layer_call flag order q xs y <-> is_einsum flag q xs y).
Proof. exact layer_iff. Qed.
Print Assumptions C51_layer_computes_equation.
(** EBOPs: the total of the products of bit-widths over all output elements and all summed coordinates *)
Theorem C51_ebops_total :
  forall flag order q bits y v, layer_call flag order q bits y -> layer_ebops flag order q bits v ->
  v == qsum (map (at_ y) (indices (shape y))).
Proof. exact layer_ebops_sum. Qed.
Print Assumptions C51_ebops_total.
Theorem C51_ebops_defined :
  forall order q bits dims es flag, operands_fit dims es q bits -> output_legal flag es q -> set_order order -> letters_covered q -> enough_letters q (length es) ->
  length es <> 3%nat -> exists v, layer_ebops flag order q bits v.
Proof. exact layer_ebops_exists. Qed.
Print Assumptions C51_ebops_defined.
Theorem C51_ebops_monotone :
  forall flag order q xs ys v w, Forall2 (fun x y => shape x = shape y /\ forall i, 0 <= at_ x i <= at_ y i) xs ys ->
  layer_ebops flag order q xs v -> layer_ebops flag order q ys w -> 0 <= v <= w.
Proof. exact ebops_between. Qed.
Print Assumptions C51_ebops_monotone.
(** The hardware replay, sample by sample, when the batch axis of both operands and of the output is one letter,
    or the first axis under the ellipsis *)
Theorem C51_traced_einsum :
  forall flag order q xs y n, batch_first q -> set_order order -> letters_covered q ->
  (forall dims es, operands_fit dims es q xs -> enough_letters q (length es)) -> length xs = 2%nat -> is_einsum flag q xs y -> (forall x, In x xs -> batch_of n x) ->
  ((exists b, batch_letter b q) \/ forall dims es, operands_fit dims es q xs -> es <> []) ->
  exists q', build order q (ranks xs) = Some q' /\ layer_call flag order q xs y /\
    forall s, (s < n)%nat -> exists z, replay_einsum flag q' (map (sample s) xs) z /\ same_tensor (sample s y) z.
Proof. exact layer_replay_same. Qed.
Print Assumptions C51_traced_einsum.
(** A built layer saves the expanded equation; the reloaded layer builds to that very equation in any process. *)
Theorem C51_reload :
  forall dims es q xs order order' q', operands_fit dims es q xs -> set_order order -> letters_covered q -> enough_letters q (length es) ->
  saved_equation order q (Some (ranks xs)) = Some q' -> build order' q' (ranks xs) = Some q'.
Proof. exact reload_same. Qed.
Print Assumptions C51_reload.

(** Without [letters_covered] the layer can give another tensor of the same shape, silently, and which one depends on the
    iteration order of a set of strings, that is on the process: "...a,bc->...a". *)
Theorem C51_letter_clash_refuted :
  forall flag, exists q xs order order' y y',
  set_order order /\ set_order order' /\ is_einsum flag q xs y /\ layer_call flag order q xs y /\ layer_call flag order' q xs y' /\ shape y = shape y' /\ ~ same_tensor y y'.
Proof. exact clash_refuted. Qed.
Print Assumptions C51_letter_clash_refuted.
(** An ellipsis of three axes is left in the equation, as "..." has three characters; where an ellipsis must appear in the output the EBOPs
    cannot be computed. *)
Theorem C51_ebops_three_axes_refuted :
  forall order q bits dims es, operands_fit dims es q bits -> length es = 3%nat -> forall v, ~ layer_ebops false order q bits v.
Proof. exact layer_ebops_3_refused. Qed.
Print Assumptions C51_ebops_three_axes_refuted.

(** ** batched matrix product "...ab,...bc->...ac" on a 3 x 2 x 2 and a 3 x 2 x 1 tensor *)
Definition ex_eq : equation := mk_eq [[Ell; Let 0; Let 1]; [Ell; Let 1; Let 2]] [Ell; Let 0; Let 2].
Definition ex_x : tensor Q := mk_tensor [3; 2; 2]%nat (fun i => inject_Z (Z.of_nat (nth 0 i 0 + 2 * nth 1 i 0 + nth 2 i 0)%nat)).
Definition ex_y : tensor Q := mk_tensor [3; 2; 1]%nat (fun i => inject_Z (Z.of_nat (1 + nth 1 i 0)%nat)).
Definition ex_dims (c : nat) : nat := match c with 2%nat => 1%nat | _ => 2%nat end.
Example ex_fit : operands_fit ex_dims [3%nat] ex_eq [ex_x; ex_y].
Proof.
  split; [constructor; [reflexivity|constructor; [reflexivity|constructor]]|]. split; [constructor; [cbn; lia|constructor; [cbn; lia|constructor]]|].
  intros _. eexists. split; [left; reflexivity|left; reflexivity].
Qed.
Example ex_legal : output_legal false [3%nat] ex_eq.
Proof.
  split; [constructor; [intros [X|[]]; discriminate|constructor; [intros []|constructor]]|]. split; [cbn; lia|].
  split; [|split; [intros _; eexists; split; [left; reflexivity|left; reflexivity]|intros _ _; left; reflexivity]].
  intros c [<-|[<-|[]]]; [eexists; split; [left; reflexivity|left; reflexivity]|eexists; split; [right; left; reflexivity|right; left; reflexivity]].
Qed.
Example ex_covered : letters_covered ex_eq.
Proof. intros t c [<-|[<-|[]]] H; exfalso; apply H; left; reflexivity. Qed.
Example ex_enough : enough_letters ex_eq 1. Proof. unfold enough_letters. vm_compute. repeat constructor. Qed.
Example C51_ex_build : build (@rev nat) ex_eq [3%nat; 3%nat] = Some (mk_eq [[Let 51; Let 0; Let 1]; [Let 51; Let 1; Let 2]] [Let 51; Let 0; Let 2]).
Proof. reflexivity. Qed.
Example C51_ex_value : map (fun i => Qred (at_ (einsum_result ex_dims [3%nat] ex_eq [ex_x; ex_y]) i)) (indices [3; 2; 1]%nat) = [2; 8; 5; 11; 8; 14].
Proof. vm_compute. reflexivity. Qed.
Example C51_ex_call : layer_call false (@rev nat) ex_eq [ex_x; ex_y] (einsum_result ex_dims [3%nat] ex_eq [ex_x; ex_y]).
Proof.
  apply (layer_is_einsum false _ _ _ _ ex_dims [3%nat]); [apply ex_fit|apply ex_legal|intros l; symmetry; apply Permutation_rev|apply ex_covered|apply ex_enough|split; [reflexivity|intros; reflexivity]].
Qed.
(** five operand axes: the ellipsis has three axes and stays *)
Example C51_ex_three : build (fun l => l) ex_eq [5%nat; 5%nat] = Some ex_eq. Proof. reflexivity. Qed.
Example C51_ex_refused : build (fun l => l) ex_eq [4%nat; 3%nat] = None /\ build (fun l => l) ex_eq [1%nat; 1%nat] = None. Proof. split; reflexivity. Qed.
(** with the batch letter written: "d...ab,d...bc->d...ac" *)
Example C51_ex_batch : batch_letter 3 (mk_eq [[Let 3; Ell; Let 0; Let 1]; [Let 3; Ell; Let 1; Let 2]] [Let 3; Ell; Let 0; Let 2]).
Proof. intros t [<-|[<-|[<-|[]]]]; (eexists; split; [reflexivity|cbn; intros [X|[X|[]]]; discriminate]). Qed.
Example C51_ex_batch_ell : batch_first ex_eq. Proof. right. intros t [<-|[<-|[<-|[]]]]; (eexists; reflexivity). Qed.
