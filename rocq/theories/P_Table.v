(** C34: lookup-table layers equal the function they tabulate. *)
From Verif Require Import Num M_Fixed S_Fixed L_Fixed M_Wrapper M_Ebops M_Table L_Table.

(** A variable with values l, l+s, ..., l+N*s: tabulating any function and looking the value up is the
    function, for every value the variable can take; the table has one entry per value *)
Theorem C34_lookup_is_the_function :
  forall v N f x, var_ok v N -> var_value v N x -> Proper (Qeq ==> Qeq) f ->
    hw_apply v f x == f x /\ length (apply_table v f) = S N.
Proof. intros v N f x V X P. split; [exact (apply_exact v N f x V X P)|exact (apply_length v N f V)]. Qed.
Print Assumptions C34_lookup_is_the_function.
(** QUnaryFunctionLUT / QAffinedUnaryFunctionLUT behind an input quantizer of any format and mode: the
    hardware table gives the layer's value for every real-world input *)
Theorem C34_unary_lut_layer :
  forall act affined rm om k i f x, (0 < kz k + i + f)%Z -> Proper (Qeq ==> Qeq) act ->
    let xq := base_call rm om false k i f x in
    replay_lut (format_lhs om k i f) act affined xq == lut_call act affined xq.
Proof. intros act affined rm om k i f x H P xq. exact (lut_exact _ _ act affined xq (format_var om k i f H) (format_value rm om k i f x H) P). Qed.
Print Assumptions C34_unary_lut_layer.
(** with 2^(k+i+f) entries *)
Theorem C34_one_entry_per_code :
  forall f' om k i f, (0 < kz k + i + f)%Z -> om <> SAT_SYM ->
    Z.of_nat (length (apply_table (format_lhs om k i f) f')) = (2 ^ (kz k + i + f))%Z.
Proof. intros f' om k i f H S. rewrite (apply_length _ _ f' (format_var om k i f H)). exact (format_codes om k i f H S). Qed.
Print Assumptions C34_one_entry_per_code.

(** QDenseT: whatever the ranges of the incoming variables (so whatever table sizes occur, in whatever
    order), the hardware (tables grouped by size, batch norm folded in, entries quantized, looked up and
    summed) computes the layer's output for every input, at every leading position and output *)
Theorem C34_dense_table :
  forall L act' quant vars codes xq n_batch,
    length vars = (n_batch * tl_in L * tl_out L)%nat ->
    (forall p, (p < length vars)%nat -> var_ok (nth p vars dflt_lhs) (codes p) /\ var_value (nth p vars dflt_lhs) (codes p) (xq p)) ->
    translates act' (tl_net L) ->
    (forall p x y, x == y -> quant p x == tl_toq L p y) ->
    (forall bn, tl_bn L = Some bn -> bn_beta bn <> None) ->
    forall b o act, (b < n_batch)%nat -> (o < tl_out L)%nat -> Proper (Qeq ==> Qeq) act ->
    exists y, replay_dense_table L act' quant vars xq b o = Some y /\ act y == dense_t_call L act xq b o.
Proof. exact dense_table_exact. Qed.
Print Assumptions C34_dense_table.
(** not claimed: batch norm without center, activations that are not translated exactly, and output
    quantizers with scaler or affine map.  There the claim fails: *)
Theorem C34_no_center_refuted :
  forall bn o x, bn_beta bn = None -> replay_bn bn o x == bn_apply bn o x + 1.
Proof. exact replay_bn_wrong. Qed.
Print Assumptions C34_no_center_refuted.
Theorem C34_hard_silu_refuted : exists x, ~ np_hard_silu x == keras_hard_silu x.
Proof. exists 1. vm_compute. discriminate. Qed.
Print Assumptions C34_hard_silu_refuted.
Theorem C34_toq_scaler_refuted :
  exists w k i f x, wrapper_ok w /\ ~ base_call RND SAT false k i f x == wrapper_call w (base_call RND SAT false k i f) false x.
Proof.
  exists (mk_wrapper (Some 2) None None), true, 2%Z, 0%Z, 1. split; [|vm_compute; discriminate].
  split; [intros s E; injection E as <-; discriminate|]. split; [discriminate|discriminate].
Qed.
Print Assumptions C34_toq_scaler_refuted.

(** ** a concrete layer: 2 inputs, 2 outputs, one hidden layer of 2 ReLU units, batch norm, two leading
    positions, variables with different table sizes *)
Definition ex_act' (a : Q -> Q) : Q -> Q := a.
Definition ex_net : list elayer :=
  [mk_elayer (fun c _ e => inject_Z (Z.of_nat c - 1) + inject_Z (Z.of_nat e)) (Some (fun c e => inject_Z (Z.of_nat (c + e)) * (1#2))) 1 2 np_relu;
   mk_elayer (fun c d _ => inject_Z (Z.of_nat (c + d)) - 2) None 2 1 (fun x => x)].
Definition ex_bn := mk_bnorm None (Some (fun o => inject_Z (Z.of_nat o) * (1#4))) (fun _ => 1) (fun o => inject_Z (Z.of_nat (S o))).
Definition ex_L : table_layer := mk_table 2 2 ex_net (Some ex_bn) (1#2) (fun p => base_call RND SAT false true (Z.of_nat (2 + p mod 2)) 1).
Definition ex_vars : list lhs :=
  [mk_lhs (-1) 1 (1#2); mk_lhs 0 (3#4) (1#4); mk_lhs (-1) 1 (1#2); mk_lhs 2 2 1; mk_lhs (-2) 1 1; mk_lhs (-1) 1 (1#2); mk_lhs 0 (3#4) (1#4); mk_lhs (-2) 1 1].
Definition ex_codes (p : nat) : nat := nth p [4; 3; 4; 0; 3; 4; 3; 3]%nat 0%nat.
Definition ex_xq (p : nat) : Q := nth p [1#2; 3#4; -(1); 2; -(2); 1#2; 1#4; 1] 0.
Example C34_hypotheses_hold :
  length ex_vars = (2 * tl_in ex_L * tl_out ex_L)%nat /\
  (forall p, (p < length ex_vars)%nat -> var_ok (nth p ex_vars dflt_lhs) (ex_codes p) /\ var_value (nth p ex_vars dflt_lhs) (ex_codes p) (ex_xq p)) /\
  translates ex_act' (tl_net ex_L) /\ (forall p x y, x == y -> tl_toq ex_L p x == tl_toq ex_L p y) /\
  (forall bn, tl_bn ex_L = Some bn -> bn_beta bn <> None).
Proof.
  split; [reflexivity|]. split; [|split; [|split]].
  - intros p Hp. assert (T : exists t, (t <= ex_codes p)%nat /\ nth p [3; 3; 0; 0; 0; 3; 1; 3]%nat 0%nat = t) by (exists (nth p [3; 3; 0; 0; 0; 3; 1; 3]%nat 0%nat); split; [do 8 (destruct p as [|p]; [vm_compute; lia|]); cbn in Hp; lia|reflexivity]).
    destruct T as (t & Ht & Et). split; [split|exists t; split; [exact Ht|subst t]]; clear Ht;
      do 8 (destruct p as [|p]; [vm_compute; reflexivity|]); cbn in Hp; lia.
  - intros l [<-|[<-|[]]] x y E; cbn; [unfold np_relu; rewrite E; reflexivity|exact E].
  - intros p x y E. cbn [tl_toq ex_L]. rewrite E. reflexivity.
  - intros bn E. injection E as <-. discriminate.
Qed.
Example C34_case :
  replay_dense_table ex_L ex_act' (tl_toq ex_L) ex_vars ex_xq 1 1 = Some (dense_t_call ex_L (fun x => x) ex_xq 1 1) /\
  dense_t_call ex_L (fun x => x) ex_xq 1 1 == 6 /\ raw_tables 4 ex_net ex_act' ex_vars 1 <> None.
Proof. split; [vm_compute; reflexivity|]. split; vm_compute; [reflexivity|discriminate]. Qed.
