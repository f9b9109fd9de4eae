(** C67: multiplications that cost nothing contribute nothing; a layer that reports zero EBOPs is constant. *)
From Coq Require Import String.
From Verif Require Import Num M_Fixed M_State S_State M_Wrapper M_Mapper S_Mapper M_Contr M_Ebops M_Ops M_Mirror M_Net S_Net S_Ops M_Calib M_Prog S_Prog S_Ebops M_Cost S_Cost S_Batch L_Cost L_Cost2.
Local Open Scope list_scope.

(** an element whose reported width is zero is quantized to zero *)
Theorem C67_no_bits q x y sh t i : silent q -> quant_call q x = Some y -> bits_ (qbits_of q) sh = Some t -> at_ t i == 0 -> at_ y i == 0.
Proof. exact (fun S E B Z => quant_zero q x y sh t i i S E B eq_refl Z). Qed.
Print Assumptions C67_no_bits.

(** a multiplication with cost (product of the two widths) zero has the value zero, for every sample *)
Theorem C67_costless_multiplication q kq x w x' w' bi bk s b r j : silent q -> over_batch (qb_k (qbits_of q)) -> silent kq -> quant_call q x = Some x' -> quant_call kq w = Some w' ->
  bits_ (qbits_of q) (1%nat :: s) = Some bi -> bits_ (qbits_of kq) (shape w) = Some bk -> at_ bi (0%nat :: r) * at_ bk j == 0 -> at_ x' (b :: r) * at_ w' j == 0.
Proof. exact (costless q kq x w x' w' bi bk s b r j). Qed.
Print Assumptions C67_costless_multiplication.

(** a QDense layer that reports zero EBOPs gives the same result for every input *)
Theorem C67_dense tab iq kq w bias a oq s units pf e B x x' y y' : on_numbers (act_fn a) -> s <> [] -> (0 < units)%nat -> (0 < dense_n_parallel (1%nat :: s))%nat -> pf <> 0%Z ->
  silent (tab iq) -> over_batch (qb_k (qbits_of (tab iq))) -> silent (tab kq) -> widths_ok_opt (bias_bits tab bias) -> shape w = [last s 0%nat; units] ->
  dense_ebops (1%nat :: s) units pf (qbits_of (tab iq)) (qbits_of (tab kq)) (bias_bits tab bias) = Some e -> e == 0 -> shape x = B :: s -> shape x' = B :: s ->
  eval tab (layer_prog (layer_of iq kq w bias TDense a oq) (One x)) = Some y -> eval tab (layer_prog (layer_of iq kq w bias TDense a oq) (One x')) = Some y' -> same_tensor y y'.
Proof. exact (dense_constant tab iq kq w bias a oq s units pf e B x x' y y'). Qed.
Print Assumptions C67_dense.

(** a QConv layer *)
Theorem C67_conv tab iq kq w bias a oq pad cs G gi go pf e x x' y y' : on_numbers (act_fn a) -> (0 < conv_n_parallel pad cs)%nat ->
  silent (tab iq) -> over_batch (qb_k (qbits_of (tab iq))) -> silent (tab kq) -> widths_ok_opt (bias_bits tab bias) ->
  conv_ebops pad cs G gi go pf (qbits_of (tab iq)) (qbits_of (tab kq)) (bias_bits tab bias) = Some e -> e == 0 -> shape x = shape x' ->
  eval tab (layer_prog (layer_of iq kq w bias (TConv pad cs G gi go) a oq) (One x)) = Some y -> eval tab (layer_prog (layer_of iq kq w bias (TConv pad cs G gi go) a oq) (One x')) = Some y' -> same_tensor y y'.
Proof. exact (conv_constant tab iq kq w bias a oq pad cs G gi go pf e x x' y y'). Qed.
Print Assumptions C67_conv.

(** a QEinsumDense layer; [a] is the label of the batch axis *)
Theorem C67_einsum tab iq kq w bias ac oq a li lk lo s osh pf e B x x' y y' : on_numbers (act_fn ac) -> ~ In a (li ++ lk ++ lo) -> NoDup lo -> incl lo (li ++ lk) ->
  bias_fits osh (bias_shape_bits tab bias) -> widths_ok_bias (bias_shape_bits tab bias) ->
  (0 < einsum_n_parallel (a :: li) lk (a :: lo) (1%nat :: s))%nat -> pf <> 0%Z -> silent (tab iq) -> over_batch (qb_k (qbits_of (tab iq))) -> silent (tab kq) ->
  einsum_dense_ebops (a :: li) lk (a :: lo) (1%nat :: s) (shape w) osh pf (qbits_of (tab iq)) (qbits_of (tab kq)) (bias_shape_bits tab bias) = Some e -> e == 0 ->
  shape x = B :: s -> shape x' = B :: s ->
  eval tab (layer_prog (layer_of iq kq w bias (TEinsum (a :: li) lk (a :: lo)) ac oq) (One x)) = Some y ->
  eval tab (layer_prog (layer_of iq kq w bias (TEinsum (a :: li) lk (a :: lo)) ac oq) (One x')) = Some y' -> same_tensor y y'.
Proof. exact (einsum_constant tab iq kq w bias ac oq a li lk lo s osh pf e B x x' y y'). Qed.
Print Assumptions C67_einsum.

(** the hypothesis on data quantizers holds after a calibration with reset (KIF without a constraint on i; KBI) *)
Theorem C67_calibrated_kif ha oa built het hom w c s batches s' outs sc sp : wrap_trainable c -> c_ic c = None -> c_weight c = false -> built_for ha oa built het hom w -> kif_built w s ->
  Forall (fun x => shape_matches built (shape x)) batches -> kif_ttrace c hom true s batches = Some (s', outs) -> silent (mk_quant (mk_wrapper sc None sp) c hom (inl s')).
Proof. exact (kif_calibrated_silent ha oa built het hom w c s batches s' outs sc sp). Qed.
Print Assumptions C67_calibrated_kif.
Theorem C67_calibrated_kbi ha oa built het hom w c s batches s' outs sc sp : wrap_trainable c -> c_weight c = false -> built_for ha oa built het hom w -> kbi_built w s ->
  (forall g, (0 <= round_even (at_ (u_b s) g))%Z) ->
  Forall (fun x => shape_matches built (shape x)) batches -> kbi_ttrace c hom true s batches = Some (s', outs) -> silent (mk_quant (mk_wrapper sc None sp) c hom (inr s')).
Proof. exact (kbi_calibrated_silent ha oa built het hom w c s batches s' outs sc sp). Qed.
Print Assumptions C67_calibrated_kbi.

(** ** a concrete case: widths [0, 2] of the data against kernel widths [3, 0]: no multiplication costs anything *)
Definition co_iq (k0 : bool) (i1 : Q) : quant := mk_quant (mk_wrapper None None None) (mk_qconf RND WRAP true false None None) [0%nat]
  (inl (mk_kift (mk_tensor [1;2]%nat (fun g => match g with [_; 0]%nat => k0 | _ => true end)) (mk_tensor [1;2]%nat (fun g => match g with [_; 0]%nat => -(1) | _ => i1 end)) (mk_tensor [1;2]%nat (fun _ => 1)))).
Definition co_kq : quant := mk_quant (mk_wrapper None None None) (mk_qconf RND SAT_SYM true true None None) []
  (inr (mk_kbit (mk_tensor [2;1]%nat (fun _ => true)) (mk_tensor [2;1]%nat (fun g => match g with [0; _]%nat => 3 | _ => 0 end)) (mk_tensor [2;1]%nat (fun _ => 1)))).
Definition co_bq : quant := mk_quant (mk_wrapper None None None) (mk_qconf RND SAT_SYM true true None None) []
  (inr (mk_kbit (mk_tensor [1]%nat (fun _ => true)) (mk_tensor [1]%nat (fun _ => 0)) (mk_tensor [1]%nat (fun _ => 1)))).
Definition co_tab (k0 : bool) (i1 : Q) (id : nat) : quant := match id with 0%nat => co_iq k0 i1 | 1%nat => co_kq | _ => co_bq end.
Definition co_w : tensor Q := mk_tensor [2;1]%nat (fun g => match g with [0; _]%nat => 3#4 | _ => 5#8 end).
Definition co_b : tensor Q := mk_tensor [1]%nat (fun _ => 1#3).
Definition co_x (u v : Q) : tensor Q := mk_tensor [2;2]%nat (fun g => match g with [0; 0]%nat => u | [_; 0]%nat => - u | _ => v end).
Definition co_act : act := AFn (fun z => z + (1#2)).
Definition co_call (k0 : bool) (i1 : Q) (x : tensor Q) := eval (co_tab k0 i1) (layer_prog (layer_of 0 1 co_w (Some (2%nat, co_b)) TDense co_act None) (One x)).
Lemma co_silent_iq : silent (co_iq false 1).
Proof.
  split; [reflexivity|]. split; [split; reflexivity|]. split.
  - intros g. cbn [co_iq qbits_of q_s qb_b tmap2 tmap at_]. unfold kif_b. lia.
  - right. split; [reflexivity|]. intros g H. cbn in H |- *. repeat match type of H with context [match ?v with _ => _ end] => destruct v; try discriminate H end; vm_compute; reflexivity.
Qed.
Lemma co_silent_kq : silent co_kq.
Proof.
  split; [reflexivity|]. split; [split; reflexivity|]. split.
  - intros g. cbn. repeat match goal with |- context [match ?v with _ => _ end] => is_var v; destruct v end; vm_compute; discriminate.
  - left. discriminate.
Qed.
Lemma co_act_ok : on_numbers (act_fn co_act). Proof. intros p q H. cbn [co_act act_fn]. rewrite H. reflexivity. Qed.
Example C67_case : forall u v u' v' y y', co_call false 1 (co_x u v) = Some y -> co_call false 1 (co_x u' v') = Some y' -> same_tensor y y'.
Proof.
  intros u v u' v' y y' E E'.
  refine (C67_dense (co_tab false 1) 0 1 co_w (Some (2%nat, co_b)) co_act None [2]%nat 1 (-1)%Z 0 2 (co_x u v) (co_x u' v') y y' co_act_ok _ _ _ _ co_silent_iq _ co_silent_kq _ eq_refl _ _ eq_refl eq_refl E E').
  - discriminate.
  - lia.
  - vm_compute. lia.
  - discriminate.
  - exists [2]%nat. reflexivity.
  - intros g. vm_compute. discriminate.
  - vm_compute. reflexivity.
  - reflexivity.
Qed.
Example C67_values : match co_call false 1 (co_x (7#4) 1), co_call false 1 (co_x (-(5)) (-(1#2))) with
  | Some y, Some y' => (map (fun i => Qred (at_ y i)) [[0;0];[1;0]]%nat, map (fun i => Qred (at_ y' i)) [[0;0];[1;0]]%nat) | _, _ => ([], []) end = ([1#2; 1#2], [1#2; 1#2]).
Proof. vm_compute. reflexivity. Qed.

(** full claim: "a QDense layer that reports zero EBOPs gives the same result for every input", without the hypothesis on WRAP data quantizers.
    A signed WRAP quantizer with k = 1 and no magnitude bits (i = -f) reports zero bits but takes two values. *)
Theorem C67_signed_wrap_refuted : exists tab iq kq w a s units e x x' y y',
  on_numbers (act_fn a) /\ s <> [] /\ (0 < units)%nat /\ (0 < dense_n_parallel (1%nat :: s))%nat /\ silent (tab kq) /\ over_batch (qb_k (qbits_of (tab iq))) /\ shape w = [last s 0%nat; units] /\
  dense_ebops (1%nat :: s) units (-1)%Z (qbits_of (tab iq)) (qbits_of (tab kq)) None = Some e /\ e == 0 /\ shape x = 1%nat :: s /\ shape x' = 1%nat :: s /\
  eval tab (layer_prog (layer_of iq kq w None TDense a None) (One x)) = Some y /\ eval tab (layer_prog (layer_of iq kq w None TDense a None) (One x')) = Some y' /\ ~ same_tensor y y'.
Proof.
  exists (co_tab true 1), 0%nat, 1%nat, co_w, ALinear, [2]%nat, 1%nat, 0, (mk_tensor [1;2]%nat (fun _ => 0)), (mk_tensor [1;2]%nat (fun _ => -(1#2))). eexists. eexists.
  split; [intros p q H; exact H|]. split; [discriminate|]. split; [lia|]. split; [vm_compute; lia|]. split; [exact co_silent_kq|]. split; [exists [2]%nat; reflexivity|]. split; [reflexivity|].
  split; [vm_compute; reflexivity|]. split; [reflexivity|]. split; [reflexivity|]. split; [reflexivity|].
  split; [reflexivity|]. split; [reflexivity|]. intros (_ & H). specialize (H [0;0]%nat ltac:(repeat constructor)). vm_compute in H. discriminate H.
Qed.
Print Assumptions C67_signed_wrap_refuted.

(** ** the same widths in a QEinsumDense ('ab,bc->ac') and in a QConv1D with a kernel of size 1 *)
Example C67_einsum_case : forall u v u' v' y y', let call x := eval (co_tab false 1) (layer_prog (layer_of 0 1 co_w (Some (2%nat, co_b)) (TEinsum [0;1] [1;2] [0;2])%nat co_act None) (One x)) in
  call (co_x u v) = Some y -> call (co_x u' v') = Some y' -> same_tensor y y'.
Proof.
  intros u v u' v' y y' call E E'.
  refine (C67_einsum (co_tab false 1) 0 1 co_w (Some (2%nat, co_b)) co_act None 0 [1]%nat [1;2]%nat [2]%nat [2]%nat [1;1]%nat (-1)%Z 0 2 (co_x u v) (co_x u' v') y y' co_act_ok _ _ _ _ _ _ _ co_silent_iq _ co_silent_kq _ _ eq_refl eq_refl E E').
  - cbn. lia.
  - repeat constructor. intros [].
  - intros m [<-|[]]. cbn. tauto.
  - repeat split; try (vm_compute; lia).
  - intros g. vm_compute. discriminate.
  - vm_compute. lia.
  - discriminate.
  - exists [2]%nat. reflexivity.
  - vm_compute. reflexivity.
  - reflexivity.
Qed.
Definition cv_iq : quant := mk_quant (mk_wrapper None None None) (mk_qconf RND WRAP true false None None) [0;1]%nat
  (inl (mk_kift (mk_tensor [1;1;2]%nat (fun g => match g with [_; _; 0]%nat => false | _ => true end)) (mk_tensor [1;1;2]%nat (fun g => match g with [_; _; 0]%nat => -(1) | _ => 1 end)) (mk_tensor [1;1;2]%nat (fun _ => 1)))).
Definition cv_kq : quant := mk_quant (mk_wrapper None None None) (mk_qconf RND SAT_SYM true true None None) []
  (inr (mk_kbit (mk_tensor [1;2;1]%nat (fun _ => true)) (mk_tensor [1;2;1]%nat (fun g => match g with [_; 0; _]%nat => 3 | _ => 0 end)) (mk_tensor [1;2;1]%nat (fun _ => 1)))).
Definition cv_tab (id : nat) : quant := match id with 0%nat => cv_iq | _ => cv_kq end.
Definition cv_w : tensor Q := mk_tensor [1;2;1]%nat (fun g => match g with [_; 0; _]%nat => 3#4 | _ => 5#8 end).
Definition cv_x (u v : Q) : tensor Q := mk_tensor [1;3;2]%nat (fun g => match g with [_; 0; 0]%nat => u | [_; _; 0]%nat => - u | _ => v end).
Notation cv_cs := [mk_cdim 3 1 1 1] (only parsing).
Definition cv_call (x : tensor Q) := eval cv_tab (layer_prog (layer_of 0 1 cv_w None (TConv VALID cv_cs 1 2 1) co_act None) (One x)).
Lemma cv_silent_iq : silent cv_iq.
Proof.
  split; [reflexivity|]. split; [split; reflexivity|]. split.
  - intros g. cbn [cv_iq qbits_of q_s qb_b tmap2 tmap at_]. unfold kif_b. lia.
  - right. split; [reflexivity|]. intros g H. cbn in H |- *. repeat match type of H with context [match ?v with _ => _ end] => destruct v; try discriminate H end; vm_compute; reflexivity.
Qed.
Lemma cv_silent_kq : silent cv_kq.
Proof.
  split; [reflexivity|]. split; [split; reflexivity|]. split.
  - intros g. cbn. repeat match goal with |- context [match ?v with _ => _ end] => is_var v; destruct v end; vm_compute; discriminate.
  - left. discriminate.
Qed.
Example C67_conv_case : forall u v u' v' y y', cv_call (cv_x u v) = Some y -> cv_call (cv_x u' v') = Some y' -> same_tensor y y'.
Proof.
  intros u v u' v' y y' E E'.
  refine (C67_conv cv_tab 0 1 cv_w None co_act None VALID cv_cs 1 2 1 (-1)%Z (0#3) (cv_x u v) (cv_x u' v') y y' co_act_ok _ cv_silent_iq _ cv_silent_kq I _ _ eq_refl E E').
  - vm_compute. lia.
  - exists [1;2]%nat. reflexivity.
  - vm_compute. reflexivity.
  - reflexivity.
Qed.
Example C67_conv_values : match cv_call (cv_x (7#4) 1), cv_call (cv_x (-(5)) (-(1#2))) with
  | Some y, Some y' => (map (fun i => Qred (at_ y i)) [[0;0;0];[0;2;0]]%nat, map (fun i => Qred (at_ y' i)) [[0;0;0];[0;2;0]]%nat) | _, _ => ([], []) end = ([1#2; 1#2], [1#2; 1#2]).
Proof. vm_compute. reflexivity. Qed.
(** calibrating the quantizer of the refutation on a batch whose first column rounds to zero makes it silent *)
Definition ca_s : kif_tstate := mk_kift (mk_tensor [1;2]%nat (fun _ => true)) (mk_tensor [1;2]%nat (fun g => match g with [_; 0]%nat => -(1) | _ => 1 end)) (mk_tensor [1;2]%nat (fun _ => 1)).
Definition ca_b : tensor Q := mk_tensor [2;2]%nat (fun g => match g with [_; 0]%nat => -(1#8) | [0; _]%nat => 1 | _ => -(3#2) end).
Definition ca_c := mk_qconf RND WRAP true false None None.
Lemma ca_run : exists s' outs, kif_ttrace ca_c [0%nat] true ca_s [ca_b] = Some (s', outs) /\ map (fun g => (at_ (t_k s') g, Qred (at_ (t_i s') g))) [[0;0];[0;1]]%nat = [(false, -(1)); (true, 1)].
Proof. eexists. eexists. split; [reflexivity|vm_compute; reflexivity]. Qed.
Example C67_calibrated_case : exists s' outs, kif_ttrace ca_c [0%nat] true ca_s [ca_b] = Some (s', outs) /\ silent (mk_quant (mk_wrapper None None None) ca_c [0%nat] (inl s')) /\
  map (fun g => (at_ (t_k s') g, Qred (at_ (t_i s') g))) [[0;0];[0;1]]%nat = [(false, -(1)); (true, 1)].
Proof.
  destruct ca_run as (s' & outs & E & V). exists s', outs. split; [exact E|]. split; [|exact V].
  refine (C67_calibrated_kif None (Some [0%Z]) [None; Some 2%nat] [1%nat] [0%nat] [1;2]%nat ca_c ca_s [ca_b] s' outs None None (conj eq_refl eq_refl) eq_refl eq_refl (conj eq_refl eq_refl) (conj eq_refl (conj eq_refl eq_refl)) _ E).
  constructor; [constructor; [exact I|constructor; [reflexivity|constructor]]|constructor].
Qed.
