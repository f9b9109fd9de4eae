(** C61: a whole network evaluated in binary32, in any order of summation, gives exactly the model's values and the hardware's. *)
From Coq Require Import Reals Qreals String Permutation.
From Flocq Require Import Core.
From Verif Require Import Num M_Fixed M_State M_Wrapper M_Mapper S_Mapper M_Contr M_Ebops M_Pow2 M_Patch M_Ops M_Mirror M_Trace S_Trace M_Net S_Net M_Float S_Float S_Ops M_FloatNet S_FloatNet L_FloatNum L_FloatQuant L_FloatNet L_FloatNet2 L_FloatNet3 P_Net.
Local Open Scope string_scope. Local Open Scope list_scope. Open Scope Q_scope.

(** the rounding used here is IEEE binary32, nearest-even (Flocq's [round] in the format FLT(-149, 24)) *)
Theorem C61_binary32 : forall x, Q2R (fl32 x) = b32 (Q2R x).
Proof. exact Q2R_fl32. Qed.
Print Assumptions C61_binary32.
(** what [carried] asks for is being a finite binary32 number *)
Theorem C61_carried : forall x, carried 24 x = true <-> generic_format radix2 (FLT_exp (-149) 24) (Q2R x) /\ Qabs x < pow2 128.
Proof. exact carried_format. Qed.
Print Assumptions C61_carried.
(** a sum: every order, with or without fused multiply-adds, gives the exact sum *)
Theorem C61_sum :
  forall ts t, Permutation (fterms t) ts -> sum_fits (map tval ts) = true -> exists v, feval t = Some v /\ v == qsum (map tval ts).
Proof. exact any_order. Qed.
Print Assumptions C61_sum.
(** a quantizer in binary32 is the fixed-point quantizer *)
Theorem C61_quantizer :
  forall rm om k i f x, quant_fits rm om k i f x = true -> exists v, fl_base_call rm om k i f x = Some v /\ v == base_call rm om false k i f x.
Proof. exact (fun rm om k i f x H => quant_exact rm om k i f x x H (Qeq_refl x)). Qed.
Print Assumptions C61_quantizer.
(** any functional model of these layers: when no layer is refused, the binary32 run succeeds, whatever the order of the sums, and
    gives exactly the model's outputs *)
Theorem C61_network :
  forall ord fuel m xs ys xs', sums_all ord -> well_formed fuel m -> all_layers value_act fuel m -> evaluates checked_layer fuel m xs ys -> Forall2 same_tensor xs xs' ->
    evaluates keras_layer fuel m xs ys /\ exists d ys', run_fl ord fuel m xs' = Some d /\ assoc "final" d = Some ys' /\ Forall2 same_tensor ys ys'.
Proof. exact network_exact. Qed.
Print Assumptions C61_network.
(** hence two backends agree *)
Theorem C61_backends_agree :
  forall ord ord' fuel m xs ys zs zs', sums_all ord -> sums_all ord' -> well_formed fuel m -> all_layers value_act fuel m -> evaluates checked_layer fuel m xs ys ->
    evaluates (fl_layer ord) fuel m xs zs -> evaluates (fl_layer ord') fuel m xs zs' -> Forall2 same_tensor zs zs'.
Proof. exact backends_agree. Qed.
Print Assumptions C61_backends_agree.
(** and each sample of the binary32 outputs is what the traced hardware computes for it *)
Theorem C61_hardware :
  forall ord fuel m n xs ys, sums_all ord -> well_formed fuel m -> all_layers traceable_layer fuel m -> evaluates checked_layer fuel m xs ys -> (forall x, In x xs -> batch_in n x) ->
    exists d fs, run_fl ord fuel m xs = Some d /\ assoc "final" d = Some fs /\
      forall b, (b < n)%nat -> exists d' zs, trace_net fuel m (map (sample b) xs) = Some d' /\ assoc "final" d' = Some zs /\ Forall2 same_tensor (map (sample b) fs) zs.
Proof. exact network_hardware. Qed.
Print Assumptions C61_hardware.
(** a dense layer within its budget is never refused *)
Theorem C61_dense :
  forall c u ex ek B k b x, dense_budget c u ex ek B k b -> within c ex B x -> exists y, core_in checked_arith (CDense k (Some b)) (One x) = Some y.
Proof. exact dense_never_refused. Qed.
Print Assumptions C61_dense.
(** with an input quantizer: the budget follows from the formats, for all inputs the quantizer rounds exactly *)
Theorem C61_dense_layer :
  forall q k b a c u ex ek B x s kx ix fx,
    c_weight (q_c q) = false -> w_scaler (q_w q) = None -> w_affine (q_w q) = None ->
    shape x = s ++ [c] ->
    broadcast_to (fst (fst (match q_s q with inl s => kif_widths s | inr s => kbi_widths s end))) (shape x) = Some kx ->
    broadcast_to (snd (fst (match q_s q with inl s => kif_widths s | inr s => kbi_widths s end))) (shape x) = Some ix ->
    broadcast_to (snd (match q_s q with inl s => kif_widths s | inr s => kbi_widths s end)) (shape x) = Some fx ->
    (forall i j, valid_index s i -> (j < c)%nat -> (at_ fx (i ++ [j]) <= - ex)%Z /\ pow2 (at_ ix (i ++ [j])) <= B j /\
       quant_fits (c_rm (q_c q)) (c_om (q_c q)) (at_ kx (i ++ [j])) (at_ ix (i ++ [j])) (at_ fx (i ++ [j])) (at_ x (i ++ [j])) = true) ->
    dense_budget c u ex ek B k b -> (forall p r, p == r -> act_fn a p == act_fn a r) ->
    exists z, checked_layer (LQ (Some (QSingle q)) (CDense k (Some b)) a None) [VArr x] [] = Some [("final", [z])].
Proof. exact dense_layer_accepted. Qed.
Print Assumptions C61_dense_layer.
(** RND, the default: a binary32 number with 24 significant bits, just below 1/2, is rounded to 1 instead of 0; and the odd integer 2^23 + 1 becomes 2^23 + 2 *)
Theorem C61_rnd_refuted :
  (let x := (1#2) - pow2 (-25) in carried 24 x = true /\ exists v, fl_base_call RND WRAP false 4 0 x = Some v /\ v == 1 /\ base_call RND WRAP false false 4 0 x == 0) /\
  (let x := pow2 23 + 1 in carried 24 x = true /\ exists v, fl_base_call RND SAT true 25 0 x = Some v /\ v == pow2 23 + 2 /\ base_call RND SAT false true 25 0 x == pow2 23 + 1).
Proof. exact rnd_differs. Qed.
Print Assumptions C61_rnd_refuted.
(** WRAP: an integer far outside the range is wrapped to another value *)
Theorem C61_wrap_refuted :
  let x := pow2 24 in carried 24 x = true /\ exists v, fl_base_call TRN WRAP true 0 0 x = Some v /\ v == -(1) /\ base_call TRN WRAP false true 0 0 x == 0.
Proof. exact wrap_differs. Qed.
Print Assumptions C61_wrap_refuted.

(** ** a concrete case: the network of C53, with branches and a nested model, summing from the left *)
Example C61_order : sums_all (fun _ _ => from_left).
Proof. exact (fun _ _ l => from_left_all l). Qed.
Lemma checks l args kw : match layer_in checked_arith l args kw with Some _ => true | None => false end = true -> checked_layer l args kw = keras_layer l args kw.
Proof. unfold checked_layer. destruct (layer_in checked_arith l args kw); [reflexivity|discriminate]. Qed.
Ltac run_checked := eexists; split; [rewrite checks by (vm_compute; reflexivity); apply runs; vm_compute; reflexivity|reflexivity].
Example C61_evaluates : evaluates checked_layer 2 ex_net [ex_x] [ex_y; ex_z].
Proof.
  exists (fun t => assoc t [("x", ex_x); ("d", ex_d); ("e", ex_e); ("y", ex_y); ("z", ex_z)]). split; [reflexivity|]. split; [reflexivity|]. intros o Ho Hi. cbn in Ho.
  destruct Ho as [<-|[<-|[<-|[<-|[<-|[]]]]]]; [discriminate Hi| | | |].
  - exists [VArr ex_x], [], [ex_d]. repeat (split; [reflexivity|]). run_checked.
  - exists [VList [VArr ex_x; VArr ex_d]], [], [ex_e]. repeat (split; [reflexivity|]). run_checked.
  - exists [VArr ex_e], [], [ex_y]. repeat (split; [reflexivity|]). exists (fun t => assoc t [("s_in", ex_e); ("s_out", ex_y)]). split; [reflexivity|]. split; [reflexivity|].
    intros o Ho Hi'. cbn in Ho. destruct Ho as [<-|[<-|[]]]; [|discriminate Hi'].
    exists [VArr ex_e], [("training", VConst 0%nat)], [ex_y]. repeat (split; [reflexivity|]). run_checked.
  - exists [VArr ex_e], [], [ex_z]. repeat (split; [reflexivity|]). run_checked.
Qed.
Example C61_run :
  match run_fl (fun _ _ => from_left) 2 ex_net [ex_x] with
  | Some d => match assoc "final" d with Some [y; z] => (map (fun i => Qred (at_ y i)) [[0;0];[0;1];[1;0];[1;1]]%nat, map (fun i => Qred (at_ z i)) [[0;0];[1;0]]%nat) | _ => ([], []) end
  | None => ([], [])
  end = ([27 # 2; 0; 0; 2], [17 # 8; -3]).
Proof. vm_compute. reflexivity. Qed.
(** 64 inputs of 8 bits, weights of 6 bits *)
Example C61_budget :
  dense_budget 64 2 (-6) (-5) (fun _ => 2) (mk_tensor [64;2]%nat (fun g => match g with [j; _] => inject_Z (Z.of_nat (j mod 7)) * pow2 (-5) | _ => 0 end)) (mk_tensor [2]%nat (fun _ => 3 * pow2 (-11))) /\
  quant_fits RND SAT true 1 6 (355#1024) = true.
Proof.
  split; [|vm_compute; reflexivity]. split; [lia|]. split; [reflexivity|]. split; [reflexivity|]. split; [intros j o _ _; cbn [at_]; eexists; reflexivity|]. split; [intros o _; cbn [at_]; exists 3%Z; reflexivity|].
  intros o _. cbn [at_]. vm_compute. discriminate.
Qed.
