(** Property C13: which element uses which bit-width; and C07/C08 on whole tensors. *)
From Verif Require Import Num M_Fixed M_State S_Fixed S_State M_Mapper S_Mapper L_Mapper.

(** negative axes count from the end; an out-of-range axis is rejected *)
Theorem C13_axis_resolution :
  forall axis n l, check_axis axis n = Some l ->
    forall a, In a l <-> (a < n)%nat /\ exists z, In z axis /\ (z = Z.of_nat a \/ z = (Z.of_nat a - Z.of_nat n)%Z).
Proof. exact check_axis_spec. Qed.
Print Assumptions C13_axis_resolution.
(** every axis is either heterogeneous or homogeneous *)
Theorem C13_axes_partition :
  forall ha oa n het hom, resolve_axes ha oa n = Some (het, hom) ->
    forall a, (a < n)%nat -> (In a hom <-> ~ In a het).
Proof.
  intros ha oa n het hom H a Ha. pose proof (resolve_complementary _ _ _ _ _ H a) as E.
  rewrite <- memb_false, <- memb_In. rewrite E by (split; [apply Nat.le_0_l|exact Ha]).
  destruct (memb a het); split; discriminate || reflexivity.
Qed.
Print Assumptions C13_axes_partition.

(** elements share a stored width exactly when they agree on the heterogeneous axes *)
Theorem C13_widths_per_group :
  forall A ha oa built het hom w sh (bw : tensor A),
    built_for ha oa built het hom w -> shape_matches built sh -> shape bw = w ->
    exists r entry, broadcast_to bw sh = Some r /\ shape r = sh /\
      forall i, valid_index sh i -> valid_index w (entry i) /\ at_ r i = at_ bw (entry i) /\
        forall j, valid_index sh j -> (entry i = entry j <-> same_group het i j).
Proof. exact @bw_to_x_groups. Qed.
Print Assumptions C13_widths_per_group.

(** the magnitude used for calibration is the largest of the element's own group *)
Theorem C13_absmax_per_group :
  forall ha oa built het hom w x m,
    built_for ha oa built het hom w -> shape_matches built (shape x) -> x_to_bw_absmax hom x = Some m ->
    shape m = w /\ exists mx, broadcast_to m (shape x) = Some mx /\
      forall i, valid_index (shape x) i ->
        (forall j, group_mate het x i j -> Qabs (at_ x j) <= at_ mx i) /\
        (exists j, group_mate het x i j /\ Qabs (at_ x j) == at_ mx i).
Proof. exact absmax_groups. Qed.
Print Assumptions C13_absmax_per_group.
Theorem C13_sign_per_group :
  forall ha oa built het hom w x,
    built_for ha oa built het hom w -> shape_matches built (shape x) ->
    shape (x_to_bw_sign hom x) = w /\ exists sx, broadcast_to (x_to_bw_sign hom x) (shape x) = Some sx /\
      forall i, valid_index (shape x) i -> (at_ sx i = true <-> exists j, group_mate het x i j /\ at_ x j < 0).
Proof. exact sign_groups. Qed.
Print Assumptions C13_sign_per_group.

(** a call on a tensor is, group by group, the call on the elements of the group; this is what
    carries C07-C12 from groups to tensors *)
Theorem C13_kif_call_groupwise :
  forall ha oa built het hom w c m s x s' out,
    built_for ha oa built het hom w -> shape_matches built (shape x) -> kif_built w s ->
    kif_tcall c hom m s x = Some (s', out) ->
    shape out = shape x /\ kif_built w s' /\
    forall g, valid_index w g -> kif_call c m (kif_at s g) (collect hom x g) = Some (kif_at s' g, collect hom out g).
Proof. exact kif_tcall_groupwise. Qed.
Print Assumptions C13_kif_call_groupwise.
Theorem C13_kbi_call_groupwise :
  forall ha oa built het hom w c m s x s' out,
    built_for ha oa built het hom w -> shape_matches built (shape x) -> kbi_built w s ->
    kbi_tcall c hom m s x = Some (s', out) ->
    shape out = shape x /\ kbi_built w s' /\
    forall g, valid_index w g -> kbi_call c m (kbi_at s g) (collect hom x g) = Some (kbi_at s' g, collect hom out g).
Proof. exact kbi_tcall_groupwise. Qed.
Print Assumptions C13_kbi_call_groupwise.

(** C07 and C08 for tensors of every rank, shape and axis choice *)
Theorem C07_kif_tensor_calibration_safe :
  forall ha oa built het hom w c reset s batches s' outs,
    built_for ha oa built het hom w -> wrap_trainable c -> kif_built w s ->
    Forall (fun x => shape_matches built (shape x)) batches ->
    (forall x f i, In x batches -> broadcast_to (tmap round_even (t_f s)) (shape x) = Some f ->
       valid_index (shape x) i -> kif_reachable c (at_ f i) (at_ x i)) ->
    kif_ttrace c hom reset s batches = Some (s', outs) ->
    forall x, In x batches -> forall s'' out, kif_tcall c hom Infer s' x = Some (s'', out) ->
      s'' = s' /\ shape out = shape x /\
      exists f, broadcast_to (tmap round_even (t_f s)) (shape x) = Some f /\
      forall i, valid_index (shape x) i -> at_ out i == round_f (c_rm c) (at_ f i) (at_ x i).
Proof. exact kif_tensor_calibrated. Qed.
Print Assumptions C07_kif_tensor_calibration_safe.
Theorem C08_kbi_tensor_calibration_safe :
  forall ha oa built het hom w c reset s batches s' outs,
    built_for ha oa built het hom w -> wrap_trainable c -> kbi_built w s ->
    Forall (fun x => shape_matches built (shape x)) batches ->
    (forall x b i, In x batches -> broadcast_to (tmap round_even (u_b s)) (shape x) = Some b ->
       valid_index (shape x) i -> (0 < at_ b i <= 22)%Z /\ kbi_reachable c (at_ b i) (at_ x i)) ->
    kbi_ttrace c hom reset s batches = Some (s', outs) ->
    forall x, In x batches -> forall s'' out, kbi_tcall c hom Infer s' x = Some (s'', out) ->
      s'' = s' /\ shape out = shape x /\
      exists b i, broadcast_to (tmap round_even (u_b s)) (shape x) = Some b /\
        broadcast_to (tmap round_even (u_i s')) (shape x) = Some i /\
        forall j, valid_index (shape x) j -> at_ out j == round_f (c_rm c) (at_ b j - at_ i j) (at_ x j).
Proof. exact kbi_tensor_calibrated. Qed.
Print Assumptions C08_kbi_tensor_calibration_safe.

(** a concrete case: batch of 2 rows and 3 channels, widths per channel (axis 1, given as -1) *)
Definition ex_built : list (option nat) := [None; Some 3%nat].
Definition ex_x : tensor Q := mk_tensor [2%nat; 3%nat] (fun i => match i with
  | [0;0]%nat => 1#3 | [0;1]%nat => -5 | [0;2]%nat => 100 | [1;0]%nat => 7#2 | [1;1]%nat => 1 | _ => -1#9 end).
Definition ex_s : kif_tstate := mk_kift (mk_tensor [1;3]%nat (fun _ => true)) (mk_tensor [1;3]%nat (fun _ => 2)) (mk_tensor [1;3]%nat (fun i => inject_Z (Z.of_nat (nth 1 i 0%nat)))).
Definition ex_c : qconf := mk_qconf RND WRAP true false None None.
Definition ex_run : option (list Q * list bool * list Q) :=
  match kif_ttrace ex_c [0%nat] true ex_s [ex_x; ex_x] with
  | Some (s', _) => match kif_tcall ex_c [0%nat] Infer s' ex_x with
      | Some (_, out) => Some (map (at_ (t_i s')) (indices [1;3]%nat), map (at_ (t_k s')) (indices [1;3]%nat), map Qred (map (at_ out) (indices [2;3]%nat)))
      | None => None end
  | None => None end.
Example C13_case :
  built_for (Some [(-1)%Z]) None ex_built [1%nat] [0%nat] [1;3]%nat /\ shape_matches ex_built (shape ex_x) /\ kif_built [1;3]%nat ex_s /\
  ex_run = Some ([3; 3; 7], [false; true; false], [0; -5; 100; 4; 1; 0]) /\
  same_group [1%nat] [0;2]%nat [1;2]%nat /\ ~ same_group [1%nat] [0;2]%nat [0;1]%nat.
Proof.
  repeat split.
  - repeat constructor.
  - intros a [<-|[]]. reflexivity.
  - intros H. specialize (H 1%nat (or_introl eq_refl)). discriminate.
Qed.
