(** C31: the traced convolution equals the convolution; C45: the traced pooling equals the pooling. *)
From Verif Require Import Num M_Fixed M_State M_Mapper S_Mapper L_Mapper M_Contr M_Ebops M_Patch L_Patch.

(** The arrays of the tracer are the row-major listings of the image and of the kernel. *)
Theorem C31_row_major :
  forall cs ch x p c, valid_index (map c_in cs) p -> (c < ch)%nat ->
    ravel_img cs ch x (flat (map c_in cs ++ [ch]) (p ++ [c])) = x (0%nat :: p ++ [c]).
Proof. exact ravel_img_at. Qed.
Print Assumptions C31_row_major.
(** Patch extraction by encoding positions as float32 numbers gives exactly the elements the window covers,
    and the fill value in the padding, for every kernel size, stride, dilation and padding, as long as the image
    has at most 2^24 elements. *)
Theorem C31_patches :
  forall (A : Type) (fill : A) pad cs ch img o t c,
    (Z.of_nat (nprod (map c_in cs ++ [ch])) <= 2 ^ 24)%Z -> valid_index (map c_k cs) t -> (c < ch)%nat ->
    sym_extract fill pad cs ch img o (flat (map c_k cs) t * ch + c) =
    match c_positions pad cs o t with Some p => img (flat (map c_in cs ++ [ch]) (p ++ [c])) | None => fill end.
Proof. intros A fill pad cs ch img o t c Hs V Hc. rewrite sym_extract_spec by (try lia; exact Hs). exact (extract_tap fill pad cs ch img o t c V Hc). Qed.
Print Assumptions C31_patches.

(** The replay is the convolution (plus bias), at every output position and channel, for every kernel size,
    stride, dilation and padding, when there is one group or one input channel per group (depthwise, with
    any channel multiplier). *)
Theorem C31_traced_convolution :
  forall pad cs groups cin_g cout_g x k bias o co,
    (0 < groups)%nat -> (0 < cin_g)%nat -> (0 < cout_g)%nat ->
    (Z.of_nat (nprod (map c_in cs ++ [groups * cin_g]%nat)) <= 2 ^ 24)%Z ->
    (co < groups * cout_g)%nat -> groups = 1%nat \/ cin_g = 1%nat ->
    replay_conv pad cs (groups * cin_g)%nat groups (groups * cout_g)%nat
      (ravel_img cs (groups * cin_g)%nat x) (ravel_kernel cs cin_g (groups * cout_g)%nat k) bias o co ==
    conv 0 Qplus Qmult pad cs cin_g cout_g x k o co + bias co.
Proof. intros. apply replay_conv_exact; assumption. Qed.
Print Assumptions C31_traced_convolution.
(** For other group counts the replay is the convolution of the image whose channels are
    shuffled: channel c of the shuffled image is channel (c mod cin_g) * groups + c / cin_g *)
Theorem C31_what_groups_compute :
  forall pad cs groups cin_g cout_g x k bias o co,
    (0 < groups)%nat -> (0 < cin_g)%nat -> (0 < cout_g)%nat ->
    (Z.of_nat (nprod (map c_in cs ++ [groups * cin_g]%nat)) <= 2 ^ 24)%Z -> (co < groups * cout_g)%nat ->
    replay_conv pad cs (groups * cin_g)%nat groups (groups * cout_g)%nat
      (ravel_img cs (groups * cin_g)%nat x) (ravel_kernel cs cin_g (groups * cout_g)%nat k) bias o co ==
    conv 0 Qplus Qmult pad cs cin_g cout_g (shuffled groups cin_g x) k o co + bias co.
Proof. intros. apply replay_conv_shuffled; assumption. Qed.
Print Assumptions C31_what_groups_compute.
(** so it differs from the layer: a 1x1 convolution, 2 groups of 2 channels each *)
Definition grouped_image : index -> Q := fun idx => inject_Z (Z.of_nat (last idx 0%nat)).
Definition grouped_kernel : index -> Q := fun _ => 1.
Theorem C31_grouped_refuted :
  exists cs o co,
    ~ replay_conv VALID cs 4 2 2 (ravel_img cs 4 grouped_image) (ravel_kernel cs 2 2 grouped_kernel) (fun _ => 0) o co ==
      conv 0 Qplus Qmult VALID cs 2 1 grouped_image grouped_kernel o co + 0.
Proof. exists [mk_cdim 1 1 1 1], [0%nat], 0%nat. vm_compute. discriminate. Qed.
Print Assumptions C31_grouped_refuted.
(** and in an image of more than 2^24 elements, the position 2^24 is read as the one before *)
Theorem C31_index_encoding_refuted :
  forall (A : Type) (fill : A) n j img, Z.of_nat j = (2 ^ 24)%Z -> (j < n)%nat ->
    c_positions VALID [mk_cdim n 1 1 1] [j] [0%nat] = Some [j] /\
    sym_extract fill VALID [mk_cdim n 1 1 1] 1 img [j] 0 = img (j - 1)%nat.
Proof. intros A fill n j img. exact (encoding_wrong fill n j img). Qed.
Print Assumptions C31_index_encoding_refuted.

(** ** C45 *)
(** "at every window that is inside or overlaps the image": output positions *)
Theorem C45_max_pooling :
  forall pad cs ch x o c, pool_ok cs -> (Z.of_nat (nprod (map c_in cs ++ [ch])) <= 2 ^ 24)%Z ->
    (c < ch)%nat -> valid_index (conv_out_shape pad cs) o ->
    (forall v, In v (window pad cs x o c) -> inject_Z (-2147483648) <= v) ->
    replay_max_pool pad cs ch (ravel_img cs ch x) o c == max_pool pad cs x o c /\
    In (max_pool pad cs x o c) (window pad cs x o c) /\ forall v, In v (window pad cs x o c) -> v <= max_pool pad cs x o c.
Proof.
  intros pad cs ch x o c Hp Hs Hc Vo Hl. split; [apply max_pool_exact; assumption|]. apply np_max_spec.
  destruct (avg_pool_exact pad cs ch x Hp Hs o c Hc Vo) as [_ L]. destruct (window pad cs x o c); [cbn in L; lia|discriminate].
Qed.
Print Assumptions C45_max_pooling.
Theorem C45_average_pooling :
  forall pad cs ch x o c, pool_ok cs -> (Z.of_nat (nprod (map c_in cs ++ [ch])) <= 2 ^ 24)%Z ->
    (c < ch)%nat -> valid_index (conv_out_shape pad cs) o ->
    replay_avg_pool pad cs ch (ravel_img cs ch x) o c == avg_pool pad cs x o c /\ (0 < length (window pad cs x o c))%nat.
Proof. intros. apply avg_pool_exact; assumption. Qed.
Print Assumptions C45_average_pooling.
(** the window: the image elements under the kernel taps *)
Theorem C45_window :
  forall pad cs x o c v, In v (window pad cs x o c) <->
    exists t p, valid_index (map c_k cs) t /\ c_positions pad cs o t = Some p /\ v = x (0%nat :: p ++ [c]).
Proof. exact in_window. Qed.
Print Assumptions C45_window.
(** no window of a pooling is outside the image *)
Theorem C45_windows_overlap :
  forall pad cs, pool_ok cs -> forall o, valid_index (conv_out_shape pad cs) o ->
    exists t p, valid_index (map c_k cs) t /\ c_positions pad cs o t = Some p.
Proof. exact window_nonempty. Qed.
Print Assumptions C45_windows_overlap.
(** below -2^31 the padding wins the maximum *)
Theorem C45_deep_negative_refuted :
  exists cs x o, ~ replay_max_pool SAME cs 1 (ravel_img cs 1 x) o 0 == max_pool SAME cs x o 0.
Proof. exists [mk_cdim 1 2 1 1], (fun _ => inject_Z (-4294967296)), [0%nat]. vm_compute. discriminate. Qed.
Print Assumptions C45_deep_negative_refuted.

(** ** concrete cases: 3x4 image, two channels, 2x3 kernel, stride 2x1, dilation 1x1, same padding *)
Definition ex_cs := [mk_cdim 3 2 2 1; mk_cdim 4 3 1 1].
Definition ex_x : index -> Q := fun idx => match idx with [_; i; j; c] => inject_Z (Z.of_nat (i * 8 + j * 2 + c) - 11) | _ => 0 end.
Definition ex_k : index -> Q := fun idx => match idx with [i; j; ci; co] => inject_Z (Z.of_nat (i + 2 * j) - Z.of_nat (ci * co)) | _ => 0 end.
Example C31_ex :
  (Z.of_nat (nprod (map c_in ex_cs ++ [1 * 2]%nat)) <= 2 ^ 24)%Z /\
  Qred (replay_conv SAME ex_cs 2 1 3 (ravel_img ex_cs 2 ex_x) (ravel_kernel ex_cs 2 3 ex_k) (fun c => inject_Z (Z.of_nat c)) [0; 0]%nat 2) =
  Qred (conv 0 Qplus Qmult SAME ex_cs 2 3 ex_x ex_k [0; 0]%nat 2 + 2) /\
  Qred (conv 0 Qplus Qmult SAME ex_cs 2 3 ex_x ex_k [0; 0]%nat 2) = -90.
Proof. vm_compute. repeat split; discriminate. Qed.
Definition ex_dw : index -> Q := fun idx => match idx with [i; j; ci; co] => inject_Z (Z.of_nat (i + 2 * j + co)) | _ => 0 end.
Example C31_ex_depthwise :
  Qred (replay_conv VALID ex_cs 2 2 4 (ravel_img ex_cs 2 ex_x) (ravel_kernel ex_cs 1 4 ex_dw) (fun c => 0) [0; 1]%nat 3) =
  Qred (conv 0 Qplus Qmult VALID ex_cs 1 2 ex_x ex_dw [0; 1]%nat 3).
Proof. vm_compute. reflexivity. Qed.
Example C45_ex :
  pool_ok ex_cs /\ valid_index (conv_out_shape SAME ex_cs) [1; 0]%nat /\
  Qred (replay_max_pool SAME ex_cs 2 (ravel_img ex_cs 2 ex_x) [1; 0]%nat 1) = 8 /\
  Qred (replay_avg_pool SAME ex_cs 2 (ravel_img ex_cs 2 ex_x) [1; 0]%nat 1) = 7 /\
  length (window SAME ex_cs ex_x [1; 0]%nat 1) = 2%nat /\ length (indices (map c_k ex_cs)) = 6%nat.
Proof.
  split; [intros c [<-|[<-|[]]]; cbn; lia|]. split; [repeat constructor|]. vm_compute. repeat split.
Qed.
