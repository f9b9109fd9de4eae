(** C69: without quantizers the layers are those of Keras; with growing widths the recurrent layers converge to Keras' recurrences. *)
From Coq Require Import String.
From Verif Require Import Num M_Fixed M_State L_State M_Wrapper M_Ebops M_Mapper S_Mapper M_Contr M_Mirror M_Softmax M_Net M_Calib S_Ops M_Prog M_Rnn S_Rnn S_Prog S_Cost S_Limit S_Plain L_Limit L_Plain P_Limit.
Local Open Scope list_scope.

(** QDense on batches of vectors: activation(x K + b) *)
Theorem C69_dense B b iq kq w bias a oq f u x y : (b < B)%nat -> on_numbers (act_fn a) -> shape x = [B; f] -> shape w = [f; u] -> (forall id t, bias = Some (id, t) -> shape t = [u]) ->
  plain (layer_prog (layer_of iq kq w bias TDense a oq) (One x)) = Some y -> shape y = [B; u] /\ forall j, (j < u)%nat -> at_ y [b; j] == act_fn a (dot f (row b x) (mat_of w) j + bias_row bias j).
Proof. exact (fun H => dense_plain B b H iq kq w bias a oq f u x y). Qed.
Print Assumptions C69_dense.

(** QSimpleRNN: every sample of the batch goes through the cell of Keras, forwards or backwards, from the zero state *)
Theorem C69_simple_rnn B b l f T x y : (b < B)%nat -> on_numbers (sr_act l) -> rnn_shapes l f -> shape x = [B; T; f] -> plain (srnn_prog l (One x)) = Some y ->
  returned (sr_sequences l) (sr_units l) b (outputs (keras_simple (sr_act l) f (sr_units l) (mat_of (snd (sr_kernel l))) (mat_of (snd (sr_rkernel l))) (bias_row (sr_bias l))) (sr_backwards l) (rows b x)) y.
Proof. exact (fun H => srnn_plain B b H l f T x y). Qed.
Print Assumptions C69_simple_rnn.

(** QGRU, with the reset gate before or after the product *)
Theorem C69_gru B b l f T x y : (b < B)%nat -> on_numbers (sg_act l) -> on_numbers (sg_ract l) -> gru_shapes l f -> shape x = [B; T; f] -> plain (sgru_prog l (One x)) = Some y ->
  returned (sg_sequences l) (sg_units l) b (outputs (keras_gru (sg_act l) (sg_ract l) (sg_reset_after l) f (sg_units l) (mat_of (snd (sg_kernel l))) (mat_of (snd (sg_rkernel l)))
    (fst (gru_bias_rows l)) (snd (gru_bias_rows l))) (sg_backwards l) (rows b x)) y.
Proof. exact (fun H => sgru_plain B b H l f T x y). Qed.
Print Assumptions C69_gru.

(** QSoftmax over the last axis of batches of vectors *)
Theorem C69_softmax B b l n x y : (b < B)%nat -> on_numbers (so_exp l) -> on_numbers (so_inv l) -> so_axes l = [1%nat] -> so_mask l = None -> shape x = [B; n] -> (0 < n)%nat -> plain (ssoft_prog l (One x)) = Some y ->
  exists g, is_softmax (so_exp l) (so_inv l) n g (row b y) /\ if so_stable l then exists m, greatest n (row b x) m /\ same_vec n g (fun j => m - row b x j) else same_vec n g (row b x).
Proof. exact (fun H => soft_plain B b H l n x y). Qed.
Print Assumptions C69_softmax.

(** with C68: the outputs of the quantized layers, step by step, converge to those of Keras' recurrences *)
Theorem C69_simple_rnn_limit tab l f B T x y Y b t j : widening tab -> continuous (sr_act l) -> rnn_shapes l f -> sr_sequences l = true -> shape x = [B; T; f] -> plain (srnn_prog l (One x)) = Some y -> (forall n, eval (tab n) (srnn_prog l (One x)) = Some (Y n)) ->
  (b < B)%nat -> (t < T)%nat -> (j < sr_units l)%nat ->
  tends (fun n => at_ (Y n) [b; t; j]) (nth t (outputs (keras_simple (sr_act l) f (sr_units l) (mat_of (snd (sr_kernel l))) (mat_of (snd (sr_rkernel l))) (bias_row (sr_bias l))) (sr_backwards l) (rows b x)) (fun _ => 0) j).
Proof. exact (srnn_limit tab l f B T x y Y b t j). Qed.
Print Assumptions C69_simple_rnn_limit.
Theorem C69_gru_limit tab l f B T x y Y b t j : widening tab -> continuous (sg_act l) -> continuous (sg_ract l) -> gru_shapes l f -> sg_sequences l = true -> shape x = [B; T; f] -> plain (sgru_prog l (One x)) = Some y ->
  (forall n, eval (tab n) (sgru_prog l (One x)) = Some (Y n)) -> (b < B)%nat -> (t < T)%nat -> (j < sg_units l)%nat ->
  tends (fun n => at_ (Y n) [b; t; j]) (nth t (outputs (keras_gru (sg_act l) (sg_ract l) (sg_reset_after l) f (sg_units l) (mat_of (snd (sg_kernel l))) (mat_of (snd (sg_rkernel l)))
      (fst (gru_bias_rows l)) (snd (gru_bias_rows l))) (sg_backwards l) (rows b x)) (fun _ => 0) j).
Proof. exact (sgru_limit tab l f B T x y Y b t j). Qed.
Print Assumptions C69_gru_limit.

(** ** concrete cases: a GRU with one unit, two features, two steps (last step first), both reset conventions *)
Definition pl_k : tensor Q := mk_tensor [2;3]%nat (fun g => match g with [0;0]%nat => 1#2 | [0;1]%nat => 1#3 | [0;_]%nat => 1 | [_;0]%nat => -(1#4) | [_;1]%nat => 2#5 | _ => 3#4 end).
Definition pl_rk : tensor Q := mk_tensor [1;3]%nat (fun g => match g with [_;0]%nat => 1#5 | [_;1]%nat => 1#2 | _ => -(1#3) end).
Definition pl_b2 : tensor Q := mk_tensor [2;3]%nat (fun g => match g with [0;_]%nat => 1#4 | [_;2]%nat => 1#2 | _ => 1#8 end).
Definition pl_b1 : tensor Q := mk_tensor [3]%nat (fun _ => 1#4).
Definition pl_x : tensor Q := mk_tensor [1;2;2]%nat (fun g => match g with [_;0;0]%nat => 1 | [_;0;_]%nat => 1#3 | [_;_;0]%nat => -(1#2) | _ => 2 end).
Definition pl_gru (ra : bool) : sgru := mk_sgru 1 (Some 0%nat) 1 2 3 4 (5%nat, pl_k) (6%nat, pl_rk) (Some (7%nat, if ra then pl_b2 else pl_b1)) ra (fun v => v * (1#2)) relu true true.
Lemma pl_shapes ra : gru_shapes (pl_gru ra) 2.
Proof. split; [reflexivity|]. split; [reflexivity|]. intros id b [= <- <-]. destruct ra; reflexivity. Qed.
Lemma some_of {A} (o : option A) : match o with Some _ => true | None => false end = true -> exists a, o = Some a. Proof. destruct o as [a|]; [exists a; reflexivity|discriminate]. Qed.
Lemma pl_runs ra : exists y, plain (sgru_prog (pl_gru ra) (One pl_x)) = Some y. Proof. apply some_of. destruct ra; vm_compute; reflexivity. Qed.
Definition pl_values (ra : bool) : list Q := match plain (sgru_prog (pl_gru ra) (One pl_x)) with Some y => map (fun t => Qred (at_ y [0; t; 0]%nat)) [0;1]%nat | None => [] end.
Definition pl_keras (ra : bool) : list Q := map (fun h : nat -> Q => Qred (h 0%nat)) (outputs (keras_gru (fun v => v * (1#2)) relu ra 2 1 (mat_of pl_k) (mat_of pl_rk)
  (fst (gru_bias_rows (pl_gru ra))) (snd (gru_bias_rows (pl_gru ra)))) true (rows 0 pl_x)).
Example C69_gru_case ra : exists y, plain (sgru_prog (pl_gru ra) (One pl_x)) = Some y /\ returned true 1 0 (outputs (keras_gru (fun v => v * (1#2)) relu ra 2 1 (mat_of pl_k) (mat_of pl_rk)
  (fst (gru_bias_rows (pl_gru ra))) (snd (gru_bias_rows (pl_gru ra)))) true (rows 0 pl_x)) y.
Proof.
  destruct (pl_runs ra) as (y & E). exists y. split; [exact E|].
  refine (C69_gru 1 0 (pl_gru ra) 2 2 pl_x y _ _ _ (pl_shapes ra) eq_refl E); [lia| |]; apply continuous_numbers; [apply continuous_scale|exact continuous_relu].
Qed.
Example C69_gru_values : (pl_values true, pl_values false) = (pl_keras true, pl_keras false) /\ pl_values true <> pl_values false.
Proof. split; [vm_compute; reflexivity|vm_compute; discriminate]. Qed.
(** quantizers with n + 2 integer and n fractional bits *)
Definition pl_tab (n : nat) (_ : nat) : quant := li_kif [1;1]%nat (Z.of_nat n + 2) (Z.of_nat n).
Lemma pl_eval n : exists y, eval (pl_tab n) (sgru_prog (pl_gru true) (One pl_x)) = Some y. Proof. apply some_of. vm_compute. reflexivity. Qed.
Example C69_gru_limit_case : exists Y, (forall n, eval (pl_tab n) (sgru_prog (pl_gru true) (One pl_x)) = Some (Y n)) /\
  tends (fun n => at_ (Y n) [0; 1; 0]%nat) (nth 1 (outputs (keras_gru (fun v => v * (1#2)) relu true 2 1 (mat_of pl_k) (mat_of pl_rk) (fst (gru_bias_rows (pl_gru true))) (snd (gru_bias_rows (pl_gru true)))) true (rows 0 pl_x)) (fun _ => 0) 0%nat).
Proof.
  assert (R : exists Y, forall n, eval (pl_tab n) (sgru_prog (pl_gru true) (One pl_x)) = Some (Y n)).
  { exists (fun n => match eval (pl_tab n) (sgru_prog (pl_gru true) (One pl_x)) with Some y => y | None => pl_x end). intros n. destruct (pl_eval n) as (y & E). rewrite E. reflexivity. }
  destruct R as (Y & H). exists Y. split; [exact H|]. destruct (pl_runs true) as (y & E).
  assert (W : widening pl_tab) by (intros k; exists (Z.to_nat k); intros n Hn id; apply kif_fine; lia).
  pose proof (C69_gru_limit pl_tab (pl_gru true) 2 1 2 pl_x y Y 0 1 0 W (continuous_scale _) continuous_relu (pl_shapes true) eq_refl eq_refl E H) as T.
  cbn [pl_gru sg_act sg_ract sg_reset_after sg_units sg_kernel sg_rkernel sg_backwards snd] in T. apply T; lia.
Qed.

(** a QSimpleRNN with two units, and a QDense followed by a QSoftmax *)
Definition pl_rnn : srnn := mk_srnn 2 0 None 1 (2%nat, mk_tensor [2;2]%nat (fun g => match g with [0;0]%nat => 1#2 | [0;_]%nat => 1#3 | [_;0]%nat => -(1) | _ => 2#7 end)) (3%nat, mk_tensor [2;2]%nat (fun g => match g with [0;0]%nat => 1#4 | [_;_] => -(1#3) | _ => 0 end)) None relu false false.
Example C69_rnn_case : exists y, plain (srnn_prog pl_rnn (One pl_x)) = Some y /\ returned false 2 0 (outputs (keras_simple relu 2 2 (mat_of (snd (sr_kernel pl_rnn))) (mat_of (snd (sr_rkernel pl_rnn))) (fun _ => 0)) false (rows 0 pl_x)) y /\
  map (fun j => Qred (at_ y [0; j]%nat)) [0;1]%nat = [0; 13#63].
Proof.
  assert (R : exists y, plain (srnn_prog pl_rnn (One pl_x)) = Some y /\ map (fun j => Qred (at_ y [0; j]%nat)) [0;1]%nat = [0; 13#63]) by (eexists; split; [reflexivity|vm_compute; reflexivity]).
  destruct R as (y & E & V). exists y. split; [exact E|]. split; [|exact V]. refine (C69_simple_rnn 1 0 pl_rnn 2 2 pl_x y _ _ _ eq_refl E); [lia|apply continuous_numbers; exact continuous_relu|].
  split; [reflexivity|]. split; [reflexivity|]. intros id b [=].
Qed.
Definition pl_v : tensor Q := mk_tensor [2;2]%nat (fun g => match g with [0;0]%nat => 1#2 | [0;_]%nat => -(1) | [_;0]%nat => 2 | _ => 3 end).
Example C69_dense_case : exists y, plain (layer_prog (layer_of 0 1 li_w (Some (2%nat, li_b)) TDense ARelu None) (One pl_v)) = Some y /\ at_ y [1;0]%nat == relu (2 * (1#3) + 3 * (5#3) - (1#3)).
Proof.
  destruct (some_of (plain (layer_prog (layer_of 0 1 li_w (Some (2%nat, li_b)) TDense ARelu None) (One pl_v)))) as (y & E); [vm_compute; reflexivity|]. exists y. split; [exact E|].
  destruct (C69_dense 2 1 0 1 li_w (Some (2%nat, li_b)) ARelu None 2 2 pl_v y) as (_ & H); [lia|apply continuous_numbers; exact continuous_relu|reflexivity|reflexivity|intros id t [= <- <-]; reflexivity|exact E|].
  rewrite (H 0%nat ltac:(lia)). vm_compute. reflexivity.
Qed.
Definition pl_soft : ssoft := mk_ssoft None [1%nat] true None None li_exp 4 5 (fun v => 1 / (v + (1#1000))) 6 None.
Example C69_softmax_case : exists y g, plain (ssoft_prog pl_soft (One pl_v)) = Some y /\ is_softmax li_exp (fun v => 1 / (v + (1#1000))) 2 g (row 1 y) /\ same_vec 2 g (fun j => match j with 0%nat => 1 | _ => 0 end).
Proof.
  destruct (some_of (plain (ssoft_prog pl_soft (One pl_v)))) as (y & E); [vm_compute; reflexivity|]. exists y.
  destruct (C69_softmax 2 1 pl_soft 2 pl_v y) as (g & S & m & ((k & Hk & Ek) & Hm) & G); try reflexivity; try lia; [| |exact E|].
  - apply continuous_numbers. apply (L_Limit5.continuous_comp relu (fun v => 1 - v * (1#8)) continuous_relu). exact (L_Limit5.continuous_comp (fun v => 1 - v) (fun v => v * (1#8)) continuous_one_minus (continuous_scale _)).
  - intros p q H. cbn [pl_soft so_inv]. rewrite H. reflexivity.
  - exists g. split; [exact E|]. split; [exact S|]. assert (M : m == 3). { pose proof (Hm 1%nat ltac:(lia)) as M1. change (row 1 pl_v 1%nat) with 3 in M1. destruct k as [|[|k]]; [change (row 1 pl_v 0%nat) with 2 in Ek; lra|change (row 1 pl_v 1%nat) with 3 in Ek; lra|lia]. }
    intros j Hj. rewrite (G j Hj), M. destruct j as [|[|j]]; [vm_compute; reflexivity|vm_compute; reflexivity|lia].
Qed.
