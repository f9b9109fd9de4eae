(** C69, continued: multi-head attention and masked softmax without quantizers are those of Keras; dense layers and attention converge to them. *)
From Coq Require Import String.
From Verif Require Import Num M_Fixed M_State L_State M_Wrapper M_Ebops M_Mapper S_Mapper M_Contr M_Mirror M_Softmax M_Net M_Attn M_Calib S_Ops M_Prog M_Rnn S_Rnn S_Prog S_Cost M_ProgAttn S_ProgAttn S_Limit S_Plain S_Plain2 L_Limit L_Plain L_Plain2 P_Limit P_Plain.
Local Open Scope list_scope.

(** QMultiHeadAttention on (batch, positions, features), self-attention or with separate value and key *)
Theorem C69_attention B b a z x q v k y : (b < B)%nat -> on_numbers (ha_exp a) -> on_numbers (ha_inv a) -> attn_shapes a z -> (0 < z_S z)%nat -> qvk x = Some (q, v, k) -> sizes_of B z q v k ->
  plain (smha_prog (attn_prog a) x) = Some y -> shape y = [B; z_T z; z_E z] /\ is_attention a z (sample2 b q) (sample2 b (or_else v q)) (sample2 b (or_else k (or_else v q))) (sample2 b y).
Proof. exact (fun H => attn_plain B b H a z x q v k y). Qed.
Print Assumptions C69_attention.

(** with growing widths the layer converges to that attention *)
Theorem C69_attention_limit tab a z x q v k y Y B b : widening tab -> soft_layer (attn_softmax a) -> on_numbers (ha_inv a) -> attn_shapes a z -> (0 < z_S z)%nat -> qvk x = Some (q, v, k) -> sizes_of B z q v k ->
  plain (smha_prog (attn_prog a) x) = Some y -> (forall n, eval (tab n) (smha_prog (attn_prog a) x) = Some (Y n)) -> (b < B)%nat ->
  exists o, is_attention a z (sample2 b q) (sample2 b (or_else v q)) (sample2 b (or_else k (or_else v q))) o /\
    forall t e, (t < z_T z)%nat -> (e < z_E z)%nat -> tends (fun n => at_ (Y n) [b; t; e]) (o t e).
Proof. exact (attn_keras_limit tab a z x q v k y Y B b). Qed.
Print Assumptions C69_attention_limit.

(** QDense *)
Theorem C69_dense_limit tab iq kq w bias a oq f u x y Y B b j : widening tab -> continuous (act_fn a) -> shape x = [B; f] -> shape w = [f; u] -> (forall id t, bias = Some (id, t) -> shape t = [u]) ->
  plain (layer_prog (layer_of iq kq w bias TDense a oq) (One x)) = Some y -> (forall n, eval (tab n) (layer_prog (layer_of iq kq w bias TDense a oq) (One x)) = Some (Y n)) -> (b < B)%nat -> (j < u)%nat ->
  tends (fun n => at_ (Y n) [b; j]) (act_fn a (dot f (row b x) (mat_of w) j + bias_row bias j)).
Proof. exact (dense_keras_limit tab iq kq w bias a oq f u x y Y B b j). Qed.
Print Assumptions C69_dense_limit.

(** QSoftmax with a mask of the shape of its input *)
Theorem C69_masked_softmax B b l n m x y : (b < B)%nat -> on_numbers (so_exp l) -> on_numbers (so_inv l) -> so_axes l = [1%nat] -> so_mask l = Some m -> shape m = [B; n] -> shape x = [B; n] -> (0 < n)%nat -> plain (ssoft_prog l (One x)) = Some y ->
  masked_softmax (so_stable l) (so_exp l) (so_inv l) n (row b m) (row b x) (row b y).
Proof. exact (fun H => masked_plain B b H l n m x y). Qed.
Print Assumptions C69_masked_softmax.

(** ** concrete cases: two heads, two query positions, three key positions *)
Definition pa_t (sh : list nat) (s : Q) : tensor Q := mk_tensor sh (fun g => s + inject_Z (Z.of_nat (fold_left (fun acc i => (2 * acc + i)%nat) g 0%nat)) * (1#4)).
Definition pa_z : sizes := mk_sizes 2 3 1 2 2 2 1 1 2.
Definition pa_inv (v : Q) : Q := 1 / (v + (1#1000)).
Definition pa_layer : hattn := mk_hattn FNone true 0 1 2 (mk_hproj (3%nat, pa_t [1;2;1]%nat (1#2)) (Some (4%nat, pa_t [2;1]%nat (1#8))) 5) (mk_hproj (6%nat, pa_t [2;2;1]%nat (-(1))) None 7) (mk_hproj (8%nat, pa_t [2;2;1]%nat (1#3)) None 9)
  true 10 li_exp 11 12 pa_inv 13 14 15 (16%nat, pa_t [2;1;2]%nat (-(1#2))) (Some (17%nat, pa_t [2]%nat (1#5))).
Definition pa_q : tensor Q := pa_t [1;2;1]%nat (-(1#4)).
Definition pa_v : tensor Q := pa_t [1;3;2]%nat (-(1)).
Lemma pa_shapes : attn_shapes pa_layer pa_z.
Proof. split; [split; [reflexivity|intros id t [= <- <-]; reflexivity]|]. split; [split; [reflexivity|intros id t [=]]|]. split; [split; [reflexivity|intros id t [=]]|]. split; [reflexivity|]. intros id t [= <- <-]. reflexivity. Qed.
Lemma pa_sizes : sizes_of 1 pa_z pa_q (Some pa_v) None. Proof. split; [reflexivity|]. split; reflexivity. Qed.
Lemma pa_runs : exists y, plain (smha_prog (attn_prog pa_layer) (Many [pa_q; pa_v])) = Some y. Proof. apply some_of. vm_compute. reflexivity. Qed.
Lemma pa_inv_numbers : on_numbers pa_inv. Proof. intros p r E. unfold pa_inv. rewrite E. reflexivity. Qed.
Lemma pa_exp_continuous : continuous li_exp.
Proof. apply (L_Limit5.continuous_comp relu (fun v => 1 - v * (1#8)) continuous_relu). exact (L_Limit5.continuous_comp (fun v => 1 - v) (fun v => v * (1#8)) continuous_one_minus (continuous_scale _)). Qed.
Example C69_attention_case : exists y, plain (smha_prog (attn_prog pa_layer) (Many [pa_q; pa_v])) = Some y /\ is_attention pa_layer pa_z (sample2 0 pa_q) (sample2 0 pa_v) (sample2 0 pa_v) (sample2 0 y).
Proof.
  destruct pa_runs as (y & E). exists y. split; [exact E|]. refine (proj2 (C69_attention 1 0 pa_layer pa_z (Many [pa_q; pa_v]) pa_q (Some pa_v) None y _ _ pa_inv_numbers pa_shapes _ eq_refl pa_sizes E)); [lia|apply continuous_numbers; exact pa_exp_continuous|cbn; lia].
Qed.
(** the outputs at the two query positions are different *)
Example C69_attention_values : match plain (smha_prog (attn_prog pa_layer) (Many [pa_q; pa_v])) with Some y => negb (Qeq_bool (at_ y [0;0;0]%nat) (at_ y [0;1;0]%nat)) | None => false end = true.
Proof. vm_compute. reflexivity. Qed.
Definition pa_tab (n : nat) (id : nat) : quant :=
  li_kif (match id with 4%nat => [1;1]%nat | 17%nat => [1]%nat | 0%nat | 1%nat | 2%nat | 3%nat | 6%nat | 8%nat | 16%nat => [1;1;1]%nat | _ => [1;1;1;1]%nat end) (Z.of_nat n + 2) (Z.of_nat n).
Lemma pa_eval n : exists y, eval (pa_tab n) (smha_prog (attn_prog pa_layer) (Many [pa_q; pa_v])) = Some y. Proof. apply some_of. vm_compute. reflexivity. Qed.
Lemma pa_soft : soft_layer (attn_softmax pa_layer).
Proof.
  split; [exact pa_exp_continuous|]. split; [intros v; unfold attn_softmax, pa_layer, so_exp, ha_exp, li_exp, relu; cbn; apply Q.le_max_r || apply Q.le_max_l|]. split; [intros v Hv; apply (C68_inverse (1#1000) v); [reflexivity|exact Hv]|intros m [=]].
Qed.
Example C69_attention_limit_case : exists Y o, (forall n, eval (pa_tab n) (smha_prog (attn_prog pa_layer) (Many [pa_q; pa_v])) = Some (Y n)) /\ is_attention pa_layer pa_z (sample2 0 pa_q) (sample2 0 pa_v) (sample2 0 pa_v) o /\ tends (fun n => at_ (Y n) [0; 1; 1]%nat) (o 1 1)%nat.
Proof.
  set (Y := fun n => match eval (pa_tab n) (smha_prog (attn_prog pa_layer) (Many [pa_q; pa_v])) with Some y => y | None => pa_q end). exists Y.
  assert (H : forall n, eval (pa_tab n) (smha_prog (attn_prog pa_layer) (Many [pa_q; pa_v])) = Some (Y n)) by (intros n; unfold Y; destruct (pa_eval n) as (y & E); rewrite E; reflexivity).
  destruct pa_runs as (y & E). assert (W : widening pa_tab) by (intros k; exists (Z.to_nat k); intros n Hn id; apply kif_fine; lia).
  destruct (C69_attention_limit pa_tab pa_layer pa_z (Many [pa_q; pa_v]) pa_q (Some pa_v) None y Y 1 0 W pa_soft pa_inv_numbers pa_shapes) as (o & A & T); [cbn; lia|reflexivity|exact pa_sizes|exact E|exact H|lia|].
  exists o. split; [exact H|]. split; [exact A|]. apply T; cbn; lia.
Qed.
(** a masked softmax: the second entry of the second sample is masked out *)
Definition pm_mask : tensor Q := mk_tensor [2;2]%nat (fun g => match g with [1;1]%nat => 0 | _ => 1 end).
Definition pm_soft : ssoft := mk_ssoft None [1%nat] true (Some pm_mask) None li_exp 4 5 pa_inv 6 None.
Example C69_masked_case : exists y, plain (ssoft_prog pm_soft (One pl_v)) = Some y /\ masked_softmax true li_exp pa_inv 2 (row 1 pm_mask) (row 1 pl_v) (row 1 y) /\ map Qred [row 1 y 0; row 1 y 1]%nat = [1000#1001; 0].
Proof.
  destruct (some_of (plain (ssoft_prog pm_soft (One pl_v)))) as (y & E); [vm_compute; reflexivity|]. exists y. split; [exact E|]. split.
  - refine (C69_masked_softmax 2 1 pm_soft 2 pm_mask pl_v y _ _ pa_inv_numbers eq_refl eq_refl eq_refl eq_refl _ E); [lia|apply continuous_numbers; exact pa_exp_continuous|lia].
  - assert (V : match plain (ssoft_prog pm_soft (One pl_v)) with Some y => map Qred [row 1 y 0; row 1 y 1]%nat | None => [] end = [1000#1001; 0]) by (vm_compute; reflexivity). rewrite E in V. exact V.
Qed.
