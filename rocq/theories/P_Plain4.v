(** C69, continued: the stable QSoftmax without quantizers is a probability distribution up to the epsilon of its reciprocal, and keeps the order of its inputs. *)
From Coq Require Import String.
From Verif Require Import Num M_Fixed M_State M_Wrapper M_Ebops M_Mapper S_Mapper M_Mirror M_Net M_Calib M_Prog M_Rnn S_Rnn S_Prog S_Cost S_Limit M_Attn M_ProgAttn S_ProgAttn S_Plain S_Plain2 L_Plain L_Plain4 P_Limit P_Plain P_Plain2.
Local Open Scope list_scope.

(** [eps] is that of 1/(v + eps), softmax.py 46-47: no entry is negative, the sum is at most [eps] below one, and the order of the inputs is kept *)
Theorem C69_softmax_distribution B b l n x y eps : (b < B)%nat -> on_numbers (so_exp l) -> so_inv l = (fun v => 1 / (v + eps)) -> 0 < eps -> (forall v, 0 <= so_exp l v) -> 1 <= so_exp l 0 ->
  so_axes l = [1%nat] -> so_mask l = None -> so_stable l = true -> shape x = [B; n] -> (0 < n)%nat -> plain (ssoft_prog l (One x)) = Some y ->
  (forall j, (j < n)%nat -> 0 <= at_ y [b; j]) /\ 1 - eps <= sum n (row b y) /\ sum n (row b y) < 1 /\
  ((forall u v, u <= v -> so_exp l v <= so_exp l u) -> forall i j, (i < n)%nat -> (j < n)%nat -> at_ x [b; i] <= at_ x [b; j] -> at_ y [b; i] <= at_ y [b; j]).
Proof.
  intros Hb Ne Ei He Pe E0 Ax Mk St Ex Hn H. refine (distribution eps (so_exp l) n (row b x) (row b y) He Pe Ne E0 _).
  pose proof (C69_softmax B b l n x y Hb Ne) as S. rewrite Ei, St in S. apply S; try assumption. intros p q E. rewrite E. reflexivity.
Qed.
Print Assumptions C69_softmax_distribution.
(** so are the weights of the attention *)
Theorem C69_attention_distribution a eps n s w : ha_inv a = (fun v => 1 / (v + eps)) -> 0 < eps -> on_numbers (ha_exp a) -> (forall v, 0 <= ha_exp a v) -> 1 <= ha_exp a 0 -> softmax_of true (ha_exp a) (ha_inv a) n s w ->
  (forall j, (j < n)%nat -> 0 <= w j) /\ 1 - eps <= sum n w /\ sum n w < 1 /\ ((forall u v, u <= v -> ha_exp a v <= ha_exp a u) -> forall i j, (i < n)%nat -> (j < n)%nat -> s i <= s j -> w i <= w j).
Proof. intros Ei He Ne Pe E0 S. rewrite Ei in S. exact (distribution eps (ha_exp a) n s w He Pe Ne E0 S). Qed.
Print Assumptions C69_attention_distribution.

(** ** a concrete case: the QSoftmax of P_Plain with eps = 1/1000 *)
Example C69_distribution_case : exists y, plain (ssoft_prog pl_soft (One pl_v)) = Some y /\ 1 - (1#1000) <= sum 2 (row 1 y) /\ sum 2 (row 1 y) < 1 /\ at_ y [1;0]%nat <= at_ y [1;1]%nat /\ ~ at_ y [1;0]%nat == at_ y [1;1]%nat.
Proof.
  destruct (some_of (plain (ssoft_prog pl_soft (One pl_v)))) as (y & E); [vm_compute; reflexivity|]. exists y. split; [exact E|].
  assert (Pe : forall v, 0 <= so_exp pl_soft v) by (intros v; cbn [pl_soft so_exp]; unfold li_exp, relu; first [apply Q.le_max_l|apply Q.le_max_r]).
  destruct (C69_softmax_distribution 2 1 pl_soft 2 pl_v y (1#1000)) as (_ & S1 & S2 & M); [lia|apply continuous_numbers; exact pa_exp_continuous|reflexivity|reflexivity|exact Pe|vm_compute; discriminate|reflexivity|reflexivity|reflexivity|reflexivity|lia|exact E|].
  split; [exact S1|]. split; [exact S2|]. split.
  - apply M; [|lia|lia|vm_compute; discriminate]. intros u v L. cbn [pl_soft so_exp]. unfold li_exp, relu. first [apply Q.max_le_compat; lra|apply Q.max_le_compat_l; lra|apply Q.max_le_compat_r; lra].
  - assert (V : match plain (ssoft_prog pl_soft (One pl_v)) with Some y => Qeq_bool (at_ y [1;0]%nat) (at_ y [1;1]%nat) | None => true end = false) by (vm_compute; reflexivity). rewrite E in V. intros X. apply Qeq_bool_iff in X. congruence.
Qed.
