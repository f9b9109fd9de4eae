(** C69, continued: recurrent layers that return the last step converge to the last state of Keras' recurrences. *)
From Coq Require Import String.
From Verif Require Import Num M_Fixed M_State L_State M_Wrapper M_Ebops M_Mapper S_Mapper M_Contr M_Mirror M_Softmax M_Net M_Calib S_Ops M_Prog M_Rnn S_Rnn S_Prog S_Cost S_Limit S_Plain L_Limit L_Plain L_Plain3 P_Limit P_Plain.
Local Open Scope list_scope.

Theorem C69_simple_rnn_last_limit tab l f B T x y Y b j : widening tab -> continuous (sr_act l) -> rnn_shapes l f -> sr_sequences l = false -> shape x = [B; T; f] -> plain (srnn_prog l (One x)) = Some y -> (forall n, eval (tab n) (srnn_prog l (One x)) = Some (Y n)) ->
  (b < B)%nat -> (j < sr_units l)%nat ->
  tends (fun n => at_ (Y n) [b; j]) (last (outputs (keras_simple (sr_act l) f (sr_units l) (mat_of (snd (sr_kernel l))) (mat_of (snd (sr_rkernel l))) (bias_row (sr_bias l))) (sr_backwards l) (rows b x)) (fun _ => 0) j).
Proof. exact (srnn_last_limit tab l f B T x y Y b j). Qed.
Print Assumptions C69_simple_rnn_last_limit.
Theorem C69_gru_last_limit tab l f B T x y Y b j : widening tab -> continuous (sg_act l) -> continuous (sg_ract l) -> gru_shapes l f -> sg_sequences l = false -> shape x = [B; T; f] -> plain (sgru_prog l (One x)) = Some y -> (forall n, eval (tab n) (sgru_prog l (One x)) = Some (Y n)) ->
  (b < B)%nat -> (j < sg_units l)%nat ->
  tends (fun n => at_ (Y n) [b; j]) (last (outputs (keras_gru (sg_act l) (sg_ract l) (sg_reset_after l) f (sg_units l) (mat_of (snd (sg_kernel l))) (mat_of (snd (sg_rkernel l)))
      (fst (gru_bias_rows l)) (snd (gru_bias_rows l))) (sg_backwards l) (rows b x)) (fun _ => 0) j).
Proof. exact (sgru_last_limit tab l f B T x y Y b j). Qed.
Print Assumptions C69_gru_last_limit.

(** ** a concrete case: the QSimpleRNN of P_Plain, whose last state is 13/63 at unit 1 *)
Lemma p3_eval n : exists y, eval (pl_tab n) (srnn_prog pl_rnn (One pl_x)) = Some y. Proof. apply some_of. vm_compute. reflexivity. Qed.
Lemma p3_runs : exists y, plain (srnn_prog pl_rnn (One pl_x)) = Some y. Proof. apply some_of. vm_compute. reflexivity. Qed.
Example C69_rnn_last_limit_case : exists Y, (forall n, eval (pl_tab n) (srnn_prog pl_rnn (One pl_x)) = Some (Y n)) /\ tends (fun n => at_ (Y n) [0; 1]%nat) (13#63).
Proof.
  assert (R : exists Y, forall n, eval (pl_tab n) (srnn_prog pl_rnn (One pl_x)) = Some (Y n)).
  { exists (fun n => match eval (pl_tab n) (srnn_prog pl_rnn (One pl_x)) with Some y => y | None => pl_x end). intros n. destruct (p3_eval n) as (y & E). rewrite E. reflexivity. }
  destruct R as (Y & H). exists Y. split; [exact H|]. destruct p3_runs as (y & E).
  assert (W : widening pl_tab) by (intros k; exists (Z.to_nat k); intros n Hn id; apply kif_fine; lia).
  assert (S : rnn_shapes pl_rnn 2) by (split; [reflexivity|split; [reflexivity|intros id b [=]]]).
  pose proof (C69_simple_rnn_last_limit pl_tab pl_rnn 2 1 2 pl_x y Y 0 1 W continuous_relu S eq_refl eq_refl E H ltac:(lia) ltac:(cbn; lia)) as T.
  eapply L_Limit.tends_ext; [| |exact T]; [intros n; reflexivity|vm_compute; reflexivity].
Qed.
