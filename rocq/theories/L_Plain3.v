(** Lemmas for C69: the limit of recurrent layers that return the last step. *)
From Coq Require Import String.
From Verif Require Import Num M_Fixed M_State M_Wrapper M_Mapper S_Mapper L_Mapper M_Ebops M_Ops L_Ops M_Mirror M_Net L_Net L_Net3 M_Calib L_Calib M_Prog M_Rnn S_Rnn S_Prog L_Prog L_Prog3 S_Cost S_Limit S_Plain L_Limit L_Limit2 L_Limit3 L_Limit4 L_Limit5 L_Plain.
Local Open Scope list_scope.

Lemma plain_rnn_last_shape u backwards step x y B T f : shape x = [B; T; f] -> plain (rnn_prog u backwards false step (One x)) = Some y -> shape y = [B; u].
Proof.
  intros E. cbn [rnn_prog]. rewrite E. cbv zeta. rewrite plain_then. destruct (plain (time_loop _ _ _)) as [ys|]; [|discriminate]. cbn [bind]. rewrite plain_lift. unfold stack_steps. destruct (forallb _ ys) eqn:F; [|discriminate]. cbn [bind].
  intros H. apply nth_error_In in H. rewrite forallb_forall in F. specialize (F y H). apply nat_list_eqb_eq in F. exact F.
Qed.
Lemma returned_last B u outs b y j : shape y = [B; u] -> returned false u b outs y -> (b < B)%nat -> (j < u)%nat -> valid_index (shape y) [b; j] /\ last outs (fun _ => 0) j == at_ y [b; j].
Proof. intros E (_ & R) Hb Hj. split; [rewrite E; repeat constructor; assumption|]. exact (R j Hj). Qed.
Lemma srnn_last_limit tab l f B T x y Y b j : widening tab -> continuous (sr_act l) -> rnn_shapes l f -> sr_sequences l = false -> shape x = [B; T; f] -> plain (srnn_prog l (One x)) = Some y -> (forall n, eval (tab n) (srnn_prog l (One x)) = Some (Y n)) ->
  (b < B)%nat -> (j < sr_units l)%nat ->
  tends (fun n => at_ (Y n) [b; j]) (last (outputs (keras_simple (sr_act l) f (sr_units l) (mat_of (snd (sr_kernel l))) (mat_of (snd (sr_rkernel l))) (bias_row (sr_bias l))) (sr_backwards l) (rows b x)) (fun _ => 0) j).
Proof.
  intros W C R Sq Ex Ey EY Hb Hj. pose proof (layer_limit (srnn_prog l) tab (fun _ => x) x Y y W (smooth_rnn l C) (tends_refl x) Ey EY) as (_ & Tn).
  pose proof (srnn_plain B b Hb l f T x y (continuous_numbers _ C) R Ex Ey) as Rt. rewrite Sq in Rt.
  assert (Sy : shape y = [B; sr_units l]). { unfold srnn_prog in Ey. rewrite plain_then, plain_ask in Ey. cbn [bind] in Ey. rewrite plain_then, plain_ask in Ey. cbn [bind] in Ey. rewrite plain_then, plain_bias in Ey. cbn [bind] in Ey. rewrite Sq in Ey. exact (plain_rnn_last_shape _ _ _ _ _ _ _ _ Ex Ey). }
  destruct (returned_last _ _ _ _ _ _ Sy Rt Hb Hj) as (V & E). eapply tends_ext; [| |exact (Tn _ V)]; [intros n; reflexivity|symmetry; exact E].
Qed.
Lemma sgru_last_limit tab l f B T x y Y b j : widening tab -> continuous (sg_act l) -> continuous (sg_ract l) -> gru_shapes l f -> sg_sequences l = false -> shape x = [B; T; f] -> plain (sgru_prog l (One x)) = Some y -> (forall n, eval (tab n) (sgru_prog l (One x)) = Some (Y n)) ->
  (b < B)%nat -> (j < sg_units l)%nat ->
  tends (fun n => at_ (Y n) [b; j]) (last (outputs (keras_gru (sg_act l) (sg_ract l) (sg_reset_after l) f (sg_units l) (mat_of (snd (sg_kernel l))) (mat_of (snd (sg_rkernel l)))
      (fst (gru_bias_rows l)) (snd (gru_bias_rows l))) (sg_backwards l) (rows b x)) (fun _ => 0) j).
Proof.
  intros W C Cr R Sq Ex Ey EY Hb Hj. pose proof (layer_limit (sgru_prog l) tab (fun _ => x) x Y y W (smooth_gru l C Cr) (tends_refl x) Ey EY) as (_ & Tn).
  pose proof (sgru_plain B b Hb l f T x y (continuous_numbers _ C) (continuous_numbers _ Cr) R Ex Ey) as Rt. rewrite Sq in Rt.
  assert (Sy : shape y = [B; sg_units l]). { unfold sgru_prog in Ey. rewrite plain_then, plain_ask in Ey. cbn [bind] in Ey. rewrite plain_then, plain_ask in Ey. cbn [bind] in Ey. rewrite plain_then, plain_bias in Ey. cbn [bind] in Ey. rewrite Sq in Ey. exact (plain_rnn_last_shape _ _ _ _ _ _ _ _ Ex Ey). }
  destruct (returned_last _ _ _ _ _ _ Sy Rt Hb Hj) as (V & E). eapply tends_ext; [| |exact (Tn _ V)]; [intros n; reflexivity|symmetry; exact E].
Qed.
