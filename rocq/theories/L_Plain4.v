(** Lemmas for C69: the stable softmax without quantizers is a probability distribution up to epsilon. *)
From Coq Require Import String.
From Verif Require Import Num M_Fixed M_State M_Wrapper M_Mapper S_Mapper L_Mapper M_Ebops L_Ebops M_Ops L_Ops M_Mirror L_Mirror M_Net L_Net M_Calib L_Calib M_Prog M_Rnn S_Rnn S_Prog L_Prog L_Prog3 S_Cost S_Limit M_Attn M_ProgAttn S_ProgAttn S_Plain S_Plain2 L_Plain.
Local Open Scope list_scope.

Lemma sum_scale (f : nat -> Q) c l : qsum (map (fun k => f k * c) l) == qsum (map f l) * c.
Proof. induction l as [|a l IH]; cbn [map]; [change (0 == 0 * c); ring|]. change (f a * c + qsum (map (fun k => f k * c) l) == (f a + qsum (map f l)) * c). rewrite IH. ring. Qed.
Lemma sum_ge (f : nat -> Q) l k : (forall j, In j l -> 0 <= f j) -> In k l -> f k <= qsum (map f l).
Proof.
  assert (P : forall l, (forall j, In j l -> 0 <= f j) -> 0 <= qsum (map f l)).
  { clear. induction l as [|a l IH]; intros H; cbn [map]; [apply Qle_refl|]. change (0 <= f a + qsum (map f l)). pose proof (H a (or_introl eq_refl)). pose proof (IH (fun j Hj => H j (or_intror Hj))). lra. }
  induction l as [|a l IH]; intros H Hk; [destruct Hk|]. cbn [map]. change (f k <= f a + qsum (map f l)). destruct Hk as [->|Hk].
  - pose proof (P l (fun j Hj => H j (or_intror Hj))). lra.
  - pose proof (H a (or_introl eq_refl)). pose proof (IH (fun j Hj => H j (or_intror Hj)) Hk). lra.
Qed.
Lemma distribution eps exp n x y : 0 < eps -> (forall v, 0 <= exp v) -> on_numbers exp -> 1 <= exp 0 -> softmax_of true exp (fun v => 1 / (v + eps)) n x y ->
  (forall j, (j < n)%nat -> 0 <= y j) /\ 1 - eps <= sum n y /\ sum n y < 1 /\
  ((forall u v, u <= v -> exp v <= exp u) -> forall i j, (i < n)%nat -> (j < n)%nat -> x i <= x j -> y i <= y j).
Proof.
  intros He Pe Ne E0 (g & Y & m & ((k & Hk & Ek) & _) & G). unfold is_softmax in Y. set (t := qsum (map (fun k => exp (g k)) (seq 0 n))) in *.
  assert (T : 1 <= t). { assert (K : exp (g k) <= t) by (apply (sum_ge (fun k => exp (g k))); [intros j _; apply Pe|apply in_seq; lia]). assert (Z : exp (g k) == exp 0) by (apply Ne; rewrite (G k Hk), Ek; ring). rewrite Z in K. lra. }
  assert (I : 0 < 1 / (t + eps)) by (apply Qlt_shift_div_l; lra).
  assert (S : sum n y == t * (1 / (t + eps))). { unfold sum. rewrite (qsum_ext y (fun k => exp (g k) * (1 / (t + eps)))) by (intros j Hj; apply in_seq in Hj; apply Y; lia). apply sum_scale. }
  assert (S2 : sum n y == 1 - eps * (1 / (t + eps))) by (rewrite S; field; lra).
  assert (I2 : 1 / (t + eps) <= 1) by (apply Qle_shift_div_r; lra).
  split; [intros j Hj; rewrite (Y j Hj); apply Qmult_le_0_compat; [apply Pe|apply Qlt_le_weak, I]|]. split.
  - assert (eps * (1 / (t + eps)) <= eps * 1) by (rewrite !(Qmult_comm eps); apply Qmult_le_compat_r; [exact I2|lra]). lra.
  - split; [assert (0 < eps * (1 / (t + eps))) by (apply Qmult_lt_0_compat; assumption); lra|]. intros A i j Hi Hj L. rewrite (Y i Hi), (Y j Hj). apply Qmult_le_compat_r; [|apply Qlt_le_weak, I]. apply A. rewrite (G i Hi), (G j Hj). lra.
Qed.
