(** The exact softmax over the reals and the key bias. *)
From Coq Require Import Reals List.
From Coq Require Import Lra.
From Verif Require Export S_SoftmaxR.
Import ListNotations.
Open Scope R_scope.


Lemma rsum_scale c (f g : nat -> R) l : (forall q, f q = c * g q) -> rsum (map f l) = c * rsum (map g l).
Proof. intros H. induction l as [|q l IH]; simpl; [ring|]. rewrite H, IH. ring. Qed.
Lemma rsum_plus (f g : nat -> R) l : rsum (map (fun q => f q + g q) l) = rsum (map f l) + rsum (map g l).
Proof. induction l as [|q l IH]; simpl; [ring|]. rewrite IH. ring. Qed.
Lemma rsum_ext (f g : nat -> R) l : (forall q, f q = g q) -> rsum (map f l) = rsum (map g l).
Proof. intros H. induction l as [|q l IH]; simpl; [reflexivity|]. rewrite H, IH. reflexivity. Qed.
Lemma rsum_pos (m : nat -> bool) (f : nat -> R) l p : In p l -> m p = true -> (forall q, 0 < f q) -> 0 < rsum (map (fun q => if m q then f q else 0) l).
Proof.
  intros Hp Hm Hf.
  assert (G : forall l, 0 <= rsum (map (fun q => if m q then f q else 0) l)).
  { clear - Hf. intros l; induction l as [|q l IH]; simpl; [lra|]. destruct (m q); specialize (Hf q); lra. }
  induction l as [|q l IH]; [destruct Hp|]. simpl. destruct Hp as [->|Hp].
  - rewrite Hm. specialize (Hf p). specialize (G l). lra.
  - specialize (IH Hp). destruct (m q); specialize (Hf q); lra.
Qed.
Lemma softmaxR_shift scale m x c ps p : In p ps -> softmaxR scale m (fun q => x q + c) ps p = softmaxR scale m x ps p.
Proof.
  intros Hp. unfold softmaxR. destruct (m p) eqn:Hm; [|reflexivity].
  rewrite (rsum_scale (exp (scale * c)) _ (fun q => if m q then exp (scale * x q) else 0)).
  - pose proof (rsum_pos m (fun q => exp (scale * x q)) ps p Hp Hm (fun q => exp_pos _)).
    rewrite Rmult_plus_distr_l, exp_plus. pose proof (exp_pos (scale * c)). field. split; lra.
  - intros q. destruct (m q); [|ring]. rewrite Rmult_plus_distr_l, exp_plus. ring.
Qed.
Lemma softmaxR_ext scale m x y ps p : (forall q, x q = y q) -> softmaxR scale m x ps p = softmaxR scale m y ps p.
Proof. intros H. unfold softmaxR. rewrite H. destruct (m p); [|reflexivity]. f_equal. apply rsum_ext. intros q. rewrite H. reflexivity. Qed.
Lemma key_bias_exact scale m dk query key bias ps p : In p ps ->
  softmaxR scale m (scoresR dk query key bias) ps p = softmaxR scale m (scoresR dk query key (fun _ => 0)) ps p.
Proof.
  intros Hp. rewrite (softmaxR_ext scale m _ (fun q => scoresR dk query key (fun _ => 0) q + rsum (map (fun d => query d * bias d) (seq 0 dk)))).
  - apply softmaxR_shift, Hp.
  - intros q. unfold scoresR. rewrite <- rsum_plus. apply rsum_ext. intros d. ring.
Qed.
Lemma softmaxR_sums_to_one scale m x ps p : In p ps -> m p = true -> rsum (map (softmaxR scale m x ps) ps) = 1.
Proof.
  intros Hp Hm. pose proof (rsum_pos m (fun q => exp (scale * x q)) ps p Hp Hm (fun q => exp_pos _)) as H.
  set (S := rsum (map (fun q => if m q then exp (scale * x q) else 0) ps)) in *.
  rewrite (rsum_scale (/ S) _ (fun q => if m q then exp (scale * x q) else 0)).
  - fold S. field. lra.
  - intros q. unfold softmaxR. fold S. destruct (m q); unfold Rdiv; ring.
Qed.
