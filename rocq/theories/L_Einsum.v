(** Proofs about QEinsum. *)
From Verif Require Import Num M_State M_Mapper S_Mapper L_Mapper M_Contr M_Ebops S_Ebops L_Ebops M_Ops S_Ops S_Einsum M_Einsum.
From Coq Require Import Permutation.

(** ** terms *)
Lemma letters_cons_let c t : letters (Let c :: t) = c :: letters t. Proof. reflexivity. Qed.
Lemma letters_cons_ell t : letters (Ell :: t) = letters t. Proof. reflexivity. Qed.
Lemma letters_app t u : letters (t ++ u) = letters t ++ letters u. Proof. unfold letters. apply flat_map_app. Qed.
Lemma letters_map_let l : letters (map Let l) = l.
Proof. induction l as [|a l IH]; [reflexivity|]. cbn [map]. rewrite letters_cons_let, IH. reflexivity. Qed.
Lemma in_letters t c : In c (letters t) <-> In (Let c) t.
Proof.
  induction t as [|[a|] t IH]; [reflexivity| |].
  - rewrite letters_cons_let. cbn [In]. rewrite IH. split; (intros [H|H]; [left; congruence|right; exact H]).
  - rewrite letters_cons_ell. cbn [In]. rewrite IH. split; [intros H; right; exact H|intros [H|H]; [discriminate|exact H]].
Qed.
Lemma replace_let rep c t : replace rep (Let c :: t) = Let c :: replace rep t. Proof. reflexivity. Qed.
Lemma replace_ell rep t : replace rep (Ell :: t) = map Let rep ++ replace rep t. Proof. reflexivity. Qed.
Lemma along_let env e c t : along env e (Let c :: t) = env c :: along env e t. Proof. reflexivity. Qed.
Lemma along_ell env e t : along env e (Ell :: t) = e ++ along env e t. Proof. reflexivity. Qed.
Lemma along_app env e t u : along env e (t ++ u) = along env e t ++ along env e u. Proof. unfold along. apply flat_map_app. Qed.
Lemma along_map_let env e l : along env e (map Let l) = map env l.
Proof. induction l as [|a l IH]; [reflexivity|]. cbn [map]. rewrite along_let, IH. reflexivity. Qed.
Lemma ells_let c t : ells (Let c :: t) = ells t. Proof. reflexivity. Qed.
Lemma ells_ell t : ells (Ell :: t) = S (ells t). Proof. reflexivity. Qed.
Lemma ells_0 t : ells t = 0%nat <-> ~ has_ell t.
Proof.
  unfold has_ell. induction t as [|[c|] t IH]; [cbn; intuition| |].
  - rewrite ells_let. cbn [In]. rewrite IH. split; [intros H [X|X]; [discriminate|auto]|intros H X; apply H; auto].
  - rewrite ells_ell. split; [discriminate|intros H; exfalso; apply H; left; reflexivity].
Qed.
Lemma existsb_ell t : existsb is_ell t = true <-> has_ell t.
Proof.
  unfold has_ell. rewrite existsb_exists. split; [intros (s & I & E); destruct s; [discriminate|exact I]|intros I; exists Ell; auto].
Qed.
Lemma existsb_ell_false t : existsb is_ell t = false <-> ~ has_ell t.
Proof. rewrite <- existsb_ell. destruct (existsb is_ell t); split; intros H; [discriminate|exfalso; apply H; reflexivity|discriminate|reflexivity]. Qed.
Lemma replace_no_ell rep t : ~ has_ell (replace rep t).
Proof.
  unfold has_ell. induction t as [|[c|] t IH]; [intros []| |].
  - rewrite replace_let. cbn [In]. intros [X|X]; [discriminate|auto].
  - rewrite replace_ell, in_app_iff. intros [X|X]; [apply in_map_iff in X; destruct X as (? & X & _); discriminate|auto].
Qed.
Lemma in_letters_replace rep t c : In c (letters (replace rep t)) <-> In c (letters t) \/ (has_ell t /\ In c rep).
Proof.
  unfold has_ell. induction t as [|[a|] t IH].
  - cbn. intuition.
  - rewrite replace_let, !letters_cons_let. cbn [In]. rewrite IH. split; [intros [H|[H|[H H']]]; auto|intros [[H|H]|[[H|H] H']]; auto; discriminate].
  - rewrite replace_ell, letters_app, letters_map_let, in_app_iff, IH, letters_cons_ell. cbn [In].
    split; [intros [H|[H|[H H']]]; auto|intros [H|[_ H']]; auto].
Qed.
Lemma replace_id rep t : ~ has_ell t -> replace rep t = t.
Proof.
  unfold has_ell. induction t as [|[c|] t IH]; intros H; [reflexivity| |].
  - rewrite replace_let, IH; [reflexivity|intros X; apply H; right; exact X].
  - exfalso; apply H; left; reflexivity.
Qed.
Lemma along_replace env env' rep e t : (forall c, In c (letters t) -> env' c = env c) -> map env' rep = e -> along env' [] (replace rep t) = along env e t.
Proof.
  intros H He. induction t as [|[c|] t IH]; [reflexivity| |].
  - rewrite replace_let, !along_let, IH, H; [reflexivity|rewrite letters_cons_let; left; reflexivity|intros x X; apply H; rewrite letters_cons_let; right; exact X].
  - rewrite replace_ell, along_app, along_map_let, along_ell, He, IH; [reflexivity|exact H].
Qed.
Lemma along_ext env env' e t : (forall c, In c (letters t) -> env' c = env c) -> along env' e t = along env e t.
Proof.
  intros H. induction t as [|[c|] t IH]; [reflexivity| |].
  - rewrite !along_let, IH, H; [reflexivity|rewrite letters_cons_let; left; reflexivity|intros x X; apply H; rewrite letters_cons_let; right; exact X].
  - rewrite !along_ell, IH; [reflexivity|exact H].
Qed.
Lemma length_along env e t : length (along env e t) = (length (letters t) + ells t * length e)%nat.
Proof.
  induction t as [|[c|] t IH]; [reflexivity| |].
  - rewrite along_let, letters_cons_let, ells_let. cbn [length]. rewrite IH. lia.
  - rewrite along_ell, letters_cons_ell, ells_ell, app_length, IH. lia.
Qed.
Lemma strlen_eq t : strlen t = (Z.of_nat (length (letters t)) + 3 * Z.of_nat (ells t))%Z.
Proof.
  induction t as [|[c|] t IH]; [reflexivity| |].
  - rewrite letters_cons_let, ells_let. unfold strlen in *. cbn [map fold_right length]. rewrite IH. lia.
  - rewrite letters_cons_ell, ells_ell. unfold strlen in *. cbn [map fold_right]. rewrite IH. lia.
Qed.

(** ** environments *)
Lemma bind_other ls : forall idx e c, ~ In c ls -> bind_idx ls idx e c = e c.
Proof.
  induction ls as [|a ls IH]; intros [|v idx] e c H; cbn [bind_idx]; try reflexivity.
  unfold upd. destruct (Nat.eqb_spec c a) as [->|D]; [exfalso; apply H; left; reflexivity|]. apply IH. intros X; apply H; right; exact X.
Qed.
Lemma bind_map ls : forall idx e, NoDup ls -> length ls = length idx -> map (bind_idx ls idx e) ls = idx.
Proof.
  induction ls as [|a ls IH]; intros [|v idx] e N L; try discriminate; [reflexivity|].
  inversion N as [|? ? Na Nl]; subst. cbn [map bind_idx]. unfold upd at 1. rewrite Nat.eqb_refl. f_equal.
  rewrite <- (IH idx e Nl) at 2 by (cbn in L; lia). apply map_ext_in. intros c Hc. unfold upd. destruct (Nat.eqb_spec c a); [subst; contradiction|reflexivity].
Qed.
Lemma sum_rel (R : (nat -> nat) -> (nat -> nat) -> Prop) dims dims' ls F G :
  (forall l, In l ls -> dims l = dims' l) -> (forall e e' l v, In l ls -> R e e' -> R (upd e l v) (upd e' l v)) ->
  (forall e e', R e e' -> F e == G e') -> forall e e', R e e' -> sum_over 0 Qplus dims ls F e == sum_over 0 Qplus dims' ls G e'.
Proof.
  intros HD HU HF. induction ls as [|l ls IH]; intros e e' H; cbn [sum_over]; [apply HF, H|].
  cq. rewrite (HD l (or_introl eq_refl)). apply qsum_ext. intros v _. apply IH.
  - intros l' I. apply HD. right. exact I.
  - intros e1 e2 l' v' I. apply HU. right. exact I.
  - apply HU; [left; reflexivity|exact H].
Qed.
Lemma product_rel ts ts' xs env env' e e' :
  Forall2 (fun t t' => along env e t = along env' e' t') ts ts' -> product ts xs env e == product ts' xs env' e'.
Proof.
  intros H. revert xs. induction H as [|t t' ts ts' Ht _ IH]; intros xs; [reflexivity|].
  destruct xs as [|x xs]; [reflexivity|]. cbn [product]. rewrite Ht, IH. reflexivity.
Qed.
Lemma Forall2_map_r {A B} (P : A -> B -> Prop) f l : (forall a, In a l -> P a (f a)) -> Forall2 P l (map f l).
Proof. induction l as [|a l IH]; intros H; cbn [map]; constructor; [apply H; left; reflexivity|apply IH; intros b I; apply H; right; exact I]. Qed.
Lemma Forall2_same {A} (P : A -> A -> Prop) l : (forall a, In a l -> P a a) -> Forall2 P l l.
Proof. induction l as [|a l IH]; intros H; constructor; [apply H; left; reflexivity|apply IH; intros b I; apply H; right; exact I]. Qed.
Lemma product_ext ts xs e : env_ext Qeq (fun env => product ts xs env e).
Proof. intros a b H. apply product_rel, Forall2_same. intros t _. apply along_ext. intros c _. apply H. Qed.

(** ** the summed letters *)
Lemma in_flat_letters ts c : In c (flat_map letters ts) <-> exists t, In t ts /\ In c (letters t).
Proof. apply in_flat_map. Qed.
Lemma in_summed q c : In c (summed q) <-> (exists t, In t (e_ins q) /\ In c (letters t)) /\ ~ In c (letters (e_out q)).
Proof.
  unfold summed. rewrite filter_In, nodup_In, in_flat_letters, negb_true_iff. split; intros [H1 H2]; split; auto; [apply memb_false, H2|apply memb_false, H2].
Qed.
Lemma summed_NoDup q : NoDup (summed q). Proof. apply NoDup_filter, NoDup_nodup. Qed.

(** ** reading an output index *)
Lemma read_letters d rep : forall t a b, length a = length rep ->
  forall c, fst (read_out d (map Let rep ++ t) (a ++ b)) c = bind_idx rep a (fst (read_out d t b)) c.
Proof.
  induction rep as [|r rep IH]; intros t [|v a] b L c; try discriminate; [reflexivity|].
  cbn [map app read_out fst bind_idx]. unfold upd. destruct (c =? r)%nat; [reflexivity|]. apply IH. cbn in L; lia.
Qed.
Lemma read_replace rep d out : forall idx, length rep = d -> NoDup rep -> (ells out <= 1)%nat -> (forall c, In c (letters out) -> ~ In c rep) ->
  length idx = (length (letters out) + ells out * d)%nat ->
  (forall c, ~ In c rep -> fst (read_out 0 (replace rep out) idx) c = fst (read_out d out idx) c) /\
  (has_ell out -> map (fst (read_out 0 (replace rep out) idx)) rep = snd (read_out d out idx)).
Proof.
  induction out as [|[c|] out IH]; intros idx Hd HN HE HL HI.
  - split; [reflexivity|intros []].
  - rewrite replace_let. rewrite letters_cons_let, ells_let in HI. destruct idx as [|v idx]; [cbn in HI; lia|]. cbn [read_out fst snd].
    destruct (IH idx Hd HN HE) as [A B]; [intros x X; apply HL; rewrite letters_cons_let; right; exact X|cbn in HI; lia|].
    split.
    + intros x X. unfold upd. destruct (x =? c)%nat; [reflexivity|apply A, X].
    + intros [X|X]; [discriminate|]. rewrite <- (B X). apply map_ext_in. intros x I. unfold upd.
      destruct (Nat.eqb_spec x c) as [->|D]; [|reflexivity]. exfalso. apply (HL c); [rewrite letters_cons_let; left; reflexivity|exact I].
  - rewrite replace_ell. rewrite letters_cons_ell, ells_ell in HI. rewrite ells_ell in HE.
    assert (L : (d <= length idx)%nat) by lia.
    assert (E : idx = firstn d idx ++ skipn d idx) by (symmetry; apply firstn_skipn).
    assert (Lf : length (firstn d idx) = length rep) by (rewrite firstn_length; lia).
    assert (N : ~ has_ell out) by (apply ells_0; lia).
    assert (K : forall c, fst (read_out 0 (map Let rep ++ replace rep out) idx) c = bind_idx rep (firstn d idx) (fst (read_out 0 (replace rep out) (skipn d idx))) c).
    { intros c. rewrite E at 1. apply read_letters, Lf. }
    destruct (IH (skipn d idx) Hd HN) as [A _]; [lia|exact HL|rewrite skipn_length; lia|].
    split.
    + intros c C. rewrite K, bind_other by exact C. apply A, C.
    + intros _. cbn [read_out snd]. rewrite (map_ext _ _ K). apply bind_map; [exact HN|rewrite Lf; reflexivity].
Qed.

(** ** the expansion preserves the meaning *)
Definition expand (rep : list nat) (q : equation) : equation := mk_eq (map (replace rep) (e_ins q)) (replace rep (e_out q)).
Definition fresh (rep : list nat) (q : equation) : Prop := NoDup rep /\ forall t c, In t (e_ins q) -> In c rep -> ~ In c (letters t).
Lemma nodup_replace rep t : NoDup rep -> NoDup (letters t) -> (ells t <= 1)%nat -> (forall c, In c (letters t) -> ~ In c rep) -> NoDup (letters (replace rep t)).
Proof.
  intros HR. induction t as [|[c|] t IH]; intros HN HE HD.
  - constructor.
  - rewrite replace_let, letters_cons_let. rewrite letters_cons_let in HN. inversion HN as [|? ? Nc Nt]; subst. constructor.
    + rewrite in_letters_replace. intros [X|[_ X]]; [auto|]. apply (HD c); [rewrite letters_cons_let; left; reflexivity|exact X].
    + apply IH; [exact Nt|exact HE|]. intros x X. apply HD. rewrite letters_cons_let. right. exact X.
  - rewrite ells_ell in HE. rewrite replace_ell, letters_app, letters_map_let.
    assert (N : ~ has_ell t) by (apply ells_0; lia). rewrite (replace_id rep t N). rewrite letters_cons_ell in HN, HD.
    clear -HR HN HD. induction HR as [|a rep Ha HR IH]; [exact HN|]. cbn [app]. constructor.
    + rewrite in_app_iff. intros [X|X]; [auto|]. apply (HD a X). left. reflexivity.
    + apply IH. intros c Hc X. apply (HD c Hc). right. exact X.
Qed.
Lemma expand_fit dims es q xs rep : operands_fit dims es q xs -> fresh rep q -> length rep = length es ->
  operands_fit (bind_idx rep es dims) [] (expand rep q) xs.
Proof.
  intros (H1 & H2 & H3) [HN HF] HL. split; [|split].
  - cbn [expand e_ins]. revert HF. clear -H1 HN HL. induction H1 as [|t x ts xs Ht _ IH]; intros HF; cbn [map]; constructor.
    + rewrite Ht. symmetry. apply along_replace; [|apply bind_map; assumption].
      intros c Hc. apply bind_other. intros X. apply (HF t c); [left; reflexivity|exact X|exact Hc].
    + apply IH. intros t' c I. apply HF. right. exact I.
  - cbn [expand e_ins]. apply Forall_forall. intros t I. apply in_map_iff in I. destruct I as (t' & <- & _).
    assert (ells (replace rep t') = 0%nat) by apply ells_0, replace_no_ell. lia.
  - intros X; exfalso; apply X; reflexivity.
Qed.
Lemma expand_legal flag es q rep : output_legal flag es q -> fresh rep q -> output_legal flag [] (expand rep q).
Proof.
  intros (H1 & H2 & H3 & H4 & H5) [HN HF].
  assert (HD : forall c, In c (letters (e_out q)) -> ~ In c rep).
  { intros c Hc X. destruct (H3 c Hc) as (t & I & J). apply (HF t c I X J). }
  split; [|split; [|split; [|split]]]; cbn [expand e_out e_ins].
  - apply nodup_replace; assumption.
  - assert (ells (replace rep (e_out q)) = 0%nat) by apply ells_0, replace_no_ell. lia.
  - intros c Hc. apply in_letters_replace in Hc. destruct Hc as [Hc|[He Hc]].
    + destruct (H3 c Hc) as (t & I & J). exists (replace rep t). split; [apply in_map, I|apply in_letters_replace; left; exact J].
    + destruct (H4 He) as (t & I & J). exists (replace rep t). split; [apply in_map, I|apply in_letters_replace; right; auto].
  - intros X. exfalso. apply (replace_no_ell _ _ X).
  - intros _ X. exfalso. apply X. reflexivity.
Qed.
Lemma expand_element flag dims es q xs rep idx : operands_fit dims es q xs -> output_legal flag es q -> fresh rep q -> length rep = length es ->
  length idx = length (along dims es (e_out q)) ->
  element (bind_idx rep es dims) [] (expand rep q) xs idx == element dims es q xs idx.
Proof.
  intros (H1 & H2 & H3) (O1 & O2 & O3 & O4 & O5) [HN HF] HL HI. rewrite length_along in HI.
  assert (HD : forall c, In c (letters (e_out q)) -> ~ In c rep).
  { intros c Hc X. destruct (O3 c Hc) as (t & I & J). apply (HF t c I X J). }
  destruct (read_replace rep (length es) (e_out q) idx HL HN O2 HD HI) as [A B].
  unfold element. cbn [expand e_out]. cbv zeta.
  rewrite (proj2 (existsb_ell_false _) (replace_no_ell rep (e_out q))). change (indices []) with [@nil nat].
  rewrite (qsum_single_map (@nil nat)). change (length (@nil nat)) with 0%nat.
  set (dims' := bind_idx rep es dims). set (r' := read_out 0 _ idx) in *. set (r := read_out (length es) _ idx) in *.
  assert (HS : forall c, In c (summed q) -> ~ In c rep).
  { intros c Hc X. apply in_summed in Hc. destruct Hc as [(t & I & J) _]. apply (HF t c I X J). }
  set (R := fun e0 (env' env : nat -> nat) => (forall c, ~ In c rep -> env' c = env c) /\ map env' rep = e0).
  assert (core : forall e0 env' env, R e0 env' env ->
    sum_over 0 Qplus dims' (summed q) (fun env => product (e_ins (expand rep q)) xs env []) env' == sum_over 0 Qplus dims (summed q) (fun env => product (e_ins q) xs env e0) env).
  { intros e0. apply (sum_rel (R e0)).
    - intros l Hl. apply bind_other, HS, Hl.
    - intros e e' l v Hl [U V]. split.
      + intros c Hc. unfold upd. destruct (c =? l)%nat; [reflexivity|apply U, Hc].
      + rewrite <- V. apply map_ext_in. intros c Hc. unfold upd. destruct (Nat.eqb_spec c l) as [->|D]; [|reflexivity]. exfalso. apply (HS l Hl Hc).
    - intros e e' [U V]. symmetry. apply product_rel. cbn [expand e_ins]. apply Forall2_map_r. intros t It. symmetry.
      apply along_replace; [|exact V]. intros c Hc. apply U. intros X. apply (HF t c It X Hc). }
  assert (FE : env_ext Qeq (fun env => product (e_ins (expand rep q)) xs env [])) by apply product_ext.
  destruct (existsb is_ell (e_out q)) eqn:EE.
  - apply existsb_ell in EE. rewrite (qsum_single_map (snd r)).
    assert (P : Permutation (summed (expand rep q)) (summed q)).
    { apply NoDup_Permutation; [apply summed_NoDup|apply summed_NoDup|]. intros c. rewrite !in_summed. cbn [expand e_ins e_out]. split.
      - intros [(t' & I & J) K]. apply in_map_iff in I. destruct I as (t & <- & I). rewrite in_letters_replace in J, K.
        destruct J as [J|[_ J]]; [split; [exists t; auto|auto]|exfalso; apply K; auto].
      - intros [(t & I & J) K]. split; [exists (replace rep t); split; [apply in_map, I|apply in_letters_replace; auto]|].
        rewrite in_letters_replace. intros [X|[_ X]]; [auto|]. apply (HF t c I X J). }
    rewrite (sum_over_perm dims' _ _ _ FE P (summed_NoDup _)). apply core. split; [exact A|apply B, EE].
  - apply existsb_ell_false in EE.
    assert (P : Permutation (summed (expand rep q)) (rep ++ summed q)).
    { apply NoDup_Permutation; [apply summed_NoDup| |].
      - clear -HN HS. generalize (summed_NoDup q). revert HS. generalize (summed q). intros s HS Ns.
        induction HN as [|a rep Ha HN IH]; [exact Ns|]. cbn [app]. constructor.
        + rewrite in_app_iff. intros [X|X]; [auto|]. apply (HS a X). left; reflexivity.
        + apply IH. intros c Hc X. apply (HS c Hc). right; exact X.
      - intros c. rewrite in_app_iff, !in_summed. cbn [expand e_ins e_out]. rewrite (replace_id rep _ EE). split.
        + intros [(t' & I & J) K]. apply in_map_iff in I. destruct I as (t & <- & I). rewrite in_letters_replace in J.
          destruct J as [J|[_ J]]; [right; split; [exists t; auto|auto]|left; exact J].
        + intros [X|[(t & I & J) K]].
          * assert (es <> []) by (intros ->; destruct rep; [destruct X|discriminate]).
            destruct (H3 H) as (t & I & J). split; [exists (replace rep t); split; [apply in_map, I|apply in_letters_replace; auto]|].
            intros Y. apply (HD c Y X).
          * split; [exists (replace rep t); split; [apply in_map, I|apply in_letters_replace; auto]|exact K]. }
    rewrite (sum_over_perm dims' _ _ _ FE P (summed_NoDup _)), sum_over_app.
    rewrite <- (sum_over_bind dims' rep _ (fst r') HN (sum_over_ext dims' _ _ FE)).
    assert (M : map dims' rep = es) by (apply bind_map; assumption). rewrite M.
    apply qsum_ext. intros o Ho. apply in_indices in Ho. apply Forall2_len in Ho.
    apply core. split; [|apply bind_map; [exact HN|congruence]]. intros c Hc. rewrite bind_other by exact Hc. apply A, Hc.
Qed.
Lemma valid_len sh idx : valid_index sh idx -> length idx = length sh. Proof. apply Forall2_len. Qed.
Lemma expand_same flag dims es q xs rep : operands_fit dims es q xs -> output_legal flag es q -> fresh rep q -> length rep = length es ->
  same_tensor (einsum_result (bind_idx rep es dims) [] (expand rep q) xs) (einsum_result dims es q xs).
Proof.
  intros HO HL HF HR. assert (S : along (bind_idx rep es dims) [] (replace rep (e_out q)) = along dims es (e_out q)).
  { destruct HF as [HN HF]. destruct HL as (_ & _ & O3 & _). apply along_replace; [|apply bind_map; assumption].
    intros c Hc. apply bind_other. intros X. destruct (O3 c Hc) as (t & I & J). apply (HF t c I X J). }
  split; [exact S|]. cbn [einsum_result shape at_ expand e_out]. rewrite S. intros idx V.
  apply (expand_element flag); [exact HO|exact HL|exact HF|exact HR|]. rewrite (valid_len _ _ V). reflexivity.
Qed.

(** ** build *)
Lemma insert_perm a l : Permutation (insert a l) (a :: l).
Proof.
  induction l as [|b l IH]; [reflexivity|]. cbn [insert]. destruct (a <=? b)%nat; [reflexivity|].
  rewrite IH. apply perm_swap.
Qed.
Lemma isort_perm l : Permutation (isort l) l.
Proof. induction l as [|a l IH]; [reflexivity|]. cbn [isort]. rewrite insert_perm, IH. reflexivity. Qed.
Lemma rank_of dims es t : (ells t <= 1)%nat -> (has_ell t /\ strlen t = Z.of_nat (length (letters t)) + 3 /\ Z.of_nat (length (along dims es t)) = Z.of_nat (length (letters t)) + Z.of_nat (length es))%Z \/
  (~ has_ell t /\ strlen t = Z.of_nat (length (along dims es t))).
Proof.
  intros H. rewrite strlen_eq, length_along. destruct (ells t) as [|[|n]] eqn:E; [right|left|lia].
  - split; [apply ells_0, E|lia].
  - split; [|lia]. destruct (existsb is_ell t) eqn:X; [apply existsb_ell, X|]. apply existsb_ell_false, ells_0 in X. congruence.
Qed.
Lemma scan_3 dims es : length es = 3%nat -> forall ts xs wild avail, Forall2 (fun t (x : tensor Q) => shape x = along dims es t) ts xs -> Forall (fun t => (ells t <= 1)%nat) ts ->
  scan wild avail ts (ranks xs) = Some (wild, avail).
Proof.
  intros H3 ts xs wild avail H. revert wild avail. induction H as [|t x ts xs Ht _ IH]; intros wild avail HE; [reflexivity|].
  inversion HE as [|? ? E0 E1]; subst. cbn [ranks map scan]. rewrite Ht.
  assert (E : strlen t = Z.of_nat (length (along dims es t))) by (destruct (rank_of dims es t E0) as [(_ & A & B)|[_ A]]; lia).
  rewrite E, Z.eqb_refl. cbn [negb]. apply IH, E1.
Qed.
Lemma scan_other dims es : length es <> 3%nat -> forall ts xs wild avail, Forall2 (fun t (x : tensor Q) => shape x = along dims es t) ts xs -> Forall (fun t => (ells t <= 1)%nat) ts ->
  (wild = None \/ wild = Some (Z.of_nat (length es))) -> NoDup avail ->
  exists wild' avail', scan wild avail ts (ranks xs) = Some (wild', avail') /\ NoDup avail' /\
    (forall c, In c avail' <-> In c avail /\ forall t, In t ts -> has_ell t -> ~ In c (letters t)) /\
    (wild' = Some (Z.of_nat (length es)) \/ (wild' = None /\ forall t, In t ts -> ~ has_ell t)) /\ (wild <> None -> wild' <> None).
Proof.
  intros H3 ts xs wild avail H. revert wild avail. induction H as [|t x ts xs Ht _ IH]; intros wild avail HE HW HN.
  - exists wild, avail. split; [reflexivity|]. split; [exact HN|]. split; [intros c; split; [intros X; split; [exact X|intros t []]|intros [X _]; exact X]|].
    split; [destruct HW as [->| ->]; [right; split; [reflexivity|intros t []]|left; reflexivity]|auto].
  - inversion HE as [|? ? E0 E1]; subst. cbn [ranks map scan]. rewrite Ht.
    destruct (rank_of dims es t E0) as [(EL & A & B)|[EL A]].
    + destruct (Z.eqb_spec (strlen t) (Z.of_nat (length (along dims es t)))) as [X|X]; [lia|]. cbn [negb].
      rewrite (proj2 (existsb_ell t) EL). cbv zeta.
      assert (W : (Z.of_nat (length (along dims es t)) - (strlen t - 3))%Z = Z.of_nat (length es)) by lia. rewrite W.
      assert (W' : match wild with Some w0 => w0 | None => Z.of_nat (length es) end = Z.of_nat (length es)) by (destruct HW as [->| ->]; reflexivity).
      assert (W'' : match wild with Some _ => true | None => (0 <=? Z.of_nat (length es))%Z end = true) by (destruct HW as [->| ->]; [apply Z.leb_le; lia|reflexivity]).
      rewrite W', W'', Z.eqb_refl.
      destruct (IH (Some (Z.of_nat (length es))) (filter (fun c => negb (memb c (letters t))) avail) E1 (or_intror eq_refl) (NoDup_filter _ HN)) as (w & a & S1 & S2 & S3 & S4 & S5).
      exists w, a. split; [exact S1|]. split; [exact S2|]. split; [|split].
      * intros c. rewrite S3, filter_In, negb_true_iff, memb_false. split.
        -- intros [[P Q] R]. split; [exact P|]. intros t' [<-|I] Hl; [exact Q|apply R; assumption].
        -- intros [P Q]. split; [split; [exact P|apply Q; [left; reflexivity|exact EL]]|]. intros t' I. apply Q. right. exact I.
      * left. destruct S4 as [S4|[S4 _]]; [exact S4|]. exfalso. apply S5; [discriminate|exact S4].
      * intros _. apply S5. discriminate.
    + rewrite A, Z.eqb_refl. cbn [negb]. destruct (IH wild avail E1 HW HN) as (w & a & S1 & S2 & S3 & S4 & S5).
      exists w, a. split; [exact S1|]. split; [exact S2|]. split; [|split].
      * intros c. rewrite S3. split; intros [P Q]; (split; [exact P|]).
        -- intros t' [<-|I] Hl; [contradiction|apply Q; assumption].
        -- intros t' I. apply Q. right. exact I.
      * destruct S4 as [S4|[S4 S4']]; [left; exact S4|right; split; [exact S4|]]. intros t' [<-|I]; [exact EL|apply S4', I].
      * exact S5.
Qed.
Lemma filter_count (L l : list nat) : NoDup l -> (length l <= length (filter (fun c => negb (memb c L)) l) + length (nodup Nat.eq_dec L))%nat.
Proof.
  intros N.
  assert (A : (length l = length (filter (fun c => negb (memb c L)) l) + length (filter (fun c => memb c L) l))%nat).
  { clear N. induction l as [|a l IH]; [reflexivity|]. cbn [filter]. destruct (memb a L); cbn [negb length]; lia. }
  assert (B : (length (filter (fun c => memb c L) l) <= length (nodup Nat.eq_dec L))%nat).
  { apply NoDup_incl_length; [apply NoDup_filter, N|]. intros c Hc. apply filter_In in Hc. apply nodup_In, memb_In, (proj2 Hc). }
  lia.
Qed.
Lemma firstn_incl {A} n (l : list A) x : In x (firstn n l) -> In x l.
Proof. intros H. rewrite <- (firstn_skipn n l). apply in_or_app. left. exact H. Qed.
Lemma firstn_NoDup {A} n (l : list A) : NoDup l -> NoDup (firstn n l).
Proof.
  intros H. revert n. induction H as [|a l Ha _ IH]; intros [|n]; cbn [firstn]; constructor; [|apply IH].
  intros X. apply Ha, (firstn_incl n), X.
Qed.
Lemma operands_count dims es q xs : operands_fit dims es q xs -> length (ranks xs) = length (e_ins q).
Proof. intros (H & _). unfold ranks. rewrite map_length. symmetry. exact (Forall2_len _ _ _ H). Qed.
(** build leaves the equation as it is, or replaces the ellipsis by fresh letters, as many as it has axes *)
Lemma build_spec dims es q xs order : operands_fit dims es q xs -> set_order order -> letters_covered q -> enough_letters q (length es) ->
  (build order q (ranks xs) = Some q /\ (length es = 3%nat \/ forall t, In t (e_ins q) -> ~ has_ell t)) \/
  exists rep, build order q (ranks xs) = Some (expand rep q) /\ fresh rep q /\ length rep = length es.
Proof.
  intros HO HS HC HE. unfold build. rewrite (operands_count _ _ _ _ HO), Nat.eqb_refl. destruct HO as (H1 & H2 & H3).
  destruct (Nat.eq_dec (length es) 3) as [D|D].
  - left. rewrite (scan_3 dims es D _ _ None alphabet H1 H2). split; [reflexivity|left; exact D].
  - destruct (scan_other dims es D _ _ None alphabet H1 H2 (or_introl eq_refl) (seq_NoDup _ _)) as (w & a & S1 & S2 & S3 & S4 & _). rewrite S1.
    destruct S4 as [->|[-> S4]]; [|left; split; [reflexivity|right; exact S4]]. right. rewrite Nat2Z.id.
    set (rep := isort _). exists rep. split; [reflexivity|].
    assert (P : Permutation rep (firstn (length es) (order a))) by apply isort_perm.
    assert (No : NoDup (order a)) by (apply (Permutation_NoDup (Permutation_sym (HS a)) S2)).
    split.
    + split; [apply (Permutation_NoDup (Permutation_sym P)), firstn_NoDup, No|].
      intros t c It Ic. apply (Permutation_in _ P), firstn_incl, (Permutation_in _ (HS a)), S3 in Ic. destruct Ic as [_ Ic].
      intros X. destruct (existsb is_ell t) eqn:EL; [apply existsb_ell in EL; apply (Ic t It EL X)|].
      apply existsb_ell_false in EL. destruct (HC t c It EL X) as (t' & A & B & C). apply (Ic t' A B C).
    + rewrite (Permutation_length P), firstn_length, (Permutation_length (HS a)).
      assert (G : (52 - length (nodup Nat.eq_dec (flat_map letters (e_ins q))) <= length a)%nat).
      { pose proof (filter_count (flat_map letters (e_ins q)) alphabet (seq_NoDup _ _)) as K. unfold alphabet in K at 1. rewrite seq_length in K.
        assert (I : (length (filter (fun c => negb (memb c (flat_map letters (e_ins q)))) alphabet) <= length a)%nat).
        { apply NoDup_incl_length; [apply NoDup_filter, seq_NoDup|]. intros c Hc. apply filter_In in Hc. destruct Hc as [U V].
          apply negb_true_iff, memb_false in V. apply S3. split; [exact U|]. intros t It _ X. apply V, in_flat_letters. exists t. auto. }
        lia. }
      unfold enough_letters in HE. lia.
Qed.
Lemma same_tensor_trans x y z : same_tensor x y -> same_tensor y z -> same_tensor x z.
Proof. intros [A B] [C D]. split; [congruence|]. intros i V. rewrite (B i V). apply D. rewrite <- A. exact V. Qed.
Lemma same_tensor_sym x y : same_tensor x y -> same_tensor y x.
Proof. intros [A B]. split; [congruence|]. intros i V. symmetry. apply B. rewrite A. exact V. Qed.
Lemma layer_is_einsum flag order q xs y dims es : operands_fit dims es q xs -> output_legal flag es q -> set_order order -> letters_covered q -> enough_letters q (length es) ->
  same_tensor y (einsum_result dims es q xs) -> layer_call flag order q xs y.
Proof.
  intros HO HL HS HC HE HY. destruct (build_spec _ _ _ _ order HO HS HC HE) as [[B _]|(rep & B & F & L)].
  - exists q. split; [exact B|]. exists dims, es. auto.
  - exists (expand rep q). split; [exact B|]. exists (bind_idx rep es dims), []. split; [apply expand_fit; assumption|]. split; [apply (expand_legal flag es); assumption|].
    apply (same_tensor_trans _ _ _ HY), same_tensor_sym, (expand_same flag); assumption.
Qed.

(** ** einsum is a function *)
Lemma along_inj dims dims' es es' t : (ells t <= 1)%nat -> along dims es t = along dims' es' t ->
  (forall c, In c (letters t) -> dims c = dims' c) /\ (has_ell t -> es = es').
Proof.
  intros HE H. assert (L : length (along dims es t) = length (along dims' es' t)) by (rewrite H; reflexivity). rewrite !length_along in L.
  induction t as [|[c|] t IH].
  - split; [intros ? []|intros []]. 
  - rewrite !along_let in H. injection H as H0 H. rewrite ells_let in *. rewrite letters_cons_let in *. cbn [length] in L.
    destruct (IH HE H) as [A B]; [lia|]. split; [intros x [<-|X]; [exact H0|apply A, X]|]. intros [X|X]; [discriminate|apply B, X].
  - rewrite !along_ell in H. rewrite ells_ell in *. assert (N : ells t = 0%nat) by lia. rewrite letters_cons_ell in *.
    assert (LE : length es = length es') by (rewrite N in L; lia).
    assert (E : es = es').
    { rewrite <- (firstn_all2 es (le_n _)), <- (firstn_all2 es' (le_n _)).
      assert (K : firstn (length es) (es ++ along dims es t) = firstn (length es) (es' ++ along dims' es' t)) by (rewrite H; reflexivity).
      rewrite firstn_app, Nat.sub_diag, firstn_O, app_nil_r in K. rewrite K. rewrite LE, firstn_app, Nat.sub_diag, firstn_O, app_nil_r. reflexivity. }
    split; [|auto]. subst es'. apply app_inv_head in H. apply IH; [lia|exact H|rewrite N in *; lia].
Qed.
Lemma element_ext dims dims' es q xs idx : (forall t c, In t (e_ins q) -> In c (letters t) -> dims c = dims' c) -> element dims es q xs idx == element dims' es q xs idx.
Proof.
  intros H. unfold element. cbv zeta. apply qsum_ext. intros e _.
  apply (sum_rel (fun a b => forall l, a l = b l)).
  - intros l Hl. apply in_summed in Hl. destruct Hl as [(t & I & J) _]. apply (H t); assumption.
  - intros a b l v _ E c. unfold upd. destruct (c =? l)%nat; auto.
  - intros a b E. apply product_ext, E.
  - reflexivity.
Qed.
Lemma einsum_functional flag q xs y y' : is_einsum flag q xs y -> is_einsum flag q xs y' -> same_tensor y y'.
Proof.
  intros (d & es & (H1 & H2 & H3) & HL & HY) (d' & es' & (H1' & H2' & H3') & HL' & HY').
  assert (D : forall t, In t (e_ins q) -> (forall c, In c (letters t) -> d c = d' c) /\ (has_ell t -> es = es')).
  { intros t It. clear HY HY' HL HL' H3 H3'. revert xs H1 H1' t It. clear H2'. revert H2. generalize (e_ins q). 
    induction l as [|t0 ts IH]; intros HE xs H1 H1' t It; [destruct It|].
    destruct xs as [|x xs]; [inversion H1|]. inversion H1 as [|? ? ? ? A B]; subst. inversion H1' as [|? ? ? ? A' B']; subst. inversion HE as [|? ? E0 E1]; subst.
    destruct It as [<-|It]; [apply along_inj; [exact E0|congruence]|apply (IH E1 xs B B' t It)]. }
  assert (E : es = es').
  { destruct es as [|e es], es' as [|e' es']; [reflexivity| | |].
    - destruct H3' as (t & I & J); [discriminate|]. apply (proj2 (D t I) J).
    - destruct H3 as (t & I & J); [discriminate|]. apply (proj2 (D t I) J).
    - destruct H3 as (t & I & J); [discriminate|]. apply (proj2 (D t I) J). }
  subst es'. apply (same_tensor_trans _ _ _ HY), (fun H => same_tensor_trans _ _ _ H (same_tensor_sym _ _ HY')).
  assert (S : along d es (e_out q) = along d' es (e_out q)).
  { destruct HL as (_ & _ & O3 & _). apply along_ext. intros c Hc. destruct (O3 c Hc) as (t & I & J). apply (proj1 (D t I) c J). }
  split; [exact S|]. cbn [einsum_result shape at_]. intros idx _. apply element_ext. intros t c It Ic. apply (proj1 (D t It) c Ic).
Qed.
Lemma layer_functional flag order q xs y y' : layer_call flag order q xs y -> layer_call flag order q xs y' -> same_tensor y y'.
Proof. intros (q1 & B & H) (q2 & B' & H'). rewrite B in B'. injection B' as <-. apply (einsum_functional flag _ _ _ _ H H'). Qed.
Lemma layer_iff flag order q xs y : set_order order -> letters_covered q ->
  (forall dims es, operands_fit dims es q xs -> enough_letters q (length es)) -> (exists y0, is_einsum flag q xs y0) ->
  (layer_call flag order q xs y <-> is_einsum flag q xs y).
Proof.
  intros HS HC HE (y0 & d & es & HO & HL & HY).
  assert (L : layer_call flag order q xs y0) by (apply (layer_is_einsum flag order q xs y0 d es); auto; apply (HE d es HO)).
  split.
  - intros H. exists d, es. split; [exact HO|]. split; [exact HL|]. apply (same_tensor_trans _ _ _ (layer_functional _ _ _ _ _ _ H L) HY).
  - intros (d' & es' & HO' & HL' & HY'). apply (layer_is_einsum flag order q xs y d' es'); auto. apply (HE d' es' HO').
Qed.

(** ** EBOPs *)
Lemma labels_perm q : NoDup (letters (e_out q)) -> (forall c, In c (letters (e_out q)) -> exists t, In t (e_ins q) /\ In c (letters t)) ->
  Permutation (summed (ebops_equation q)) (letters (e_out q) ++ summed q).
Proof.
  intros HN HI. apply NoDup_Permutation; [apply summed_NoDup| |].
  - assert (X : forall c, In c (letters (e_out q)) -> ~ In c (summed q)) by (intros c H1 H2; apply in_summed in H2; apply (proj2 H2 H1)).
    pose proof (summed_NoDup q) as Ns. revert X Ns. generalize (summed q) as s. revert HN. generalize (letters (e_out q)). intros l HN s X Ns.
    induction HN as [|a l Ha HN IH]; [exact Ns|]. cbn [app]. constructor.
    + rewrite in_app_iff. intros [Y|Y]; [auto|]. apply (X a); [left; reflexivity|exact Y].
    + apply IH. intros c Hc. apply X. right. exact Hc.
  - intros c. rewrite in_app_iff, !in_summed. cbn [ebops_equation e_ins e_out letters flat_map]. split.
    + intros [H _]. destruct (in_dec Nat.eq_dec c (letters (e_out q))); auto.
    + intros [H|[H _]]; (split; [|intros []]); auto.
Qed.
Lemma read_no_ell out : ~ has_ell out -> forall idx, length idx = length (letters out) ->
  forall c, fst (read_out 0 out idx) c = bind_idx (letters out) idx (fun _ => 0%nat) c.
Proof.
  unfold has_ell. induction out as [|[a|] out IH]; intros H idx L c; [reflexivity| |exfalso; apply H; left; reflexivity].
  rewrite letters_cons_let in *. destruct idx as [|v idx]; [discriminate|]. cbn [read_out fst bind_idx]. unfold upd.
  destruct (c =? a)%nat; [reflexivity|]. apply IH; [intros X; apply H; right; exact X|cbn in L; lia].
Qed.
Lemma ebops_sum_no_ell dims q bits : (forall t, In t (e_out q :: e_ins q) -> ~ has_ell t) -> NoDup (letters (e_out q)) ->
  (forall c, In c (letters (e_out q)) -> exists t, In t (e_ins q) /\ In c (letters t)) ->
  element dims [] (ebops_equation q) bits [] == qsum (map (element dims [] q bits) (indices (along dims [] (e_out q)))).
Proof.
  intros HE HN HI. assert (N : ~ has_ell (e_out q)) by (apply HE; left; reflexivity).
  unfold element at 1. cbn [ebops_equation e_out existsb read_out fst e_ins]. cbv zeta. change (indices []) with [@nil nat]. rewrite (qsum_single_map (@nil nat)).
  assert (FE : env_ext Qeq (fun env => product (e_ins q) bits env [])) by apply product_ext.
  rewrite (sum_over_perm dims _ _ _ FE (labels_perm q HN HI) (summed_NoDup _)), sum_over_app.
  rewrite <- (sum_over_bind dims _ _ _ HN (sum_over_ext dims _ _ FE)).
  assert (S : along dims [] (e_out q) = map dims (letters (e_out q))).
  { revert N. generalize (e_out q). unfold has_ell. induction l as [|[a|] l IH]; intros N; [reflexivity| |exfalso; apply N; left; reflexivity].
    rewrite along_let, letters_cons_let. cbn [map]. rewrite IH; [reflexivity|intros X; apply N; right; exact X]. }
  rewrite S. apply qsum_ext. intros o Ho. apply in_indices, valid_len in Ho. rewrite map_length in Ho.
  unfold element. cbv zeta. rewrite (proj2 (existsb_ell_false _) N). change (indices []) with [@nil nat]. rewrite (qsum_single_map (@nil nat)).
  apply (sum_rel (fun a b => forall l, a l = b l)).
  - reflexivity.
  - intros a b l v _ E c. unfold upd. destruct (c =? l)%nat; auto.
  - intros a b E. apply product_ext, E.
  - intros l. change (length (@nil nat)) with 0%nat. symmetry. apply read_no_ell; assumption.
Qed.
Lemma fresh_exists q d : exists rep, fresh rep q /\ length rep = d.
Proof.
  exists (seq (S (list_max (flat_map letters (e_ins q)))) d). split; [split|apply seq_length].
  - apply seq_NoDup.
  - intros t c It Ic X. apply in_seq in Ic. assert (Y : In c (flat_map letters (e_ins q))) by (apply in_flat_letters; exists t; auto).
    pose proof (proj1 (list_max_le (flat_map letters (e_ins q)) _) (le_n _)) as M. rewrite Forall_forall in M. specialize (M c Y). lia.
Qed.
Lemma qsum_same_tensor x y : same_tensor x y -> qsum (map (at_ x) (indices (shape x))) == qsum (map (at_ y) (indices (shape y))).
Proof. intros [A B]. rewrite <- A. apply qsum_ext. intros i Hi. apply B, in_indices, Hi. Qed.
Lemma ebops_sum flag q bits y z : is_einsum flag q bits y -> is_einsum flag (ebops_equation q) bits z ->
  at_ z [] == qsum (map (at_ y) (indices (shape y))).
Proof.
  intros (d & es & HO & HL & HY) (d' & es' & HO' & HL' & HZ).
  assert (Z0 : same_tensor z (einsum_result d es (ebops_equation q) bits)).
  { assert (I : is_einsum flag (ebops_equation q) bits (einsum_result d es (ebops_equation q) bits)).
    { exists d, es. split; [exact HO|]. split; [|split; [reflexivity|intros; reflexivity]].
      assert (E : es' <> [] <-> es <> []).
      { assert (D : forall t, In t (e_ins q) -> has_ell t -> es = es').
        { intros t It Hh. destruct HO as (H1 & H2 & _). destruct HO' as (H1' & _). cbn [ebops_equation e_ins] in H1'. clear -H1 H2 H1' It Hh.
          revert bits H1 H1' t It Hh. generalize dependent (e_ins q). induction l as [|t0 ts IH]; intros HE xs H1 H1' t It Hh; [destruct It|].
          destruct xs as [|x xs]; [inversion H1|]. inversion H1 as [|? ? ? ? A B]; subst. inversion H1' as [|? ? ? ? A' B']; subst. inversion HE as [|? ? E0 E1]; subst.
          destruct It as [<-|It]; [apply (along_inj d d' es es' t0 E0); [congruence|exact Hh]|apply (IH E1 xs B B' t It Hh)]. }
        destruct HO as (_ & _ & H3). destruct HO' as (_ & _ & H3'). split; intros X.
        - destruct (H3' X) as (t & I & J). rewrite (D t I J). exact X.
        - destruct (H3 X) as (t & I & J). rewrite <- (D t I J). exact X. }
      destruct HL' as (L1 & L2 & L3 & L4 & L5). split; [exact L1|]. split; [exact L2|]. split; [exact L3|]. split; [exact L4|]. intros F X. apply L5; [exact F|apply E, X]. }
    apply (einsum_functional flag (ebops_equation q) bits); [|exact I]. exists d', es'. auto. }
  assert (V : valid_index (shape z) []) by (rewrite (proj1 Z0); cbn; constructor).
  rewrite (proj2 Z0 [] V), (qsum_same_tensor _ _ HY). cbn [einsum_result at_ shape].
  destruct (fresh_exists q (length es)) as (rep & F & L).
  assert (HL0 : output_legal true es (ebops_equation q)).
  { split; [constructor|]. split; [cbn; lia|]. split; [intros c []|]. split; [intros []|discriminate]. }
  rewrite <- (expand_element true d es (ebops_equation q) bits rep [] HO HL0 F L eq_refl).
  change (expand rep (ebops_equation q)) with (ebops_equation (expand rep q)).
  destruct (expand_legal flag es q rep HL F) as (E1 & _ & E3 & _).
  rewrite (ebops_sum_no_ell _ (expand rep q)); [|intros t [<-|It]; [apply replace_no_ell|cbn [expand e_ins] in It; apply in_map_iff in It; destruct It as (u & <- & _); apply replace_no_ell]|exact E1|exact E3].
  apply (qsum_same_tensor _ _ (expand_same flag d es q bits rep HO HL F L)).
Qed.
Lemma layer_ebops_sum flag order q bits y v : layer_call flag order q bits y -> layer_ebops flag order q bits v -> v == qsum (map (at_ y) (indices (shape y))).
Proof.
  intros (q1 & B & H) (q2 & z & B' & H' & ->). rewrite B in B'. injection B' as <-. apply (ebops_sum flag q1 bits); assumption.
Qed.
Lemma layer_ebops_exists order q bits dims es flag : operands_fit dims es q bits -> output_legal flag es q -> set_order order -> letters_covered q -> enough_letters q (length es) ->
  length es <> 3%nat -> exists v, layer_ebops flag order q bits v.
Proof.
  intros HO HL HS HC HE H3. destruct (build_spec _ _ _ _ order HO HS HC HE) as [[B [X|X]]|(rep & B & F & L)]; [congruence| |].
  - assert (es = []) as -> by (destruct es; [reflexivity|]; destruct HO as (_ & _ & K); destruct K as (t & I & J); [discriminate|]; exfalso; apply (X t I J)).
    eexists. exists q. eexists. split; [exact B|]. split; [|reflexivity]. exists dims, []. split; [exact HO|]. split; [|split; [reflexivity|intros; reflexivity]].
    split; [constructor|]. split; [cbn; lia|]. split; [intros c []|]. split; [intros []|intros _ Y; exfalso; apply Y; reflexivity].
  - eexists. exists (expand rep q). eexists. split; [exact B|]. split; [|reflexivity]. exists (bind_idx rep es dims), [].
    split; [exact (expand_fit _ _ _ _ _ HO F L)|]. split; [|split; [reflexivity|intros; reflexivity]].
    split; [constructor|]. split; [cbn; lia|]. split; [intros c []|]. split; [intros []|intros _ Y; exfalso; apply Y; reflexivity].
Qed.
Lemma layer_ebops_3_refused order q bits dims es : operands_fit dims es q bits -> length es = 3%nat -> forall v, ~ layer_ebops false order q bits v.
Proof.
  intros HO H3 v (q' & z & B & (d' & es' & HO' & (_ & _ & _ & _ & L5) & _) & _). unfold build in B. rewrite (operands_count _ _ _ _ HO), Nat.eqb_refl in B.
  destruct HO as (H1 & H2 & K). rewrite (scan_3 dims es H3 _ _ None alphabet H1 H2) in B. injection B as <-.
  assert (Y : es' <> []).
  { destruct K as (t & I & J); [destruct es; discriminate|]. intros ->. destruct HO' as (H1' & _). cbn [ebops_equation e_ins] in H1'. clear -H1 H2 H1' I J H3.
    revert bits H1 H1'. generalize dependent (e_ins q). induction l as [|t0 ts IH]; intros HE I xs H1 H1'; [destruct I|].
    destruct xs as [|x xs]; [inversion H1|]. inversion H1 as [|? ? ? ? A B]; subst. inversion H1' as [|? ? ? ? A' B']; subst. inversion HE as [|? ? E0 E1]; subst.
    destruct I as [<-|I]; [|apply (IH E1 I xs B B')]. assert (X : es = []) by (apply (along_inj dims d' es [] t0 E0); [congruence|exact J]). subst. discriminate. }
  specialize (L5 eq_refl Y). destruct L5.
Qed.

(** ** reloading *)
Lemma scan_exact : forall ts ndims wild avail, Forall2 (fun t n => strlen t = Z.of_nat n) ts ndims -> scan wild avail ts ndims = Some (wild, avail).
Proof.
  intros ts ndims wild avail H. revert wild avail. induction H as [|t n ts ns E _ IH]; intros wild avail; [reflexivity|].
  cbn [scan]. rewrite E, Z.eqb_refl. apply IH.
Qed.
Lemma fit_exact dims es q xs : operands_fit dims es q xs -> (length es = 3%nat \/ forall t, In t (e_ins q) -> ~ has_ell t) ->
  Forall2 (fun t n => strlen t = Z.of_nat n) (e_ins q) (ranks xs).
Proof.
  intros (H1 & H2 & _) H. revert H. induction H1 as [|t x ts xs E _ IH]; intros H; [constructor|]. inversion H2 as [|? ? E0 E1]; subst. cbn [ranks map]. constructor.
  - rewrite E. destruct (rank_of dims es t E0) as [(A & B & C)|[_ A]]; [|exact A]. destruct H as [H|H]; [lia|exfalso; apply (H t); [left; reflexivity|exact A]].
  - apply IH; [exact E1|]. destruct H as [H|H]; [left; exact H|right; intros u I; apply H; right; exact I].
Qed.
Lemma reload_same dims es q xs order order' q' : operands_fit dims es q xs -> set_order order -> letters_covered q -> enough_letters q (length es) ->
  saved_equation order q (Some (ranks xs)) = Some q' -> build order' q' (ranks xs) = Some q'.
Proof.
  intros HO HS HC HE. cbn [saved_equation]. intros B.
  assert (K : Forall2 (fun t n => strlen t = Z.of_nat n) (e_ins q') (ranks xs)).
  { destruct (build_spec _ _ _ _ order HO HS HC HE) as [[B' X]|(rep & B' & F & L)]; rewrite B' in B; injection B as <-.
    - apply (fit_exact dims es); assumption.
    - apply (fit_exact (bind_idx rep es dims) []); [apply expand_fit; assumption|]. right. intros t It. cbn [expand e_ins] in It. apply in_map_iff in It. destruct It as (u & <- & _). apply replace_no_ell. }
  unfold build. rewrite (scan_exact _ _ None alphabet K). rewrite (proj2 (Nat.eqb_eq _ _) (eq_sym (Forall2_len _ _ _ K))). reflexivity.
Qed.

(** ** monotone *)
Lemma product_le ts : forall xs ys env e, Forall2 (fun x y => forall i, 0 <= at_ x i <= at_ y i) xs ys -> 0 <= product ts xs env e <= product ts ys env e.
Proof.
  induction ts as [|t ts IH]; intros xs ys env e H; [cbn [product]; lra|]. destruct H as [|x y xs ys A B]; cbn [product]; [lra|].
  specialize (IH xs ys env e B). specialize (A (along env e t)). destruct A as [A1 A2], IH as [I1 I2]. split.
  - apply Qmult_le_0_compat; assumption.
  - apply (Qle_trans _ (at_ y (along env e t) * product ts xs env e)); [apply Qmult_le_compat_r; assumption|].
    rewrite !(Qmult_comm (at_ y _)). apply Qmult_le_compat_r; [assumption|]. apply (Qle_trans _ _ _ A1 A2).
Qed.
Lemma qsum_between {A} (f g : A -> Q) l : (forall a, 0 <= f a <= g a) -> 0 <= qsum (map f l) <= qsum (map g l).
Proof. intros H. induction l as [|a l IH]; [cbn [map]; change (0 <= 0 <= 0); lra|]. cbn [map]. rewrite !qsum_cons. specialize (H a). lra. Qed.
Lemma sum_over_between dims ls F G : (forall e, 0 <= F e <= G e) -> forall e, 0 <= sum_over 0 Qplus dims ls F e <= sum_over 0 Qplus dims ls G e.
Proof. intros H. induction ls as [|l ls IH]; intros e; cbn [sum_over]; [apply H|]. cq. apply qsum_between. intros v. apply IH. Qed.
Lemma ranks_same xs ys : Forall2 (fun x y => shape x = shape y /\ forall i, 0 <= at_ x i <= at_ y i) xs ys -> ranks xs = ranks ys.
Proof. induction 1 as [|x y xs ys [A _] _ IH]; [reflexivity|]. cbn [ranks map]. rewrite A. f_equal. exact IH. Qed.
Lemma fit_shapes dims es q xs ys : Forall2 (fun x y => shape x = shape y /\ forall i, 0 <= at_ x i <= at_ y i) xs ys -> operands_fit dims es q ys -> operands_fit dims es q xs.
Proof.
  intros H (A & B & C). split; [|auto]. revert A. generalize (e_ins q). revert ys H. clear. 
  induction xs as [|x xs IH]; intros ys H ts A; inversion H as [|? y ? ys' [E _] H']; subst; inversion A; subst; constructor; [congruence|apply (IH ys'); assumption].
Qed.
Lemma ebops_between flag order q xs ys v w : Forall2 (fun x y => shape x = shape y /\ forall i, 0 <= at_ x i <= at_ y i) xs ys ->
  layer_ebops flag order q xs v -> layer_ebops flag order q ys w -> 0 <= v <= w.
Proof.
  intros H (q1 & z & B & HZ & ->) (q2 & z' & B' & (d & es & HO & HL & HZ') & ->). rewrite (ranks_same _ _ H), B' in B. injection B as <-.
  assert (I : is_einsum flag (ebops_equation q2) xs (einsum_result d es (ebops_equation q2) xs)).
  { exists d, es. split; [apply (fit_shapes _ _ _ _ _ H HO)|]. split; [exact HL|split; [reflexivity|intros; reflexivity]]. }
  pose proof (einsum_functional flag _ _ _ _ HZ I) as S.
  assert (V : valid_index (shape z) []) by (rewrite (proj1 S); cbn; constructor). assert (V' : valid_index (shape z') []) by (rewrite (proj1 HZ'); cbn; constructor).
  assert (E : at_ z [] == element d es (ebops_equation q2) xs []) by (apply (proj2 S [] V)).
  assert (E' : at_ z' [] == element d es (ebops_equation q2) ys []) by (apply (proj2 HZ' [] V')).
  rewrite E, E'. unfold element. cbv zeta. apply qsum_between. intros e. apply sum_over_between. intros env. apply product_le.
  clear -H. induction H as [|x y xs ys [_ A] _ IH]; constructor; assumption.
Qed.

(** ** the clash *)
Definition cl_q : equation := mk_eq [[Ell; Let 0]; [Let 1; Let 2]] [Ell; Let 0].
Definition cl_x : tensor Q := mk_tensor [2%nat; 2%nat] (fun _ => 1).
Definition cl_w : tensor Q := mk_tensor [2%nat; 2%nat] (fun i => match i with (a :: _)%list => inject_Z (Z.of_nat a) + 1 | _ => 0 end).
Definition cl_d : nat -> nat := fun _ => 2%nat.
Lemma order_id : set_order (fun l => l). Proof. intros l. reflexivity. Qed.
Lemma order_rev : set_order (@rev nat). Proof. intros l. symmetry. apply Permutation_rev. Qed.
Lemma cl_fit ts es : Forall2 (fun t x => shape x = along cl_d es t) ts [cl_x; cl_w] -> Forall (fun t => (ells t <= 1)%nat) ts -> (es <> [] -> exists t, In t ts /\ has_ell t) -> forall o, operands_fit cl_d es (mk_eq ts o) [cl_x; cl_w].
Proof. intros A B C o. split; [exact A|split; [exact B|exact C]]. Qed.
Lemma cl_legal flag t1 t2 out es : NoDup (letters out) -> (ells out <= 1)%nat -> incl (letters out) (letters t1) -> (has_ell out -> has_ell t1) -> (es <> [] -> has_ell out) -> output_legal flag es (mk_eq [t1; t2] out).
Proof.
  intros A B C D E. split; [exact A|]. split; [exact B|]. split; [intros c Hc; exists t1; split; [left; reflexivity|apply C, Hc]|].
  split; [intros X; exists t1; split; [left; reflexivity|apply D, X]|]. intros _. exact E.
Qed.
Lemma clash : forall flag, exists y y',
  is_einsum flag cl_q [cl_x; cl_w] y /\ layer_call flag (@rev nat) cl_q [cl_x; cl_w] y /\ layer_call flag (fun l => l) cl_q [cl_x; cl_w] y' /\
  shape y = shape y' /\ at_ y [0%nat; 0%nat] == 6 /\ at_ y' [0%nat; 0%nat] == 2.
Proof.
  intros flag.
  exists (einsum_result cl_d [2%nat] cl_q [cl_x; cl_w]), (einsum_result cl_d [] (mk_eq [[Let 1; Let 0]; [Let 1; Let 2]] [Let 1; Let 0]) [cl_x; cl_w]).
  assert (N : NoDup [1%nat; 0%nat]) by (constructor; [intros [X|[]]; discriminate|constructor; [intros []|constructor]]).
  split; [|split; [|split; [|split; [reflexivity|split; [vm_compute; reflexivity|vm_compute; reflexivity]]]]].
  - exists cl_d, [2%nat]. split; [|split; [|split; [reflexivity|intros; reflexivity]]].
    + apply cl_fit; [constructor; [reflexivity|constructor; [reflexivity|constructor]]|constructor; [cbn; lia|constructor; [cbn; lia|constructor]]|].
      intros _. eexists. split; [left; reflexivity|left; reflexivity].
    + apply cl_legal; [constructor; [intros []|constructor]|cbn; lia|intros c H; exact H|intros H; left; reflexivity|intros _; left; reflexivity].
  - exists (mk_eq [[Let 51; Let 0]; [Let 1; Let 2]] [Let 51; Let 0]). split; [reflexivity|]. exists cl_d, []. split; [|split].
    + apply cl_fit; [constructor; [reflexivity|constructor; [reflexivity|constructor]]|constructor; [cbn; lia|constructor; [cbn; lia|constructor]]|]. intros X; exfalso; apply X; reflexivity.
    + apply cl_legal; [constructor; [intros [X|[]]; discriminate|constructor; [intros []|constructor]]|cbn; lia|intros c H; exact H|intros [X|[X|[]]]; discriminate|intros X; exfalso; apply X; reflexivity].
    + split; [reflexivity|]. cbn [einsum_result shape along flat_map cl_q e_out]. intros idx V.
      inversion V as [|a ? ia ? Ha V1 Ea]; subst. inversion V1 as [|b ? ib ? Hb V2 Eb]; subst. inversion V2; subst. cbn in Ha, Hb.
      unfold cl_d in Ha, Hb. destruct a as [|[|a]]; [| |lia]; (destruct b as [|[|b]]; [| |lia]); vm_compute; reflexivity.
  - exists (mk_eq [[Let 1; Let 0]; [Let 1; Let 2]] [Let 1; Let 0]). split; [reflexivity|]. exists cl_d, []. split; [|split; [|split; [reflexivity|intros; reflexivity]]].
    + apply cl_fit; [constructor; [reflexivity|constructor; [reflexivity|constructor]]|constructor; [cbn; lia|constructor; [cbn; lia|constructor]]|]. intros X; exfalso; apply X; reflexivity.
    + apply cl_legal; [exact N|cbn; lia|intros c H; exact H|intros [X|[X|[]]]; discriminate|intros X; exfalso; apply X; reflexivity].
Qed.
Lemma clash_refuted : forall flag, exists q xs order order' y y',
  set_order order /\ set_order order' /\ is_einsum flag q xs y /\ layer_call flag order q xs y /\ layer_call flag order' q xs y' /\ shape y = shape y' /\ ~ same_tensor y y'.
Proof.
  intros flag. destruct (clash flag) as (y & y' & A & B & C & D & E & F). exists cl_q, [cl_x; cl_w], (@rev nat), (fun l => l), y, y'.
  split; [apply order_rev|]. split; [apply order_id|]. split; [exact A|]. split; [exact B|]. split; [exact C|]. split; [exact D|].
  intros [_ S]. assert (V : valid_index (shape y) [0%nat; 0%nat]).
  { destruct A as (d & es & (H1 & H2 & H3) & _ & [K _]). rewrite K. cbn [einsum_result shape along flat_map cl_q e_out]. 
    inversion H1 as [|? ? ? ? X Y]; subst. cbn [along flat_map app shape cl_x] in X. 
    assert (Z : es ++ [d 0%nat] = [2%nat; 2%nat]) by (symmetry; exact X). change (es ++ d 0%nat :: []) with (es ++ [d 0%nat]). rewrite app_nil_r. rewrite Z. 
    constructor; [lia|constructor; [lia|constructor]]. }
  specialize (S _ V). rewrite E, F in S. discriminate.
Qed.

(** ** the replay *)
Lemma batch_expand b q rep : batch_letter b q -> e_ins q <> [] -> fresh rep q -> batch_letter b (expand rep q).
Proof.
  intros H HI [HN HF] t It. assert (B : ~ In b rep).
  { destruct (e_ins q) as [|t0 ts] eqn:E; [congruence|]. intros X. destruct (H t0) as (t' & E' & _); [right; rewrite E; left; reflexivity|].
    apply (HF t0 b); [left; reflexivity|exact X|]. rewrite E', letters_cons_let. left; reflexivity. }
  assert (K : forall u, (exists t', u = Let b :: t' /\ ~ In b (letters t')) -> exists t', replace rep u = Let b :: t' /\ ~ In b (letters t')).
  { intros u (t' & -> & N). exists (replace rep t'). split; [reflexivity|]. rewrite in_letters_replace. intros [X|[_ X]]; auto. }
  cbn [expand e_out e_ins In] in It. destruct It as [<-|It]; [apply K, H; left; reflexivity|].
  apply in_map_iff in It. destruct It as (u & <- & Iu). apply K, H. right. exact Iu.
Qed.
Lemma upd_other e l v c : c <> l -> upd e l v c = e c. Proof. intros H. unfold upd. destruct (Nat.eqb_spec c l); [contradiction|reflexivity]. Qed.
Lemma upd_here e l v : upd e l v l = v. Proof. unfold upd. rewrite Nat.eqb_refl. reflexivity. Qed.
Lemma along_upd dims b v es t : ~ In b (letters t) -> along (upd dims b v) es t = along dims es t.
Proof. intros H. apply along_ext. intros c Hc. apply upd_other. intros ->. auto. Qed.
Lemma replay_same flag b q xs y n : batch_letter b q -> length xs = 2%nat -> is_einsum flag q xs y -> (forall x, In x xs -> batch_of n x) ->
  forall s, (s < n)%nat -> exists z, replay_einsum flag q (map (sample s) xs) z /\ same_tensor (sample s y) z.
Proof.
  intros HB H2 (d & es & (H1 & HE & H3) & HL & HY) HX s Hs.
  set (d1 := upd d b 1%nat).
  assert (HO : operands_fit d1 es q (map newaxis (map (sample s) xs))).
  { split; [|split; [exact HE|exact H3]]. assert (HB' : forall t, In t (e_ins q) -> exists t', t = Let b :: t' /\ ~ In b (letters t')) by (intros t I; apply HB; right; exact I).
    clear -H1 HB'. revert HB'. induction H1 as [|t x ts xs E _ IH]; intros HB; cbn [map]; constructor; [|apply IH; intros u I; apply HB; right; exact I].
    destruct (HB t (or_introl eq_refl)) as (t' & -> & N). rewrite along_let in *. cbn [newaxis sample shape]. rewrite E. cbn [tl]. unfold d1. rewrite upd_here, along_upd by exact N. reflexivity. }
  destruct (HB (e_out q) (or_introl eq_refl)) as (o' & EO & NO).
  set (yr := einsum_result d1 es q (map newaxis (map (sample s) xs))).
  assert (SY : shape yr = 1%nat :: along d es o').
  { cbn [yr einsum_result shape]. rewrite EO, along_let. unfold d1. rewrite upd_here, along_upd by exact NO. reflexivity. }
  exists (mk_tensor (along d es o') (fun i => at_ yr (0%nat :: i))). split.
  - split; [rewrite map_length; exact H2|]. exists yr. split; [exists d1, es; split; [exact HO|split; [exact HL|split; [reflexivity|intros; reflexivity]]]|].
    unfold first. rewrite SY. reflexivity.
  - assert (SY' : shape y = d b :: along d es o') by (rewrite (proj1 HY); cbn [einsum_result shape]; rewrite EO; reflexivity).
    assert (DB : d b = n).
    { destruct xs as [|x xs]; [discriminate|]. destruct (e_ins q) as [|t ts] eqn:EI; inversion H1 as [|? ? ? ? E _]; subst.
      destruct (HB t) as (t' & -> & _); [right; rewrite EI; left; reflexivity|]. destruct (HX x (or_introl eq_refl)) as (sh & F). rewrite along_let in E. congruence. }
    split; [cbn [sample shape]; rewrite SY'; reflexivity|]. cbn [sample shape at_]. rewrite SY'. cbn [tl]. intros i V.
    rewrite (proj2 HY (s :: i)) by (rewrite SY'; constructor; [lia|exact V]).
    cbn [yr einsum_result at_]. unfold element. rewrite EO. cbn [read_out existsb is_ell orb fst snd]. cbv zeta.
    apply qsum_ext. intros e _.
    apply (sum_rel (fun a a' => a b = s /\ a' b = 0%nat /\ forall c, c <> b -> a c = a' c)).
    + intros l Hl. apply in_summed in Hl. destruct Hl as [_ Hl]. unfold d1. symmetry. apply upd_other. intros ->. apply Hl. rewrite EO, letters_cons_let. left; reflexivity.
    + intros a a' l v Hl (A & B & C). apply in_summed in Hl. destruct Hl as [_ Hl]. assert (D : b <> l) by (intros <-; apply Hl; rewrite EO, letters_cons_let; left; reflexivity).
      rewrite !upd_other by exact D. split; [exact A|]. split; [exact B|]. intros c Hc. unfold upd. destruct (c =? l)%nat; auto.
    + intros a a' (A & B & C). assert (HB' : forall t, In t (e_ins q) -> exists t', t = Let b :: t' /\ ~ In b (letters t')) by (intros t I; apply HB; right; exact I).
      clear -HB' A B C. revert xs. induction (e_ins q) as [|t ts IH]; intros [|x xs]; cbn [map product]; try reflexivity.
      rewrite IH by (intros u I; apply HB'; right; exact I). destruct (HB' t (or_introl eq_refl)) as (t' & -> & N). rewrite !along_let. cbn [newaxis sample at_ tl]. rewrite A.
      rewrite (along_ext a' a e t'); [reflexivity|]. intros c Hc. apply C. intros ->. auto.
    + split; [apply upd_here|]. split; [apply upd_here|]. intros c Hc. rewrite !upd_other by exact Hc. reflexivity.
Qed.
Lemma along_no_ell d e e' t : ~ has_ell t -> along d e t = along d e' t.
Proof.
  unfold has_ell. induction t as [|[c|] t IH]; intros N; [reflexivity| |exfalso; apply N; left; reflexivity].
  rewrite !along_let, IH; [reflexivity|intros X; apply N; right; exact X].
Qed.
Lemma replay_same_ell flag q xs y n : (forall t, In t (e_out q :: e_ins q) -> exists t', t = Ell :: t') -> length xs = 2%nat -> is_einsum flag q xs y -> (forall x, In x xs -> batch_of n x) ->
  (forall dims es, operands_fit dims es q xs -> es <> []) ->
  forall s, (s < n)%nat -> exists z, replay_einsum flag q (map (sample s) xs) z /\ same_tensor (sample s y) z.
Proof.
  intros HB H2 HI HX HS s Hs. destruct HI as (d & es & HO & HL & HY). pose proof (HS d es HO) as Ne.
  destruct es as [|n' es]; [congruence|]. destruct (fresh_exists q (length (n' :: es))) as (rep & F & L).
  destruct rep as [|b rep]; [discriminate|].
  assert (I1 : is_einsum flag (expand (b :: rep) q) xs y).
  { exists (bind_idx (b :: rep) (n' :: es) d), []. split; [apply expand_fit; assumption|]. split; [apply (expand_legal flag (n' :: es)); assumption|].
    apply (same_tensor_trans _ _ _ HY), same_tensor_sym, (expand_same flag); assumption. }
  assert (B1 : batch_letter b (expand (b :: rep) q)).
  { assert (EL : forall t, In t (e_out q :: e_ins q) -> (ells t <= 1)%nat) by (intros t [<-|It]; [apply HL|destruct HO as (_ & A & _); rewrite Forall_forall in A; apply A, It]).
    assert (NL : forall t, In t (e_out q :: e_ins q) -> ~ In b (letters t)).
    { intros t [<-|It] X; [destruct HL as (_ & _ & O3 & _); destruct (O3 b X) as (u & Iu & J); apply (proj2 F u b Iu); [left; reflexivity|exact J]|].
      apply (proj2 F t b It); [left; reflexivity|exact X]. }
    intros t It. assert (K : exists u, In u (e_out q :: e_ins q) /\ t = replace (b :: rep) u).
    { destruct It as [<-|It]; [exists (e_out q); split; [left; reflexivity|reflexivity]|]. cbn [expand e_ins] in It. apply in_map_iff in It. destruct It as (u & <- & Iu). exists u. split; [right; exact Iu|reflexivity]. }
    destruct K as (u & Iu & ->). destruct (HB u Iu) as (u' & ->). rewrite replace_ell. exists (map Let rep ++ replace (b :: rep) u'). split; [reflexivity|].
    specialize (EL _ Iu). rewrite ells_ell in EL. rewrite (replace_id _ u') by (apply ells_0; lia). rewrite letters_app, letters_map_let, in_app_iff. intros [X|X].
    - destruct F as [F _]. inversion F; subst. contradiction.
    - apply (NL _ Iu). rewrite letters_cons_ell. exact X. }
  destruct (replay_same flag b (expand (b :: rep) q) xs y n B1 H2 I1 HX s Hs) as (z & (Lz & y1 & I2 & Fz) & Sz).
  exists z. split; [|exact Sz]. split; [exact Lz|]. exists y1. split; [|exact Fz].
  set (xs1 := map newaxis (map (sample s) xs)) in *.
  assert (HO1 : operands_fit d (1%nat :: es) q xs1).
  { destruct HO as (H1 & HE & H3). split; [|split; [exact HE|intros _; apply H3; discriminate]].
    assert (HB' : forall t, In t (e_ins q) -> (exists t', t = Ell :: t') /\ (ells t <= 1)%nat) by (intros t I; split; [apply HB; right; exact I|rewrite Forall_forall in HE; apply HE, I]).
    unfold xs1. clear -H1 HB'. revert HB'. induction H1 as [|t x ts xs E _ IH]; intros HB; cbn [map]; constructor; [|apply IH; intros u I; apply HB; right; exact I].
    destruct (HB t (or_introl eq_refl)) as [(t' & ->) N]. rewrite ells_ell in N. assert (Nt : ~ has_ell t') by (apply ells_0; lia). rewrite along_ell in *. cbn [newaxis sample shape]. rewrite E. cbn [app tl].
    rewrite (along_no_ell d (n' :: es) (1%nat :: es) t' Nt). reflexivity. }
  assert (HL1 : output_legal flag (1%nat :: es) q).
  { destruct HL as (A1 & A2 & A3 & A4 & A5). split; [exact A1|]. split; [exact A2|]. split; [exact A3|]. split; [exact A4|]. intros X _. apply A5; [exact X|discriminate]. }
  exists d, (1%nat :: es). split; [exact HO1|]. split; [exact HL1|].
  apply (fun H => same_tensor_trans _ _ _ H (expand_same flag d (1%nat :: es) q xs1 (b :: rep) HO1 HL1 F L)).
  apply (einsum_functional flag (expand (b :: rep) q) xs1); [exact I2|]. exists (bind_idx (b :: rep) (1%nat :: es) d), [].
  split; [apply expand_fit; assumption|]. split; [apply (expand_legal flag (1%nat :: es)); assumption|]. split; [reflexivity|intros; reflexivity].
Qed.
Lemma layer_replay_same flag order q xs y n : batch_first q -> set_order order -> letters_covered q ->
  (forall dims es, operands_fit dims es q xs -> enough_letters q (length es)) -> length xs = 2%nat -> is_einsum flag q xs y -> (forall x, In x xs -> batch_of n x) ->
  ((exists b, batch_letter b q) \/ forall dims es, operands_fit dims es q xs -> es <> []) ->
  exists q', build order q (ranks xs) = Some q' /\ layer_call flag order q xs y /\
    forall s, (s < n)%nat -> exists z, replay_einsum flag q' (map (sample s) xs) z /\ same_tensor (sample s y) z.
Proof.
  intros HB HS HC HE H2 HY HX HN. pose proof (proj2 (layer_iff flag order q xs y HS HC HE (ex_intro _ y HY)) HY) as L. destruct L as (q' & B & I). exists q'.
  split; [exact B|]. split; [exists q'; auto|]. assert (HY' := HY). destruct HY as (d & es & HO & HL & HYY).
  assert (N : e_ins q <> []) by (destruct HO as (F & _); intros X; rewrite X in F; inversion F; subst; discriminate).
  destruct (build_spec _ _ _ _ order HO HS HC (HE _ _ HO)) as [[B' _]|(rep & B' & F & LR)]; rewrite B' in B; injection B as <-.
  - destruct HB as [[b HB]|HB]; [exact (replay_same flag b q xs y n HB H2 I HX)|].
    destruct HN as [[b HN]|HN]; [exact (replay_same flag b q xs y n HN H2 I HX)|]. exact (replay_same_ell flag q xs y n HB H2 I HX HN).
  - assert (HB' : exists b, batch_letter b (expand rep q)).
    { destruct HB as [[b HB]|HB]; [exists b; apply batch_expand; assumption|].
      destruct HN as [[b HN]|HN]; [exists b; apply batch_expand; assumption|]. specialize (HN d es HO).
      destruct rep as [|b rep]; [destruct es; [congruence|discriminate]|]. exists b.
      intros t It. assert (K : exists u, In u (e_out q :: e_ins q) /\ t = replace (b :: rep) u).
      { destruct It as [<-|It]; [exists (e_out q); split; [left; reflexivity|reflexivity]|]. cbn [expand e_ins] in It. apply in_map_iff in It. destruct It as (u & <- & Iu). exists u. split; [right; exact Iu|reflexivity]. }
      destruct K as (u & Iu & ->). destruct (HB u Iu) as (u' & ->). rewrite replace_ell. exists (map Let rep ++ replace (b :: rep) u'). split; [reflexivity|].
      assert (EL : (ells (Ell :: u') <= 1)%nat) by (destruct Iu as [<-|Iu]; [apply HL|destruct HO as (_ & A & _); rewrite Forall_forall in A; apply A, Iu]).
      rewrite ells_ell in EL. rewrite (replace_id _ u') by (apply ells_0; lia). rewrite letters_app, letters_map_let, in_app_iff. intros [X|X].
      + destruct F as [F _]. inversion F; subst. contradiction.
      + destruct Iu as [Iu|Iu].
        * destruct HL as (_ & _ & O3 & _). destruct (O3 b) as (v & Iv & J); [rewrite Iu, letters_cons_ell; exact X|]. apply (proj2 F v b Iv); [left; reflexivity|exact J].
        * apply (proj2 F _ b Iu); [left; reflexivity|rewrite letters_cons_ell; exact X]. }
    destruct HB' as (b & HB'). exact (replay_same flag b _ xs y n HB' H2 I HX).
Qed.
