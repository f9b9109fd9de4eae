(** Lemmas for C52. *)
From Coq Require Import Permutation.
From Verif Require Import Num M_Fixed M_State M_Mapper M_Contr M_Ebops S_Mapper L_Mapper S_Ebops L_Ebops L_Ebops2 L_Ops L_Einsum M_Attn M_Cebops S_Cebops.
Local Open Scope list_scope.

(** ** Binding blocks of labels *)
Lemma NoDup_app_l {A} (a b : list A) : NoDup (a ++ b) -> NoDup a.
Proof. induction a as [|x a IH]; intros N; [constructor|]. inversion N as [|? ? Hx N']; subst. constructor; [|apply IH, N']. intros H. apply Hx, in_or_app. left. exact H. Qed.
Lemma NoDup_app_r {A} (a b : list A) : NoDup (a ++ b) -> NoDup b.
Proof. induction a as [|x a IH]; intros N; [exact N|]. inversion N; subst. apply IH. assumption. Qed.
Lemma NoDup_app_disj {A} (a b : list A) x : NoDup (a ++ b) -> In x a -> ~ In x b.
Proof.
  induction a as [|y a IH]; intros N H; [destruct H|]. inversion N as [|? ? Hy N']; subst. destruct H as [<-|H]; [|apply IH; assumption].
  intros X. apply Hy, in_or_app. right. exact X.
Qed.
Lemma bind_app l1 : forall i1 l2 i2 e, length l1 = length i1 -> forall c, bind_idx (l1 ++ l2) (i1 ++ i2) e c = bind_idx l1 i1 (bind_idx l2 i2 e) c.
Proof.
  induction l1 as [|a l1 IH]; intros [|v i1] l2 i2 e L c; try discriminate; [reflexivity|]. cbn [app bind_idx]. unfold upd.
  destruct (c =? a)%nat; [reflexivity|]. apply IH. cbn in L. lia.
Qed.
Lemma bind_block l1 l2 l3 i1 i2 i3 e : NoDup (l1 ++ l2 ++ l3) -> length l1 = length i1 -> length l2 = length i2 ->
  map (bind_idx (l1 ++ l2 ++ l3) (i1 ++ i2 ++ i3) e) l2 = i2.
Proof.
  intros N L1 L2. assert (N2 : NoDup l2) by (apply NoDup_app_r in N; apply NoDup_app_l in N; exact N).
  transitivity (map (bind_idx l2 i2 (bind_idx l3 i3 e)) l2); [|apply bind_map; assumption].
  apply map_ext_in. intros c Hc. rewrite bind_app by exact L1. rewrite bind_other; [apply bind_app; exact L2|].
  intros H. apply (NoDup_app_disj _ _ c N H). apply in_or_app. left. exact Hc.
Qed.
Lemma contracted_nil li lk : contracted li lk [] = all_labels li lk.
Proof. unfold contracted. cbn [memb existsb negb]. generalize (all_labels li lk). induction l as [|a l IH]; [reflexivity|]. cbn [filter negb]. f_equal. exact IH. Qed.
Lemma einsum_flat dims li lk L x k : NoDup L -> (forall c, In c L <-> In c (li ++ lk)) ->
  einsum 0 Qplus Qmult dims li lk [] x k [] ==
  qsum (map (fun o => x (map (bind_idx L o (fun _ => 0%nat)) li) * k (map (bind_idx L o (fun _ => 0%nat)) lk)) (indices (map dims L))).
Proof.
  intros N HI. unfold einsum. cbn [bind_idx]. rewrite contracted_nil. set (F := fun e => x (map e li) * k (map e lk)).
  assert (HF : env_ext Qeq F) by (intros e e' H; unfold F; rewrite (map_ext e e' H li), (map_ext e e' H lk); reflexivity).
  rewrite (sum_over_perm dims F (all_labels li lk) L HF).
  - symmetry. exact (sum_over_bind dims L F _ N HF).
  - apply NoDup_Permutation; [apply NoDup_nodup|exact N|]. intros c. unfold all_labels. rewrite nodup_In. symmetry. apply HI.
  - apply NoDup_nodup.
Qed.

(** ** Sizes of the labels *)
Lemma label_dim_notin ls : forall sh l, ~ In l ls -> label_dim ls sh l = None.
Proof.
  induction ls as [|a ls IH]; intros [|d sh] l H; cbn [label_dim]; try reflexivity.
  destruct (Nat.eqb_spec a l) as [->|D]; [exfalso; apply H; left; reflexivity|]. apply IH. intros X. apply H. right. exact X.
Qed.
Lemma map_label_dim ls : forall sh, NoDup ls -> length ls = length sh -> map (label_dim ls sh) ls = map Some sh.
Proof.
  induction ls as [|a ls IH]; intros [|d sh] N L; try discriminate; [reflexivity|]. inversion N as [|? ? Na N']; subst. cbn [map label_dim].
  rewrite Nat.eqb_refl. f_equal. rewrite <- (IH sh N') by (cbn in L; lia). apply map_ext_in. intros c Hc.
  destruct (Nat.eqb_spec a c) as [->|D]; [contradiction|reflexivity].
Qed.
Lemma app_len_inj {A} (a b c d : list A) : length a = length c -> a ++ b = c ++ d -> a = c /\ b = d.
Proof.
  revert c. induction a as [|x a IH]; intros [|y c] L E; try discriminate; [split; [reflexivity|exact E]|].
  cbn in E. injection E as -> E. destruct (IH c) as [-> ->]; [cbn in L; lia|exact E|split; reflexivity].
Qed.
Lemma map_some_block {A} (f : A -> option nat) (a b c : list A) (a' b' c' : list nat) :
  length a = length a' -> length b = length b' -> map f (a ++ b ++ c) = map Some (a' ++ b' ++ c') -> map f b = map Some b'.
Proof.
  intros La Lb E. rewrite !map_app in E. apply app_len_inj in E; [|rewrite !map_length; exact La]. destruct E as [_ E].
  apply app_len_inj in E; [|rewrite !map_length; exact Lb]. exact (proj1 E).
Qed.
Lemma dims_left li xs lk ks b b' : map (label_dim li xs) b = map Some b' -> map (einsum_dims li xs lk ks) b = b'.
Proof.
  revert b'. induction b as [|l b IH]; intros [|d b'] E; try discriminate; [reflexivity|]. cbn [map] in *. injection E as E1 E2.
  rewrite (IH b' E2). unfold einsum_dims. rewrite E1. reflexivity.
Qed.
Lemma dims_right li xs lk ks b b' : (forall l, In l b -> ~ In l li) -> map (label_dim lk ks) b = map Some b' -> map (einsum_dims li xs lk ks) b = b'.
Proof.
  revert b'. induction b as [|l b IH]; intros [|d b'] H E; try discriminate; [reflexivity|]. cbn [map] in *. injection E as E1 E2.
  rewrite (IH b' (fun l0 H0 => H l0 (or_intror H0)) E2). unfold einsum_dims. rewrite label_dim_notin by (apply H; left; reflexivity). rewrite E1. reflexivity.
Qed.

(** ** The attention equations over all sequence axes *)
Section Labels.
  Context (m : nat).
  Let r := (m + 3)%nat.
  Lemma seq_split : seq 0 r = 0%nat :: seq 1 m ++ [S m; S (S m)].
  Proof.
    unfold r. rewrite (seq_app m 3 0). change (0 :: seq 1 m ++ [S m; S (S m)])%nat with (seq 0 (S m) ++ [S m; S (S m)]). rewrite (seq_S m 0), <- app_assoc. reflexivity.
  Qed.
  Lemma batch_dims_eq : attn_batch_dims r (seq 1 m) = [0%nat; S m].
  Proof.
    unfold attn_batch_dims. rewrite seq_split. replace (r - 1)%nat with (S (S m)) by (unfold r; lia).
    set (p := fun i => negb (memb i (seq 1 m ++ [S (S m)]))).
    assert (P : forall i, p i = false <-> In i (seq 1 m ++ [S (S m)])).
    { intros i. unfold p. rewrite negb_false_iff. apply memb_In. }
    assert (A : forall l, (forall i, In i l -> In i (seq 1 m)) -> filter p l = []).
    { induction l as [|a l IH]; intros H; [reflexivity|]. cbn [filter]. rewrite (proj2 (P a)) by (apply in_or_app; left; apply H; left; reflexivity). apply IH. intros i Hi. apply H. right. exact Hi. }
    assert (p0 : p 0%nat = true).
    { apply not_false_iff_true. rewrite P. intros H. apply in_app_or in H. rewrite in_seq in H. destruct H as [H|[H|[]]]; lia. }
    assert (p1 : p (S m) = true).
    { apply not_false_iff_true. rewrite P. intros H. apply in_app_or in H. rewrite in_seq in H. destruct H as [H|[H|[]]]; lia. }
    assert (p2 : p (S (S m)) = false) by (apply P, in_or_app; right; left; reflexivity).
    cbn [filter]. rewrite p0, filter_app, (A _ (fun i H => H)). cbn [filter app]. rewrite p1, p2. reflexivity.
  Qed.
  Lemma source_free batch l : forall next rest, (forall i, In i l -> ~ In i batch /\ i <> (r - 1)%nat) ->
    source_labels r batch (l ++ rest) next = seq next (length l) ++ source_labels r batch rest (next + length l).
  Proof.
    induction l as [|a l IH]; intros next rest H; [cbn [app length seq]; rewrite Nat.add_0_r; reflexivity|].
    cbn [app source_labels length seq]. destruct (H a (or_introl eq_refl)) as [H1 H2].
    rewrite (proj2 (memb_false _ _) H1), (proj2 (Nat.eqb_neq _ _) H2). cbn [orb]. rewrite IH by (intros i Hi; apply H; right; exact Hi).
    replace (S next + length l)%nat with (next + S (length l))%nat by lia. reflexivity.
  Qed.
  Lemma source_eq : attn_source r (seq 1 m) = 0%nat :: seq r m ++ [S m; S (S m)].
  Proof.
    unfold attn_source. rewrite batch_dims_eq, seq_split. cbn [source_labels]. change (memb 0%nat [0%nat; S m]) with true. cbn [orb]. f_equal.
    rewrite source_free.
    - rewrite seq_length. f_equal. cbn [source_labels].
      rewrite (proj2 (memb_In (S m) [0%nat; S m])) by (right; left; reflexivity). cbn [orb]. f_equal.
      replace (S (S m) =? r - 1)%nat with true by (symmetry; apply Nat.eqb_eq; unfold r; lia). rewrite orb_true_r. reflexivity.
    - intros i Hi. apply in_seq in Hi. split; [intros [X|[X|[]]]; lia|unfold r; lia].
  Qed.
  Lemma product_eq : attn_product r (seq 1 m) = [0%nat; S m] ++ seq 1 m ++ seq r m.
  Proof.
    unfold attn_product. rewrite batch_dims_eq, source_eq. do 2 f_equal.
    transitivity (map (fun i => r + (i - 1))%nat (seq 1 m)).
    - apply map_ext_in. intros i Hi. apply in_seq in Hi. replace (nth i (0%nat :: seq r m ++ [S m; S (S m)]) 0%nat) with (nth (i - 1) (seq r m ++ [S m; S (S m)]) 0%nat) by (destruct i; [lia|cbn [nth]; f_equal; lia]).
      rewrite app_nth1 by (rewrite seq_length; lia). apply seq_nth. lia.
    - assert (G : forall n a b, map (fun i => b + (i - a))%nat (seq a n) = seq b n).
      { induction n as [|n IH]; intros a b; [reflexivity|]. cbn [seq map]. f_equal; [lia|]. rewrite <- (IH (S a) (S b)). apply map_ext_in. intros i Hi. apply in_seq in Hi. lia. }
      apply G.
  Qed.
End Labels.

(** ** Five blocks: one, heads, two sequence blocks, head dimension *)
Lemma five_sum (f : index -> Q) H a b D :
  qsum (map f (indices (1%nat :: H :: a ++ b ++ [D]))) ==
  sum_n H (fun n => sum_i a (fun t => sum_i b (fun s => sum_n D (fun d => f (0%nat :: n :: t ++ s ++ [d]))))).
Proof.
  rewrite tsum_cons. change (seq 0 1) with [0%nat]. rewrite (qsum_single_map 0%nat). rewrite tsum_cons. apply qsum_ext. intros n _.
  rewrite qsum_indices_app. apply qsum_ext. intros t _. rewrite qsum_indices_app. apply qsum_ext. intros s _. rewrite indices_single. reflexivity.
Qed.
Lemma five_bind a0 a1 A B z v0 n t s d e : NoDup (a0 :: a1 :: A ++ B ++ [z]) -> length A = length t -> length B = length s ->
  let E := bind_idx (a0 :: a1 :: A ++ B ++ [z]) (v0 :: n :: t ++ s ++ [d]) e in
  E a0 = v0 /\ E a1 = n /\ map E A = t /\ map E B = s /\ E z = d.
Proof.
  intros N LA LB E. unfold E.
  pose proof (bind_block [] [a0] (a1 :: A ++ B ++ [z]) [] [v0] (n :: t ++ s ++ [d]) e N eq_refl eq_refl) as H0.
  pose proof (bind_block [a0] [a1] (A ++ B ++ [z]) [v0] [n] (t ++ s ++ [d]) e N eq_refl eq_refl) as H1.
  pose proof (bind_block [a0; a1] A (B ++ [z]) [v0; n] t (s ++ [d]) e N eq_refl LA) as H2.
  pose proof (bind_block ([a0; a1] ++ A) B [z] ([v0; n] ++ t) s [d] e) as H3.
  pose proof (bind_block ([a0; a1] ++ A ++ B) [z] [] ([v0; n] ++ t ++ s) [d] [] e) as H4.
  rewrite <- !app_assoc in H3, H4. specialize (H3 N). specialize (H4 N). rewrite !app_length in H3, H4. cbn [app] in *.
  split; [injection H0; auto|]. split; [injection H1; auto|]. split; [exact H2|]. split; [apply H3; cbn; lia|].
  assert (L : (length [a0; a1] + (length A + length B))%nat = length (v0 :: n :: t ++ s)) by (cbn [length]; rewrite app_length; lia).
  specialize (H4 L eq_refl). rewrite <- app_assoc in H4. injection H4; auto.
Qed.
Lemma index_length sh i : In i (indices sh) -> length i = length sh.
Proof. intros H. apply in_indices in H. induction H; cbn; congruence. Qed.

Section Attention.
  Context (H D : nat) (a b : list nat) (Lab : length a = length b).
  Let m := length a.
  Let r := (m + 3)%nat.
  Let Sl := seq r m.
  Let Tl := seq 1 m.
  Lemma labels_nodup A B : (A = Sl /\ B = Tl) \/ (A = Tl /\ B = Sl) -> NoDup (0%nat :: S m :: A ++ B ++ [S (S m)]).
  Proof.
    intros HAB. assert (NS : NoDup Sl) by apply seq_NoDup. assert (NT : NoDup Tl) by apply seq_NoDup.
    assert (HS : forall c, In c Sl <-> (r <= c < r + m)%nat) by (intros; apply in_seq).
    assert (HT : forall c, In c Tl <-> (1 <= c < 1 + m)%nat) by (intros; apply in_seq).
    assert (HR : r = (m + 3)%nat) by reflexivity. clearbody Sl Tl r.
    constructor; [|constructor].
    - intros [X|X]; [lia|]. apply in_app_or in X. destruct X as [X|X]; [|apply in_app_or in X; destruct X as [X|[X|[]]]]; destruct HAB as [[-> ->]|[-> ->]]; rewrite ?HS, ?HT in X; lia.
    - intros X. apply in_app_or in X. destruct X as [X|X]; [|apply in_app_or in X; destruct X as [X|[X|[]]]]; destruct HAB as [[-> ->]|[-> ->]]; rewrite ?HS, ?HT in X; lia.
    - apply L_Ops.NoDup_app_intro; [destruct HAB as [[-> ->]|[-> ->]]; assumption| |].
      + apply L_Ops.NoDup_app_intro; [destruct HAB as [[-> ->]|[-> ->]]; assumption|repeat constructor; intros []|].
        intros c Hc [<-|[]]. destruct HAB as [[-> ->]|[-> ->]]; rewrite ?HS, ?HT in Hc; lia.
      + intros c Hc X. apply in_app_or in X. destruct X as [X|[X|[]]]; destruct HAB as [[-> ->]|[-> ->]]; rewrite ?HS, ?HT in *; lia.
  Qed.
  Let src := (0%nat :: Sl ++ [S m; S (S m)]).
  Let tgt := (0%nat :: Tl ++ [S m; S (S m)]).
  Let prd := ([0%nat; S m] ++ Tl ++ Sl).
  Lemma len_Sl : length Sl = m. Proof. apply seq_length. Qed.
  Lemma len_Tl : length Tl = m. Proof. apply seq_length. Qed.
  Lemma src_nodup : NoDup src.
  Proof.
    unfold src. pose proof (labels_nodup Sl Tl (or_introl (conj eq_refl eq_refl))) as N.
    apply (Permutation_NoDup (l := 0%nat :: S m :: Sl ++ [S (S m)])).
    - constructor. apply Permutation_trans with (Sl ++ S m :: [S (S m)]); [apply Permutation_middle|reflexivity].
    - assert (X : NoDup (0%nat :: S m :: Sl ++ [S (S m)])).
      { apply (NoDup_app_l _ Tl). apply (Permutation_NoDup (l := 0%nat :: S m :: Sl ++ Tl ++ [S (S m)])); [|exact N].
        cbn [app]. do 2 constructor. rewrite <- app_assoc. apply Permutation_app_head. apply Permutation_app_comm. }
      exact X.
  Qed.
  Lemma tgt_nodup : NoDup tgt.
  Proof.
    change (NoDup (0%nat :: seq 1 m ++ [S m; S (S m)])). rewrite <- (seq_split m). apply seq_NoDup.
  Qed.
  Lemma prd_nodup : NoDup prd.
  Proof.
    unfold prd. cbn [app]. apply (NoDup_app_l _ [S (S m)]). cbn [app]. rewrite <- app_assoc. apply labels_nodup. right. split; reflexivity.
  Qed.

  (** score products: the equation with query and key exchanged still pairs them correctly *)
  Lemma score_total (x k : index -> Q) :
    einsum 0 Qplus Qmult (einsum_dims src (1%nat :: a ++ [H; D]) tgt (1%nat :: b ++ [H; D])) src tgt [] x k [] == score_cost H D a b x k.
  Proof.
    set (L := 0%nat :: S m :: Sl ++ Tl ++ [S (S m)]).
    assert (N : NoDup L) by (apply labels_nodup; left; split; reflexivity).
    rewrite (einsum_flat _ src tgt L x k N).
    2:{ intros c. unfold L, src, tgt. cbn [In app]. rewrite !in_app_iff. cbn [In]. rewrite !in_app_iff. cbn [In]. tauto. }
    assert (DL : map (einsum_dims src (1%nat :: a ++ [H; D]) tgt (1%nat :: b ++ [H; D])) L = 1%nat :: H :: a ++ b ++ [D]).
    { pose proof (map_label_dim src (1%nat :: a ++ [H; D]) src_nodup) as M1.
      pose proof (map_label_dim tgt (1%nat :: b ++ [H; D]) tgt_nodup) as M2.
      assert (E1 : length src = length (1%nat :: a ++ [H; D])) by (unfold src; cbn [length]; rewrite !app_length, len_Sl; reflexivity).
      assert (E2 : length tgt = length (1%nat :: b ++ [H; D])) by (unfold tgt; cbn [length]; rewrite !app_length, len_Tl, <- Lab; reflexivity).
      specialize (M1 E1). specialize (M2 E2).
      assert (B0 := map_some_block (label_dim src (1%nat :: a ++ [H; D])) [] [0%nat] (Sl ++ [S m; S (S m)]) [] [1%nat] (a ++ [H; D]) eq_refl eq_refl M1).
      assert (BS := map_some_block (label_dim src (1%nat :: a ++ [H; D])) [0%nat] Sl [S m; S (S m)] [1%nat] a [H; D] eq_refl len_Sl M1).
      assert (BH := map_some_block (label_dim src (1%nat :: a ++ [H; D])) (0%nat :: Sl) [S m; S (S m)] [] (1%nat :: a) [H; D] []
        (f_equal S len_Sl) eq_refl M1).
      assert (BT := map_some_block (label_dim tgt (1%nat :: b ++ [H; D])) [0%nat] Tl [S m; S (S m)] [1%nat] b [H; D] eq_refl (eq_trans len_Tl Lab) M2).
      unfold L. cbn [map]. rewrite !map_app. cbn [map].
      apply dims_left with (lk := tgt) (ks := 1%nat :: b ++ [H; D]) in B0, BS, BH. apply (f_equal (hd 0%nat)) in B0. assert (BH1 := f_equal (hd 0%nat) BH). assert (BH2 := f_equal (fun l => hd 0%nat (tl l)) BH). cbn [map hd tl] in B0, BH1, BH2.
      rewrite B0, BH1, BH2, BS. rewrite (dims_right src _ tgt _ Tl b).
      - reflexivity.
      - intros l Hl X. unfold src in X. assert (NL := N). unfold L in NL. apply in_seq in Hl. cbn [In] in X. rewrite in_app_iff in X. cbn [In] in X.
        destruct X as [X|[X|[X|[X|[]]]]]; try lia. apply in_seq in X. unfold r in X. lia.
      - exact BT. }
    rewrite DL. rewrite five_sum. unfold score_cost. apply qsum_ext. intros n _. apply qsum_ext. intros t Ht. apply qsum_ext. intros s Hs. apply qsum_ext. intros d _.
    apply index_length in Ht, Hs.
    destruct (five_bind 0%nat (S m) Sl Tl (S (S m)) 0%nat n t s d (fun _ => 0%nat)) as (F0 & F1 & F2 & F3 & F4);
      [exact N|rewrite len_Sl, Ht; reflexivity|rewrite len_Tl, Hs, <- Lab; reflexivity|].
    unfold src, tgt. cbn [map]. rewrite !map_app. cbn [map]. fold L in F0, F1, F2, F3, F4. rewrite F0, F1, F2, F3, F4. reflexivity.
  Qed.
  Lemma mix_total (x k : index -> Q) :
    einsum 0 Qplus Qmult (einsum_dims prd (1%nat :: H :: a ++ b) src (1%nat :: b ++ [H; D])) prd src [] x k [] == mix_cost H D a b x k.
  Proof.
    set (L := 0%nat :: S m :: Tl ++ Sl ++ [S (S m)]).
    assert (N : NoDup L) by (apply labels_nodup; right; split; reflexivity).
    rewrite (einsum_flat _ prd src L x k N).
    2:{ intros c. unfold L, src, prd. cbn [In app]. rewrite !in_app_iff. cbn [In]. rewrite !in_app_iff. cbn [In]. tauto. }
    assert (DL : map (einsum_dims prd (1%nat :: H :: a ++ b) src (1%nat :: b ++ [H; D])) L = 1%nat :: H :: a ++ b ++ [D]).
    { pose proof (map_label_dim prd (1%nat :: H :: a ++ b) prd_nodup) as M1.
      pose proof (map_label_dim src (1%nat :: b ++ [H; D]) src_nodup) as M2.
      assert (E1 : length prd = length (1%nat :: H :: a ++ b)) by (unfold prd; cbn [length app]; rewrite !app_length, len_Sl, len_Tl; unfold m; lia).
      assert (E2 : length src = length (1%nat :: b ++ [H; D])) by (unfold src; cbn [length]; rewrite !app_length, len_Sl, <- Lab; reflexivity).
      specialize (M1 E1). specialize (M2 E2).
      apply dims_left with (lk := src) (ks := 1%nat :: b ++ [H; D]) in M1.
      assert (BD := map_some_block (label_dim src (1%nat :: b ++ [H; D])) (0%nat :: Sl ++ [S m]) [S (S m)] [] (1%nat :: b ++ [H]) [D] []).
      assert (BD' : map (label_dim src (1%nat :: b ++ [H; D])) [S (S m)] = map Some [D]).
      { apply BD; [cbn [length]; rewrite !app_length, len_Sl; cbn [length]; unfold m; lia|reflexivity|].
        cbn [app]. rewrite <- !app_assoc. exact M2. }
      unfold L. replace (0%nat :: S m :: Tl ++ Sl ++ [S (S m)]) with (prd ++ [S (S m)]) by (unfold prd; cbn [app]; rewrite <- app_assoc; reflexivity).
      rewrite map_app, M1. rewrite (dims_right prd _ src _ [S (S m)] [D]).
      - cbn [app]. rewrite <- app_assoc. reflexivity.
      - intros l [<-|[]] X. unfold prd in X. cbn [app In] in X. rewrite in_app_iff in X. destruct X as [X|[X|[X|X]]]; try lia; apply in_seq in X; unfold r in X; lia.
      - exact BD'. }
    rewrite DL. rewrite five_sum. unfold mix_cost. apply qsum_ext. intros n _. apply qsum_ext. intros t Ht. apply qsum_ext. intros s Hs. apply qsum_ext. intros d _.
    apply index_length in Ht, Hs.
    destruct (five_bind 0%nat (S m) Tl Sl (S (S m)) 0%nat n t s d (fun _ => 0%nat)) as (F0 & F1 & F2 & F3 & F4);
      [exact N|rewrite len_Tl, Ht; reflexivity|rewrite len_Sl, Hs, <- Lab; reflexivity|].
    unfold src, prd. cbn [map app]. rewrite !map_app. cbn [map]. fold L in F0, F1, F2, F3, F4. rewrite F0, F1, F2, F3, F4. reflexivity.
  Qed.
  Lemma map_eq_in {A B} (f g : A -> B) l x : map f l = map g l -> In x l -> f x = g x.
  Proof. induction l as [|y l IH]; [intros _ []|]. intros E [<-|Hx]; cbn [map] in E; injection E; auto. Qed.
  Lemma src_dims (d : nat) : map (label_dim src (1%nat :: b ++ [H; d])) src = map Some (1%nat :: b ++ [H; d]).
  Proof. apply map_label_dim; [apply src_nodup|]. unfold src. cbn [length]. rewrite !app_length, len_Sl, <- Lab. reflexivity. Qed.
  Lemma score_fits : einsum_fits src (1%nat :: a ++ [H; D]) tgt (1%nat :: b ++ [H; D]) = true.
  Proof.
    assert (E1 : length src = length (1%nat :: a ++ [H; D])) by (unfold src; cbn [length]; rewrite !app_length, len_Sl; reflexivity).
    assert (E2 : length tgt = length (1%nat :: b ++ [H; D])) by (unfold tgt; cbn [length]; rewrite !app_length, len_Tl, <- Lab; reflexivity).
    pose proof (map_label_dim src (1%nat :: a ++ [H; D]) src_nodup E1) as M1.
    pose proof (map_label_dim tgt (1%nat :: b ++ [H; D]) tgt_nodup E2) as M2.
    unfold einsum_fits. rewrite E1, E2, !Nat.eqb_refl. cbn [andb]. apply forallb_forall. intros l _.
    destruct (in_dec Nat.eq_dec l src) as [I1|I1]; [|rewrite (label_dim_notin _ _ _ I1); reflexivity].
    destruct (in_dec Nat.eq_dec l tgt) as [I2|I2]; [|rewrite (label_dim_notin _ _ _ I2); destruct (label_dim _ _ _); reflexivity].
    assert (BH1 := map_some_block (label_dim src (1%nat :: a ++ [H; D])) (0%nat :: Sl) [S m; S (S m)] [] (1%nat :: a) [H; D] [] (f_equal S len_Sl) eq_refl M1).
    assert (BH2 := map_some_block (label_dim tgt (1%nat :: b ++ [H; D])) (0%nat :: Tl) [S m; S (S m)] [] (1%nat :: b) [H; D] [] (f_equal S (eq_trans len_Tl Lab)) eq_refl M2).
    assert (X : l = 0%nat \/ In l [S m; S (S m)]).
    { unfold src, tgt in I1, I2. cbn [In] in I1, I2. rewrite in_app_iff in I1, I2. destruct I1 as [I1|[I1|I1]]; [left; auto| |right; exact I1].
      destruct I2 as [I2|[I2|I2]]; [left; auto| |right; exact I2]. exfalso. apply in_seq in I1, I2. unfold r in I1. lia. }
    destruct X as [->|X]; [reflexivity|]. rewrite <- BH2 in BH1. rewrite (map_eq_in _ _ _ l BH1 X). destruct (label_dim tgt _ l); [apply Nat.eqb_refl|reflexivity].
  Qed.
  Lemma mix_fits : einsum_fits prd (1%nat :: H :: a ++ b) src (1%nat :: b ++ [H; D]) = true.
  Proof.
    assert (E1 : length prd = length (1%nat :: H :: a ++ b)) by (unfold prd; cbn [length app]; rewrite !app_length, len_Sl, len_Tl; unfold m; lia).
    assert (E2 : length src = length (1%nat :: b ++ [H; D])) by (unfold src; cbn [length]; rewrite !app_length, len_Sl, <- Lab; reflexivity).
    pose proof (map_label_dim prd (1%nat :: H :: a ++ b) prd_nodup E1) as M1. pose proof (src_dims D) as M2.
    unfold einsum_fits. rewrite E1, E2, !Nat.eqb_refl. cbn [andb]. apply forallb_forall. intros l _.
    destruct (in_dec Nat.eq_dec l prd) as [I1|I1]; [|rewrite (label_dim_notin _ _ _ I1); reflexivity].
    destruct (in_dec Nat.eq_dec l src) as [I2|I2]; [|rewrite (label_dim_notin _ _ _ I2); destruct (label_dim _ _ _); reflexivity].
    assert (X : label_dim prd (1%nat :: H :: a ++ b) l = label_dim src (1%nat :: b ++ [H; D]) l).
    { unfold prd, src in I1, I2. cbn [In app] in I1, I2. rewrite in_app_iff in I1, I2. cbn [In] in I1, I2.
      assert (BS1 := map_some_block (label_dim prd (1%nat :: H :: a ++ b)) (0%nat :: S m :: Tl) Sl [] (1%nat :: H :: a) b []).
      rewrite !app_nil_r in BS1. specialize (BS1 (f_equal S (f_equal S len_Tl)) (eq_trans len_Sl Lab) M1).
      assert (BS2 := map_some_block (label_dim src (1%nat :: b ++ [H; D])) [0%nat] Sl [S m; S (S m)] [1%nat] b [H; D] eq_refl (eq_trans len_Sl Lab) M2).
      destruct I1 as [<-|[<-|[I1|I1]]].
      - reflexivity.
      - assert (B1 := map_some_block (label_dim prd (1%nat :: H :: a ++ b)) [0%nat] [S m] (Tl ++ Sl) [1%nat] [H] (a ++ b) eq_refl eq_refl M1).
        assert (B2 := map_some_block (label_dim src (1%nat :: b ++ [H; D])) (0%nat :: Sl) [S m] [S (S m)] (1%nat :: b) [H] [D] (f_equal S (eq_trans len_Sl Lab)) eq_refl M2).
        rewrite <- B2 in B1. apply (map_eq_in _ _ _ (S m) B1). left. reflexivity.
      - exfalso. apply in_seq in I1. destruct I2 as [I2|[I2|[I2|[I2|[]]]]]; try lia. apply in_seq in I2. unfold r in I2. lia.
      - rewrite <- BS2 in BS1. apply (map_eq_in _ _ _ l BS1 I1). }
    rewrite X. destruct (label_dim src _ l); [apply Nat.eqb_refl|reflexivity].
  Qed.
End Attention.

Lemma pf_or_one_nonneg pf : 0 <= pf_or_one pf.
Proof. unfold pf_or_one. destruct (0 <? pf)%Z eqn:E; [|discriminate]. apply Z.ltb_lt in E. change 0 with (inject_Z 0). rewrite <- Zle_Qle. lia. Qed.
Lemma mha_value H dq dv qs ks vs pf bq bk bv ba tq tk tv ta : length ks = length qs -> length vs = length qs ->
  bits_ bq (1%nat :: qs ++ [H; dq]) = Some tq -> bits_ bk (1%nat :: ks ++ [H; dq]) = Some tk ->
  bits_ bv (1%nat :: vs ++ [H; dv]) = Some tv -> bits_ ba (1%nat :: H :: qs ++ vs) = Some ta ->
  exists e, mha_ebops (default_axes (length qs + 3)) H dq dv qs ks vs pf bq bk bv ba = Some e /\
    e == (score_cost H dq qs ks (at_ tq) (at_ tk) + mix_cost H dv qs vs (at_ ta) (at_ tv)) * pf_or_one pf.
Proof.
  intros Lk Lv Eq Ek Ev Ea. unfold mha_ebops, default_axes. rewrite Eq, Ek, Ev, Ea. cbn [bind].
  replace (length qs + 3 - 3)%nat with (length qs) by lia. rewrite source_eq, product_eq.
  unfold attn_target. rewrite seq_split. unfold total_einsum.
  rewrite (proj1 (bits_at _ _ _ Eq)), (proj1 (bits_at _ _ _ Ek)), (proj1 (bits_at _ _ _ Ev)), (proj1 (bits_at _ _ _ Ea)).
  rewrite (score_fits H dq qs ks (eq_sym Lk)), (mix_fits H dv qs vs (eq_sym Lv)). cbn [bind].
  eexists. split; [reflexivity|]. unfold pf_or_one.
  pose proof (score_total H dq qs ks (eq_sym Lk) (at_ tq) (at_ tk)) as S1. pose proof (mix_total H dv qs vs (eq_sym Lv) (at_ ta) (at_ tv)) as S2.
  destruct (0 <? pf)%Z; rewrite S1, S2; lra.
Qed.
Lemma mha_figure H dq dv qs ks vs pf bq bk bv ba e : length ks = length qs -> length vs = length qs ->
  mha_ebops (default_axes (length qs + 3)) H dq dv qs ks vs pf bq bk bv ba = Some e ->
  exists tq tk tv ta, bits_ bq (1%nat :: qs ++ [H; dq]) = Some tq /\ bits_ bk (1%nat :: ks ++ [H; dq]) = Some tk /\
    bits_ bv (1%nat :: vs ++ [H; dv]) = Some tv /\ bits_ ba (1%nat :: H :: qs ++ vs) = Some ta /\
    e == (score_cost H dq qs ks (at_ tq) (at_ tk) + mix_cost H dv qs vs (at_ ta) (at_ tv)) * pf_or_one pf.
Proof.
  intros Lk Lv E.
  destruct (bits_ bq (1%nat :: qs ++ [H; dq])) as [tq|] eqn:Eq; [|unfold mha_ebops in E; rewrite Eq in E; discriminate].
  destruct (bits_ bk (1%nat :: ks ++ [H; dq])) as [tk|] eqn:Ek; [|unfold mha_ebops in E; rewrite Eq, Ek in E; discriminate].
  destruct (bits_ bv (1%nat :: vs ++ [H; dv])) as [tv|] eqn:Ev; [|unfold mha_ebops in E; rewrite Eq, Ek, Ev in E; discriminate].
  destruct (bits_ ba (1%nat :: H :: qs ++ vs)) as [ta|] eqn:Ea; [|unfold mha_ebops in E; rewrite Eq, Ek, Ev, Ea in E; discriminate].
  destruct (mha_value H dq dv qs ks vs pf bq bk bv ba tq tk tv ta Lk Lv Eq Ek Ev Ea) as (e' & E' & V).
  rewrite E in E'. apply some_inj in E'. subst e'. exists tq, tk, tv, ta. do 4 (split; [reflexivity|]). exact V.
Qed.
Lemma sum_n_nonneg n f : (forall i, 0 <= f i) -> 0 <= sum_n n f. Proof. intros H. apply qsum_nonneg. auto. Qed.
Lemma sum_i_nonneg n f : (forall i, 0 <= f i) -> 0 <= sum_i n f. Proof. intros H. apply qsum_nonneg. auto. Qed.
Lemma sum_n_le n f g : (forall i, f i <= g i) -> sum_n n f <= sum_n n g. Proof. intros H. apply qsum_le. auto. Qed.
Lemma sum_i_le n f g : (forall i, f i <= g i) -> sum_i n f <= sum_i n g. Proof. intros H. apply qsum_le. auto. Qed.
Lemma mul_mono a b a' b' : 0 <= a -> 0 <= b -> a <= a' -> b <= b' -> a * b <= a' * b'.
Proof. intros. nra. Qed.
Lemma score_nonneg H dq qs ks q k : (forall i, 0 <= q i) -> (forall i, 0 <= k i) -> 0 <= score_cost H dq qs ks q k.
Proof. intros. do 4 (first [apply sum_n_nonneg|apply sum_i_nonneg]; intros). apply Qmult_le_0_compat; auto. Qed.
Lemma mix_nonneg H dq qs ks q k : (forall i, 0 <= q i) -> (forall i, 0 <= k i) -> 0 <= mix_cost H dq qs ks q k.
Proof. intros. do 4 (first [apply sum_n_nonneg|apply sum_i_nonneg]; intros). apply Qmult_le_0_compat; auto. Qed.
Lemma score_le H dq qs ks q k q' k' : (forall i, 0 <= q i <= q' i) -> (forall i, 0 <= k i <= k' i) -> score_cost H dq qs ks q k <= score_cost H dq qs ks q' k'.
Proof. intros A B. do 4 (first [apply sum_n_le|apply sum_i_le]; intros). apply mul_mono; first [apply A|apply B]. Qed.
Lemma mix_le H dq qs ks q k q' k' : (forall i, 0 <= q i <= q' i) -> (forall i, 0 <= k i <= k' i) -> mix_cost H dq qs ks q k <= mix_cost H dq qs ks q' k'.
Proof. intros A B. do 4 (first [apply sum_n_le|apply sum_i_le]; intros). apply mul_mono; first [apply A|apply B]. Qed.
Lemma bits_between q q' sh t t' : widths_ok q -> wider q q' -> bits_ q sh = Some t -> bits_ q' sh = Some t' -> forall i, 0 <= at_ t i <= at_ t' i.
Proof.
  intros Hw Hd E E' i. split; [apply (bits_nonneg _ _ _ Hw E)|]. destruct (bits_wider _ _ _ _ Hd E) as (t2 & E2 & L2).
  rewrite E' in E2. apply some_inj in E2. subst t2. apply L2.
Qed.
Lemma mha_mono H dq dv qs ks vs pf bq bk bv ba bq' bk' bv' ba' e e' : length ks = length qs -> length vs = length qs ->
  Forall widths_ok [bq; bk; bv; ba] -> Forall2 wider [bq; bk; bv; ba] [bq'; bk'; bv'; ba'] ->
  mha_ebops (default_axes (length qs + 3)) H dq dv qs ks vs pf bq bk bv ba = Some e ->
  mha_ebops (default_axes (length qs + 3)) H dq dv qs ks vs pf bq' bk' bv' ba' = Some e' -> 0 <= e /\ e <= e'.
Proof.
  intros Lk Lv W M E E'. destruct (mha_figure _ _ _ _ _ _ _ _ _ _ _ _ Lk Lv E) as (tq & tk & tv & ta & Eq & Ek & Ev & Ea & ->).
  destruct (mha_figure _ _ _ _ _ _ _ _ _ _ _ _ Lk Lv E') as (tq' & tk' & tv' & ta' & Eq' & Ek' & Ev' & Ea' & ->).
  inversion W as [|? ? W1 W']; subst. inversion W' as [|? ? W2 W'']; subst. inversion W'' as [|? ? W3 W3']; subst. inversion W3' as [|? ? W4 _]; subst.
  inversion M as [|? ? ? ? M1 M']; subst. inversion M' as [|? ? ? ? M2 M'']; subst. inversion M'' as [|? ? ? ? M3 M3']; subst. inversion M3' as [|? ? ? ? M4 _]; subst.
  pose proof (bits_between _ _ _ _ _ W1 M1 Eq Eq') as B1. pose proof (bits_between _ _ _ _ _ W2 M2 Ek Ek') as B2.
  pose proof (bits_between _ _ _ _ _ W3 M3 Ev Ev') as B3. pose proof (bits_between _ _ _ _ _ W4 M4 Ea Ea') as B4.
  pose proof (pf_or_one_nonneg pf) as HP. split.
  - apply Qmult_le_0_compat; [|exact HP].
    pose proof (score_nonneg H dq qs ks (at_ tq) (at_ tk) (fun i => proj1 (B1 i)) (fun i => proj1 (B2 i))).
    pose proof (mix_nonneg H dv qs vs (at_ ta) (at_ tv) (fun i => proj1 (B4 i)) (fun i => proj1 (B3 i))). lra.
  - apply Qmult_le_compat_r; [|exact HP]. pose proof (score_le H dq qs ks _ _ _ _ B1 B2). pose proof (mix_le H dv qs vs _ _ _ _ B4 B3). lra.
Qed.

(** attention along fewer axes than the sequence has: the weights' shape does not fit the equation *)
Lemma source_length r batch l : forall next, length (source_labels r batch l next) = length l.
Proof. induction l as [|a l IH]; intros next; cbn [source_labels]; [reflexivity|]. destruct (memb a batch || (a =? r - 1)%nat); cbn [length]; rewrite IH; reflexivity. Qed.
Lemma filter_out (l dr : list nat) : NoDup l -> NoDup dr -> incl dr l -> length (filter (fun i => negb (memb i dr)) l) = (length l - length dr)%nat.
Proof.
  intros Nl Nd HI.
  assert (P : Permutation l (dr ++ filter (fun i => negb (memb i dr)) l)).
  { apply NoDup_Permutation; [exact Nl| |].
    - apply NoDup_app_intro; [exact Nd|apply NoDup_filter, Nl|]. intros x Hx X. apply filter_In in X. destruct X as [_ X]. apply negb_true_iff in X. apply memb_false in X. contradiction.
    - intros x. rewrite in_app_iff, filter_In, negb_true_iff. split.
      + intros Hx. destruct (in_dec Nat.eq_dec x dr); [left; assumption|right; split; [exact Hx|apply memb_false; assumption]].
      + intros [Hx|[Hx _]]; [apply HI, Hx|exact Hx]. }
  apply Permutation_length in P. rewrite app_length in P. lia.
Qed.
Lemma mha_axes axes H dq dv qs ks vs pf bq bk bv ba e : length vs = length qs -> NoDup axes -> (forall a, In a axes -> (1 <= a <= length qs)%nat) ->
  mha_ebops axes H dq dv qs ks vs pf bq bk bv ba = Some e -> length axes = length qs.
Proof.
  intros Lv Na Ha E. unfold mha_ebops in E.
  destruct (bits_ bq _) as [tq|]; [|discriminate]. destruct (bits_ bk _) as [tk|]; [|discriminate]. destruct (bits_ bv _) as [tv|] eqn:Ev; [|discriminate].
  destruct (bits_ ba _) as [ta|] eqn:Ea; [|discriminate]. cbn [bind] in E. destruct (total_einsum _ _ tq tk) as [x0|]; [|discriminate]. cbn [bind] in E.
  destruct (total_einsum (attn_product _ _) _ ta tv) as [y0|] eqn:Ey; [|discriminate]. unfold total_einsum in Ey.
  destruct (einsum_fits _ (shape ta) _ (shape tv)) eqn:F; [|discriminate]. unfold einsum_fits in F. apply andb_true_iff in F. destruct F as [F _].
  apply andb_true_iff in F. destruct F as [F _]. apply Nat.eqb_eq in F. rewrite (proj1 (bits_at _ _ _ Ea)) in F. cbn [length] in F. rewrite app_length in F.
  unfold attn_product in F. rewrite !app_length, map_length in F. unfold attn_batch_dims in F. rewrite filter_out in F.
  - rewrite seq_length, app_length in F. cbn [length] in F. pose proof (NoDup_incl_length Na (l' := seq 1 (length qs))) as LL. rewrite seq_length in LL.
    assert (length axes <= length qs)%nat by (apply LL; intros a Hx; apply in_seq; specialize (Ha a Hx); lia). lia.
  - apply seq_NoDup.
  - apply NoDup_app_intro; [exact Na|repeat constructor; intros []|]. intros x Hx [<-|[]]. specialize (Ha _ Hx). lia.
  - intros x Hx. apply in_app_or in Hx. apply in_seq. destruct Hx as [Hx|[<-|[]]]; [specialize (Ha _ Hx)|]; lia.
Qed.

(** ** Softmax *)
Lemma bcast_keep_from hom : forall sh a i, valid_index sh i -> bcast_index (keep_shape_from a hom sh) i = keep_from a hom i.
Proof.
  induction sh as [|d sh IH]; intros a i Hv; inversion Hv as [|x y l l' Hx Hl]; subst; [reflexivity|].
  cbn [keep_shape_from bcast_index keep_from]. rewrite (IH _ _ Hl). destruct (memb a hom); [reflexivity|].
  destruct (Nat.eqb_spec d 1) as [->|D]; [|reflexivity]. f_equal. lia.
Qed.
Lemma nprod_keep hom : forall sh a, (0 < nprod sh)%nat -> (0 < nprod (keep_shape_from a hom sh))%nat.
Proof.
  induction sh as [|d sh IH]; intros a H; [exact H|]. cbn [keep_shape_from]. change (nprod (d :: sh)) with (d * nprod sh)%nat in H.
  change (0 < (if memb a hom then 1 else d) * nprod (keep_shape_from (S a) hom sh))%nat.
  assert (0 < nprod sh)%nat by nia. specialize (IH (S a) H0). destruct (memb a hom); nia.
Qed.
Lemma softmax_value axes sh stable pf iq exp_iq exp_oq inv_oq e : (0 < nprod sh)%nat -> softmax_ebops axes sh stable pf iq exp_iq exp_oq inv_oq = Some e ->
  exists tin tsub te ti, opt_bits iq sh = Some tin /\
    (stable = true -> match iq with Some q => bits_ q sh | None => bits_ exp_iq sh end = Some tsub) /\
    bits_ exp_oq sh = Some te /\ bits_ inv_oq (accum_shape axes sh) = Some ti /\
    e == ((if stable then sum_i sh (at_ tsub) else 0) + (tsum te - tsum (min_over axes te)) + sum_i sh (fun i => at_ te i * at_ ti (keep axes i))
          + (if stable then 0 else sum_i sh (fun i => pow2 (Qfloor (at_ tin i)) * at_ te i) * (1 # 10000))) * factor_or_one pf (nprod (accum_shape axes sh)).
Proof.
  intros Hn E. unfold softmax_ebops in E. fold (opt_bits iq sh) in E. destruct (opt_bits iq sh) as [tin|] eqn:Ei; [|discriminate]. cbn [bind] in E.
  destruct (bits_ exp_oq sh) as [te|] eqn:Ee; [|discriminate]. cbn [bind] in E.
  destruct (bits_ inv_oq _) as [ti|] eqn:Ev; [|discriminate]. cbn [bind] in E.
  assert (HM : qsum (map (fun i => at_ te i * at_ ti (bcast_index (accum_shape axes sh) i)) (indices sh)) == sum_i sh (fun i => at_ te i * at_ ti (keep axes i))).
  { apply qsum_ext. intros i Hi. apply in_indices in Hi. unfold accum_shape. rewrite (bcast_keep_from axes sh 0 i Hi). reflexivity. }
  assert (HF : (if (0 <? pf)%Z then inject_Z pf else nQ (nprod (accum_shape axes sh))) / nQ (nprod (accum_shape axes sh)) == factor_or_one pf (nprod (accum_shape axes sh))).
  { unfold factor_or_one. destruct (0 <? pf)%Z; [reflexivity|]. pose proof (nQ_pos _ (nprod_keep axes sh 0 Hn)). unfold accum_shape. field. lra. }
  destruct stable.
  - destruct iq as [q|]; cbn [opt_bits] in Ei.
    + apply some_inj in E. exists tin, tin, te, ti. do 4 (split; [first [reflexivity|assumption|intros; assumption|idtac]|]).
      rewrite <- E. rewrite HM, HF. unfold sum_i. unfold tsum at 1. rewrite (proj1 (bits_at _ _ _ Ei)). lra.
    + destruct (bits_ exp_iq sh) as [ts|] eqn:Es; [|discriminate]. cbn [bind] in E. apply some_inj in E. exists tin, ts, te, ti.
      split; [reflexivity|]. split; [intros _; reflexivity|]. split; [reflexivity|]. split; [reflexivity|].
      rewrite <- E. rewrite HM, HF. unfold sum_i. unfold tsum at 1. rewrite (proj1 (bits_at _ _ _ Es)). lra.
  - cbn [bind] in E. apply some_inj in E. exists tin, tin, te, ti. split; [reflexivity|]. split; [discriminate|]. split; [reflexivity|]. split; [reflexivity|].
    rewrite <- E. rewrite HM, HF. unfold sum_i. lra.
Qed.
Lemma accum_groups axes sh q t (m : index -> Q) : bits_ q sh = Some t ->
  (forall g, In g (indices (accum_shape axes sh)) -> is_min (m g) (map (at_ t) (group_of axes sh g))) ->
  tsum t - tsum (min_over axes t) == sum_i (accum_shape axes sh) (fun g => qsum (map (at_ t) (group_of axes sh g)) - m g).
Proof.
  intros E Hm. destruct (sum_figure axes sh q ((tsum t - tsum (min_over axes t)) * (65 # 100)) m) as (b & Eb & HB).
  - unfold sum_ebops. rewrite E. reflexivity.
  - rewrite E in Eb. apply some_inj in Eb. subst b. specialize (HB Hm). unfold sum_i, accum_shape. lra.
Qed.
Lemma accum_mono axes sh q q' t t' : widths_ok q -> wider q q' -> bits_ q sh = Some t -> bits_ q' sh = Some t' ->
  0 <= tsum t - tsum (min_over axes t) /\ tsum t - tsum (min_over axes t) <= tsum t' - tsum (min_over axes t').
Proof.
  intros W M E E'.
  assert (S1 : sum_ebops axes sh q = Some ((tsum t - tsum (min_over axes t)) * (65 # 100))) by (unfold sum_ebops; rewrite E; reflexivity).
  assert (S2 : sum_ebops axes sh q' = Some ((tsum t' - tsum (min_over axes t')) * (65 # 100))) by (unfold sum_ebops; rewrite E'; reflexivity).
  pose proof (sum_ebops_nonneg _ _ _ _ W S1). pose proof (sum_ebops_mono _ _ _ _ _ _ M S1 S2). split; lra.
Qed.
Lemma factor_or_one_nonneg pf n : (0 < n)%nat -> 0 <= factor_or_one pf n.
Proof.
  intros H. unfold factor_or_one. destruct (0 <? pf)%Z eqn:E; [|discriminate]. apply Z.ltb_lt in E. apply Qle_shift_div_l; [apply nQ_pos, H|].
  rewrite Qmult_0_l. change 0 with (inject_Z 0). rewrite <- Zle_Qle. lia.
Qed.
Lemma opt_between iq iq' sh t t' : widths_ok_opt iq -> wider_opt iq iq' -> opt_bits iq sh = Some t -> opt_bits iq' sh = Some t' -> forall i, 0 <= at_ t i <= at_ t' i.
Proof.
  destruct iq as [q|], iq' as [q'|]; cbn [wider_opt widths_ok_opt opt_bits]; intros W M E E'; try contradiction; [apply (bits_between q q' sh t t'); assumption|].
  apply some_inj in E, E'. subst. intros i. cbn [at_]. lra.
Qed.
Lemma softmax_mono axes sh stable pf iq exp_iq exp_oq inv_oq iq' exp_iq' exp_oq' inv_oq' e e' : (0 < nprod sh)%nat ->
  widths_ok_opt iq -> Forall widths_ok [exp_iq; exp_oq; inv_oq] -> wider_opt iq iq' -> Forall2 wider [exp_iq; exp_oq; inv_oq] [exp_iq'; exp_oq'; inv_oq'] ->
  softmax_ebops axes sh stable pf iq exp_iq exp_oq inv_oq = Some e -> softmax_ebops axes sh stable pf iq' exp_iq' exp_oq' inv_oq' = Some e' -> 0 <= e /\ e <= e'.
Proof.
  intros Hn Wi W Mi M E E'.
  destruct (softmax_value _ _ _ _ _ _ _ _ _ Hn E) as (tin & ts & te & ti & E1 & E2 & E3 & E4 & ->).
  destruct (softmax_value _ _ _ _ _ _ _ _ _ Hn E') as (tin' & ts' & te' & ti' & E1' & E2' & E3' & E4' & ->).
  inversion W as [|? ? W1 W']; subst. inversion W' as [|? ? W2 W'']; subst. inversion W'' as [|? ? W3 _]; subst.
  inversion M as [|? ? ? ? M1 M']; subst. inversion M' as [|? ? ? ? M2 M'']; subst. inversion M'' as [|? ? ? ? M3 _]; subst.
  pose proof (opt_between _ _ _ _ _ Wi Mi E1 E1') as B1. pose proof (bits_between _ _ _ _ _ W2 M2 E3 E3') as B3. pose proof (bits_between _ _ _ _ _ W3 M3 E4 E4') as B4.
  destruct (accum_mono axes sh _ _ _ _ W2 M2 E3 E3') as [A1 A2].
  pose proof (factor_or_one_nonneg pf _ (nprod_keep axes sh 0 Hn)) as HF. fold (accum_shape axes sh) in HF.
  assert (P1 : 0 <= sum_i sh (fun i => at_ te i * at_ ti (keep axes i))) by (apply sum_i_nonneg; intros i; apply Qmult_le_0_compat; [apply B3|apply B4]).
  assert (P2 : sum_i sh (fun i => at_ te i * at_ ti (keep axes i)) <= sum_i sh (fun i => at_ te' i * at_ ti' (keep axes i))) by (apply sum_i_le; intros i; apply mul_mono; first [apply B3|apply B4]).
  destruct stable.
  - specialize (E2 eq_refl). specialize (E2' eq_refl).
    assert (B2 : forall i, 0 <= at_ ts i <= at_ ts' i).
    { destruct iq as [q|], iq' as [q'|]; cbn [wider_opt widths_ok_opt] in *; try contradiction; [exact (bits_between _ _ _ _ _ Wi Mi E2 E2')|exact (bits_between _ _ _ _ _ W1 M1 E2 E2')]. }
    assert (P3 : 0 <= sum_i sh (at_ ts)) by (apply sum_i_nonneg; intros i; apply B2).
    assert (P4 : sum_i sh (at_ ts) <= sum_i sh (at_ ts')) by (apply sum_i_le; intros i; apply B2).
    split; [apply Qmult_le_0_compat; [lra|exact HF]|apply Qmult_le_compat_r; [lra|exact HF]].
  - assert (P3 : 0 <= sum_i sh (fun i => pow2 (Qfloor (at_ tin i)) * at_ te i)).
    { apply sum_i_nonneg. intros i. apply Qmult_le_0_compat; [pose proof (pow2_pos (Qfloor (at_ tin i))); lra|apply B3]. }
    assert (P4 : sum_i sh (fun i => pow2 (Qfloor (at_ tin i)) * at_ te i) <= sum_i sh (fun i => pow2 (Qfloor (at_ tin' i)) * at_ te' i)).
    { apply sum_i_le. intros i. apply mul_mono; [pose proof (pow2_pos (Qfloor (at_ tin i))); lra|apply B3|apply pow2_le, floor_mono, B1|apply B3]. }
    split; [apply Qmult_le_0_compat; [lra|exact HF]|apply Qmult_le_compat_r; [lra|exact HF]].
Qed.

(** ** Recurrent cells *)
Lemma sum_matmul_row x k n u : sum_matmul x k [1%nat] n u == vec_mat_cost n u (row x) (entry k).
Proof.
  unfold sum_matmul, tsum, vec_mat_cost. cbn [shape at_]. rewrite qsum_indices_app. change (indices [1%nat]) with [[0%nat]]. rewrite (qsum_single_map [0%nat]).
  rewrite indices_single. unfold matmul. rewrite (qsum_ext _ (fun j => qsum (map (fun i => row x i * entry k i j) (seq 0 n)))).
  2:{ intros j _. cq. reflexivity. }
  unfold sum_n. apply qsum_swap.
Qed.
Lemma sum_matmul_seq x k T n u : sum_matmul x k [1%nat; T] n u == sum_n T (fun t => vec_mat_cost n u (fun i => at_ x [0%nat; t; i]) (entry k)).
Proof.
  unfold sum_matmul, tsum. cbn [shape at_]. change ([1%nat; T] ++ [u]) with (1%nat :: [T; u]). rewrite tsum_cons. change (seq 0 1) with [0%nat]. rewrite (qsum_single_map 0%nat).
  rewrite tsum_cons. apply qsum_ext. intros t _. rewrite indices_single. unfold matmul.
  rewrite (qsum_ext _ (fun j => qsum (map (fun i => at_ x [0%nat; t; i] * entry k i j) (seq 0 n)))).
  2:{ intros j _. cq. reflexivity. }
  unfold vec_mat_cost, sum_n. apply qsum_swap.
Qed.
Lemma vec_mat_nonneg n u x k : (forall i, 0 <= x i) -> (forall i j, 0 <= k i j) -> 0 <= vec_mat_cost n u x k.
Proof. intros A B. apply sum_n_nonneg; intros i. apply sum_n_nonneg; intros j. apply Qmult_le_0_compat; auto. Qed.
Lemma vec_mat_le n u x k x' k' : (forall i, 0 <= x i <= x' i) -> (forall i j, 0 <= k i j <= k' i j) -> vec_mat_cost n u x k <= vec_mat_cost n u x' k'.
Proof. intros A B. apply sum_n_le; intros i. apply sum_n_le; intros j. apply mul_mono; first [apply A|apply B]. Qed.

Lemma simple_cell_value sh units iq kq rkq state bq e : simple_cell_ebops sh units iq kq rkq state bq = Some e ->
  exists ti tk ts tr c, bits_ iq sh = Some ti /\ bits_ kq [last sh 0%nat; units] = Some tk /\ bits_ state [1%nat; units] = Some ts /\
    bits_ rkq [units; units] = Some tr /\ bias_term units (nprod sh) bq = Some c /\
    e == sum_matmul ti tk (removelast sh) (last sh 0%nat) units + vec_mat_cost units units (row ts) (entry tr) + c.
Proof.
  unfold simple_cell_ebops. destruct (bits_ iq sh) as [ti|]; [|discriminate]. cbn [bind]. destruct (bits_ kq _) as [tk|]; [|discriminate]. cbn [bind].
  destruct (bits_ state _) as [ts|]; [|discriminate]. cbn [bind]. destruct (bits_ rkq _) as [tr|]; [|discriminate]. cbn [bind].
  destruct bq as [bq|]; cbn [bias_term].
  - destruct (bits_ bq _) as [b|]; [|discriminate]. cbn [bind]. intros E. apply some_inj in E.
    exists ti, tk, ts, tr, (tmean b * nQ (nprod sh)). do 5 (split; [reflexivity|]). rewrite <- E, <- sum_matmul_row. reflexivity.
  - intros E. apply some_inj in E. exists ti, tk, ts, tr, 0. do 5 (split; [reflexivity|]). rewrite <- E, <- sum_matmul_row. lra.
Qed.
Lemma bias_term_between units size bq bq' c c' : widths_ok_opt bq -> wider_opt bq bq' -> bias_term units size bq = Some c -> bias_term units size bq' = Some c' -> 0 <= c <= c'.
Proof.
  destruct bq as [q|], bq' as [q'|]; cbn [wider_opt widths_ok_opt bias_term]; intros W M E E'; try contradiction.
  - destruct (bits_ q _) as [b|] eqn:B; [|discriminate]. destruct (bits_ q' _) as [b'|] eqn:B'; [|discriminate]. cbn [bind] in *. apply some_inj in E, E'. subst.
    pose proof (bits_between _ _ _ _ _ W M B B') as BB. pose proof (nQ_nonneg size). split.
    + apply Qmult_le_0_compat; [apply tmean_nonneg; intros; apply BB|assumption].
    + apply Qmult_le_compat_r; [|assumption]. apply tmean_le; [|intros; apply BB]. rewrite (proj1 (bits_at _ _ _ B)), (proj1 (bits_at _ _ _ B')). reflexivity.
  - apply some_inj in E, E'. subst. lra.
Qed.
Lemma simple_cell_vec features units iq kq rkq state bq e : simple_cell_ebops [1%nat; features] units iq kq rkq state bq = Some e ->
  exists ti tk ts tr c, bits_ iq [1%nat; features] = Some ti /\ bits_ kq [features; units] = Some tk /\ bits_ state [1%nat; units] = Some ts /\
    bits_ rkq [units; units] = Some tr /\ bias_term units features bq = Some c /\
    e == vec_mat_cost features units (row ti) (entry tk) + vec_mat_cost units units (row ts) (entry tr) + c.
Proof.
  intros E. destruct (simple_cell_value _ _ _ _ _ _ _ _ E) as (ti & tk & ts & tr & c & E1 & E2 & E3 & E4 & E5 & V). exists ti, tk, ts, tr, c.
  replace (nprod [1%nat; features]) with features in E5 by (cbn [nprod fold_right]; lia). do 5 (split; [assumption|]). rewrite V. cbn [removelast last].
  rewrite sum_matmul_row. reflexivity.
Qed.
Lemma simple_rnn_value steps features units pf iq kq rkq state bq e : simple_rnn_ebops steps features units pf iq kq rkq state bq = Some e ->
  exists ti tk ts tr c, bits_ iq [1%nat; steps; features] = Some ti /\ bits_ kq [features; units] = Some tk /\ bits_ state [1%nat; units] = Some ts /\
    bits_ rkq [units; units] = Some tr /\ bias_term units (steps * features) bq = Some c /\
    e == (sum_n steps (fun t => vec_mat_cost features units (fun i => at_ ti [0%nat; t; i]) (entry tk)) + vec_mat_cost units units (row ts) (entry tr) + c) * rnn_factor pf steps.
Proof.
  unfold simple_rnn_ebops. destruct (simple_cell_ebops _ _ _ _ _ _ _) as [x|] eqn:E; [|discriminate]. cbn [bind]. intros E'. apply some_inj in E'. subst e.
  destruct (simple_cell_value _ _ _ _ _ _ _ _ E) as (ti & tk & ts & tr & c & E1 & E2 & E3 & E4 & E5 & V). exists ti, tk, ts, tr, c.
  replace (nprod [1%nat; steps; features]) with (steps * features)%nat in E5 by (cbn [nprod fold_right]; lia). do 5 (split; [assumption|]).
  cbn [removelast last] in V. rewrite sum_matmul_seq in V. rewrite V. reflexivity.
Qed.
Lemma rnn_factor_nonneg pf steps : (-1 <= pf)%Z -> 0 <= rnn_factor pf steps.
Proof. intros H. unfold rnn_factor. change 0 with (inject_Z 0). rewrite <- Zle_Qle. destruct (Z.eqb_spec pf (-1)); lia. Qed.
Lemma scale_between x y f : 0 <= x -> x <= y -> 0 <= f -> 0 <= x * f /\ x * f <= y * f.
Proof. intros. split; [apply Qmult_le_0_compat; assumption|apply Qmult_le_compat_r; assumption]. Qed.
Lemma simple_rnn_mono steps features units pf iq kq rkq state bq iq' kq' rkq' state' bq' e e' : (-1 <= pf)%Z ->
  Forall widths_ok [iq; kq; rkq; state] -> widths_ok_opt bq -> Forall2 wider [iq; kq; rkq; state] [iq'; kq'; rkq'; state'] -> wider_opt bq bq' ->
  simple_rnn_ebops steps features units pf iq kq rkq state bq = Some e -> simple_rnn_ebops steps features units pf iq' kq' rkq' state' bq' = Some e' -> 0 <= e /\ e <= e'.
Proof.
  intros Hp W Wb M Mb E E'. destruct (simple_rnn_value _ _ _ _ _ _ _ _ _ _ E) as (ti & tk & ts & tr & c & E1 & E2 & E3 & E4 & E5 & ->).
  destruct (simple_rnn_value _ _ _ _ _ _ _ _ _ _ E') as (ti' & tk' & ts' & tr' & c' & E1' & E2' & E3' & E4' & E5' & ->).
  inversion W as [|? ? W1 W']; subst. inversion W' as [|? ? W2 W'']; subst. inversion W'' as [|? ? W3 W3']; subst. inversion W3' as [|? ? W4 _]; subst.
  inversion M as [|? ? ? ? M1 M']; subst. inversion M' as [|? ? ? ? M2 M'']; subst. inversion M'' as [|? ? ? ? M3 M3']; subst. inversion M3' as [|? ? ? ? M4 _]; subst.
  pose proof (bits_between _ _ _ _ _ W1 M1 E1 E1') as B1. pose proof (bits_between _ _ _ _ _ W2 M2 E2 E2') as B2.
  pose proof (bits_between _ _ _ _ _ W3 M3 E4 E4') as B3. pose proof (bits_between _ _ _ _ _ W4 M4 E3 E3') as B4.
  pose proof (bias_term_between _ _ _ _ _ _ Wb Mb E5 E5') as B5.
  assert (P1 : 0 <= sum_n steps (fun t => vec_mat_cost features units (fun i => at_ ti [0%nat; t; i]) (entry tk))).
  { apply sum_n_nonneg. intros t. apply vec_mat_nonneg; intros; first [apply B1|apply B2]. }
  assert (P2 : sum_n steps (fun t => vec_mat_cost features units (fun i => at_ ti [0%nat; t; i]) (entry tk)) <= sum_n steps (fun t => vec_mat_cost features units (fun i => at_ ti' [0%nat; t; i]) (entry tk'))).
  { apply sum_n_le. intros t. apply vec_mat_le; intros; first [apply B1|apply B2]. }
  assert (P3 : 0 <= vec_mat_cost units units (row ts) (entry tr)) by (apply vec_mat_nonneg; intros; first [apply B3|apply B4]).
  assert (P4 : vec_mat_cost units units (row ts) (entry tr) <= vec_mat_cost units units (row ts') (entry tr')) by (apply vec_mat_le; intros; first [apply B3|apply B4]).
  apply scale_between; [lra|lra|apply rnn_factor_nonneg, Hp].
Qed.

Lemma gru_value features units ra iq sq kq rkq rhq praq paq bq e : gru_cell_ebops features units ra iq sq kq rkq rhq praq paq bq = Some e ->
  exists x k s rk rh zr hh c, bits_ iq [1%nat; features] = Some x /\ bits_ kq [features; 3 * units]%nat = Some k /\ bits_ sq [1%nat; units] = Some s /\
    bits_ rkq [units; 3 * units]%nat = Some rk /\ bits_ rhq [1%nat; units] = Some rh /\ bits_ praq [1; 2 * units]%nat = Some zr /\ bits_ paq [1%nat; units] = Some hh /\
    gru_bias_term units ra bq = Some c /\ e == gru_ops features units ra x k s rk rh zr hh + c.
Proof.
  unfold gru_cell_ebops. destruct (bits_ sq _) as [s|]; [|discriminate]. cbn [bind]. destruct (bits_ iq _) as [x|]; [|discriminate]. cbn [bind].
  destruct (bits_ kq _) as [k|]; [|discriminate]. cbn [bind]. destruct (bits_ rkq _) as [rk|]; [|discriminate]. cbn [bind].
  destruct (bits_ rhq _) as [rh|]; [|discriminate]. cbn [bind]. destruct (bits_ praq _) as [zr|]; [|discriminate]. cbn [bind].
  fold (gru_bias_term units ra bq). destruct (gru_bias_term units ra bq) as [c|]; [|discriminate]. cbn [bind].
  destruct (bits_ paq _) as [hh|]; [|discriminate]. cbn [bind]. intros E. apply some_inj in E. exists x, k, s, rk, rh, zr, hh, c. do 8 (split; [reflexivity|]).
  rewrite <- E. unfold gru_ops. rewrite sum_matmul_row.
  assert (Z : qsum (map (fun j => at_ zr [0%nat; j] * (at_ hh [0%nat; j] + at_ s [0%nat; j])) (seq 0 units)) == sum_n units (fun j => row zr j * row s j + row zr j * row hh j)).
  { apply qsum_ext. intros j _. unfold row. lra. }
  destruct ra; rewrite !sum_matmul_row, Z; unfold sum_n, row.
  - lra.
  - assert (U : vec_mat_cost units units (fun j => at_ rh [0%nat; j]) (entry (mk_tensor [units; units] (fun i => match i with [a; b] => at_ rk [a; 2 * units + b]%nat | _ => 0 end)))
      == vec_mat_cost units units (fun j => at_ rh [0%nat; j]) (fun i j => entry rk i (2 * units + j)%nat)) by reflexivity.
    rewrite U. lra.
Qed.
Lemma gru_bias_between units ra bq bq' c c' : widths_ok_opt bq -> wider_opt bq bq' -> gru_bias_term units ra bq = Some c -> gru_bias_term units ra bq' = Some c' -> 0 <= c <= c'.
Proof.
  destruct bq as [q|], bq' as [q'|]; cbn [wider_opt widths_ok_opt gru_bias_term]; intros W M E E'; try contradiction.
  - destruct (bits_ q _) as [b|] eqn:B; [|discriminate]. destruct (bits_ q' _) as [b'|] eqn:B'; [|discriminate]. cbn [bind] in *. apply some_inj in E, E'. subst.
    pose proof (bits_between _ _ _ _ _ W M B B') as BB. destruct ra; [|apply BB]. split; [apply tsum_nonneg; intros; apply BB|].
    apply tsum_le; [|intros; apply BB]. rewrite (proj1 (bits_at _ _ _ B)), (proj1 (bits_at _ _ _ B')). reflexivity.
  - apply some_inj in E, E'. subst. lra.
Qed.
Lemma gru_mono features units ra iq sq kq rkq rhq praq paq bq iq' sq' kq' rkq' rhq' praq' paq' bq' e e' :
  Forall widths_ok [iq; sq; kq; rkq; rhq; praq; paq] -> widths_ok_opt bq ->
  Forall2 wider [iq; sq; kq; rkq; rhq; praq; paq] [iq'; sq'; kq'; rkq'; rhq'; praq'; paq'] -> wider_opt bq bq' ->
  gru_cell_ebops features units ra iq sq kq rkq rhq praq paq bq = Some e -> gru_cell_ebops features units ra iq' sq' kq' rkq' rhq' praq' paq' bq' = Some e' -> 0 <= e /\ e <= e'.
Proof.
  intros W Wb M Mb E E'. destruct (gru_value _ _ _ _ _ _ _ _ _ _ _ _ E) as (x & k & s & rk & rh & zr & hh & c & E1 & E2 & E3 & E4 & E5 & E6 & E7 & E8 & ->).
  destruct (gru_value _ _ _ _ _ _ _ _ _ _ _ _ E') as (x' & k' & s' & rk' & rh' & zr' & hh' & c' & E1' & E2' & E3' & E4' & E5' & E6' & E7' & E8' & ->).
  repeat match goal with H : Forall _ (_ :: _) |- _ => inversion H; clear H; subst | H : Forall2 _ (_ :: _) _ |- _ => inversion H; clear H; subst end.
  assert (B1 : forall i, 0 <= at_ x i <= at_ x' i) by (apply (bits_between iq iq' [1%nat; features]); assumption).
  assert (B2 : forall i, 0 <= at_ k i <= at_ k' i) by (apply (bits_between kq kq' [features; 3 * units]%nat); assumption).
  assert (B3 : forall i, 0 <= at_ s i <= at_ s' i) by (apply (bits_between sq sq' [1%nat; units]); assumption).
  assert (B4 : forall i, 0 <= at_ rk i <= at_ rk' i) by (apply (bits_between rkq rkq' [units; 3 * units]%nat); assumption).
  assert (B5 : forall i, 0 <= at_ rh i <= at_ rh' i) by (apply (bits_between rhq rhq' [1%nat; units]); assumption).
  assert (B6 : forall i, 0 <= at_ zr i <= at_ zr' i) by (apply (bits_between praq praq' [1; 2 * units]%nat); assumption).
  assert (B7 : forall i, 0 <= at_ hh i <= at_ hh' i) by (apply (bits_between paq paq' [1%nat; units]); assumption).
  pose proof (gru_bias_between _ _ _ _ _ _ Wb Mb E8 E8') as B8.
  assert (VN : forall n u a b a' b', (forall i, 0 <= a i <= a' i) -> (forall i j, 0 <= b i j <= b' i j) -> 0 <= vec_mat_cost n u a b /\ vec_mat_cost n u a b <= vec_mat_cost n u a' b').
  { intros n u a b a' b' HA HB. split; [apply vec_mat_nonneg; intros; first [apply HA|apply HB]|apply vec_mat_le; assumption]. }
  assert (SN : forall n (a b a' b' : nat -> Q), (forall i, 0 <= a i <= a' i) -> (forall i, 0 <= b i <= b' i) -> 0 <= sum_n n (fun j => a j * b j) /\ sum_n n (fun j => a j * b j) <= sum_n n (fun j => a' j * b' j)).
  { intros n a b a' b' HA HB. split; [apply sum_n_nonneg; intros; apply Qmult_le_0_compat; first [apply HA|apply HB]|apply sum_n_le; intros; apply mul_mono; first [apply HA|apply HB]]. }
  unfold gru_ops.
  destruct (VN features (3 * units)%nat (row x) (entry k) (row x') (entry k') (fun i => B1 _) (fun i j => B2 _)) as [V1 V2].
  destruct (VN units (3 * units)%nat (row s) (entry rk) (row s') (entry rk') (fun i => B3 _) (fun i j => B4 _)) as [V3 V4].
  destruct (VN units (2 * units)%nat (row s) (entry rk) (row s') (entry rk') (fun i => B3 _) (fun i j => B4 _)) as [V5 V6].
  destruct (VN units units (row rh) (fun i j => entry rk i (2 * units + j)%nat) (row rh') (fun i j => entry rk' i (2 * units + j)%nat) (fun i => B5 _) (fun i j => B4 _)) as [V7 V8].
  destruct (SN units (fun j => row zr (units + j)%nat) (row rh) (fun j => row zr' (units + j)%nat) (row rh') (fun i => B6 _) (fun i => B5 _)) as [V9 V10].
  destruct (SN units (fun j => row zr (units + j)%nat) (row s) (fun j => row zr' (units + j)%nat) (row s') (fun i => B6 _) (fun i => B3 _)) as [V11 V12].
  destruct (SN units (row zr) (row s) (row zr') (row s') (fun i => B6 _) (fun i => B3 _)) as [V13 V14].
  destruct (SN units (row zr) (row hh) (row zr') (row hh') (fun i => B6 _) (fun i => B7 _)) as [V15 V16].
  unfold sum_n in *. rewrite !(qsum_plus (fun j => row _ j * row _ j)). destruct ra; split; lra.
Qed.

(** ** Table layers *)
Lemma fbits_at q sh t : fbits_ q sh = Some t -> shape t = sh /\
  forall idx, at_ t idx = let g := bcast_index (shape (qb_k q)) idx in inject_Z (q_fbits (qb_om q) (at_ (qb_k q) g) (at_ (qb_b q) g)).
Proof.
  unfold fbits_, broadcast_to, tmap2. cbn [shape at_]. destruct (bcast_ok _ _); [|discriminate].
  intros E. apply some_inj in E. subst t. split; reflexivity.
Qed.
Lemma q_fbits_nonneg om k b : (0 <= b)%Z -> (0 <= q_fbits om k b)%Z.
Proof. intros H. pose proof (kz_nonneg k). destruct om; cbn [q_fbits]; try lia. destruct (0 <? b)%Z; lia. Qed.
Lemma q_fbits_mono om k k' b b' : (0 <= b)%Z -> (k = true -> k' = true) -> (b <= b')%Z -> (q_fbits om k b <= q_fbits om k' b')%Z.
Proof.
  intros H Hk Hb. assert (K : (kz k <= kz k')%Z) by (destruct k; [rewrite (Hk eq_refl)|destruct k']; cbn; lia). pose proof (kz_nonneg k).
  destruct om; cbn [q_fbits]; try lia. destruct (Z.ltb_spec 0 b); destruct (Z.ltb_spec 0 b'); try lia.
Qed.
Lemma fbits_between q q' sh t t' : widths_ok q -> wider q q' -> fbits_ q sh = Some t -> fbits_ q' sh = Some t' -> forall i, 0 <= at_ t i <= at_ t' i.
Proof.
  intros W (M1 & M2 & M3 & M4) E E' i. rewrite (proj2 (fbits_at _ _ _ E)), (proj2 (fbits_at _ _ _ E')). cbn zeta. rewrite <- M2, <- M1.
  set (g := bcast_index _ i). destruct (M4 g) as [H1 H2]. change 0 with (inject_Z 0). rewrite <- !Zle_Qle. split; [apply q_fbits_nonneg, W|apply q_fbits_mono; [apply W|assumption|assumption]].
Qed.
Lemma floor_nat_le b w : nQ b <= w -> (Z.of_nat b <= Qfloor w)%Z.
Proof. intros H. rewrite <- (Qfloor_Z (Z.of_nat b)). apply Qfloor_resp_le, H. Qed.
Lemma small_lut_nonneg b w : 0 <= w -> 0 <= small_lut b w.
Proof.
  intros H. unfold small_lut. destruct (Qle_bool (nQ b) w) eqn:E; [pose proof (pow2_pos (Qfloor w - Z.of_nat b)); lra|].
  destruct b as [|b].
  - assert (X : nQ 0 <= w) by exact H. apply Qle_bool_iff in X. congruence.
  - apply Qle_shift_div_l; [apply nQ_pos; lia|lra].
Qed.
Lemma pow2_ge1 z : (0 <= z)%Z -> 1 <= pow2 z.
Proof. intros H. change 1 with (pow2 0). apply pow2_le, H. Qed.
Lemma small_lut_mono b w w' : 0 <= w -> w <= w' -> small_lut b w <= small_lut b w'.
Proof.
  intros H L. unfold small_lut. destruct (Qle_bool (nQ b) w) eqn:E.
  - apply Qle_bool_iff in E. rewrite (proj2 (Qle_bool_iff (nQ b) w')) by lra. apply pow2_le. pose proof (Qfloor_resp_le _ _ L). lia.
  - assert (Hb : w < nQ b) by (apply Qnot_le_lt; intros X; apply Qle_bool_iff in X; congruence).
    assert (P : 0 < nQ b) by lra. destruct (Qle_bool (nQ b) w') eqn:E'.
    + apply Qle_bool_iff in E'. apply floor_nat_le in E'. apply Qle_trans with 1; [|apply pow2_ge1; lia]. apply Qle_shift_div_r; [exact P|lra].
    + apply Qle_shift_div_l; [exact P|]. assert (X : w / nQ b * nQ b == w) by (field; lra). rewrite X. exact L.
Qed.
Lemma dense_table_value sh n_out B b pf iq toq e : dense_table_ebops sh n_out B b pf iq toq = Some e ->
  exists ti to, fbits_ iq (sh ++ [n_out]) = Some ti /\ fbits_ toq (sh ++ [n_out]) = Some to /\
    e == sum_i (sh ++ [n_out]) (fun i => (small_lut b (at_ ti i) * pow2 (Z.of_nat b - Z.of_nat B) + 1) * at_ to i) * dense_factor pf (nprod (removelast (tl sh))) / nQ (nprod (removelast (tl sh))).
Proof.
  unfold dense_table_ebops. destruct (fbits_ iq _) as [ti|]; [|discriminate]. cbn [bind]. destruct (fbits_ toq _) as [to|] eqn:Eo; [|discriminate]. cbn [bind].
  intros E. apply some_inj in E. exists ti, to. split; [reflexivity|]. split; [reflexivity|]. rewrite <- E. 
  set (p := pow2 _). set (s := (sh ++ [n_out])%list) in *.
  assert (X : sum_i s (fun i => (small_lut b (at_ ti i) * p + 1) * at_ to i) == qsum (map (fun i => small_lut b (at_ ti i) * at_ to i) (indices s)) * p + tsum to).
  { unfold sum_i. rewrite (qsum_ext _ (fun i => p * (small_lut b (at_ ti i) * at_ to i) + at_ to i)) by (intros; lra).
    rewrite qsum_plus, qsum_scale. unfold tsum. rewrite (proj1 (fbits_at _ _ _ Eo)). lra. }
  rewrite X. reflexivity.
Qed.
Lemma dense_table_mono sh n_out B b pf iq toq iq' toq' e e' : widths_ok iq -> widths_ok toq -> wider iq iq' -> wider toq toq' ->
  dense_table_ebops sh n_out B b pf iq toq = Some e -> dense_table_ebops sh n_out B b pf iq' toq' = Some e' -> 0 <= e /\ e <= e'.
Proof.
  intros W1 W2 M1 M2 E E'. destruct (dense_table_value _ _ _ _ _ _ _ _ E) as (ti & to & E1 & E2 & ->). destruct (dense_table_value _ _ _ _ _ _ _ _ E') as (ti' & to' & E1' & E2' & ->).
  pose proof (fbits_between _ _ _ _ _ W1 M1 E1 E1') as B1. pose proof (fbits_between _ _ _ _ _ W2 M2 E2 E2') as B2.
  pose proof (pow2_pos (Z.of_nat b - Z.of_nat B)) as HP. pose proof (dense_factor_nonneg pf (nprod (removelast (tl sh)))).
  assert (P : forall i, 0 <= small_lut b (at_ ti i) * pow2 (Z.of_nat b - Z.of_nat B) + 1 <= small_lut b (at_ ti' i) * pow2 (Z.of_nat b - Z.of_nat B) + 1).
  { intros i. destruct (B1 i) as [X Y]. pose proof (small_lut_nonneg b _ X). pose proof (small_lut_mono b _ _ X Y). split; nra. }
  split; [apply scale_nonneg; [|assumption]|apply scale_le; [|assumption]].
  - apply sum_i_nonneg. intros i. apply Qmult_le_0_compat; [apply P|apply B2].
  - apply sum_i_le. intros i. apply mul_mono; first [apply P|apply B2].
Qed.
Lemma small_lut_pow b w : (Z.of_nat b <= w)%Z -> small_lut b (inject_Z w) = pow2 (w - Z.of_nat b).
Proof.
  intros H. unfold small_lut. rewrite (proj2 (Qle_bool_iff (nQ b) (inject_Z w))) by (unfold nQ; rewrite <- Zle_Qle; exact H). rewrite Qfloor_Z. reflexivity.
Qed.
Lemma table_unit b B : (b <= B)%nat -> small_lut b (nQ B) * pow2 (Z.of_nat b - Z.of_nat B) == 1.
Proof. intros H. unfold nQ. rewrite small_lut_pow by lia. rewrite <- pow2_add. replace (_ + _)%Z with 0%Z by lia. reflexivity. Qed.
Lemma table_double b w : (Z.of_nat b <= w)%Z -> small_lut b (inject_Z (w + 1)) == 2 * small_lut b (inject_Z w).
Proof. intros H. rewrite !small_lut_pow by lia. replace (w + 1 - Z.of_nat b)%Z with (1 + (w - Z.of_nat b))%Z by lia. rewrite pow2_add. change (pow2 1) with 2. reflexivity. Qed.

(** ** Spiking cells *)
Lemma bcast_right_at t sh u : bcast_right t sh = Some u -> forall i, at_ u i = at_ t (bcast_index (shape t) (skipn (length sh - length (shape t)) i)).
Proof. unfold bcast_right. destruct (_ && _); [|discriminate]. intros E i. apply some_inj in E. subst u. reflexivity. Qed.
Lemma bcast_between t t' sh u u' : shape t = shape t' -> (forall i, 0 <= at_ t i <= at_ t' i) -> bcast_right t sh = Some u -> bcast_right t' sh = Some u' -> forall i, 0 <= at_ u i <= at_ u' i.
Proof. intros S B E E' i. rewrite (bcast_right_at _ _ _ E), (bcast_right_at _ _ _ E'), <- S. apply B. Qed.
Lemma acc_between sh sq iq n sq' iq' t t' : widths_ok_opt sq -> wider_opt sq sq' -> widths_ok iq -> wider iq iq' ->
  accumulator_bits sh sq iq n = Some t -> accumulator_bits sh sq' iq' n = Some t' -> forall i, 0 <= at_ t i <= at_ t' i.
Proof.
  destruct sq as [q|], sq' as [q'|]; cbn [accumulator_bits widths_ok_opt wider_opt]; intros W1 M1 W2 M2 E E'; try contradiction; [apply (bits_between q q' sh); assumption|].
  destruct (bits_ iq sh) as [b|] eqn:B; [|discriminate]. destruct (bits_ iq' sh) as [b'|] eqn:B'; [|discriminate]. cbn [bind] in *. apply some_inj in E, E'. subst.
  intros i. cbn [at_]. destruct (bits_between _ _ _ _ _ W2 M2 B B' i). assert (0 <= inject_Z (Z.log2_up (Z.of_nat (Nat.max n 1)))) by (change 0 with (inject_Z 0); rewrite <- Zle_Qle; apply Z.log2_up_nonneg). lra.
Qed.
Lemma acc_shape sh sq iq n t : accumulator_bits sh sq iq n = Some t -> shape t = sh.
Proof. destruct sq as [q|]; cbn [accumulator_bits]; [apply bits_at|]. destruct (bits_ iq sh); [|discriminate]. cbn [bind]. intros E. apply some_inj in E. subst. reflexivity. Qed.
Lemma max_form a b : a + b - Qmin a b == Qmax a b.
Proof. destruct (Q.min_spec a b) as [[H ->]|[H ->]]; destruct (Q.max_spec a b) as [[H' ->]|[H' ->]]; lra. Qed.
Lemma snn_value sh n reset iq sq gsh gq beta e : snn_cell_ebops sh n reset (Some iq) sq gsh gq beta = Some e ->
  exists ti tm tg tgr l, bits_ iq sh = Some ti /\ accumulator_bits sh sq iq n = Some tm /\ bits_ gq gsh = Some tg /\ bcast_right tg sh = Some tgr /\ leak_term sh tm beta = Some l /\
    e == l + sum_i sh (fun i => Qmax (at_ tm i) (at_ ti i)) * (65 # 100) + sum_i sh (at_ tm) * (65 # 100) + sum_i sh (at_ tgr) + sum_i sh (at_ tm) * reset_cost reset.
Proof.
  unfold snn_cell_ebops. destruct (bits_ iq sh) as [ti|]; [|discriminate]. cbn [bind]. destruct (accumulator_bits sh sq iq n) as [tm|] eqn:Em; [|discriminate]. cbn [bind].
  fold (leak_term sh tm beta). destruct (leak_term sh tm beta) as [l|] eqn:El; [|discriminate]. cbn [bind]. destruct (bits_ gq gsh) as [tg|]; [|discriminate]. cbn [bind].
  destruct (bcast_right tg sh) as [tgr|] eqn:Eg; [|discriminate]. cbn [bind]. intros E. apply some_inj in E. exists ti, tm, tg, tgr, l. do 5 (split; [reflexivity || assumption|]).
  rewrite <- E. unfold snn_add_ebops, fire_reset_ebops, tsum. rewrite (acc_shape _ _ _ _ _ Em).
  rewrite (qsum_ext (fun i => at_ tm i + at_ ti i - Qmin (at_ tm i) (at_ ti i)) (fun i => Qmax (at_ tm i) (at_ ti i))) by (intros; apply max_form).
  assert (G1 : qsum (map (fun i => 1 * at_ tgr i) (indices sh)) == sum_i sh (at_ tgr)) by (apply qsum_ext; intros; lra).
  assert (G2 : qsum (map (fun i => at_ tm i * 1) (indices sh)) == sum_i sh (at_ tm)) by (apply qsum_ext; intros; lra).
  cbv zeta. destruct reset; cbn [reset_cost]; unfold sum_i in *; rewrite ?G1, ?G2; lra.
Qed.
Lemma leak_between sh mem mem' beta beta' l l' : (forall i, 0 <= at_ mem i <= at_ mem' i) -> widths_ok_bias beta -> wider_bias beta beta' ->
  leak_term sh mem beta = Some l -> leak_term sh mem' beta' = Some l' -> 0 <= l /\ l <= l'.
Proof.
  intros B. destruct beta as [[bsh q]|], beta' as [[bsh' q']|]; cbn [widths_ok_bias wider_bias leak_term]; intros W M E E'; try contradiction.
  - destruct M as [<- M]. destruct (bits_ q bsh) as [b|] eqn:E1; [|discriminate]. destruct (bits_ q' bsh) as [b'|] eqn:E2; [|discriminate]. cbn [bind] in *.
    destruct (bcast_right b sh) as [u|] eqn:E3; [|discriminate]. destruct (bcast_right b' sh) as [u'|] eqn:E4; [|discriminate]. cbn [bind] in *. apply some_inj in E, E'. subst.
    assert (BU : forall i, 0 <= at_ u i <= at_ u' i).
    { apply (bcast_between b b' sh); [|apply (bits_between q q' bsh); assumption|assumption|assumption]. rewrite (proj1 (bits_at _ _ _ E1)), (proj1 (bits_at _ _ _ E2)). reflexivity. }
    split; [apply qsum_nonneg; intros; apply Qmult_le_0_compat; first [apply B|apply BU]|apply qsum_le; intros; apply mul_mono; first [apply B|apply BU]].
  - apply some_inj in E, E'. subst. split; lra.
Qed.
Lemma qmax_le a b a' b' : a <= a' -> b <= b' -> Qmax a b <= Qmax a' b'.
Proof. intros. destruct (Q.max_spec a b) as [[_ ->]|[_ ->]]; [apply Qle_trans with b'; [assumption|apply Q.le_max_r]|apply Qle_trans with a'; [assumption|apply Q.le_max_l]]. Qed.
Lemma snn_mono sh n reset iq sq gsh gq beta iq' sq' gq' beta' e e' : widths_ok iq -> widths_ok gq -> widths_ok_opt sq -> widths_ok_bias beta ->
  wider iq iq' -> wider gq gq' -> wider_opt sq sq' -> wider_bias beta beta' ->
  snn_cell_ebops sh n reset (Some iq) sq gsh gq beta = Some e -> snn_cell_ebops sh n reset (Some iq') sq' gsh gq' beta' = Some e' -> 0 <= e /\ e <= e'.
Proof.
  intros W1 W2 W3 W4 M1 M2 M3 M4 E E'. destruct (snn_value _ _ _ _ _ _ _ _ _ E) as (ti & tm & tg & tr & l & E1 & E2 & E3 & E4 & E5 & ->).
  destruct (snn_value _ _ _ _ _ _ _ _ _ E') as (ti' & tm' & tg' & tr' & l' & E1' & E2' & E3' & E4' & E5' & ->).
  pose proof (bits_between _ _ _ _ _ W1 M1 E1 E1') as B1. pose proof (acc_between _ _ _ _ _ _ _ _ W3 M3 W1 M1 E2 E2') as B2.
  assert (B3 : forall i, 0 <= at_ tr i <= at_ tr' i).
  { apply (bcast_between tg tg' sh); [|apply (bits_between gq gq' gsh); assumption|assumption|assumption]. rewrite (proj1 (bits_at _ _ _ E3)), (proj1 (bits_at _ _ _ E3')). reflexivity. }
  destruct (leak_between _ _ _ _ _ _ _ B2 W4 M4 E5 E5') as [L1 L2].
  assert (P1 : 0 <= sum_i sh (at_ tm)) by (apply sum_i_nonneg; intros; apply B2). assert (P2 : sum_i sh (at_ tm) <= sum_i sh (at_ tm')) by (apply sum_i_le; intros; apply B2).
  assert (P3 : 0 <= sum_i sh (at_ tr)) by (apply sum_i_nonneg; intros; apply B3). assert (P4 : sum_i sh (at_ tr) <= sum_i sh (at_ tr')) by (apply sum_i_le; intros; apply B3).
  assert (P5 : 0 <= sum_i sh (fun i => Qmax (at_ tm i) (at_ ti i))) by (apply sum_i_nonneg; intros i; apply Qle_trans with (at_ tm i); [apply B2|apply Q.le_max_l]).
  assert (P6 : sum_i sh (fun i => Qmax (at_ tm i) (at_ ti i)) <= sum_i sh (fun i => Qmax (at_ tm' i) (at_ ti' i))) by (apply sum_i_le; intros i; apply qmax_le; first [apply B1|apply B2]).
  assert (R : 0 <= reset_cost reset) by (destruct reset; discriminate). set (c := reset_cost reset) in *. split; nra.
Qed.
(** the accumulator's extra bits hold the sum of [n] inputs *)
Lemma headroom n : (1 <= n)%nat -> (Z.of_nat n <= 2 ^ Z.log2_up (Z.of_nat (Nat.max n 1)))%Z /\
  forall e, (0 <= e)%Z -> (Z.of_nat n <= 2 ^ e)%Z -> (Z.log2_up (Z.of_nat (Nat.max n 1)) <= e)%Z.
Proof.
  intros H. replace (Nat.max n 1) with n by lia. split.
  - destruct (Nat.eq_dec n 1) as [->|D]; [cbn; lia|]. apply Z.log2_log2_up_spec. lia.
  - intros e He Hn. destruct (Nat.eq_dec n 1) as [->|D]; [cbn; lia|]. apply Z.log2_up_le_pow2; lia.
Qed.

(** ** Remaining lemmas for the statements *)
Lemma sum_i_single d f : sum_i [d] f == sum_n d (fun j => f [j]). Proof. apply indices_single. Qed.
Lemma forward_costs heads dq dv T S (q k v a : index -> Q) :
  score_cost heads dq [T] [S] q k ==
    sum_n heads (fun n => sum_n T (fun t => sum_n S (fun s =>
      M_Attn.dot_product dq (fun s n d => k [0%nat; s; n; d]) (fun t n d => q [0%nat; t; n; d]) n t s))) /\
  mix_cost heads dv [T] [S] a v ==
    sum_n T (fun t => sum_n heads (fun n => sum_n dv (fun d =>
      M_Attn.combine S (fun n t s => a [0%nat; n; t; s]) (fun s n d => v [0%nat; s; n; d]) t n d))).
Proof.
  split.
  - apply qsum_ext. intros n _. rewrite sum_i_single. apply qsum_ext. intros t _. rewrite sum_i_single. apply qsum_ext. intros s _.
    unfold M_Attn.dot_product, M_Attn.qsumn. apply qsum_ext. intros d _. cbn [app]. lra.
  - set (G := fun n t => sum_n dv (fun d => M_Attn.combine S (fun n t s => a [0%nat; n; t; s]) (fun s n d => v [0%nat; s; n; d]) t n d)).
    transitivity (qsum (map (fun n => qsum (map (fun t => G n t) (seq 0 T))) (seq 0 heads))); [|exact (qsum_swap G (seq 0 heads) (seq 0 T))].
    apply qsum_ext. intros n _. rewrite sum_i_single. apply qsum_ext. intros t _. rewrite sum_i_single.
    unfold G, M_Attn.combine, M_Attn.qsumn, sum_n. cbn [app].
    exact (qsum_swap (fun s d => a [0%nat; n; t; s] * v [0%nat; s; n; d]) (seq 0 S) (seq 0 dv)).
Qed.
Definition uq0 (r : nat) (w : Z) : qbits := mk_qbits SAT (mk_tensor (repeat 1%nat r) (fun _ => true)) (mk_tensor (repeat 1%nat r) (fun _ => w)).
Lemma attention_factor_refuted :
  ~ (forall heads dq dv qs ks vs pf bq bk bv ba e full, length ks = length qs -> length vs = length qs -> (0 < pf)%Z ->
     Forall widths_ok [bq; bk; bv; ba] ->
     mha_ebops (default_axes (length qs + 3)) heads dq dv qs ks vs pf bq bk bv ba = Some e ->
     mha_ebops (default_axes (length qs + 3)) heads dq dv qs ks vs (-1) bq bk bv ba = Some full -> e <= full).
Proof.
  intros H. set (q := uq0 4 1).
  destruct (mha_ebops (default_axes 4) 1 1 1 [1%nat] [1%nat] [1%nat] 2 q q q q) as [e|] eqn:E; [|vm_compute in E; discriminate].
  destruct (mha_ebops (default_axes 4) 1 1 1 [1%nat] [1%nat] [1%nat] (-1) q q q q) as [f|] eqn:F; [|vm_compute in F; discriminate].
  assert (W : widths_ok q) by (intros g; cbn; lia).
  pose proof (H 1%nat 1%nat 1%nat [1%nat] [1%nat] [1%nat] 2%Z q q q q e f eq_refl eq_refl eq_refl ltac:(repeat constructor; exact W) E F) as X.
  vm_compute in E, F. apply some_inj in E, F. subst. vm_compute in X. apply X. reflexivity.
Qed.
Lemma softmax_figure axes sh stable pf iq exp_iq exp_oq inv_oq e : (0 < nprod sh)%nat ->
  softmax_ebops axes sh stable pf iq exp_iq exp_oq inv_oq = Some e ->
  exists tin tsub te ti, opt_bits iq sh = Some tin /\
    (stable = true -> match iq with Some q => bits_ q sh | None => bits_ exp_iq sh end = Some tsub) /\
    bits_ exp_oq sh = Some te /\ bits_ inv_oq (accum_shape axes sh) = Some ti /\
    forall m : index -> Q,
    (forall g, In g (indices (accum_shape axes sh)) -> is_min (m g) (map (at_ te) (group_of axes sh g))) ->
    e == ((if stable then sum_i sh (at_ tsub) else 0)
          + sum_i (accum_shape axes sh) (fun g => qsum (map (at_ te) (group_of axes sh g)) - m g)
          + sum_i sh (fun i => at_ te i * at_ ti (keep axes i))
          + (if stable then 0 else sum_i sh (fun i => pow2 (Qfloor (at_ tin i)) * at_ te i) * (1 # 10000)))
         * factor_or_one pf (nprod (accum_shape axes sh)).
Proof.
  intros Hn E. destruct (softmax_value _ _ _ _ _ _ _ _ _ Hn E) as (tin & ts & te & ti & E1 & E2 & E3 & E4 & V). exists tin, ts, te, ti.
  do 4 (split; [assumption|]). intros m Hm. rewrite V, (accum_groups axes sh _ _ m E3 Hm). reflexivity.
Qed.
Lemma bias_square units bq c : (0 < units)%nat -> bias_term units units bq = Some c -> bias_widths_sum units bq c.
Proof.
  intros Hu. destruct bq as [q|]; cbn [bias_term bias_widths_sum].
  - destruct (bits_ q [units]) as [b|] eqn:B; [|discriminate]. cbn [bind]. intros E. apply some_inj in E. subst c. exists b. split; [reflexivity|].
    unfold tmean, tsum. rewrite (proj1 (bits_at _ _ _ B)). rewrite indices_single. cbn [nprod fold_right]. rewrite Nat.mul_1_r. unfold sum_n. pose proof (nQ_pos _ Hu). field. lra.
  - intros E. apply some_inj in E. subst. reflexivity.
Qed.
Lemma bias_refuted : ~ (forall features units bq c, (0 < units)%nat -> bias_term units features bq = Some c -> bias_widths_sum units bq c).
Proof.
  intros H. destruct (bias_term 1 2 (Some (uq0 1 1))) as [c|] eqn:E; [|vm_compute in E; discriminate].
  destruct (H 2%nat 1%nat (Some (uq0 1 1)) c (Nat.lt_0_1) E) as (b & B & X). vm_compute in E, B. apply some_inj in E, B. subst. vm_compute in X. discriminate.
Qed.
Lemma simple_steps_refuted :
  ~ (forall steps features units wi kq rkq state e c,
     simple_rnn_ebops steps features units (-1) (uq0 3 wi) kq rkq state None = Some e ->
     simple_cell_ebops [1%nat; features] units (uq0 2 wi) kq rkq state None = Some c -> e == nQ steps * c).
Proof.
  intros H. destruct (simple_rnn_ebops 2 1 1 (-1) (uq0 3 1) (uq0 2 1) (uq0 2 1) (uq0 2 1) None) as [e|] eqn:E; [|vm_compute in E; discriminate].
  destruct (simple_cell_ebops [1; 1]%nat 1 (uq0 2 1) (uq0 2 1) (uq0 2 1) (uq0 2 1) None) as [c|] eqn:C; [|vm_compute in C; discriminate].
  pose proof (H 2%nat 1%nat 1%nat 1%Z (uq0 2 1) (uq0 2 1) (uq0 2 1) e c E C) as X. vm_compute in E, C. apply some_inj in E, C. subst. vm_compute in X. discriminate.
Qed.
Lemma rnn_factor_eq pf steps : rnn_factor pf steps = (if (pf =? -1)%Z then nQ steps else inject_Z pf).
Proof. unfold rnn_factor, nQ. destruct (pf =? -1)%Z; reflexivity. Qed.
Lemma gru_steps steps features units ra pf iq sq kq rkq rhq praq paq bq e :
  gru_ebops steps features units ra pf iq sq kq rkq rhq praq paq bq = Some e ->
  exists c, gru_cell_ebops features units ra iq sq kq rkq rhq praq paq bq = Some c /\ e == (if (pf =? -1)%Z then nQ steps else inject_Z pf) * c.
Proof.
  unfold gru_ebops. destruct (gru_cell_ebops _ _ _ _ _ _ _ _ _ _ _) as [c|]; [|discriminate]. cbn [bind]. intros E. apply some_inj in E. exists c. split; [reflexivity|].
  rewrite <- E, rnn_factor_eq. apply Qmult_comm.
Qed.
Lemma gru_bias_refuted :
  ~ (forall units bq b c, bits_ bq [3 * units]%nat = Some b -> gru_bias_term units false (Some bq) = Some c -> c == sum_n (3 * units) (fun j => at_ b [j])).
Proof.
  intros H. destruct (bits_ (uq0 1 1) [3 * 1]%nat) as [b|] eqn:E; [|vm_compute in E; discriminate].
  destruct (gru_bias_term 1 false (Some (uq0 1 1))) as [c|] eqn:C; [|vm_compute in C; discriminate].
  pose proof (H 1%nat (uq0 1 1) b c E C) as X. vm_compute in E, C. apply some_inj in E, C. subst. vm_compute in X. discriminate.
Qed.
Lemma table_counts b B : (b <= B)%nat ->
  small_lut b (nQ B) * pow2 (Z.of_nat b - Z.of_nat B) == 1 /\
  (forall w, (Z.of_nat b <= w)%Z -> small_lut b (inject_Z (w + 1)) == 2 * small_lut b (inject_Z w)) /\
  (forall w w', 0 <= w -> w <= w' -> 0 <= small_lut b w <= small_lut b w').
Proof.
  intros H. split; [apply table_unit, H|]. split; [intros w Hw; apply table_double, Hw|]. intros w w' Hw L. split; [apply small_lut_nonneg, Hw|apply small_lut_mono; assumption].
Qed.
Lemma accumulator_extra sh iq n t b : (1 <= n)%nat -> accumulator_bits sh None iq n = Some t -> bits_ iq sh = Some b ->
  exists extra, (0 <= extra)%Z /\ (forall i, at_ t i == at_ b i + inject_Z extra) /\
    (Z.of_nat n <= 2 ^ extra)%Z /\ forall e, (0 <= e)%Z -> (Z.of_nat n <= 2 ^ e)%Z -> (extra <= e)%Z.
Proof.
  intros Hn E B. cbn [accumulator_bits] in E. rewrite B in E. cbn [bind] in E. apply some_inj in E. subst t. exists (Z.log2_up (Z.of_nat (Nat.max n 1))).
  split; [apply Z.log2_up_nonneg|]. split; [intros i; reflexivity|]. apply headroom, Hn.
Qed.
Lemma snn_steps steps units reset pf iq sq gsh gq beta e : snn_ebops steps units reset pf iq sq gsh gq beta = Some e ->
  exists c, snn_cell_ebops [1%nat; units] steps reset iq sq gsh gq beta = Some c /\ e == (if (pf =? -1)%Z then nQ steps else inject_Z pf) * c.
Proof.
  unfold snn_ebops. destruct (snn_cell_ebops _ _ _ _ _ _ _ _) as [c|]; [|discriminate]. cbn [bind]. intros E. apply some_inj in E. exists c. split; [reflexivity|].
  rewrite <- E, rnn_factor_eq. apply Qmult_comm.
Qed.
