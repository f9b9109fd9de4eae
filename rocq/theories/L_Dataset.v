From Verif Require Import M_Dataset S_Dataset.
From Coq Require Import ZArith List Lia Bool Permutation Arith.

Section L.
Context {A : Type}.
Implicit Types (d : ds A).

Lemma ceil_div_spec a b : 0 < b -> (ceil_div a b = 0 <-> a = 0) /\
  (0 < a -> (ceil_div a b - 1) * b < a /\ a <= ceil_div a b * b).
Proof.
  intros Hb. unfold ceil_div.
  pose proof (Nat.div_mod (a + b - 1) b ltac:(lia)) as E.
  pose proof (Nat.mod_upper_bound (a + b - 1) b ltac:(lia)) as U.
  set (q := (a + b - 1) / b) in *. set (r := (a + b - 1) mod b) in *. clearbody q r.
  split.
  - split; intros H; subst; nia.
  - intros Ha. split; nia.
Qed.

Lemma slice_rows (t : list A) lo hi : lo <= hi -> hi <= length t ->
  rows_of t (seq lo (hi - lo)) (slice lo hi t).
Proof.
  intros H1 H2. unfold rows_of, slice.
  remember (hi - lo) as k eqn:Ek. assert (Hk : lo + k <= length t) by lia. clear H1 H2 Ek hi.
  revert lo Hk. induction k as [|k IH]; intros lo Hk; [reflexivity|].
  cbn [seq map]. destruct (skipn lo t) as [|a l] eqn:E.
  - exfalso. assert (length (skipn lo t) = 0) by (rewrite E; reflexivity). rewrite skipn_length in H. lia.
  - assert (Ha : nth_error t lo = Some a).
    { clear -E. revert t E. induction lo as [|lo IH]; intros [|b t] E; try discriminate; cbn in *.
      - congruence. - apply IH. exact E. }
    assert (Hl : skipn (S lo) t = l).
    { clear -E. revert t E. induction lo as [|lo IH]; intros [|b t] E; try discriminate.
      - cbn in E. inversion E. reflexivity.
      - change (skipn (S lo) t = l). apply IH. exact E. }
    cbn [firstn map]. rewrite Ha. f_equal. rewrite <- (IH (S lo) ltac:(lia)), Hl. reflexivity.
Qed.

(** the invariant of reachable states *)
Definition inv (xs : list (list A)) (ys : option (list (list A))) (n : nat) d : Prop :=
  x d = xs /\ y d = ys /\ data_len d = n /\ 0 < batch_size d /\ init_shift d <= reminder d /\
  match index_map d with Some l => shuffle d = true /\ Permutation (seq 0 (len d)) l | None => True end.

Lemma reach_inv xs ys n d : reachable xs ys n d -> init_ok xs ys n /\ inv xs ys n d.
Proof.
  intros H. induction H as [sh0 dl bs d Hok Hb|d d' H [IHok IH] Hs].
  - split; [exact Hok|]. destruct Hb as [sh m d1 Hbs Hsh Hm].
    repeat split; try exact Hbs; try exact Hsh. unfold inv; cbn. destruct m as [l|]; [exact Hm|exact I].
  - split; [exact IHok|]. destruct IH as (E1 & E2 & E3 & E4 & E5 & E6). destruct Hs as [d bs d' Hb|d l l' Hl Hp|d Hn|d sh Hd Hsh|d Hd].
    + destruct Hb as [sh m d1 Hbs Hsh Hm]. repeat split; try assumption. unfold inv; cbn. destruct m as [l|]; [exact Hm|exact I].
    + rewrite Hl in E6. refine (conj E1 (conj E2 (conj E3 (conj E4 (conj E5 _))))). exact (conj (proj1 E6) (Permutation_trans (proj2 E6) Hp)).
    + repeat split; assumption.
    + repeat split; assumption.
    + repeat split; assumption.
Qed.

Definition kbatch d (k : nat) : list nat :=
  let low := k * batch_size d in
  let high := Nat.min (low + batch_size d) (data_len d) in
  seq (if drop_last d then low + init_shift d else low) (high - low).

Lemma kbatch_low d k : 0 < batch_size d -> k < len d -> k * batch_size d < data_len d.
Proof.
  intros Hb Hk. unfold len in Hk. destruct (drop_last d).
  - pose proof (Nat.mul_div_le (data_len d) (batch_size d) ltac:(lia)). nia.
  - destruct (ceil_div_spec (data_len d) (batch_size d) Hb) as [Z0 P].
    assert (0 < data_len d). { destruct (Nat.eq_dec (data_len d) 0) as [E|]; [|lia]. rewrite (proj2 Z0 E) in Hk. lia. }
    specialize (P H). nia.
Qed.
Lemma kbatch_full d k : 0 < batch_size d -> drop_last d = true -> k < len d -> k * batch_size d + batch_size d <= data_len d.
Proof.
  intros Hb Hd Hk. unfold len in Hk. rewrite Hd in Hk.
  pose proof (Nat.mul_div_le (data_len d) (batch_size d) ltac:(lia)). nia.
Qed.

Definition at_idx d (i : nat) : option nat :=
  match index_map d with Some m => nth_error m i | None => Some i end.

Lemma kbatch_rows d k (t : list A) : 0 < batch_size d -> init_shift d <= reminder d -> k < len d -> length t = data_len d ->
  let low := k * batch_size d in
  let high := Nat.min (low + batch_size d) (data_len d) in
  rows_of t (kbatch d k) (slice (if drop_last d then low + init_shift d else low) (if drop_last d then high + init_shift d else high) t).
Proof.
  intros Hb Hs Hk Ht low high. unfold kbatch. fold low. fold high.
  pose proof (kbatch_low d k Hb Hk) as HL. fold low in HL.
  destruct (drop_last d) eqn:Ed.
  - pose proof (kbatch_full d k Hb Ed Hk) as HF. fold low in HF.
    replace (high - low) with ((high + init_shift d) - (low + init_shift d)) by lia.
    apply slice_rows; [lia|].
    unfold len in Hk. rewrite Ed in Hk. unfold reminder in Hs.
    pose proof (Nat.div_mod (data_len d) (batch_size d) ltac:(lia)) as E.
    assert (k + 1 <= data_len d / batch_size d) by lia.
    assert (low + batch_size d <= batch_size d * (data_len d / batch_size d)) by (unfold low; nia).
    rewrite Ht. lia.
  - apply slice_rows; rewrite ?Ht; lia.
Qed.

Lemma shows_kbatch xs ys n d i k : init_ok xs ys n -> inv xs ys n d -> i < len d -> at_idx d i = Some k -> k < len d ->
  shows d (Z.of_nat i) (kbatch d k).
Proof.
  intros Hok (E1 & E2 & E3 & E4 & E5 & E6) Hi Ha Hk.
  unfold shows, getitem. replace (Z.of_nat i <? 0)%Z with false by lia. cbn [andb].
  replace (Z.of_nat i <? Z.of_nat (len d))%Z with true by lia. rewrite Nat2Z.id.
  unfold at_idx in Ha. rewrite Ha. do 2 eexists. split; [reflexivity|].
  destruct Hok as (_ & Hx & Hy).
  split.
  - rewrite E1. assert (G : forall t, In t xs -> length t = data_len d) by (intros; rewrite E3; auto).
    clear -G E4 E5 Hk. induction xs as [|t l IH]; constructor.
    + apply kbatch_rows; auto. apply G. left. reflexivity.
    + apply IH. intros; apply G; right; assumption.
  - rewrite E2. destruct ys as [l|]; cbn [option_map]; [|exact I].
    assert (G : forall t, In t l -> length t = data_len d) by (intros; rewrite E3; auto).
    clear -G E4 E5 Hk. induction l as [|t l IH]; constructor.
    + apply kbatch_rows; auto. apply G. left. reflexivity.
    + apply IH. intros; apply G; right; assumption.
Qed.

Definition order d : list nat := match index_map d with Some m => m | None => seq 0 (len d) end.
Lemma order_perm xs ys n d : inv xs ys n d -> Permutation (seq 0 (len d)) (order d).
Proof.
  intros (_ & _ & _ & _ & _ & E6). unfold order. destruct (index_map d); [exact (proj2 E6)|apply Permutation_refl].
Qed.
Lemma order_lt xs ys n d k : inv xs ys n d -> In k (order d) -> k < len d.
Proof.
  intros H Hin. apply (Permutation_in _ (Permutation_sym (order_perm _ _ _ _ H))) in Hin.
  apply in_seq in Hin. lia.
Qed.
Lemma order_len xs ys n d : inv xs ys n d -> length (order d) = len d.
Proof. intros H. rewrite <- (Permutation_length (order_perm _ _ _ _ H)). apply seq_length. Qed.

Lemma nth_error_seq0 n : forall s i, i < n -> nth_error (seq s n) i = Some (s + i).
Proof.
  induction n as [|n IH]; intros s i Hi; [lia|]. destruct i; cbn [seq nth_error]; [f_equal; lia|].
  rewrite (IH (S s) i) by lia. f_equal; lia.
Qed.
Lemma at_idx_order xs ys n d i : inv xs ys n d -> i < len d -> at_idx d i = nth_error (order d) i.
Proof.
  intros H Hi. unfold at_idx, order. destruct (index_map d); [reflexivity|].
  symmetry. apply (nth_error_seq0 (len d) 0 i Hi).
Qed.

Definition batches d : list (list nat) := map (kbatch d) (order d).
Lemma epoch_batches xs ys n d : init_ok xs ys n -> inv xs ys n d -> epoch d (batches d).
Proof.
  intros Hok H. unfold epoch, batches. split; [rewrite map_length; eapply order_len; exact H|].
  intros i ps Hi. rewrite nth_error_map in Hi. destruct (nth_error (order d) i) as [k|] eqn:E; [|discriminate].
  cbn in Hi. injection Hi as <-.
  assert (i < len d). { rewrite <- (order_len _ _ _ _ H). apply nth_error_Some. rewrite E. discriminate. }
  eapply shows_kbatch; try eassumption.
  - erewrite at_idx_order by eassumption. exact E.
  - eapply order_lt; [eassumption|]. eapply nth_error_In; eassumption.
Qed.

(** the batches in natural order tile an interval *)
Lemma concat_seq_tiles (b : nat) : forall m s, concat (map (fun k => seq (k * b) b) (seq s m)) = seq (s * b) (m * b).
Proof.
  induction m as [|m IH]; intros s; [reflexivity|].
  cbn [seq map concat]. rewrite IH. replace (S s * b) with (s * b + b) by lia. rewrite <- seq_app. reflexivity.
Qed.
Lemma map_shift_seq sh : forall m s, seq (s + sh) m = map (fun p => p + sh) (seq s m).
Proof. induction m as [|m IH]; intros s; [reflexivity|]. cbn [seq map]. f_equal. rewrite <- IH. reflexivity. Qed.
Lemma Permutation_concat (l l' : list (list nat)) : Permutation l l' -> Permutation (concat l) (concat l').
Proof.
  intros H. induction H as [|a l l' H IH|a b l|l l' l'' H1 IH1 H2 IH2]; cbn [concat].
  - constructor.
  - apply Permutation_app_head. exact IH.
  - rewrite !app_assoc. apply Permutation_app_tail. apply Permutation_app_comm.
  - eapply Permutation_trans; eassumption.
Qed.

Lemma tiles_nodrop d : 0 < batch_size d -> drop_last d = false ->
  concat (map (kbatch d) (seq 0 (len d))) = seq 0 (data_len d).
Proof.
  intros Hb Hd. unfold len. rewrite Hd.
  destruct (ceil_div_spec (data_len d) (batch_size d) Hb) as [Z0 P].
  remember (ceil_div (data_len d) (batch_size d)) as q eqn:Eq.
  destruct q as [|q].
  - assert (E : data_len d = 0) by (apply Z0; reflexivity). rewrite E. reflexivity.
  - assert (Hn : 0 < data_len d). { destruct (Nat.eq_dec (data_len d) 0) as [E0|]; [pose proof (proj2 Z0 E0); discriminate|lia]. }
    specialize (P Hn). rewrite seq_S, map_app, concat_app. cbn [map concat Nat.add].
    rewrite (map_ext_in _ (fun k => seq (k * batch_size d) (batch_size d))).
    2:{ intros k Hk. apply in_seq in Hk. unfold kbatch. rewrite Hd. f_equal. nia. }
    rewrite concat_seq_tiles. cbn [Nat.mul]. unfold kbatch. rewrite Hd, app_nil_r.
    replace (S q - 1) with q in P by lia.
    change (seq (q * batch_size d)) with (seq (0 + q * batch_size d)).
    rewrite <- seq_app. f_equal. nia.
Qed.
Lemma tiles_drop d : 0 < batch_size d -> drop_last d = true ->
  concat (map (kbatch d) (seq 0 (len d))) = seq (init_shift d) (len d * batch_size d).
Proof.
  intros Hb Hd.
  rewrite (map_ext_in _ (fun k => map (fun p => p + init_shift d) (seq (k * batch_size d) (batch_size d)))).
  2:{ intros k Hk. apply in_seq in Hk. unfold kbatch. rewrite Hd, <- map_shift_seq. f_equal.
      pose proof (kbatch_full d k Hb Hd ltac:(lia)). lia. }
  rewrite <- (map_map (fun k => seq (k * batch_size d) (batch_size d)) (map (fun p => p + init_shift d))).
  rewrite <- concat_map, concat_seq_tiles. rewrite <- map_shift_seq. f_equal; lia.
Qed.

Lemma kbatch_length d k : length (kbatch d k) = Nat.min (k * batch_size d + batch_size d) (data_len d) - k * batch_size d.
Proof. unfold kbatch. apply seq_length. Qed.

Theorem epoch_nodrop xs ys n d : reachable xs ys n d -> drop_last d = false ->
  exists pss, epoch d pss /\ Permutation (concat pss) (seq 0 n) /\
    (forall ps, In ps pss -> 0 < length ps <= batch_size d) /\
    (forall i j ps ps', nth_error pss i = Some ps -> nth_error pss j = Some ps' ->
       length ps < batch_size d -> length ps' < batch_size d -> i = j) /\
    (shuffle d = false -> concat pss = seq 0 n /\
       forall i ps, nth_error pss i = Some ps -> S i < len d -> length ps = batch_size d).
Proof.
  intros Hr Hd. destruct (reach_inv _ _ _ _ Hr) as [Hok H].
  exists (batches d). split; [eapply epoch_batches; eassumption|].
  pose proof H as (E1 & E2 & E3 & E4 & E5 & E6).
  pose proof (order_perm _ _ _ _ H) as Po.
  assert (T : concat (map (kbatch d) (seq 0 (len d))) = seq 0 n) by (rewrite tiles_nodrop by assumption; f_equal; exact E3).
  assert (SH : forall k, k < len d -> length (kbatch d k) < batch_size d -> S k = len d).
  { intros k Hk HL. rewrite kbatch_length in HL. unfold len in *. rewrite Hd in *.
    destruct (ceil_div_spec (data_len d) (batch_size d) E4) as [Z0 P].
    assert (Hn : 0 < data_len d). { destruct (Nat.eq_dec (data_len d) 0) as [E0|]; [pose proof (proj2 Z0 E0); lia|lia]. }
    specialize (P Hn). nia. }
  split; [|split; [|split]].
  - rewrite <- T. apply Permutation_concat. unfold batches. apply Permutation_map. apply Permutation_sym. exact Po.
  - intros ps Hin. unfold batches in Hin. apply in_map_iff in Hin. destruct Hin as (k & <- & Hk).
    rewrite kbatch_length. pose proof (kbatch_low d k E4 (order_lt _ _ _ _ _ H Hk)). lia.
  - intros i j ps ps' Hi Hj Li Lj. unfold batches in Hi, Hj. rewrite nth_error_map in Hi, Hj.
    destruct (nth_error (order d) i) as [k|] eqn:Ei; [|discriminate]. destruct (nth_error (order d) j) as [k'|] eqn:Ej; [|discriminate].
    cbn in Hi, Hj. injection Hi as <-. injection Hj as <-.
    pose proof (SH k (order_lt _ _ _ _ _ H (nth_error_In _ _ Ei)) Li).
    pose proof (SH k' (order_lt _ _ _ _ _ H (nth_error_In _ _ Ej)) Lj).
    assert (k = k') by lia. subst k'.
    assert (ND : NoDup (order d)) by (eapply Permutation_NoDup; [exact Po|apply seq_NoDup]).
    apply (proj1 (NoDup_nth_error (order d)) ND); [apply nth_error_Some; rewrite Ei; discriminate|]. congruence.
  - intros Hs. assert (Hm : index_map d = None) by (destruct (index_map d); [destruct E6; congruence|reflexivity]).
    unfold batches, order. rewrite Hm. split; [exact T|].
    intros i ps Hi HS. rewrite nth_error_map, nth_error_seq0 in Hi by lia. cbn [option_map Nat.add] in Hi. injection Hi as <-.
    pose proof (SH i ltac:(lia)) as S1. pose proof (kbatch_low d i E4 ltac:(lia)).
    destruct (Nat.lt_ge_cases (length (kbatch d i)) (batch_size d)) as [C|C]; [specialize (S1 C); lia|].
    rewrite (kbatch_length d i) in C. rewrite (kbatch_length d i). lia.
Qed.

Theorem epoch_drop xs ys n d : reachable xs ys n d -> drop_last d = true ->
  exists pss skipped, epoch d pss /\ Permutation (concat pss ++ skipped) (seq 0 n) /\
    length skipped = n mod batch_size d /\
    (forall ps, In ps pss -> length ps = batch_size d).
Proof.
  intros Hr Hd. destruct (reach_inv _ _ _ _ Hr) as [Hok H].
  pose proof H as (E1 & E2 & E3 & E4 & E5 & E6).
  pose proof (order_perm _ _ _ _ H) as Po.
  exists (batches d), (seq 0 (init_shift d) ++ seq (init_shift d + len d * batch_size d) (reminder d - init_shift d)).
  split; [eapply epoch_batches; eassumption|].
  assert (T := tiles_drop d E4 Hd).
  assert (P1 : Permutation (concat (batches d)) (seq (init_shift d) (len d * batch_size d))).
  { rewrite <- T. apply Permutation_concat. apply Permutation_map. apply Permutation_sym. exact Po. }
  assert (En : n = init_shift d + (len d * batch_size d + (reminder d - init_shift d))).
  { unfold len, reminder in *. rewrite Hd. rewrite E3 in *. pose proof (Nat.div_mod n (batch_size d) ltac:(lia)). lia. }
  split; [|split].
  - eapply Permutation_trans; [apply Permutation_app_tail; exact P1|].
    rewrite En, seq_app, seq_app, app_assoc. cbn [Nat.add].
    eapply Permutation_trans; [apply Permutation_app_tail; apply Permutation_app_comm|].
    rewrite <- app_assoc. apply Permutation_refl.
  - rewrite app_length, !seq_length. unfold reminder in *. rewrite E3 in *. lia.
  - intros ps Hin. unfold batches in Hin. apply in_map_iff in Hin. destruct Hin as (k & <- & Hk).
    rewrite kbatch_length. pose proof (kbatch_full d k E4 Hd (order_lt _ _ _ _ _ H Hk)). lia.
Qed.

Theorem shows_unique d idx ps ps' : (exists t, In t (x d) /\ NoDup t) -> shows d idx ps -> shows d idx ps' -> ps = ps'.
Proof.
  intros (t & Ht & ND) (bx & by_ & Hg & Hx & _) (bx' & by' & Hg' & Hx' & _).
  rewrite Hg in Hg'. injection Hg' as <- <-.
  assert (exists b, rows_of t ps b /\ rows_of t ps' b) as (b & R1 & R2).
  { clear -Ht Hx Hx'. revert bx Hx Hx'. induction (x d) as [|t0 l IH]; intros bx Hx Hx'; [destruct Ht|].
    inversion Hx; subst. inversion Hx'; subst. destruct Ht as [->|Ht]; eauto. }
  unfold rows_of in *. clear -ND R1 R2. revert ps ps' R1 R2. induction b as [|a b IH]; intros [|p ps] [|p' ps'] R1 R2; try discriminate; [reflexivity|].
  cbn in R1, R2. injection R1 as A1 R1. injection R2 as A2 R2. f_equal; [|exact (IH _ _ R1 R2)].
  apply (proj1 (NoDup_nth_error t) ND); [apply nth_error_Some; congruence|congruence].
Qed.

Theorem negative_index d k : (k < len d)%nat -> getitem d (- Z.of_nat (S k)) = getitem d (Z.of_nat (len d - S k)).
Proof.
  intros Hk. unfold getitem.
  assert (B1 : (- Z.of_nat (S k) <? 0)%Z = true) by (apply Z.ltb_lt; lia).
  assert (B2 : (Z.of_nat (len d) =? 0)%Z = false) by (apply Z.eqb_neq; lia).
  assert (B3 : (Z.of_nat (len d - S k) <? 0)%Z = false) by (apply Z.ltb_ge; lia).
  rewrite B1, B2, B3. cbn [andb].
  replace (- Z.of_nat (S k) mod Z.of_nat (len d))%Z with (Z.of_nat (len d - S k)); [reflexivity|].
  apply (Z.mod_unique _ _ (-1)); lia.
Qed.
Theorem past_the_end d idx : (Z.of_nat (len d) <= idx)%Z -> getitem d idx = None.
Proof.
  intros H. unfold getitem. replace (idx <? 0)%Z with false by lia. cbn [andb].
  replace (idx <? Z.of_nat (len d))%Z with false by lia. reflexivity.
Qed.
End L.
