From Verif Require Import Num M_Fixed S_Fixed L_Fixed M_Wrapper M_Ebops M_Table.
From Verif Require Export S_Table.

(** ** tables of one variable *)

Lemma injZ_0 : inject_Z 0 == 0. Proof. reflexivity. Qed.
Lemma table_size_ok v N : var_ok v N -> table_size v = S N.
Proof.
  intros [Hs Hh]. unfold table_size. f_equal.
  assert (E : (v_h v - v_l v) / v_s v == inject_Z (Z.of_nat N)) by (rewrite Hh; field; lra).
  rewrite (round_even_comp _ _ E), round_even_inject. apply Nat2Z.id.
Qed.
Lemma lookup_at v N table x t : var_ok v N -> x == v_l v + inject_Z (Z.of_nat t) * v_s v -> lookup v table x = nth t table 0.
Proof.
  intros [Hs _] Ex. unfold lookup.
  assert (E : (x - v_l v) / v_s v == inject_Z (Z.of_nat t)) by (rewrite Ex; field; lra).
  rewrite (round_even_comp _ _ E), round_even_inject, Nat2Z.id. reflexivity.
Qed.
Lemma linspace_at v N t : var_ok v N -> (t <= N)%nat -> linspace (v_l v) (v_h v) (S N) t == v_l v + inject_Z (Z.of_nat t) * v_s v.
Proof.
  intros [Hs Hh] Ht. unfold linspace. replace (S N - 1)%nat with N by lia. destruct (Nat.eq_dec N 0) as [->|Hn].
  - replace t with 0%nat by lia. change (inject_Z (Z.of_nat 0)) with 0. ring.
  - assert (Hp : 0 < inject_Z (Z.of_nat N)) by (change 0 with (inject_Z 0); apply (proj2 (injZ_lt _ _)); lia).
    assert (E : (v_h v - v_l v) / inject_Z (Z.of_nat N) == v_s v) by (rewrite Hh; field; lra). rewrite E. reflexivity.
Qed.
Lemma nth_map_seq (f : nat -> Q) n t : (t < n)%nat -> nth t (map f (seq 0 n)) 0 = f t.
Proof.
  intros H. rewrite (nth_indep _ 0 (f 0%nat)) by (rewrite map_length, seq_length; lia). rewrite map_nth, seq_nth by lia. reflexivity.
Qed.
Lemma apply_exact v N f x : var_ok v N -> var_value v N x -> Proper (Qeq ==> Qeq) f -> hw_apply v f x == f x.
Proof.
  intros V (t & Ht & Ex) P. unfold hw_apply. rewrite (lookup_at v N _ x t V Ex). unfold apply_table. rewrite (table_size_ok v N V).
  rewrite nth_map_seq by lia. apply P. symmetry. exact Ex.
Qed.
Lemma apply_length v N f : var_ok v N -> length (apply_table v f) = S N.
Proof. intros V. unfold apply_table. rewrite map_length, seq_length. apply table_size_ok, V. Qed.

Lemma lut_exact v N act affined x : var_ok v N -> var_value v N x -> Proper (Qeq ==> Qeq) act -> replay_lut v act affined x == lut_call act affined x.
Proof.
  intros V X P. unfold replay_lut, lut_call. rewrite (apply_exact v N _ x V X).
  - destruct affined as [[a b]|]; reflexivity.
  - intros y z E. apply P. destruct affined as [[a b]|]; rewrite E; reflexivity.
Qed.

(** the output of a quantizer is a value of the variable that spans its format *)
Lemma format_var om k i f : (0 < kz k + i + f)%Z -> var_ok (format_lhs om k i f) (Z.to_nat (code_hi (i + f) - code_lo om k (i + f))).
Proof.
  intros H. apply width_cases in H as Hb. pose proof (pow2z_pos (i + f) Hb) as P.
  assert (L : (code_lo om k (i + f) <= code_hi (i + f))%Z) by (unfold code_lo, code_hi; destruct k, om; lia).
  split; cbn [format_lhs v_l v_h v_s]; [apply pow2_pos|].
  rewrite (code_times_lo om k i f Hb), (code_times_hi i f Hb), Z2Nat.id by lia. rewrite injZ_sub. ring.
Qed.
Lemma format_value rm om k i f x : (0 < kz k + i + f)%Z ->
  var_value (format_lhs om k i f) (Z.to_nat (code_hi (i + f) - code_lo om k (i + f))) (base_call rm om false k i f x).
Proof.
  intros H. destruct (inference_representable rm om k i f x H) as (n & Hn & Hr). apply width_cases in H as Hb.
  exists (Z.to_nat (n - code_lo om k (i + f))). split; [apply Z2Nat.inj_le; lia|].
  cbn [format_lhs v_l v_h v_s]. rewrite (code_times_lo om k i f Hb), Z2Nat.id by lia. unfold has_code in Hn. rewrite injZ_sub. rewrite Hn. ring.
Qed.
Lemma format_codes om k i f : (0 < kz k + i + f)%Z -> om <> SAT_SYM ->
  Z.of_nat (S (Z.to_nat (code_hi (i + f) - code_lo om k (i + f)))) = (2 ^ (kz k + i + f))%Z.
Proof.
  intros H S. apply width_cases in H as Hb. pose proof (pow2z_pos (i + f) Hb) as P.
  assert (L : (code_lo om k (i + f) <= code_hi (i + f))%Z) by (unfold code_lo, code_hi; destruct k, om; lia).
  rewrite Nat2Z.inj_succ, Z2Nat.id by lia. unfold code_lo, code_hi. destruct k, om; try (exfalso; apply S; reflexivity); cbn [kz];
    rewrite ?Z.add_0_l; try (replace (1 + i + f)%Z with (Z.succ (i + f)) by lia; rewrite Z.pow_succ_r by lia); lia.
Qed.

(** ** masks *)
Definition true_from (a : nat) (mask : list bool) : list nat := map fst (filter snd (combine (seq a (length mask)) mask)).
Lemma true_at_from mask : true_at mask = true_from 0 mask. Proof. reflexivity. Qed.
Lemma true_from_cons a b mask : true_from a (b :: mask) = (if b then [a] else []) ++ true_from (S a) mask.
Proof. unfold true_from. cbn. destruct b; reflexivity. Qed.
Lemma true_from_app a m1 m2 : true_from a (m1 ++ m2) = true_from a m1 ++ true_from (a + length m1) m2.
Proof.
  revert a. induction m1 as [|b m1 IH]; intros a; [cbn; rewrite Nat.add_0_r; reflexivity|].
  cbn [app length]. rewrite !true_from_cons, IH, app_assoc. replace (S a + length m1)%nat with (a + S (length m1))%nat by lia. reflexivity.
Qed.
Lemma true_from_range a mask p : In p (true_from a mask) -> (a <= p < a + length mask)%nat /\ nth (p - a) mask false = true.
Proof.
  revert a. induction mask as [|b mask IH]; intros a H; [contradiction|]. rewrite true_from_cons in H. apply in_app_or in H. destruct H as [H|H].
  - destruct b; [|contradiction]. destruct H as [<-|[]]. cbn. rewrite Nat.sub_diag. split; [lia|reflexivity].
  - apply IH in H. destruct H as [H1 H2]. cbn [length]. split; [lia|]. replace (p - a)%nat with (S (p - S a)) by lia. exact H2.
Qed.
Lemma true_from_in a mask p : (p < length mask)%nat -> nth p mask false = true -> In (a + p)%nat (true_from a mask).
Proof.
  revert a p. induction mask as [|b mask IH]; intros a p H E; [cbn in H; lia|]. rewrite true_from_cons. apply in_or_app. destruct p as [|p].
  - cbn in E. subst b. left. rewrite Nat.add_0_r. left. reflexivity.
  - right. replace (a + S p)%nat with (S a + p)%nat by lia. apply IH; [cbn in H; lia|exact E].
Qed.
Lemma true_from_nodup a mask : NoDup (true_from a mask).
Proof.
  revert a. induction mask as [|b mask IH]; intros a; [constructor|]. rewrite true_from_cons. destruct b; cbn [app]; [|apply IH].
  constructor; [|apply IH]. intros H. apply true_from_range in H. lia.
Qed.
Lemma true_from_shift a b mask : true_from (a + b) mask = map (fun p => (a + p)%nat) (true_from b mask).
Proof.
  revert b. induction mask as [|c mask IH]; intros b; [reflexivity|]. rewrite !true_from_cons, map_app. f_equal; [destruct c; reflexivity|].
  replace (S (a + b))%nat with (a + S b)%nat by lia. apply IH.
Qed.
Lemma select_true {A} (w : nat -> A) row : select w row = map w (true_from 0 row).
Proof. unfold select, true_from. rewrite map_map. reflexivity. Qed.

Lemma chunks_gather {A} (w : nat -> A) m : (0 < m)%nat -> forall fuel mask a, (length mask <= fuel)%nat ->
  concat (map (select w) (chunks fuel m mask)) = map (fun p => w (p mod m)) (true_from (a * m) mask).
Proof.
  intros Hm. induction fuel as [|fuel IH]; intros mask a Hl.
  - destruct mask; [reflexivity|cbn in Hl; lia].
  - destruct (Nat.eq_dec (length mask) 0) as [Z0|Nz]; [destruct mask; [reflexivity|discriminate Z0]|].
    assert (Ec : chunks (S fuel) m mask = firstn m mask :: chunks fuel m (skipn m mask)) by (destruct mask; [exfalso; apply Nz; reflexivity|reflexivity]).
    rewrite Ec. cbn [map concat].
    rewrite (IH (skipn m mask) (S a)) by (rewrite skipn_length; lia).
    rewrite <- (firstn_skipn m mask) at 3. rewrite true_from_app, map_app. f_equal.
    + rewrite select_true. replace (a * m)%nat with (a * m + 0)%nat by lia. rewrite true_from_shift, map_map. apply map_ext_in. intros p Hp.
      apply true_from_range in Hp. pose proof (firstn_le_length m mask). f_equal.
      assert (p < m)%nat by (rewrite firstn_length in Hp; lia). replace (a * m + p)%nat with (p + a * m)%nat by lia.
      rewrite Nat.mod_add by lia. symmetry. apply Nat.mod_small. lia.
    + destruct (Nat.le_gt_cases m (length mask)) as [L|L].
      * rewrite firstn_length, Nat.min_l by lia. replace (S a * m)%nat with (a * m + m)%nat by lia. reflexivity.
      * rewrite (skipn_all2 mask) by lia. reflexivity.
Qed.
Lemma gather_spec {A} m (w : nat -> A) mask : (0 < m)%nat -> gather m w mask = map (fun p => w (p mod m)) (true_at mask).
Proof. intros Hm. unfold gather. rewrite (chunks_gather w m Hm _ mask 0) by lia. reflexivity. Qed.

Lemma map2_map {A B C D} (f : A -> B -> C) (g : D -> A) (h : D -> B) l : map2 f (map g l) (map h l) = map (fun x => f (g x) (h x)) l.
Proof. induction l; cbn; congruence. Qed.
Lemma combine_map {A B D} (g : D -> A) (h : D -> B) l : combine (map g l) (map h l) = map (fun x => (g x, h x)) l.
Proof. induction l; cbn; congruence. Qed.

(** the sub-network with translated activations *)
Definition with_act (act' : (Q -> Q) -> Q -> Q) (l : elayer) : elayer := mk_elayer (e_w l) (e_b l) (e_in l) (e_out l) (act' (e_act l)).
Lemma replay_layer_spec m mask l act' (g : nat -> list Q) : (0 < m)%nat ->
  replay_layer m mask l act' (map g (true_at mask)) = map (fun p => dense_apply (with_act act' l) (p mod m) (g p)) (true_at mask).
Proof.
  intros Hm. unfold replay_layer. cbv zeta. rewrite (gather_spec m (e_w l) mask Hm). destruct (e_b l) as [b|] eqn:Eb.
  - rewrite (gather_spec m b mask Hm), combine_map, map2_map. apply map_ext. intros p. unfold dense_apply, with_act. cbn. rewrite Eb. reflexivity.
  - rewrite map_map, combine_map, map2_map. apply map_ext. intros p. unfold dense_apply, with_act. cbn. rewrite Eb. reflexivity.
Qed.
Lemma replay_net_spec m mask act' : (0 < m)%nat -> forall ls (g : nat -> list Q),
  fold_left (fun vs l => replay_layer m mask l act' vs) ls (map g (true_at mask)) =
  map (fun p => fold_left (fun v l => dense_apply l (p mod m) v) (map (with_act act') ls) (g p)) (true_at mask).
Proof.
  intros Hm. induction ls as [|l ls IH]; intros g; [reflexivity|]. cbn [fold_left map]. rewrite replay_layer_spec by exact Hm.
  rewrite (IH (fun p => dense_apply (with_act act' l) (p mod m) (g p))). reflexivity.
Qed.

Lemma sel_spec a (mask : list bool) (vars : list lhs) : length mask = length vars ->
  map snd (filter fst (combine mask vars)) = map (fun p => nth (p - a) vars dflt_lhs) (true_from a mask).
Proof.
  revert a vars. induction mask as [|b mask IH]; intros a vars H; destruct vars as [|v vars]; try discriminate H; [reflexivity|].
  rewrite true_from_cons. cbn [combine filter fst]. injection H as H. specialize (IH (S a) vars H).
  assert (E : map (fun p => nth (p - a) (v :: vars) dflt_lhs) (true_from (S a) mask) = map (fun p => nth (p - S a) vars dflt_lhs) (true_from (S a) mask)).
  { apply map_ext_in. intros p Hp. apply true_from_range in Hp. replace (p - a)%nat with (S (p - S a)) by lia. reflexivity. }
  destruct b; cbn [map app snd].
  - rewrite IH, E, Nat.sub_diag. reflexivity.
  - rewrite IH. symmetry. exact E.
Qed.

Lemma group_rows_spec m ls act' vars mask n : (0 < m)%nat -> length mask = length vars ->
  group_rows m ls act' vars mask n =
  map (fun t => map (fun p => subnet (map (with_act act') ls) (p mod m) (let v := nth p vars dflt_lhs in linspace (v_l v) (v_h v) n t)) (true_at mask)) (seq 0 n).
Proof.
  intros Hm Hl. unfold group_rows. cbv zeta. rewrite (sel_spec 0 mask vars Hl). apply map_ext. intros t.
  rewrite map_map. change (true_from 0 mask) with (true_at mask).
  rewrite (replay_net_spec m mask act' Hm ls (fun p => [linspace (v_l (nth (p - 0) vars dflt_lhs)) (v_h (nth (p - 0) vars dflt_lhs)) n t])).
  rewrite map_map. apply map_ext. intros p. unfold subnet. rewrite Nat.sub_0_r. reflexivity.
Qed.

Lemma scatter_spec (cols : nat -> nat -> Q) n mask tabs p :
  scatter (map (fun t => map (fun q => cols q t) (true_at mask)) (seq 0 n)) mask tabs p =
  if existsb (Nat.eqb p) (true_at mask) then Some (map (cols p) (seq 0 n)) else tabs p.
Proof.
  unfold scatter. set (rows := map (fun t => map (fun q => cols q t) (true_at mask)) (seq 0 n)).
  assert (Hcol : forall j q, nth_error (true_at mask) j = Some q -> map (fun r => nth j r 0) rows = map (cols q) (seq 0 n)).
  { intros j q Hj. unfold rows. rewrite map_map. apply map_ext. intros t.
    rewrite (nth_error_nth (map (fun q0 => cols q0 t) (true_at mask)) j 0 (x := cols q t)); [reflexivity|].
    rewrite nth_error_map, Hj. reflexivity. }
  pose proof (true_from_nodup 0 mask) as ND. rewrite <- true_at_from in ND.
  assert (G : forall suf pre tabs, true_at mask = pre ++ suf ->
    fold_left (fun tabs ji => set_table tabs (snd ji) (map (fun r => nth (fst ji) r 0) rows)) (combine (seq (length pre) (length suf)) suf) tabs p =
    if existsb (Nat.eqb p) suf then Some (map (cols p) (seq 0 n)) else tabs p).
  { induction suf as [|q suf IH]; intros pre tabs' E; [reflexivity|]. cbn [length seq combine fold_left fst snd existsb].
    replace (S (length pre)) with (length (pre ++ [q])) by (rewrite app_length; cbn; lia).
    rewrite (IH (pre ++ [q])) by (rewrite E, <- app_assoc; reflexivity).
    destruct (existsb (Nat.eqb p) suf) eqn:Es; [rewrite orb_true_r; reflexivity|]. rewrite orb_false_r.
    unfold set_table. destruct (Nat.eqb_spec p q) as [->|Np]; [|reflexivity]. f_equal. apply Hcol. rewrite E, nth_error_app2 by lia. rewrite Nat.sub_diag. reflexivity. }
  exact (G (true_at mask) [] tabs eq_refl).
Qed.

Lemma existsb_true_at mask p : existsb (Nat.eqb p) (true_at mask) = nth p mask false.
Proof.
  destruct (nth p mask false) eqn:E.
  - apply existsb_exists. exists p. split; [|apply Nat.eqb_refl]. rewrite true_at_from. apply (true_from_in 0 mask p); [|exact E].
    destruct (Nat.lt_ge_cases p (length mask)) as [L|L]; [exact L|]. rewrite nth_overflow in E by exact L. discriminate E.
  - destruct (existsb (Nat.eqb p) (true_at mask)) eqn:X; [|reflexivity]. apply existsb_exists in X. destruct X as (q & Hq & Eq).
    apply Nat.eqb_eq in Eq. subst q. rewrite true_at_from in Hq. apply true_from_range in Hq. rewrite Nat.sub_0_r in Hq. destruct Hq. congruence.
Qed.

Lemma raw_tables_spec m ls act' vars p : (0 < m)%nat -> (p < length vars)%nat ->
  let v := nth p vars dflt_lhs in
  raw_tables m ls act' vars p = Some (map (fun t => subnet (map (with_act act') ls) (p mod m) (linspace (v_l v) (v_h v) (table_size v) t)) (seq 0 (table_size v))).
Proof.
  intros Hm Hp v. unfold raw_tables.
  set (res := Some (map (fun t => subnet (map (with_act act') ls) (p mod m) (linspace (v_l v) (v_h v) (table_size v) t)) (seq 0 (table_size v)))).
  assert (G : forall ns tabs,
    fold_left (fun tabs n => let mask := map (fun v => (table_size v =? n)%nat) vars in scatter (group_rows m ls act' vars mask n) mask tabs) ns tabs p =
    if existsb (Nat.eqb (table_size v)) ns then res else tabs p).
  { induction ns as [|n ns IH]; intros tabs; [reflexivity|]. cbn [fold_left existsb]. rewrite IH. clear IH.
    destruct (existsb (Nat.eqb (table_size v)) ns); [rewrite orb_true_r; reflexivity|]. rewrite orb_false_r. cbv zeta.
    rewrite group_rows_spec by (try exact Hm; rewrite map_length; reflexivity).
    rewrite (scatter_spec (fun q t => subnet (map (with_act act') ls) (q mod m) (let v := nth q vars dflt_lhs in linspace (v_l v) (v_h v) n t))).
    rewrite existsb_true_at. rewrite (nth_indep _ false (table_size dflt_lhs =? n)%nat) by (rewrite map_length; exact Hp).
    rewrite (map_nth (fun v => (table_size v =? n)%nat)). fold v. destruct (Nat.eqb_spec (table_size v) n) as [<-|]; reflexivity. }
  rewrite G. assert (E : existsb (Nat.eqb (table_size v)) (unique_sizes vars) = true); [|rewrite E; reflexivity].
  apply existsb_exists. exists (table_size v). split; [|apply Nat.eqb_refl]. unfold unique_sizes. apply filter_In.
  assert (Hin : In v vars) by (apply nth_In; exact Hp). split.
  - apply in_seq. split; [lia|]. assert (table_size v <= list_max (map table_size vars))%nat; [|lia].
    pose proof (proj1 (list_max_le (map table_size vars) (list_max (map table_size vars))) (Nat.le_refl _)) as F.
    rewrite Forall_forall in F. apply F. apply in_map. exact Hin.
  - apply existsb_exists. exists v. split; [exact Hin|apply Nat.eqb_refl].
Qed.

(** ** sub-networks respect equality of rationals *)
Lemma qsum_ext {A} (f g : A -> Q) l : (forall a, In a l -> f a == g a) -> qsum (map f l) == qsum (map g l).
Proof.
  unfold qsum. induction l as [|a l IH]; intros H; [reflexivity|]. cbn [map fold_right]. apply Qplus_comp; [apply H; left; reflexivity|]. apply IH. intros b Hb. apply H. right. exact Hb.
Qed.
Lemma Forall2_nth (v v' : list Q) d : Forall2 Qeq v v' -> nth d v 0 == nth d v' 0.
Proof. intros H. revert d. induction H; intros [|d]; cbn; try reflexivity; auto. Qed.
Lemma dense_apply_ext l l' c v v' : e_w l = e_w l' -> e_b l = e_b l' -> e_in l = e_in l' -> e_out l = e_out l' ->
  (forall x y, x == y -> e_act l x == e_act l' y) -> Forall2 Qeq v v' -> Forall2 Qeq (dense_apply l c v) (dense_apply l' c v').
Proof.
  intros E1 E2 E3 E4 Ha Hv. unfold dense_apply. rewrite E1, E2, E3, E4. generalize (seq 0 (e_out l')). induction l0 as [|e es IH]; [constructor|].
  cbn [map]. constructor; [|exact IH]. apply Ha. apply Qplus_comp; [|reflexivity]. apply qsum_ext. intros d _. rewrite (Forall2_nth v v' d Hv). reflexivity.
Qed.
Lemma subnet_ext act' ls c x y : translates act' ls -> x == y -> subnet (map (with_act act') ls) c x == subnet ls c y.
Proof.
  intros T E. unfold subnet. apply Forall2_nth.
  assert (G : forall ls v v', translates act' ls -> Forall2 Qeq v v' ->
    Forall2 Qeq (fold_left (fun v l => dense_apply l c v) (map (with_act act') ls) v) (fold_left (fun v l => dense_apply l c v) ls v')).
  { clear. induction ls as [|l ls IH]; intros v v' T Hv; [exact Hv|]. cbn [map fold_left]. apply IH; [intros l' Hl'; apply T; right; exact Hl'|].
    apply dense_apply_ext; try reflexivity; [|exact Hv]. intros x y Exy. cbn. apply T; [left; reflexivity|exact Exy]. }
  apply G; [exact T|]. constructor; [exact E|constructor].
Qed.

Lemma replay_bn_ok bn o x y : bn_beta bn <> None -> x == y -> replay_bn bn o x == bn_apply bn o y.
Proof. intros Hb E. unfold replay_bn, bn_apply. cbv zeta. destruct (bn_beta bn) as [be|]; [|congruence]. rewrite E. ring. Qed.

Lemma pos_mod_in b i o n_in n_out : (i < n_in)%nat -> (o < n_out)%nat -> (((b * n_in + i) * n_out + o) mod (n_in * n_out) = i * n_out + o)%nat.
Proof.
  intros Hi Ho. replace ((b * n_in + i) * n_out + o)%nat with (i * n_out + o + b * (n_in * n_out))%nat by nia.
  rewrite Nat.mod_add by nia. apply Nat.mod_small. nia.
Qed.
Lemma pos_mod_out a o n_out : (o < n_out)%nat -> ((a * n_out + o) mod n_out = o)%nat.
Proof. intros Ho. replace (a * n_out + o)%nat with (o + a * n_out)%nat by lia. rewrite Nat.mod_add by lia. apply Nat.mod_small. exact Ho. Qed.

Lemma opt_sum_some (l : list (option Q)) (f : nat -> Q) ps : map (fun x => x) l = map (fun p => Some (f p)) ps -> exists y, opt_sum l = Some y /\ y == qsum (map f ps).
Proof.
  rewrite map_id. intros ->. induction ps as [|p ps IH]; [exists 0; split; reflexivity|]. destruct IH as (y & E & Ey). cbn [map opt_sum]. rewrite E.
  eexists. split; [reflexivity|]. unfold qsum in *. cbn [map fold_right]. rewrite Ey. reflexivity.
Qed.

Section Dense.
  Context (L : table_layer) (act' : (Q -> Q) -> Q -> Q) (quant : nat -> Q -> Q) (vars : list lhs) (codes : nat -> nat) (xq : nat -> Q) (n_batch : nat).
  Context (Hlen : length vars = (n_batch * tl_in L * tl_out L)%nat).
  Context (Hvar : forall p, (p < length vars)%nat -> var_ok (nth p vars dflt_lhs) (codes p) /\ var_value (nth p vars dflt_lhs) (codes p) (xq p)).
  Context (Hact : translates act' (tl_net L)).
  Context (Hquant : forall p x y, x == y -> quant p x == tl_toq L p y).
  Context (Hbn : forall bn, tl_bn L = Some bn -> bn_beta bn <> None).

  Definition cell_value (b i o : nat) : Q :=
    let p := ((b * tl_in L + i) * tl_out L + o)%nat in
    let t := subnet (tl_net L) (i * tl_out L + o) (xq p) in
    let t := match tl_bn L with Some bn => bn_apply bn o t * tl_isqrt L | None => t end in
    tl_toq L p t.

  Lemma pos_lt b i o : (b < n_batch)%nat -> (i < tl_in L)%nat -> (o < tl_out L)%nat -> ((b * tl_in L + i) * tl_out L + o < length vars)%nat.
  Proof. intros Hb Hi Ho. rewrite Hlen. assert (b * tl_in L + i < n_batch * tl_in L)%nat by nia. nia. Qed.

  Lemma tables_ok b i o : (b < n_batch)%nat -> (i < tl_in L)%nat -> (o < tl_out L)%nat ->
    let p := ((b * tl_in L + i) * tl_out L + o)%nat in
    exists t, replay_tables L act' quant vars p = Some t /\ length t = S (codes p) /\ lookup (nth p vars dflt_lhs) t (xq p) == cell_value b i o.
  Proof.
    intros Hb Hi Ho p. pose proof (pos_lt b i o Hb Hi Ho) as Hp. fold p in Hp. destruct (Hvar p Hp) as [V (t & Ht & Ex)].
    unfold replay_tables. rewrite (raw_tables_spec (tl_in L * tl_out L) (tl_net L) act' vars p) by (try exact Hp; nia).
    assert (Em : (p mod (tl_in L * tl_out L) = i * tl_out L + o)%nat) by (apply pos_mod_in; assumption).
    assert (Eo : (p mod tl_out L = o)%nat) by (apply pos_mod_out; assumption).
    cbv zeta. rewrite Em, Eo. set (v := nth p vars dflt_lhs) in *. rewrite (table_size_ok v _ V).
    eexists. split; [reflexivity|]. split; [destruct (tl_bn L); rewrite !map_length, seq_length; reflexivity|].
    rewrite (lookup_at v (codes p) _ (xq p) t V Ex). unfold cell_value. fold p. cbv zeta.
    assert (Es : subnet (map (with_act act') (tl_net L)) (i * tl_out L + o) (linspace (v_l v) (v_h v) (S (codes p)) t) == subnet (tl_net L) (i * tl_out L + o) (xq p)).
    { apply subnet_ext; [exact Hact|]. rewrite (linspace_at v (codes p) t V Ht). symmetry. exact Ex. }
    destruct (tl_bn L) as [bn|] eqn:Eb.
    - rewrite !map_map. rewrite nth_map_seq by lia. apply Hquant. apply Qmult_comp; [|reflexivity]. apply replay_bn_ok; [exact (Hbn bn eq_refl)|exact Es].
    - rewrite map_map. rewrite nth_map_seq by lia. apply Hquant. exact Es.
  Qed.

  Lemma dense_table_exact b o act : (b < n_batch)%nat -> (o < tl_out L)%nat -> Proper (Qeq ==> Qeq) act ->
    exists y, replay_dense_table L act' quant vars xq b o = Some y /\ act y == dense_t_call L act xq b o.
  Proof.
    intros Hb Ho Pa. unfold replay_dense_table, dense_t_call.
    assert (G : forall is, (forall i, In i is -> (i < tl_in L)%nat) ->
      exists y, opt_sum (map (fun i => let p := ((b * tl_in L + i) * tl_out L + o)%nat in
        match replay_tables L act' quant vars p, nth_error vars p with Some t, Some v => Some (lookup v t (xq p)) | _, _ => None end) is) = Some y /\
        y == qsum (map (fun i => cell_value b i o) is)).
    { induction is as [|i is IH]; intros His; [exists 0; split; reflexivity|].
      destruct IH as (y & Ey & Hy); [intros j Hj; apply His; right; exact Hj|].
      assert (Hi : (i < tl_in L)%nat) by (apply His; left; reflexivity).
      destruct (tables_ok b i o Hb Hi Ho) as (t & Et & _ & Hl). cbn [map opt_sum]. cbv zeta. cbv zeta in Et, Ey, Hl.
      rewrite Et, (nth_error_nth' vars dflt_lhs (pos_lt b i o Hb Hi Ho)), Ey.
      eexists. split; [reflexivity|]. unfold qsum in *. cbn [map fold_right]. rewrite Hy, Hl. reflexivity. }
    destruct (G (seq 0 (tl_in L))) as (y & Ey & Hy); [intros i Hi; apply in_seq in Hi; lia|].
    exists y. split; [exact Ey|]. apply Pa. exact Hy.
  Qed.
End Dense.

(** without [center] the tables carry an extra offset 1/sqrt(n_in) *)
Lemma replay_bn_wrong bn o x : bn_beta bn = None -> replay_bn bn o x == bn_apply bn o x + 1.
Proof. intros E. unfold replay_bn, bn_apply. cbv zeta. rewrite E. ring. Qed.
