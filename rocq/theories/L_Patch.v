From Verif Require Import Num M_Fixed M_State M_Mapper S_Mapper L_Mapper M_Contr M_Ebops L_Ebops M_Patch.
From Verif Require Export S_Patch.

(** ** row-major positions *)
Lemma nprod_cons d sh : nprod (d :: sh) = (d * nprod sh)%nat. Proof. reflexivity. Qed.
Lemma flat_lt sh idx : valid_index sh idx -> (flat sh idx < nprod sh)%nat.
Proof.
  intros H. unfold valid_index in H. induction H as [|i d idx sh Hi Hf IH]; [cbn; lia|].
  cbn [flat]. rewrite nprod_cons. nia.
Qed.
Lemma unflat_flat sh idx : valid_index sh idx -> unflat sh (flat sh idx) = idx.
Proof.
  intros H. unfold valid_index in H. induction H as [|i d idx sh Hi Hf IH]; [reflexivity|].
  cbn [flat unflat]. pose proof (flat_lt sh idx Hf) as L. f_equal.
  - rewrite Nat.div_add_l by lia. rewrite Nat.div_small by lia. lia.
  - replace (i * nprod sh + flat sh idx)%nat with (flat sh idx + i * nprod sh)%nat by lia. rewrite Nat.mod_add by lia. rewrite Nat.mod_small by lia. exact IH.
Qed.
Lemma flat_snoc sh idx c x : length sh = length idx -> flat (sh ++ [c]) (idx ++ [x]) = (flat sh idx * c + x)%nat.
Proof.
  revert idx. induction sh as [|d sh IH]; intros [|i idx] H; try discriminate H; [cbn; lia|].
  cbn [flat app]. rewrite IH by (injection H; auto). rewrite nprod_app. cbn [nprod fold_right]. fold (nprod sh). lia.
Qed.
Lemma flat_snoc2 sh idx c e x y : length sh = length idx -> flat (sh ++ [c; e]) (idx ++ [x; y]) = ((flat sh idx * c + x) * e + y)%nat.
Proof.
  intros H. replace (sh ++ [c; e]) with ((sh ++ [c]) ++ [e]) by (rewrite <- app_assoc; reflexivity).
  replace (idx ++ [x; y]) with ((idx ++ [x]) ++ [y]) by (rewrite <- app_assoc; reflexivity).
  rewrite flat_snoc by (rewrite !app_length; cbn; lia). rewrite flat_snoc by exact H. reflexivity.
Qed.
Lemma seq_mul n d : seq 0 (d * n) = flat_map (fun i => map (fun r => (i * n + r)%nat) (seq 0 n)) (seq 0 d).
Proof.
  assert (S0 : forall a n b, map (fun r => (a + r)%nat) (seq b n) = seq (a + b) n).
  { intros a m. induction m as [|m IH]; intros b; [reflexivity|]. cbn [seq map]. rewrite IH. replace (S (a + b)) with (a + S b)%nat by lia. reflexivity. }
  assert (S1 : forall a n, map (fun r => (a + r)%nat) (seq 0 n) = seq a n) by (intros a m; rewrite S0, Nat.add_0_r; reflexivity).
  induction d as [|d IH]; [reflexivity|]. rewrite seq_S, flat_map_app, <- IH. cbn [flat_map]. rewrite app_nil_r, S1. cbn [plus].
  replace (S d * n)%nat with (d * n + n)%nat by lia. rewrite seq_app. reflexivity.
Qed.
Lemma map_flat_indices sh : map (flat sh) (indices sh) = seq 0 (nprod sh).
Proof.
  induction sh as [|d sh IH]; [reflexivity|]. rewrite nprod_cons, seq_mul. cbn [indices]. rewrite !flat_map_concat_map, concat_map. f_equal. rewrite map_map.
  apply map_ext. intros i. rewrite <- IH, !map_map. reflexivity.
Qed.
Lemma valid_snoc sh idx c x : valid_index sh idx -> (x < c)%nat -> valid_index (sh ++ [c]) (idx ++ [x]).
Proof. intros H Hx. unfold valid_index in *. apply Forall2_app; [exact H|]. constructor; [exact Hx|constructor]. Qed.

(** ** geometry *)
Lemma c_pos_lt pad c o t p : c_pos pad c o t = Some p -> (p < c_in c)%nat.
Proof. unfold c_pos. cbv zeta. destruct (_ <? _)%nat; [discriminate|]. destruct (Nat.ltb_spec (o * c_stride c + t * c_dil c - c_left pad c) (c_in c)); [|discriminate]. intros E. injection E as <-. assumption. Qed.
Lemma c_positions_valid pad cs : forall o t p, c_positions pad cs o t = Some p -> valid_index (map c_in cs) p.
Proof.
  induction cs as [|c cs IH]; intros o t p H; cbn in H.
  - injection H as <-. constructor.
  - destruct o as [|o1 o]; [discriminate|]. destruct t as [|t1 t]; [discriminate|].
    destruct (c_pos pad c o1 t1) eqn:E1; [|discriminate]. destruct (c_positions pad cs o t) eqn:E2; [|discriminate]. injection H as <-.
    constructor; [exact (c_pos_lt _ _ _ _ _ E1)|exact (IH _ _ _ E2)].
Qed.

Lemma f32_exact z : (Z.abs z <= 2 ^ 24)%Z -> f32_int z = z.
Proof. intros H. unfold f32_int. destruct (Z.leb_spec (Z.abs z) (2 ^ 24)); [reflexivity|lia]. Qed.
Definition img_size (cs : list cdim) (ch : nat) : nat := nprod (map c_in cs ++ [ch]).
Lemma sym_extract_spec {A} (pv : A) pad cs ch img o q : (0 < ch)%nat -> (Z.of_nat (img_size cs ch) <= 2 ^ 24)%Z ->
  sym_extract pv pad cs ch img o q = extract pv pad cs ch img o q.
Proof.
  intros Hc Hs. unfold sym_extract, extract. cbv zeta. destruct (c_positions pad cs o (unflat (map c_k cs) (q / ch))) as [p|] eqn:E; [|reflexivity].
  pose proof (c_positions_valid _ _ _ _ _ E) as V. pose proof (flat_lt _ _ (valid_snoc _ _ ch (q mod ch) V (Nat.mod_upper_bound q ch ltac:(lia)))) as L.
  set (j := flat (map c_in cs ++ [ch]) (p ++ [q mod ch])) in *. unfold img_size in Hs.
  rewrite (f32_exact (Z.of_nat j)) by lia. rewrite f32_exact by lia.
  destruct (Z.eqb_spec (- Z.of_nat j - 1) 0); [lia|]. f_equal. lia.
Qed.

(** a patch entry, by kernel tap and channel *)
Lemma extract_tap {A} (pv : A) pad cs ch img o t c : valid_index (map c_k cs) t -> (c < ch)%nat ->
  extract pv pad cs ch img o (flat (map c_k cs) t * ch + c) =
  match c_positions pad cs o t with Some p => img (flat (map c_in cs ++ [ch]) (p ++ [c])) | None => pv end.
Proof.
  intros V Hc. unfold extract. rewrite Nat.div_add_l by lia. rewrite (Nat.div_small c ch) by lia. rewrite Nat.add_0_r, unflat_flat by exact V.
  replace (flat (map c_k cs) t * ch + c)%nat with (c + flat (map c_k cs) t * ch)%nat by lia. rewrite Nat.mod_add by lia. rewrite Nat.mod_small by lia. reflexivity.
Qed.
Lemma ravel_img_at cs ch x p c : valid_index (map c_in cs) p -> (c < ch)%nat -> ravel_img cs ch x (flat (map c_in cs ++ [ch]) (p ++ [c])) = x (0%nat :: p ++ [c]).
Proof. intros V Hc. unfold ravel_img. rewrite unflat_flat by (apply valid_snoc; assumption). reflexivity. Qed.
Lemma ravel_kernel_at cs cin_g cout k t ci co : valid_index (map c_k cs) t -> (ci < cin_g)%nat -> (co < cout)%nat ->
  ravel_kernel cs cin_g cout k (flat (map c_k cs ++ [cin_g; cout]) (t ++ [ci; co])) = k (t ++ [ci; co]).
Proof.
  intros V Hi Ho. unfold ravel_kernel. f_equal. apply unflat_flat. unfold valid_index in *. apply Forall2_app; [exact V|]. repeat constructor; assumption.
Qed.
Lemma valid_len sh idx : valid_index sh idx -> length sh = length idx.
Proof. intros H. unfold valid_index in H. induction H; cbn; congruence. Qed.


Section Conv.
  Context (pad : padding) (cs : list cdim) (groups cin_g cout_g : nat) (x k : index -> Q) (bias : nat -> Q).
  Context (Hg : (0 < groups)%nat) (Hi : (0 < cin_g)%nat) (Ho : (0 < cout_g)%nat).
  Let cin := (groups * cin_g)%nat. Let cout := (groups * cout_g)%nat.
  Context (Hsize : (Z.of_nat (img_size cs cin) <= 2 ^ 24)%Z).

  Lemma replay_conv_shuffled o co : (co < cout)%nat ->
    replay_conv pad cs cin groups cout (ravel_img cs cin x) (ravel_kernel cs cin_g cout k) bias o co ==
    conv 0 Qplus Qmult pad cs cin_g cout_g (shuffled groups cin_g x) k o co + bias co.
  Proof.
    intros Hco. unfold replay_conv, conv. cbv zeta. unfold cin, cout in *. rewrite (Nat.mul_comm groups cout_g) in *. rewrite Nat.div_mul by lia.
    replace (nprod (map c_k cs) * (groups * cin_g))%nat with (nprod (map c_k cs) * cin_g * groups)%nat by lia. rewrite Nat.div_mul by lia.
    apply Qplus_comp; [|reflexivity]. cq. rewrite seq_mul, <- map_flat_indices.
    set (g := (co / cout_g)%nat). assert (Hgl : (g < groups)%nat) by (apply Nat.div_lt_upper_bound; lia).
    assert (Eco : co = (g * cout_g + co mod cout_g)%nat) by (unfold g; rewrite (Nat.mul_comm (co / cout_g)); apply Nat.div_mod; lia).
    pose proof (Nat.mod_upper_bound co cout_g ltac:(lia)) as Hoo. set (o' := (co mod cout_g)%nat) in *.
    assert (HI : forall t, In t (indices (map c_k cs)) -> valid_index (map c_k cs) t) by (intros t; apply in_indices).
    revert HI. generalize (indices (map c_k cs)) as ts. induction ts as [|t ts IH]; intros HI; [reflexivity|].
    cbn [map flat_map]. rewrite map_app, !qsum_app. apply Qplus_comp; [|apply IH; intros t' Ht'; apply HI; right; exact Ht']. clear IH.
    assert (V : valid_index (map c_k cs) t) by (apply HI; left; reflexivity). rewrite map_map. apply qsum_ext. intros ci Hci. apply in_seq in Hci.
    replace ((flat (map c_k cs) t * cin_g + ci) * groups + g)%nat with (flat (map c_k cs) t * (groups * cin_g) + (ci * groups + g))%nat by nia.
    assert (Hc : (ci * groups + g < groups * cin_g)%nat) by nia.
    rewrite sym_extract_spec by (try lia; rewrite ?(Nat.mul_comm cout_g) in *; assumption). rewrite extract_tap by assumption.
    replace ((flat (map c_k cs) t * (groups * cin_g) + (ci * groups + g)) * cout_g + o')%nat with ((flat (map c_k cs) t * cin_g + ci) * (cout_g * groups) + co)%nat by nia.
    rewrite <- (flat_snoc2 (map c_k cs) t cin_g (cout_g * groups) ci co) by (apply valid_len; exact V).
    rewrite ravel_kernel_at by (try exact V; lia).
    destruct (c_positions pad cs o t) as [p|] eqn:E; [|ring].
    rewrite ravel_img_at by (try exact (c_positions_valid _ _ _ _ _ E); exact Hc). unfold shuffled.
    change (0%nat :: p ++ [(g * cin_g + ci)%nat]) with ((0%nat :: p) ++ [(g * cin_g + ci)%nat]). rewrite removelast_last, last_last.
    replace ((g * cin_g + ci) mod cin_g)%nat with ci by (rewrite Nat.add_comm, Nat.mod_add by lia; rewrite Nat.mod_small; lia).
    replace ((g * cin_g + ci) / cin_g)%nat with g by (rewrite Nat.div_add_l by lia; rewrite Nat.div_small; lia). reflexivity.
  Qed.

  Lemma conv_shuffle_id o co : (co < cout)%nat -> groups = 1%nat \/ cin_g = 1%nat ->
    conv 0 Qplus Qmult pad cs cin_g cout_g (shuffled groups cin_g x) k o co = conv 0 Qplus Qmult pad cs cin_g cout_g x k o co.
  Proof.
    intros Hco H. unfold conv. f_equal. rewrite !flat_map_concat_map. f_equal. apply map_ext. intros t. apply map_ext_in. intros ci Hci. apply in_seq in Hci.
    destruct (c_positions pad cs o t) as [p|]; [|reflexivity]. f_equal. unfold shuffled. unfold cin, cout in *.
    set (c := (co / cout_g * cin_g + ci)%nat). change (0%nat :: p ++ [c]) with ((0%nat :: p) ++ [c]). rewrite removelast_last, last_last. do 3 f_equal.
    destruct H as [->| ->].
    - assert (E : (co / cout_g = 0)%nat) by (apply Nat.div_small; lia). subst c. rewrite E. cbn [Nat.mul Nat.add]. rewrite Nat.mod_small, Nat.div_small by lia. lia.
    - rewrite Nat.mod_1_r, Nat.div_1_r. lia.
  Qed.
  Lemma replay_conv_exact o co : (co < cout)%nat -> groups = 1%nat \/ cin_g = 1%nat ->
    replay_conv pad cs cin groups cout (ravel_img cs cin x) (ravel_kernel cs cin_g cout k) bias o co ==
    conv 0 Qplus Qmult pad cs cin_g cout_g x k o co + bias co.
  Proof. intros Hco H. rewrite replay_conv_shuffled by exact Hco. rewrite conv_shuffle_id by assumption. reflexivity. Qed.
End Conv.

(** the index encoding breaks for images of more than 2^24 entries *)
Lemma encoding_breaks : f32_int (- f32_int (2 ^ 24) - 1) = f32_int (- f32_int (2 ^ 24 - 1) - 1).
Proof. vm_compute. reflexivity. Qed.

Lemma encoding_wrong {A} (fill : A) n j img : Z.of_nat j = (2 ^ 24)%Z -> (j < n)%nat ->
  c_positions VALID [mk_cdim n 1 1 1] [j] [0%nat] = Some [j] /\
  sym_extract fill VALID [mk_cdim n 1 1 1] 1 img [j] 0 = img (j - 1)%nat.
Proof.
  intros Hj Hn. assert (E : c_positions VALID [mk_cdim n 1 1 1] [j] [0%nat] = Some [j]).
  { cbn [c_positions]. unfold c_pos. cbn [c_left c_stride c_dil c_in]. cbv zeta. rewrite Nat.mul_1_r, Nat.add_0_r, Nat.sub_0_r.
    destruct (Nat.ltb_spec j 0); [lia|]. destruct (Nat.ltb_spec j n); [reflexivity|lia]. }
  split; [exact E|]. unfold sym_extract, extract. cbv zeta. cbn [map c_k]. change (0 / 1)%nat with 0%nat. cbn [unflat]. change (0 / nprod [])%nat with 0%nat.
  rewrite E. cbn [map c_in app]. change (0 mod 1)%nat with 0%nat. change ([n; 1%nat]) with ([n] ++ [1%nat]). change [j; 0%nat] with ([j] ++ [0%nat]). rewrite flat_snoc by reflexivity.
  cbn [flat nprod fold_right]. replace ((j * 1 + 0) * 1 + 0)%nat with j by lia. rewrite Hj.
  change (f32_int (- f32_int (2 ^ 24) - 1)) with (- 2 ^ 24)%Z. cbn [Z.eqb Z.opp]. change (- 2 ^ 24 =? 0)%Z with false. cbv iota. f_equal. lia.
Qed.

(** ** pooling *)
Lemma c_pos_valid c o t : (0 < c_stride c)%nat -> (o < c_out VALID c)%nat -> (t < c_k c)%nat -> exists p, c_pos VALID c o t = Some p.
Proof.
  intros Hs Ho Ht. unfold c_pos, c_out in *. cbn [c_left]. cbv zeta. destruct (Nat.ltb_spec (c_in c) (c_eff c)); [lia|].
  destruct (Nat.ltb_spec (o * c_stride c + t * c_dil c) 0); [lia|].
  destruct (Nat.ltb_spec (o * c_stride c + t * c_dil c - 0) (c_in c)) as [L|L]; [eexists; reflexivity|exfalso].
  assert (o <= (c_in c - c_eff c) / c_stride c)%nat by lia.
  assert (c_stride c * ((c_in c - c_eff c) / c_stride c) <= c_in c - c_eff c)%nat by (apply Nat.mul_div_le; lia).
  unfold c_eff in *. nia.
Qed.
Lemma valid_inside cs : (forall c, In c cs -> (0 < c_stride c)%nat) -> forall o t, valid_index (conv_out_shape VALID cs) o -> valid_index (map c_k cs) t ->
  exists p, c_positions VALID cs o t = Some p.
Proof.
  induction cs as [|c cs IH]; intros Hs o t Vo Vt; [eexists; reflexivity|].
  inversion Vo as [|o1 ? o' ? Ho Vo']; subst. inversion Vt as [|t1 ? t' ? Ht Vt']; subst. cbn [c_positions].
  destruct (c_pos_valid c o1 t1 (Hs c (or_introl eq_refl)) Ho Ht) as [p1 ->].
  destruct (IH (fun c' H => Hs c' (or_intror H)) o' t' Vo' Vt') as [p ->]. eexists. reflexivity.
Qed.
Lemma c_pos_same c o : (0 < c_stride c)%nat -> (0 < c_k c)%nat -> c_dil c = 1%nat -> (o < c_out SAME c)%nat -> exists t p, (t < c_k c)%nat /\ c_pos SAME c o t = Some p.
Proof.
  intros Hs Hk Hd Ho.
  assert (Hin : ((c_out SAME c - 1) * c_stride c < c_in c)%nat).
  { unfold c_out in *. pose proof (Nat.mul_div_le (c_in c + c_stride c - 1) (c_stride c) ltac:(lia)). nia. }
  set (left := c_left SAME c).
  assert (HL : (left <= c_k c - 1)%nat).
  { unfold left, c_left, c_eff. rewrite Hd. apply Nat.div_le_upper_bound; [lia|]. lia. }
  assert (Hos : (o * c_stride c <= (c_out SAME c - 1) * c_stride c)%nat) by (apply Nat.mul_le_mono_r; lia).
  destruct (Nat.le_gt_cases left (o * c_stride c)) as [L|L].
  - exists 0%nat, (o * c_stride c + 0 * c_dil c - left)%nat. split; [lia|]. unfold c_pos. cbv zeta. fold left.
    destruct (Nat.ltb_spec (o * c_stride c + 0 * c_dil c) left); [lia|]. destruct (Nat.ltb_spec (o * c_stride c + 0 * c_dil c - left) (c_in c)); [reflexivity|lia].
  - exists (left - o * c_stride c)%nat, 0%nat. split; [lia|]. unfold c_pos. cbv zeta. fold left. rewrite Hd.
    replace (o * c_stride c + (left - o * c_stride c) * 1)%nat with left by lia.
    destruct (Nat.ltb_spec left left); [lia|]. rewrite Nat.sub_diag. destruct (Nat.ltb_spec 0 (c_in c)); [reflexivity|lia].
Qed.
Lemma window_nonempty pad cs : pool_ok cs -> forall o, valid_index (conv_out_shape pad cs) o -> exists t p, valid_index (map c_k cs) t /\ c_positions pad cs o t = Some p.
Proof.
  induction cs as [|c cs IH]; intros H o Vo; [exists [], []; split; [constructor|reflexivity]|].
  inversion Vo as [|o1 ? o' ? Ho Vo']; subst. destruct (H c (or_introl eq_refl)) as (Hs & Hk & Hd).
  destruct (IH (fun c' Hc => H c' (or_intror Hc)) o' Vo') as (t & p & Vt & Ep).
  assert (E : exists t1 p1, (t1 < c_k c)%nat /\ c_pos pad c o1 t1 = Some p1).
  { destruct pad; [|apply c_pos_same; assumption]. destruct (c_pos_valid c o1 0 Hs Ho Hk) as [p1 E]. exists 0%nat, p1. split; assumption. }
  destruct E as (t1 & p1 & Ht & E). exists (t1 :: t), (p1 :: p). split; [constructor; assumption|]. cbn [c_positions]. rewrite E, Ep. reflexivity.
Qed.

Lemma pool_x_taps {A} (z : A) pad cs ch img o c : (c < ch)%nat -> (Z.of_nat (img_size cs ch) <= 2 ^ 24)%Z ->
  pool_x z pad cs ch img o c =
  map (fun t => match c_positions pad cs o t with Some p => img (flat (map c_in cs ++ [ch]) (p ++ [c])) | None => z end) (indices (map c_k cs)).
Proof.
  intros Hc Hs. unfold pool_x. rewrite <- map_flat_indices, map_map. apply map_ext_in. intros t Ht. apply in_indices in Ht.
  rewrite sym_extract_spec by (try lia; assumption). apply extract_tap; assumption.
Qed.
Lemma pool_mask_taps pad cs ch o c : (c < ch)%nat -> (Z.of_nat (img_size cs ch) <= 2 ^ 24)%Z -> pool_ok cs -> valid_index (conv_out_shape pad cs) o ->
  pool_mask pad cs ch o c = map (fun t => match c_positions pad cs o t with Some _ => 1%Z | None => 0%Z end) (indices (map c_k cs)).
Proof.
  intros Hc Hs Hp Vo. unfold pool_mask. destruct pad.
  - rewrite <- map_flat_indices, map_map. apply map_ext_in. intros t Ht. apply in_indices in Ht.
    destruct (valid_inside cs (fun c' H => proj1 (Hp c' H)) o t Vo Ht) as [p ->]. reflexivity.
  - rewrite (pool_x_taps 0%Z SAME cs ch (fun _ => 1%Z) o c Hc Hs). reflexivity.
Qed.

Lemma Qmax_choice x y : Qmax x y = x \/ Qmax x y = y.
Proof. unfold Qmax, GenericMinMax.gmax. destruct (x ?= y); auto. Qed.
Lemma fold_max_spec l : forall x, (fold_left Qmax l x = x \/ In (fold_left Qmax l x) l) /\ x <= fold_left Qmax l x /\ forall y, In y l -> y <= fold_left Qmax l x.
Proof.
  induction l as [|a l IH]; intros x; cbn [fold_left]; [split; [left; reflexivity|split; [lra|intros y []]]|].
  destruct (IH (Qmax x a)) as (H1 & H2 & H3). pose proof (Q.le_max_l x a) as L1. pose proof (Q.le_max_r x a) as L2. split; [|split].
  - destruct H1 as [->|H1]; [|right; right; exact H1]. destruct (Qmax_choice x a) as [->| ->]; [left; reflexivity|right; left; reflexivity].
  - lra.
  - intros y [<-|Hy]; [lra|apply H3, Hy].
Qed.
Lemma np_max_spec l : l <> [] -> In (np_max l) l /\ forall y, In y l -> y <= np_max l.
Proof.
  destruct l as [|x l]; [congruence|intros _]. cbn [np_max]. destruct (fold_max_spec l x) as (H1 & H2 & H3). split.
  - destruct H1 as [->|H1]; [left; reflexivity|right; exact H1].
  - intros y [<-|Hy]; [exact H2|apply H3, Hy].
Qed.

Lemma in_window pad cs x o c v : In v (window pad cs x o c) <-> exists t p, valid_index (map c_k cs) t /\ c_positions pad cs o t = Some p /\ v = x (0%nat :: p ++ [c]).
Proof.
  unfold window. rewrite in_flat_map. split.
  - intros (t & Ht & Hv). apply in_indices in Ht. destruct (c_positions pad cs o t) as [p|] eqn:E; [|destruct Hv]. destruct Hv as [<-|[]]. exists t, p. auto.
  - intros (t & p & Ht & E & ->). exists t. split; [apply in_indices; exact Ht|]. rewrite E. left. reflexivity.
Qed.

Section Pool.
  Context (pad : padding) (cs : list cdim) (ch : nat) (x : index -> Q).
  Context (Hp : pool_ok cs) (Hsize : (Z.of_nat (img_size cs ch) <= 2 ^ 24)%Z).

  Lemma max_pool_exact o c : (c < ch)%nat -> valid_index (conv_out_shape pad cs) o -> (forall v, In v (window pad cs x o c) -> inject_Z (-2147483648) <= v) ->
    replay_max_pool pad cs ch (ravel_img cs ch x) o c == max_pool pad cs x o c.
  Proof.
    intros Hc Vo Hlow. unfold replay_max_pool, max_pool. rewrite (pool_x_taps 0 pad cs ch _ o c Hc Hsize), (pool_mask_taps pad cs ch o c Hc Hsize Hp Vo).
    set (l := map _ (combine _ _)). destruct (window_nonempty pad cs Hp o Vo) as (t0 & p0 & Vt0 & Ep0).
    assert (Hl : forall v, In v l <-> exists t, valid_index (map c_k cs) t /\ v = match c_positions pad cs o t with Some p => x (0%nat :: p ++ [c]) | None => inject_Z (-2147483648) end).
    { intros v. subst l. assert (E : forall ts, (forall t, In t ts -> valid_index (map c_k cs) t) ->
        map (fun mx : Z * Q => if (fst mx =? 0)%Z then inject_Z (-2147483648) else snd mx)
          (combine (map (fun t => match c_positions pad cs o t with Some _ => 1%Z | None => 0%Z end) ts)
                   (map (fun t => match c_positions pad cs o t with Some p => ravel_img cs ch x (flat (map c_in cs ++ [ch]) (p ++ [c])) | None => 0 end) ts)) =
        map (fun t => match c_positions pad cs o t with Some p => x (0%nat :: p ++ [c]) | None => inject_Z (-2147483648) end) ts).
      { induction ts as [|t ts IH]; intros Hts; [reflexivity|]. cbn [map combine fst snd]. rewrite IH by (intros; apply Hts; right; assumption). f_equal.
        destruct (c_positions pad cs o t) as [p|] eqn:Ep; cbn; [|reflexivity]. apply ravel_img_at; [exact (c_positions_valid _ _ _ _ _ Ep)|exact Hc]. }
      rewrite E by (intros t Ht; apply in_indices; exact Ht). rewrite in_map_iff. split.
      - intros (t & <- & Ht). exists t. split; [apply in_indices; exact Ht|reflexivity].
      - intros (t & Ht & ->). exists t. split; [reflexivity|apply in_indices; exact Ht]. }
    assert (W0 : In (x (0%nat :: p0 ++ [c])) (window pad cs x o c)) by (apply in_window; exists t0, p0; auto).
    assert (L0 : In (x (0%nat :: p0 ++ [c])) l) by (apply Hl; exists t0; rewrite Ep0; auto).
    destruct (np_max_spec l) as [M1 M2]; [intros E; rewrite E in L0; destruct L0|].
    destruct (np_max_spec (window pad cs x o c)) as [N1 N2]; [intros E; rewrite E in W0; destruct W0|].
    apply Qle_antisym.
    - apply Hl in M1. destruct M1 as (t & Vt & ->). destruct (c_positions pad cs o t) as [p|] eqn:E.
      + apply N2. apply in_window. exists t, p. auto.
      + apply (Qle_trans _ (x (0%nat :: p0 ++ [c]))); [apply Hlow, W0|apply N2, W0].
    - apply M2. apply Hl. apply in_window in N1. destruct N1 as (t & p & Vt & E & ->). exists t. split; [exact Vt|]. rewrite E. reflexivity.
  Qed.

  Lemma avg_pool_exact o c : (c < ch)%nat -> valid_index (conv_out_shape pad cs) o ->
    replay_avg_pool pad cs ch (ravel_img cs ch x) o c == avg_pool pad cs x o c /\ (0 < length (window pad cs x o c))%nat.
  Proof.
    intros Hc Vo. split.
    - unfold replay_avg_pool, avg_pool. rewrite (pool_x_taps 0 pad cs ch _ o c Hc Hsize), (pool_mask_taps pad cs ch o c Hc Hsize Hp Vo). unfold window.
      assert (G : forall ts, (forall t, In t ts -> valid_index (map c_k cs) t) ->
        qsum (map (fun t => match c_positions pad cs o t with Some p => ravel_img cs ch x (flat (map c_in cs ++ [ch]) (p ++ [c])) | None => 0 end) ts) ==
        qsum (flat_map (fun t => match c_positions pad cs o t with Some p => [x (0%nat :: p ++ [c])] | None => [] end) ts) /\
        zsum (map (fun t => match c_positions pad cs o t with Some _ => 1%Z | None => 0%Z end) ts) =
        Z.of_nat (length (flat_map (fun t => match c_positions pad cs o t with Some p => [x (0%nat :: p ++ [c])] | None => [] end) ts))).
      { induction ts as [|t ts IH]; intros Hts; [split; reflexivity|]. destruct IH as [I1 I2]; [intros; apply Hts; right; assumption|].
        cbn [map flat_map]. unfold zsum in *. cbn [fold_right]. rewrite I2, qsum_cons, qsum_app, app_length, I1.
        destruct (c_positions pad cs o t) as [p|] eqn:E.
        - rewrite ravel_img_at by (try exact (c_positions_valid _ _ _ _ _ E); exact Hc). split; [|cbn [length]; lia]. rewrite qsum_cons. change (qsum []) with 0. ring.
        - split; [|cbn [length]; lia]. change (qsum []) with 0. ring. }
      destruct (G (indices (map c_k cs))) as [G1 G2]; [intros t; apply in_indices|]. rewrite G1, G2. reflexivity.
    - destruct (window_nonempty pad cs Hp o Vo) as (t0 & p0 & Vt0 & Ep0).
      assert (W0 : In (x (0%nat :: p0 ++ [c])) (window pad cs x o c)) by (apply in_window; exists t0, p0; auto).
      destruct (window pad cs x o c); [destruct W0|cbn; lia].
  Qed.
End Pool.
