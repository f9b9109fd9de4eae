From Verif Require Import Num M_Fixed S_Fixed L_Fixed M_State M_Wrapper L_Wrapper M_Mapper S_Mapper L_Mapper M_Mirror.
From Verif Require Export S_Mirror.

Lemma kz_nn k : (0 <= kz k <= 1)%Z. Proof. destruct k; cbn; lia. Qed.

Lemma hw_wrap_spec k b n : (0 <= b)%Z -> hw_wrap k b n = overflow_code WRAP k b n.
Proof.
  intros Hb. unfold hw_wrap, overflow_code. pose proof (pow2z_pos b Hb) as P.
  rewrite Z.land_ones by (destruct k; cbn; lia).
  destruct k; cbn [kz andb].
  - rewrite (Z.pow_add_r 2 b 1) by lia. change (2 ^ 1)%Z with 2%Z.
    set (B := (2 ^ b)%Z) in *.
    pose proof (Z.mod_pos_bound n (B * 2) ltac:(lia)) as R.
    pose proof (Z.div_mod n (B * 2) ltac:(lia)) as D.
    set (m := (n mod (B * 2))%Z) in *.
    assert (T : Z.testbit m b = (B <=? m)%Z).
    { destruct (Z.leb_spec B m) as [L|L].
      - rewrite Z.testbit_true by lia. fold B.
        assert (E : (m / B = 1)%Z) by (symmetry; apply (Z.div_unique m B 1 (m - B)); lia).
        rewrite E. reflexivity.
      - rewrite Z.testbit_false by lia. fold B. rewrite Z.div_small by lia. reflexivity. }
    rewrite T. destruct (Z.leb_spec B m) as [L|L].
    + assert (E : ((n + 1 * B) mod (B * 2) = m - B)%Z) by (symmetry; apply (Z.mod_unique_pos _ _ (n / (B * 2) + 1)); [lia|nia]).
      rewrite E. lia.
    + assert (E : ((n + 1 * B) mod (B * 2) = m + B)%Z) by (symmetry; apply (Z.mod_unique_pos _ _ (n / (B * 2))); [lia|nia]).
      rewrite E. lia.
  - replace (n + 0 * 2 ^ b)%Z with n by lia. lia.
Qed.

Lemma hw_sat_spec lo hi n : (lo <= hi)%Z -> hw_sat lo hi n = Z.min (Z.max n lo) hi.
Proof. intros H. unfold hw_sat. destruct (Z.ltb_spec n lo), (Z.ltb_spec hi n); lia. Qed.

Lemma hw_quantize_eq rm om k i f x : hw_quantize rm om k i f x == base_call rm om false k i f x.
Proof.
  destruct (Z.leb_spec (i + f + kz k) 0) as [L|L].
  - unfold hw_quantize. rewrite (base_call_npos rm om k i f x) by lia.
    destruct (Z.leb_spec (i + f + kz k) 0); [reflexivity|lia].
  - rewrite base_call_pos by lia. unfold hw_quantize.
    destruct (Z.leb_spec (i + f + kz k) 0); [lia|].
    assert (Hb : (0 <= i + f)%Z) by (destruct k; cbn [kz] in L; lia).
    pose proof (pow2z_pos (i + f) Hb) as P. cbv zeta.
    apply Qmult_comp; [|reflexivity]. apply (proj2 (injZ_eq _ _)).
    destruct om.
    + apply hw_wrap_spec, Hb.
    + rewrite hw_sat_spec by (destruct k; lia). unfold overflow_code. destruct k; cbn [kz]; f_equal; f_equal; lia.
    + rewrite hw_sat_spec by (destruct k; lia). unfold overflow_code. destruct k; cbn [kz]; f_equal; f_equal; lia.
Qed.

Lemma to_int8_id z : (-128 <= z <= 127)%Z -> to_int8 z = z.
Proof. intros H. unfold to_int8. rewrite Z.mod_small; lia. Qed.

(** widths built for an input with a batch axis of unknown size have size 1 there *)
Lemma built_batch ha oa built het hom w : built_for ha oa (None :: built) het hom w -> exists w', w = 1%nat :: w'.
Proof.
  intros [_ W]. unfold weight_shape in W. cbn [weight_shape_from] in W.
  destruct (weight_shape_from 1 het built); [|discriminate]. destruct (memb 0 het); [discriminate|]. injection W as <-. eexists. reflexivity.
Qed.

Lemma bcast_ok_batch w' n sh : bcast_ok (1%nat :: w') (n :: sh) = bcast_ok w' sh.
Proof. reflexivity. Qed.
Lemma bcast_index_batch w' n j : bcast_index (1%nat :: w') (n :: j) = 0%nat :: bcast_index w' j.
Proof. reflexivity. Qed.


Lemma broadcast_batch {A} (t : tensor A) w' n sh : shape t = 1%nat :: w' ->
  broadcast_to t (n :: sh) = if bcast_ok w' sh then Some (mk_tensor (n :: sh) (fun idx => at_ t (bcast_index (1%nat :: w') idx))) else None.
Proof. intros E. unfold broadcast_to. rewrite E. reflexivity. Qed.

Lemma bcast_in s sh j : bcast_ok s sh = true -> valid_index sh j -> valid_index s (bcast_index s j).
Proof.
  intros B V. revert s B. induction V as [|i d j sh Hi V IH]; intros [|e s] B; cbn [bcast_ok] in B; try discriminate; [constructor|]. apply andb_prop in B as (B1 & B2). cbn [bcast_index]. constructor; [|exact (IH s B2)].
  destruct (Nat.eqb_spec e 1) as [->|N]; [lia|]. destruct (Nat.eqb_spec e d) as [->|]; [exact Hi|]. discriminate B1.
Qed.
Lemma mirror_base w c k i f x y w' n sh : w_scaler w = None ->
  shape k = 1%nat :: w' -> shape i = 1%nat :: w' -> shape f = 1%nat :: w' -> shape x = n :: sh ->
  int8_widths i -> int8_widths f ->
  quantizer_infer w (base_tcall c false k i f) x = Some y ->
  shape y = n :: sh /\
  forall b, exists r, mirror_quantizer w c k i f (sample b x) = Some r /\ shape r = sh /\ forall j, valid_index sh j -> at_ r j == at_ y (b :: j).
Proof.
  intros Sc Sk Si Sf Sx Wi Wf H. unfold quantizer_infer in H. rewrite Sc in H. unfold base_tcall in H. rewrite Sx in H.
  rewrite (broadcast_batch k w' n sh Sk), (broadcast_batch i w' n sh Si), (broadcast_batch f w' n sh Sf) in H.
  unfold mirror_quantizer. rewrite Sc. unfold sample. cbn [shape at_]. rewrite Sx. cbn [tl].
  rewrite (broadcast_batch k w' 1 sh Sk), (broadcast_batch i w' 1 sh Si), (broadcast_batch f w' 1 sh Sf).
  destruct (bcast_ok w' sh) eqn:Bc; [|discriminate]. cbn [bind at_] in *.
  destruct (w_affine w) as [[a b']|]; injection H as <-; (split; [reflexivity|]; intros b; eexists; split; [reflexivity|]; split; [reflexivity|]); intros j Vj;
    cbn [at_ tmap shape]; rewrite !to_int8_id by ((apply Wi; rewrite Si) || (apply Wf; rewrite Sf); apply (bcast_in (1%nat :: w') (1%nat :: sh)); [exact Bc|constructor; [lia|exact Vj]]); rewrite (hw_quantize_eq (c_rm c) (c_om c) _ _ _ (at_ x (b :: j))); reflexivity.
Qed.

Lemma kif_infer_base c hom s x : c_weight c = false ->
  kif_infer c hom s x = base_tcall c false (t_k s) (tmap round_even (t_i s)) (tmap round_even (t_f s)) x.
Proof.
  intros W. unfold kif_infer, kif_tcall. rewrite W. cbv zeta.
  destruct (is_wrap (c_om c) && c_trainable c) eqn:E; cbn [is_train].
  - unfold base_tcall. destruct (broadcast_to (tmap round_even (t_f s)) (shape x)); cbn [bind];
      destruct (broadcast_to (t_k s) (shape x)); cbn [bind]; try reflexivity;
      destruct (broadcast_to (tmap round_even (t_i s)) (shape x)); reflexivity.
  - destruct (base_tcall c false (t_k s) (tmap round_even (t_i s)) (tmap round_even (t_f s)) x); reflexivity.
Qed.
Lemma kbi_infer_base c hom s x : c_weight c = false ->
  kbi_infer c hom s x = base_tcall c false (u_k s) (tmap round_even (u_i s)) (tmap2 Z.sub (tmap round_even (u_b s)) (tmap round_even (u_i s))) x.
Proof.
  intros W. unfold kbi_infer, kbi_tcall. rewrite W. cbv zeta.
  destruct (is_wrap (c_om c) && c_trainable c) eqn:E; cbn [is_train andb].
  - unfold base_tcall. destruct (broadcast_to (tmap2 Z.sub _ _) (shape x)); cbn [bind];
      destruct (broadcast_to (u_k s) (shape x)); cbn [bind]; try reflexivity;
      destruct (broadcast_to (tmap round_even (u_i s)) (shape x)); reflexivity.
  - match goal with |- context [base_tcall ?a ?b ?c0 ?d ?e ?f] => destruct (base_tcall a b c0 d e f) end; reflexivity.
Qed.

Lemma quantizer_infer_ext w f g x : (forall x, f x = g x) -> quantizer_infer w f x = quantizer_infer w g x.
Proof. intros E. unfold quantizer_infer. rewrite E. reflexivity. Qed.

Lemma mirror_kif w c ha oa built het hom wsh s x y : w_scaler w = None -> c_weight c = false ->
  built_for ha oa (None :: built) het hom wsh -> kif_built wsh s -> shape_matches (None :: built) (shape x) ->
  int8_widths (tmap round_even (t_i s)) -> int8_widths (tmap round_even (t_f s)) ->
  quantizer_infer w (kif_infer c hom s) x = Some y ->
  shape y = shape x /\
  forall b, exists r, mirror_with w c (kif_widths s) (sample b x) = Some r /\ shape r = tl (shape x) /\ forall j, valid_index (tl (shape x)) j -> at_ r j == at_ y (b :: j).
Proof.
  intros Sc W B (Hk & Hi & Hf) M Wi Wf H. destruct (built_batch _ _ _ _ _ _ B) as [w' ->].
  destruct (shape x) as [|n sh] eqn:Sx; [inversion M|].
  rewrite (quantizer_infer_ext w _ _ x (fun x => kif_infer_base c hom s x W)) in H.
  unfold mirror_with, kif_widths. cbn [tl].
  exact (mirror_base w c (t_k s) (tmap round_even (t_i s)) (tmap round_even (t_f s)) x y w' n sh Sc Hk Hi Hf Sx Wi Wf H).
Qed.
Lemma mirror_kbi w c ha oa built het hom wsh s x y : w_scaler w = None -> c_weight c = false ->
  built_for ha oa (None :: built) het hom wsh -> kbi_built wsh s -> shape_matches (None :: built) (shape x) ->
  int8_widths (tmap round_even (u_i s)) -> int8_widths (tmap2 Z.sub (tmap round_even (u_b s)) (tmap round_even (u_i s))) ->
  quantizer_infer w (kbi_infer c hom s) x = Some y ->
  shape y = shape x /\
  forall b, exists r, mirror_with w c (kbi_widths s) (sample b x) = Some r /\ shape r = tl (shape x) /\ forall j, valid_index (tl (shape x)) j -> at_ r j == at_ y (b :: j).
Proof.
  intros Sc W B (Hk & Hb & Hi) M Wi Wf H. destruct (built_batch _ _ _ _ _ _ B) as [w' ->].
  destruct (shape x) as [|n sh] eqn:Sx; [inversion M|].
  rewrite (quantizer_infer_ext w _ _ x (fun x => kbi_infer_base c hom s x W)) in H.
  unfold mirror_with, kbi_widths. cbn [tl].
  exact (mirror_base w c (u_k s) (tmap round_even (u_i s)) (tmap2 Z.sub (tmap round_even (u_b s)) (tmap round_even (u_i s))) x y w' n sh Sc Hk Hi Hb Sx Wi Wf H).
Qed.

(** with a scaler the traced value is the layer's value divided by the scaler (before the affine map) *)
Lemma mirror_scaler w c k i f x y w' n sh s : w_scaler w = Some s -> ~ s == 0 -> w_affine w = None ->
  shape k = 1%nat :: w' -> shape i = 1%nat :: w' -> shape f = 1%nat :: w' -> shape x = n :: sh ->
  int8_widths i -> int8_widths f ->
  quantizer_infer w (base_tcall c false k i f) x = Some y ->
  forall b, exists r, mirror_quantizer w c k i f (sample b x) = Some r /\ forall j, valid_index sh j -> at_ r j * s == at_ y (b :: j).
Proof.
  intros Sc Ns Af Sk Si Sf Sx Wi Wf H b. unfold quantizer_infer in H. rewrite Sc, Af in H. unfold base_tcall in H. cbn [shape tmap] in H. rewrite Sx in H.
  rewrite (broadcast_batch k w' n sh Sk), (broadcast_batch i w' n sh Si), (broadcast_batch f w' n sh Sf) in H.
  unfold mirror_quantizer. rewrite Sc, Af. unfold sample. cbn [shape at_ tmap]. rewrite Sx. cbn [tl].
  rewrite (broadcast_batch k w' 1 sh Sk), (broadcast_batch i w' 1 sh Si), (broadcast_batch f w' 1 sh Sf).
  destruct (bcast_ok w' sh) eqn:Bc; [|discriminate]. cbn [bind at_] in *. injection H as <-.
  eexists. split; [reflexivity|]. intros j Vj. cbn [at_ tmap]. rewrite !to_int8_id by ((apply Wi; rewrite Si) || (apply Wf; rewrite Sf); apply (bcast_in (1%nat :: w') (1%nat :: sh)); [exact Bc|constructor; [lia|exact Vj]]).
  apply Qmult_comp; [|reflexivity]. rewrite (hw_quantize_eq (c_rm c) (c_om c) _ _ _ (at_ x (b :: j) * (1 / s))).
  change (bcast_index (1%nat :: w') (b :: j)) with (bcast_index (1%nat :: w') (0%nat :: j)).
  refine (base_call_Proper _ _ _ _ _ _ (at_ x (b :: j) * (1 / s)) (at_ x (b :: j) / s) _). field. exact Ns.
Qed.

(** ** ReLU *)
Lemma qlt_b_spec x y : qlt_b x y = true <-> x < y.
Proof. unfold qlt_b. rewrite negb_true_iff. split; intros H.
  - apply Qnot_le_lt. intros L. apply Qle_bool_iff in L. congruence.
  - apply not_true_is_false. intros L. apply Qle_bool_iff in L. lra. Qed.
Lemma qlt_b_false x y : qlt_b x y = false <-> y <= x.
Proof. unfold qlt_b. rewrite negb_false_iff. apply Qle_bool_iff. Qed.
Lemma relu_pos x : 0 <= x -> relu x == x. Proof. intros H. unfold relu. apply Q.max_r. exact H. Qed.
Lemma relu_neg x : x <= 0 -> relu x == 0. Proof. intros H. unfold relu. apply Q.max_l. exact H. Qed.
#[global] Instance relu_Proper : Proper (Qeq ==> Qeq) relu.
Proof. intros x y E. unfold relu. rewrite E. reflexivity. Qed.

Lemma grid_step f x y nx ny : x == inject_Z nx * pow2 (- f) -> y == inject_Z ny * pow2 (- f) -> y < x -> y + pow2 (- f) <= x.
Proof.
  intros Ex Ey L. pose proof (pow2_pos (- f)) as P. rewrite Ex, Ey in *.
  assert (H : (ny < nx)%Z).
  { apply (proj1 (injZ_lt _ _)). nra. }
  assert (H' : (ny + 1 <= nx)%Z) by lia. apply (proj2 (injZ_le _ _)) in H'. rewrite injZ_add in H'. change (inject_Z 1) with 1 in H'. nra.
Qed.

(** z_cond has the sign that says "not above the threshold" *)
Lemma cond_grid f th x n m r : x == inject_Z n * pow2 (- f) -> th == (inject_Z m + r) * pow2 (- f) -> 0 <= r -> r <= 1#2 ->
  (x - (th + pow2 (- f - 1)) < 0 <-> x <= th).
Proof.
  intros Ex Et R0 R1. pose proof (pow2_pos (- f)) as P. assert (Hh : pow2 (- f) == 2 * pow2 (- f - 1)) by apply pow2_pred.
  split.
  - intros H. destruct (Z.le_gt_cases n m) as [L|L].
    + apply (proj2 (injZ_le _ _)) in L. rewrite Ex, Et. nra.
    + assert (L' : (m + 1 <= n)%Z) by lia. apply (proj2 (injZ_le _ _)) in L'. rewrite injZ_add in L'. change (inject_Z 1) with 1 in L'. rewrite Ex, Et in H. nra.
  - intros H. pose proof (pow2_pos (- f - 1)). lra.
Qed.

Lemma relu_replay low f th neg maxv x n m r : x == inject_Z n * pow2 (- f) -> th == (inject_Z m + r) * pow2 (- f) -> 0 <= r <= 1#2 ->
  0 <= th -> (forall v, maxv = Some v -> 0 <= v) -> low <= x ->
  replay_relu low f th neg maxv x == keras_relu th neg maxv x.
Proof.
  intros Ex Et [R0 R1] T0 M0 Lx. unfold replay_relu, keras_relu. cbv zeta.
  destruct (Qeq_bool th 0) eqn:Eth.
  - apply Qeq_bool_iff in Eth. destruct (Qeq_bool neg 0) eqn:En; cbn [andb].
    + apply Qeq_bool_iff in En. destruct maxv as [v|]; cbn.
      * pose proof (M0 v eq_refl) as Hv. unfold msb_mux.
        destruct (qlt_b (low - 0) 0) eqn:E1.
        -- destruct (qlt_b (x - 0) 0) eqn:E2.
           ++ apply qlt_b_spec in E2. rewrite En. rewrite (relu_neg x) by lra. unfold clip. rewrite Q.max_l by lra. rewrite Q.min_l by lra. ring.
           ++ apply qlt_b_false in E2. rewrite (relu_pos x) by lra. unfold clip. rewrite (Q.max_l x 0) by lra. reflexivity.
        -- apply qlt_b_false in E1. rewrite (relu_pos x) by lra. unfold clip. rewrite (Q.max_l x 0) by lra. reflexivity.
      * reflexivity.
    + assert (X : forall y, y == (match maxv with Some m0 => clip 0 m0 (relu x) | None => relu x end) - neg * relu (- x) ->
                 0 <= x -> (match maxv with Some m0 => Qmin x m0 | None => x end) == y).
      { intros y -> Hx. rewrite (relu_neg (- x)) by lra. destruct maxv as [v|].
        - unfold clip. rewrite (relu_pos x Hx). rewrite (Q.max_l x 0) by lra. ring.
        - rewrite (relu_pos x Hx). ring. }
      assert (Y : x <= 0 -> (x - th) * neg == (match maxv with Some m0 => clip 0 m0 (relu x) | None => relu x end) - neg * relu (- x)).
      { intros Hx. rewrite (relu_pos (- x)) by lra. destruct maxv as [v|].
        - unfold clip. pose proof (M0 v eq_refl). rewrite (relu_neg x Hx). rewrite (Q.max_l 0 0) by lra. rewrite Q.min_l by lra. rewrite Eth. ring.
        - rewrite (relu_neg x Hx). rewrite Eth. ring. }
      unfold msb_mux. destruct (qlt_b (low - 0) 0) eqn:E1.
      * destruct (qlt_b (x - 0) 0) eqn:E2.
        -- apply qlt_b_spec in E2. apply Y. lra.
        -- apply qlt_b_false in E2. apply X; [reflexivity|lra].
      * apply qlt_b_false in E1. apply X; [reflexivity|lra].
  - assert (T : ~ th == 0) by (intros E; apply Qeq_bool_iff in E; congruence). cbn [andb].
    pose proof (cond_grid f th x n m r Ex Et R0 R1) as C.
    assert (KP : th < x -> (match maxv with Some m0 => Qmin x m0 | None => x end) ==
                 (if Qeq_bool neg 0 then match maxv with Some m0 => clip 0 m0 (x * 1) | None => x * 1 end
                  else (match maxv with Some m0 => clip 0 m0 (x * 1) | None => x * 1 end) - neg * relu (- x + th))).
    { intros Hx. assert (Z0 : relu (- x + th) == 0) by (apply relu_neg; lra).
      assert (E : (match maxv with Some m0 => clip 0 m0 (x * 1) | None => x * 1 end) == (match maxv with Some m0 => Qmin x m0 | None => x end)).
      { destruct maxv as [v|]; [|ring]. unfold clip. rewrite Qmult_1_r. rewrite (Q.max_l x 0) by lra. reflexivity. }
      destruct (Qeq_bool neg 0); rewrite E, ?Z0; ring. }
    assert (KN : x <= th -> (x - th) * neg ==
                 (if Qeq_bool neg 0 then match maxv with Some m0 => clip 0 m0 (x * 0) | None => x * 0 end
                  else (match maxv with Some m0 => clip 0 m0 (x * 0) | None => x * 0 end) - neg * relu (- x + th))).
    { intros Hx. assert (Z0 : relu (- x + th) == - x + th) by (apply relu_pos; lra).
      assert (E : (match maxv with Some m0 => clip 0 m0 (x * 0) | None => x * 0 end) == 0).
      { destruct maxv as [v|]; [|ring]. unfold clip. pose proof (M0 v eq_refl). rewrite Qmult_0_r. rewrite (Q.max_l 0 0) by lra. rewrite Q.min_l by lra. reflexivity. }
      destruct (Qeq_bool neg 0) eqn:En; rewrite E, ?Z0; [apply Qeq_bool_iff in En; rewrite En|]; ring. }
    unfold msb_mux. destruct (qlt_b (low - (th + pow2 (- f - 1))) 0) eqn:E1.
    + destruct (qlt_b (x - (th + pow2 (- f - 1))) 0) eqn:E2.
      * apply qlt_b_spec in E2. apply C in E2. destruct (qlt_b th x) eqn:E3; [apply qlt_b_spec in E3; lra|]. apply KN, E2.
      * apply qlt_b_false in E2. assert (Hx : th < x) by (apply Qnot_le_lt; intros H; apply C in H; lra).
        destruct (qlt_b th x) eqn:E3; [|apply qlt_b_false in E3; lra]. apply KP, Hx.
    + apply qlt_b_false in E1. assert (Hx : th < x) by (pose proof (pow2_pos (- f - 1)); lra).
      destruct (qlt_b th x) eqn:E3; [|apply qlt_b_false in E3; lra]. apply KP, Hx.
Qed.

(** a threshold in the upper half of a grid cell sends the first code above it to the wrong side *)
Lemma relu_replay_wrong f m r low : 1#2 < r -> r < 1 -> (0 <= m)%Z -> low <= 0 ->
  let th := (inject_Z m + r) * pow2 (- f) in let x := inject_Z (m + 1) * pow2 (- f) in
  keras_relu th 0 None x == x /\ replay_relu low f th 0 None x == 0 /\ 0 < x.
Proof.
  intros R0 R1 M0 L th x. pose proof (pow2_pos (- f)) as P. pose proof (pow2_pos (- f - 1)) as P1. assert (Hh : pow2 (- f) == 2 * pow2 (- f - 1)) by apply pow2_pred.
  apply (proj2 (injZ_le _ _)) in M0. change (inject_Z 0) with 0 in M0.
  assert (Ex : x == (inject_Z m + 1) * pow2 (- f)) by (unfold x; rewrite injZ_add; reflexivity).
  assert (Hth : 0 < th) by (unfold th; nra). assert (Hx : th < x) by (rewrite Ex; unfold th; nra).
  assert (Eth : Qeq_bool th 0 = false) by (apply not_true_is_false; intros E; apply Qeq_bool_iff in E; lra).
  split; [|split].
  - unfold keras_relu. cbv zeta. rewrite Eth. change (Qeq_bool 0 0) with true. cbv iota.
    destruct (qlt_b th x) eqn:E; [ring|apply qlt_b_false in E; lra].
  - unfold replay_relu. cbv zeta. rewrite Eth. cbn [andb]. unfold msb_mux.
    destruct (qlt_b (low - (th + pow2 (- f - 1))) 0) eqn:E; [|apply qlt_b_false in E; lra].
    destruct (qlt_b (x - (th + pow2 (- f - 1))) 0) eqn:E2; [ring|]. apply qlt_b_false in E2. rewrite Ex in E2. unfold th in E2. nra.
  - lra.
Qed.

Lemma leaky_replay low f neg x : low <= x -> replay_relu low f 0 neg None x == (if qlt_b x 0 then neg * x else x).
Proof.
  intros L. unfold replay_relu. cbv zeta. change (Qeq_bool 0 0) with true. cbn [andb].
  destruct (Qeq_bool neg 0) eqn:En; cbn [andb].
  - apply Qeq_bool_iff in En. destruct (qlt_b x 0) eqn:E.
    + apply qlt_b_spec in E. rewrite relu_neg by lra. rewrite En. ring.
    + apply qlt_b_false in E. apply relu_pos, E.
  - unfold msb_mux. destruct (qlt_b (low - 0) 0) eqn:E1.
    + destruct (qlt_b (x - 0) 0) eqn:E2, (qlt_b x 0) eqn:E3; try (ring);
        first [apply qlt_b_spec in E2; apply qlt_b_false in E3; lra | apply qlt_b_false in E2; apply qlt_b_spec in E3; lra].
    + apply qlt_b_false in E1. destruct (qlt_b x 0) eqn:E3; [apply qlt_b_spec in E3; lra|reflexivity].
Qed.
Lemma prelu_replay low f alpha x : low <= x -> replay_relu low f 0 alpha None x == keras_prelu alpha x.
Proof.
  intros L. rewrite (leaky_replay low f alpha x L). unfold keras_prelu. destruct (qlt_b x 0) eqn:E.
  - apply qlt_b_spec in E. rewrite (relu_neg x), (relu_pos (- x)) by lra. ring.
  - apply qlt_b_false in E. rewrite (relu_pos x), (relu_neg (- x)) by lra. ring.
Qed.
