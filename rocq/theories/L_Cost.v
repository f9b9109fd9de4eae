From Coq Require Import String.
From Verif Require Import Num M_Fixed L_Fixed M_State M_Wrapper M_Mapper S_Mapper L_Mapper M_Contr M_Ebops S_Ebops L_Ebops M_Pow2 M_Patch S_Patch M_Ops L_Ops M_Mirror S_Mirror M_Trace S_Trace M_Table M_Softmax M_Net S_Net L_Net L_Net2 L_Net3 S_Ops.
From Verif Require Import M_Calib S_Calib L_Calib L_Calib2 M_Prog M_Rnn S_Rnn S_Prog L_Prog L_Prog2 L_Prog3 M_Cost S_Cost S_Batch L_Net4.
From Verif Require Import S_Ebops L_Ebops.
Local Open Scope list_scope.

Lemma clip_zero r : clip 0 0 r == 0.
Proof. unfold clip. apply Q.min_r. apply Q.le_max_r. Qed.
Lemma zero_bits_zero rm om k i f b x : (om <> WRAP \/ (k = true -> 0 < b)%Z) -> (i + f <= b)%Z -> (0 <= b)%Z -> q_bits om k b = 0%Z -> base_call rm om false k i f x == 0.
Proof.
  intros W L Nb Z. unfold base_call. destruct (Z.ltb_spec 0 (kz k + i + f)) as [H|]; [|reflexivity]. destruct k; cbn [kz] in H.
  2:{ destruct om; cbn [q_bits kz] in Z; lia. }
  destruct om; cbn [q_bits kz] in Z.
  - destruct W as [W|W]; [contradiction W; reflexivity|]. specialize (W eq_refl). lia.
  - lia.
  - assert (i = - f)%Z by lia. subst i. unfold stateless, overflow. set (r := round_f rm f x). assert (E : pow2 (- f) - pow2 (- f) == 0) by ring.
    change (inject_Z (kz true)) with 1. assert (E2 : - (1) * (pow2 (- f) - pow2 (- f)) == 0) by ring. rewrite E2, E. apply clip_zero.
Qed.
Lemma kif_base c hom s u o : (c_om c <> WRAP \/ c_weight c = false) -> kif_infer c hom s u = Some o -> base_tcall c false (t_k s) (tmap round_even (t_i s)) (tmap round_even (t_f s)) u = Some o.
Proof.
  intros W E. unfold kif_infer in E. destruct (kif_tcall c hom Infer s u) as [[s' o']|] eqn:K; [|discriminate]. cbn [bind] in E. apply some_inj in E. subst o'. unfold kif_tcall in K. cbv zeta in K. cbn [is_train] in K.
  destruct (is_wrap (c_om c) && c_trainable c)%bool eqn:I.
  - destruct W as [W|W]; [destruct (c_om c); [contradiction W; reflexivity|discriminate I|discriminate I]|]. rewrite W in K. destruct (broadcast_to _ (shape u)); [cbn [bind] in K|discriminate]. destruct (base_tcall _ _ _ _ _ u) as [y|]; [|discriminate]. cbn [bind] in K. injection K as <- <-. reflexivity.
  - destruct (base_tcall _ _ _ _ _ u) as [y|]; [|discriminate]. cbn [bind] in K. injection K as <- <-. reflexivity.
Qed.
Lemma kbi_base c hom s u o : (c_om c <> WRAP \/ c_weight c = false) -> kbi_infer c hom s u = Some o -> base_tcall c false (u_k s) (tmap round_even (u_i s)) (tmap2 Z.sub (tmap round_even (u_b s)) (tmap round_even (u_i s))) u = Some o.
Proof.
  intros W E. unfold kbi_infer in E. destruct (kbi_tcall c hom Infer s u) as [[s' o']|] eqn:K; [|discriminate]. cbn [bind] in E. apply some_inj in E. subst o'. unfold kbi_tcall in K. cbv zeta in K. cbn [is_train] in K.
  destruct (is_wrap (c_om c) && c_trainable c)%bool eqn:I.
  - destruct W as [W|W]; [destruct (c_om c); [contradiction W; reflexivity|discriminate I|discriminate I]|]. rewrite W in K. cbn [andb] in K. destruct (broadcast_to _ (shape u)); [cbn [bind] in K|discriminate]. destruct (base_tcall _ _ _ _ _ u) as [y|]; [|discriminate]. cbn [bind] in K. injection K as <- <-. reflexivity.
  - destruct (base_tcall _ _ _ _ _ u) as [y|]; [|discriminate]. cbn [bind] in K. injection K as <- <-. reflexivity.
Qed.
Lemma base_at c k i f u o j : shape i = shape k -> shape f = shape k -> base_tcall c false k i f u = Some o ->
  let g := bcast_index (shape k) j in at_ o j = base_call (c_rm c) (c_om c) false (at_ k g) (at_ i g) (at_ f g) (at_ u j).
Proof.
  intros Ei Ef. unfold base_tcall, broadcast_to. rewrite Ei, Ef. destruct (bcast_ok (shape k) (shape u)); [|discriminate]. cbn [bind]. intros H. apply some_inj in H. subst o. reflexivity.
Qed.
(** an element whose reported width is zero is quantized to zero *)
Lemma quant_zero q x y sh t i j : silent q -> quant_call q x = Some y -> bits_ (qbits_of q) sh = Some t -> bcast_index (shape (qb_k (qbits_of q))) i = bcast_index (shape (qb_k (qbits_of q))) j ->
  at_ t j == 0 -> at_ y i == 0.
Proof.
  intros (A & O & N & W) E B G Z. rewrite (proj2 (bits_at _ _ _ B)) in Z. cbv zeta in Z. rewrite <- G in Z. set (g := bcast_index (shape (qb_k (qbits_of q))) i) in *.
  assert (Zb : q_bits (qb_om (qbits_of q)) (at_ (qb_k (qbits_of q)) g) (at_ (qb_b (qbits_of q)) g) = 0%Z). { change 0 with (inject_Z 0) in Z. rewrite inject_Z_injective in Z. exact Z. }
  clear Z. specialize (N g). assert (W1 : c_om (q_c q) <> WRAP \/ c_weight (q_c q) = false) by tauto.
  assert (W2 : c_om (q_c q) <> WRAP \/ (at_ (qb_k (qbits_of q)) g = true -> 0 < at_ (qb_b (qbits_of q)) g)%Z) by (destruct W as [W|(_ & W)]; [left; exact W|right; apply W]).
  unfold quant_call, quantizer_infer in E. cbv zeta in E. rewrite A in E. set (u := match w_scaler (q_w q) with Some s => tmap (fun x => x / s) x | None => x end) in E. unfold one_shape in O. unfold qbits_of in *.
  destruct (match q_s q with inl s => _ | inr s => _ end u) as [o|] eqn:Eo; [|discriminate]. cbn [bind] in E. apply some_inj in E.
  assert (V : at_ o i == 0).
  { destruct (q_s q) as [s|s]; cbn [qb_om qb_k qb_b] in *; destruct O as (O1 & O2).
    - apply kif_base in Eo; [|exact W1]. rewrite (base_at _ _ _ _ _ _ i) with (3 := Eo) by assumption. cbv zeta. fold g. cbn [tmap tmap2 at_] in *. refine (zero_bits_zero _ _ _ _ _ _ _ W2 _ N Zb). unfold kif_b. lia.
    - apply kbi_base in Eo; [|exact W1]. rewrite (base_at _ _ _ _ _ _ i) with (3 := Eo) by (cbn [tmap tmap2 shape]; assumption). cbv zeta. fold g. cbn [tmap tmap2 at_] in *. refine (zero_bits_zero _ _ _ _ _ _ _ W2 _ N Zb). lia. }
  subst y. destruct (w_scaler (q_w q)) as [s|]; cbn [tmap at_]; [|exact V]. rewrite V. ring.
Qed.
Lemma bcast_batch {A} (w : tensor A) b r : over_batch w -> bcast_index (shape w) (b :: r) = bcast_index (shape w) (0%nat :: r).
Proof. intros (t & ->). reflexivity. Qed.
(** a multiplication that costs nothing: of element [b :: r] of a batch and element [j] of the kernel *)
Lemma costless q kq x w x' w' bi bk s b r j : silent q -> over_batch (qb_k (qbits_of q)) -> silent kq -> quant_call q x = Some x' -> quant_call kq w = Some w' ->
  bits_ (qbits_of q) (1%nat :: s) = Some bi -> bits_ (qbits_of kq) (shape w) = Some bk -> at_ bi (0%nat :: r) * at_ bk j == 0 -> at_ x' (b :: r) * at_ w' j == 0.
Proof.
  intros Sq Ob Sk E E' B B' Z. apply Qmult_integral in Z. destruct Z as [Z|Z].
  - rewrite (quant_zero q x x' _ bi (b :: r) (0%nat :: r) Sq E B (bcast_batch _ _ _ Ob) Z). ring.
  - rewrite (quant_zero kq w w' _ bk j j Sk E' B' eq_refl Z). ring.
Qed.

(** ** a sum all of whose terms are zero *)
Lemma csum_zero l : (forall v, In v l -> v == 0) -> csum 0 Qplus l == 0.
Proof. induction l as [|v l IH]; intros H; [reflexivity|]. change (csum 0 Qplus (v :: l)) with (v + csum 0 Qplus l). rewrite (H v (or_introl eq_refl)), IH by (intros u Hu; apply H; right; exact Hu). reflexivity. Qed.
Lemma matmul_zero n x k idx : (forall i, (i < n)%nat -> x (removelast idx ++ [i]) * k [i; last idx 0%nat] == 0) -> matmul 0 Qplus Qmult n x k idx == 0.
Proof. intros H. unfold matmul. apply csum_zero. intros v Hv. apply in_map_iff in Hv as (i & <- & Hi). apply in_seq in Hi. apply H. lia. Qed.

(** ** the rest of the layer *)
Lemma rest_same tab iq kq w bias t a oq x x' y y' (core1 : tensor Q -> tensor Q -> option (tensor Q)) :
  on_numbers (act_fn a) ->
  (forall k c, core_of t [k] = Some c -> forall u, core_call c (One u) = core1 k u) -> (forall k b c, core_of t [k; b] = Some c -> forall u, core_call c (One u) = do z <- core1 k u; add_bias z (Some b)) ->
  (forall u u' k z z', quant_call (tab iq) x = Some u -> quant_call (tab iq) x' = Some u' -> quant_call (tab kq) w = Some k -> core1 k u = Some z -> core1 k u' = Some z' -> same_tensor z z') ->
  eval tab (layer_prog (layer_of iq kq w bias t a oq) (One x)) = Some y -> eval tab (layer_prog (layer_of iq kq w bias t a oq) (One x')) = Some y' -> same_tensor y y'.
Proof.
  intros A C1 C2 Z E E'. unfold layer_prog, layer_of in E, E'. cbn [y_iq y_ws y_op y_oq ask_iq] in E, E'. rewrite !eval_then in E, E'. unfold ask in E, E'. cbn [eval] in E, E'.
  destruct (quant_call (tab iq) x) as [u|] eqn:U; [|discriminate]. destruct (quant_call (tab iq) x') as [u'|] eqn:U'; [|discriminate]. cbn [bind eval] in E, E'. rewrite !eval_then in E, E'.
  destruct (eval tab (ask_ws ((Some kq, w) :: bias_weight bias))) as [qs|] eqn:W; [|discriminate]. cbn [bind] in E, E'. rewrite !eval_then, !eval_lift in E, E'. unfold net_op in E, E'.
  destruct (core_of t qs) as [c|] eqn:C; [|discriminate]. cbn [bind] in E, E'.
  destruct (core_call c (One u)) as [z|] eqn:Ez; [|discriminate]. destruct (core_call c (One u')) as [z'|] eqn:Ez'; [|discriminate]. cbn [bind] in E, E'.
  assert (S : same_tensor z z').
  { cbn [ask_ws] in W. rewrite eval_then, eval_ask_opt in W. destruct (quant_call (tab kq) w) as [k|] eqn:K; [|discriminate]. cbn [bind] in W. rewrite eval_then in W.
    destruct bias as [[id bt]|]; cbn [bias_weight ask_ws] in W.
    - rewrite eval_then, eval_ask_opt in W. destruct (quant_call (tab id) bt) as [b|]; [|discriminate]. cbn [bind eval then_] in W. apply some_inj in W. subst qs. rewrite (C2 k b c C) in Ez, Ez'.
      destruct (core1 k u) as [v|] eqn:V; [|discriminate]. destruct (core1 k u') as [v'|] eqn:V'; [|discriminate]. cbn [bind] in Ez, Ez'. pose proof (Z u u' k v v' eq_refl eq_refl eq_refl V V') as Sv.
      destruct (bias_same v v' (Some b) (Some b) z Sv (st_refl b) Ez) as (z2 & E2 & S2). rewrite E2 in Ez'. apply some_inj in Ez'. subst z2. exact S2.
    - cbn [eval bind] in W. apply some_inj in W. subst qs. rewrite (C1 k c C) in Ez, Ez'. exact (Z u u' k z z' eq_refl eq_refl eq_refl Ez Ez'). }
  pose proof (st_tmap (act_fn a) z z' A S) as Sa. rewrite eval_ask_opt in E, E'. destruct oq as [id|].
  - destruct (quant_call_same _ _ _ _ Sa E) as (y2 & E2 & S2). rewrite E2 in E'. apply some_inj in E'. subst y2. exact S2.
  - apply some_inj in E. apply some_inj in E'. subst. exact Sa.
Qed.

(** ** a figure of zero: every multiplication costs nothing *)
Lemma scaled_zero a c f n : 0 <= a -> 0 <= c -> 0 < f -> 0 < n -> (a + c) * f / n == 0 -> a == 0.
Proof.
  intros Ha Hc Hf Hn E. assert (E2 : (a + c) * f == 0). { assert (X : (a + c) * f == (a + c) * f / n * n) by (field; intros Z; rewrite Z in Hn; exact (Qlt_irrefl _ Hn)). rewrite X, E. ring. }
  apply Qmult_integral in E2. destruct E2 as [E2|E2]; [lra|rewrite E2 in Hf; exfalso; exact (Qlt_irrefl _ Hf)].
Qed.
Lemma dense_factor_pos pf n : (0 < n)%nat -> pf <> 0%Z -> 0 < dense_factor pf n.
Proof. intros Hn Hp. unfold dense_factor. change 0 with (inject_Z 0). rewrite <- Zlt_Qlt. destruct (Z.ltb_spec pf 0); lia. Qed.
Lemma dense_figure_zero sh units pf iq kq bq e : (0 < units)%nat -> (0 < dense_n_parallel sh)%nat -> pf <> 0%Z -> widths_ok iq -> widths_ok kq -> widths_ok_opt bq ->
  dense_ebops sh units pf iq kq bq = Some e -> e == 0 ->
  exists bi bk, bits_ iq sh = Some bi /\ bits_ kq [last sh 0%nat; units] = Some bk /\ forall a b, In (a, b) (dense_mults sh units) -> at_ bi a * at_ bk b == 0.
Proof.
  intros Hu Hn Hp Wi Wk Wb E Z. destruct (dense_ebops_spec _ _ _ _ _ _ _ Hu E) as (bi & bk & c & Ei & Ek & Hc & He). exists bi, bk. split; [exact Ei|]. split; [exact Ek|].
  rewrite He in Z. apply scaled_zero in Z; [|apply cost_nonneg; [exact (bits_nonneg _ _ _ Wi Ei)|exact (bits_nonneg _ _ _ Wk Ek)]|exact (dense_bias_nonneg _ _ _ _ Wb Hc)|apply dense_factor_pos; assumption|apply nQ_pos; assumption].
  pose proof (proj1 (cost_zero _ _ _ (bits_nonneg _ _ _ Wi Ei) (bits_nonneg _ _ _ Wk Ek)) Z) as Z'. intros a b Hab. destruct (Z' a b Hab) as [X|X]; rewrite X; ring.
Qed.

(** ** dense *)
Lemma dense_zero iq kq s units pf bq e x w u k z : s <> [] -> (0 < units)%nat -> (0 < dense_n_parallel (1%nat :: s))%nat -> pf <> 0%Z -> silent iq -> over_batch (qb_k (qbits_of iq)) -> silent kq ->
  widths_ok_opt bq -> shape w = [last s 0%nat; units] -> dense_ebops (1%nat :: s) units pf (qbits_of iq) (qbits_of kq) bq = Some e -> e == 0 ->
  tl (shape u) = s -> shape u <> [] -> quant_call iq x = Some u -> quant_call kq w = Some k -> shape k = shape w -> keras_matmul u k = Some z -> forall i, valid_index (shape z) i -> at_ z i == 0.
Proof.
  intros Hs Hu Hn Hp Si Ob Sk Wb Sw E Z Su Nu Q K Shk M i V.
  destruct (dense_figure_zero _ _ _ _ _ _ _ Hu Hn Hp (proj1 (proj2 (proj2 Si))) (proj1 (proj2 (proj2 Sk))) Wb E Z) as (bi & bk & Ei & Ek & C).
  unfold keras_matmul in M. rewrite Shk, Sw in M. destruct (_ && _)%bool; [|discriminate]. apply some_inj in M. subst z. cbn [shape at_] in *. apply valid_snoc_inv in V as (V & Hj).
  apply matmul_zero. intros c Hc. destruct (shape u) as [|B s']; [contradiction Nu; reflexivity|]. cbn [tl] in Su. subst s'. destruct s as [|d s]; [contradiction Hs; reflexivity|].
  change (removelast (B :: d :: s)) with (B :: removelast (d :: s)) in V. destruct (removelast i) as [|b l]; [inversion V|]. assert (Vl : valid_index (removelast (d :: s)) l) by (inversion V; subst; assumption).
  change ((b :: l) ++ [c]) with (b :: l ++ [c]). change (last (1%nat :: d :: s) 0%nat) with (last (d :: s) 0%nat) in Ek.
  apply (costless iq kq x w u k bi bk (d :: s) b (l ++ [c]) [c; last i 0%nat]); try assumption; [rewrite Sw; exact Ek|].
  apply C. apply in_dense_mults. exists (0%nat :: l), c, (last i 0%nat). change (removelast (1%nat :: d :: s)) with (1%nat :: removelast (d :: s)). change (last (1%nat :: d :: s) 0%nat) with (last (d :: s) 0%nat).
  split; [constructor; [lia|exact Vl]|]. split; [exact Hc|]. split; [exact Hj|]. split; reflexivity.
Qed.
Lemma zeros_same z z' : shape z = shape z' -> (forall i, valid_index (shape z) i -> at_ z i == 0) -> (forall i, valid_index (shape z') i -> at_ z' i == 0) -> same_tensor z z'.
Proof. intros S H H'. split; [exact S|]. intros i Hi. rewrite (H i Hi). symmetry. apply H'. rewrite <- S. exact Hi. Qed.
Lemma matmul_shape u u' k z z' : shape u = shape u' -> keras_matmul u k = Some z -> keras_matmul u' k = Some z' -> shape z = shape z'.
Proof. intros S. unfold keras_matmul. rewrite S. destruct (shape k) as [|c [|v [|]]]; try discriminate. destruct (_ && _)%bool; [|discriminate]. intros H H'. apply some_inj in H. apply some_inj in H'. subst. reflexivity. Qed.
Theorem dense_constant tab iq kq w bias a oq s units pf e B x x' y y' : on_numbers (act_fn a) -> s <> [] -> (0 < units)%nat -> (0 < dense_n_parallel (1%nat :: s))%nat -> pf <> 0%Z ->
  silent (tab iq) -> over_batch (qb_k (qbits_of (tab iq))) -> silent (tab kq) -> widths_ok_opt (bias_bits tab bias) -> shape w = [last s 0%nat; units] ->
  dense_ebops (1%nat :: s) units pf (qbits_of (tab iq)) (qbits_of (tab kq)) (bias_bits tab bias) = Some e -> e == 0 -> shape x = B :: s -> shape x' = B :: s ->
  eval tab (layer_prog (layer_of iq kq w bias TDense a oq) (One x)) = Some y -> eval tab (layer_prog (layer_of iq kq w bias TDense a oq) (One x')) = Some y' -> same_tensor y y'.
Proof.
  intros A Hs Hu Hn Hp Si Ob Sk Wb Sw E Z Sx Sx'. apply (rest_same tab iq kq w bias TDense a oq x x' y y' (fun k u => keras_matmul u k) A).
  - intros k c C u. apply some_inj in C. subst c. cbn [core_call]. destruct (keras_matmul u k); reflexivity.
  - intros k b c C u. apply some_inj in C. subst c. reflexivity.
  - intros u u' k z z' U U' K M M'. pose proof (quant_shape _ _ _ U) as Su. pose proof (quant_shape _ _ _ U') as Su'. pose proof (quant_shape _ _ _ K) as Sk'.
    apply zeros_same; [apply (matmul_shape u u' k); [congruence|exact M|exact M']| |].
    + apply (dense_zero (tab iq) (tab kq) s units pf (bias_bits tab bias) e x w u k z); try assumption; rewrite Su, Sx; [reflexivity|discriminate].
    + apply (dense_zero (tab iq) (tab kq) s units pf (bias_bits tab bias) e x' w u' k z'); try assumption; rewrite Su', Sx'; [reflexivity|discriminate].
Qed.

(** ** convolution *)
Lemma conv_zero pad cs gi go x k idx co : (forall p t ci, c_positions pad cs idx t = Some p -> In t (indices (map c_k cs)) -> (ci < gi)%nat -> x (0%nat :: p ++ [co / go * gi + ci]%nat) * k (t ++ [ci; co]) == 0) ->
  conv 0 Qplus Qmult pad cs gi go x k idx co == 0.
Proof.
  intros H. unfold conv. apply csum_zero. intros v Hv. apply in_flat_map in Hv as (t & Ht & Hv). apply in_map_iff in Hv as (ci & <- & Hci). apply in_seq in Hci.
  destruct (c_positions pad cs idx t) as [p|] eqn:P; [|reflexivity]. apply H; [exact P|exact Ht|lia].
Qed.
Lemma conv_zero_inv pad cs gi go x k idx co : (forall i, 0 <= x i) -> (forall i, 0 <= k i) -> conv 0 Qplus Qmult pad cs gi go x k idx co == 0 ->
  forall p t ci, c_positions pad cs idx t = Some p -> In t (indices (map c_k cs)) -> (ci < gi)%nat -> x (0%nat :: p ++ [co / go * gi + ci]%nat) * k (t ++ [ci; co]) == 0.
Proof.
  intros Hx Hk Z p t ci P Ht Hci. unfold conv in Z. rewrite csum_Q, qsum_flat_map in Z.
  assert (N : forall t ci, 0 <= match c_positions pad cs idx t with Some p => x (0%nat :: p ++ [co / go * gi + ci]%nat) * k (t ++ [ci; co]) | None => 0 end).
  { intros t0 c0. destruct (c_positions pad cs idx t0); [apply Qmult_le_0_compat; auto|apply Qle_refl]. }
  rewrite qsum_zero_iff in Z by (intros t0 _; apply qsum_nonneg; intros c0 _; apply N). specialize (Z t Ht). rewrite qsum_zero_iff in Z by (intros c0 _; apply N).
  specialize (Z ci). rewrite P in Z. apply Z. apply in_seq. lia.
Qed.
Lemma conv_factor_pos pf n : (0 < n)%nat -> 0 < conv_factor pf n.
Proof. intros Hn. unfold conv_factor. change 0 with (inject_Z 0). rewrite <- Zlt_Qlt. destruct (Z.leb_spec pf 0); lia. Qed.
Lemma conv_figure_zero pad cs G gi go pf iq kq bq e : (0 < conv_n_parallel pad cs)%nat -> S_Ebops.widths_ok iq -> S_Ebops.widths_ok kq -> widths_ok_opt bq ->
  conv_ebops pad cs G gi go pf iq kq bq = Some e -> e == 0 ->
  exists bi bk, bits_ iq (1%nat :: map c_in cs ++ [G * gi]%nat) = Some bi /\ bits_ kq (map c_k cs ++ [gi; G * go]%nat) = Some bk /\
    forall o co, In o (indices (conv_out_shape pad cs)) -> (co < G * go)%nat -> conv 0 Qplus Qmult pad cs gi go (at_ bi) (at_ bk) o co == 0.
Proof.
  intros Hn Wi Wk Wb E Z. unfold conv_ebops in E. destruct (bits_ iq _) as [bi|] eqn:Ei; [|discriminate]. cbn [bind] in E. destruct (bits_ kq _) as [bk|] eqn:Ek; [|discriminate]. cbn [bind] in E.
  exists bi, bk. split; [reflexivity|]. split; [reflexivity|].
  assert (N : forall o co, 0 <= conv 0 Qplus Qmult pad cs gi go (at_ bi) (at_ bk) o co).
  { intros o co. unfold conv. rewrite csum_Q, qsum_flat_map. apply qsum_nonneg. intros t _. apply qsum_nonneg. intros ci _. destruct (c_positions pad cs o t); [apply Qmult_le_0_compat; [exact (bits_nonneg _ _ _ Wi Ei _)|exact (bits_nonneg _ _ _ Wk Ek _)]|apply Qle_refl]. }
  match type of E with context [qsum ?l] => set (S := qsum l) in E end.
  assert (HS : S == qsum (map (fun o => qsum (map (conv 0 Qplus Qmult pad cs gi go (at_ bi) (at_ bk) o) (seq 0 (G * go)))) (indices (conv_out_shape pad cs)))) by (unfold S; apply qsum_flat_map).
  assert (NS : 0 <= S) by (rewrite HS; apply qsum_nonneg; intros o _; apply qsum_nonneg; intros co _; apply N).
  assert (ZS : S == 0).
  { pose proof (conv_factor_pos pf _ Hn) as F. pose proof (nQ_pos _ Hn) as P. set (f := conv_factor pf _) in *. set (n := nQ (conv_n_parallel pad cs)) in *.
    assert (X : exists c, 0 <= c /\ e == S * (f / n) + c).
    { destruct bq as [bq|].
      - destruct (bits_ bq _) as [bb|] eqn:Eb; [|discriminate]. cbn [bind] in E. apply some_inj in E. subst e. eexists. split; [|reflexivity]. apply Qmult_le_0_compat; [apply tmean_nonneg; exact (bits_nonneg _ _ _ Wb Eb)|apply nQ_nonneg].
      - apply some_inj in E. subst e. exists 0. split; [apply Qle_refl|ring]. }
    destruct X as (c & Nc & He). rewrite He in Z. assert (R : 0 < f / n) by (apply Qlt_shift_div_l; [exact P|rewrite Qmult_0_l; exact F]).
    assert (Zp : S * (f / n) == 0). { assert (0 <= S * (f / n)) by (apply Qmult_le_0_compat; [exact NS|apply Qlt_le_weak; exact R]). lra. }
    apply Qmult_integral in Zp. destruct Zp as [Zp|Zp]; [exact Zp|rewrite Zp in R; exfalso; exact (Qlt_irrefl _ R)]. }
  rewrite HS in ZS. rewrite qsum_zero_iff in ZS by (intros o _; apply qsum_nonneg; intros co _; apply N). intros o co Ho Hco. specialize (ZS o Ho). rewrite qsum_zero_iff in ZS by (intros c0 _; apply N). apply ZS. apply in_seq. lia.
Qed.
Lemma conv_zero_out iq kq pad cs G gi go pf bq e x w u k z : (0 < conv_n_parallel pad cs)%nat -> silent iq -> over_batch (qb_k (qbits_of iq)) -> silent kq -> widths_ok_opt bq ->
  conv_ebops pad cs G gi go pf (qbits_of iq) (qbits_of kq) bq = Some e -> e == 0 -> quant_call iq x = Some u -> quant_call kq w = Some k -> shape k = shape w ->
  keras_conv pad cs G gi go k u = Some z -> forall i, valid_index (shape z) i -> at_ z i == 0.
Proof.
  intros Hn Si Ob Sk Wb E Z Q K Shk M i V. destruct (conv_figure_zero _ _ _ _ _ _ _ _ _ _ Hn (proj1 (proj2 (proj2 Si))) (proj1 (proj2 (proj2 Sk))) Wb E Z) as (bi & bk & Ei & Ek & C).
  unfold keras_conv in M. destruct (shape u) as [|n s]; [discriminate|]. destruct (conv_fits cs G gi go k s) eqn:F; [|discriminate]. apply some_inj in M. subst z. cbn [shape at_] in *.
  unfold conv_fits in F. apply andb_true_iff in F as (_ & F). apply nat_list_eqb_eq in F. rewrite Shk in F.
  destruct i as [|b i]; [inversion V|]. assert (V' : valid_index (conv_out_shape pad cs ++ [(G * go)%nat]) i) by (inversion V; subst; assumption). apply valid_snoc_inv in V' as (Vo & Hco). cbn [tl hd].
  apply conv_zero. intros p t ci P Ht Hci. cbn [tl].
  apply (costless iq kq x w u k bi bk (map c_in cs ++ [(G * gi)%nat]) b (p ++ [(last i 0 / go * gi + ci)%nat]) (t ++ [ci; last i 0%nat])); try assumption; [rewrite F; exact Ek|].
  apply (conv_zero_inv pad cs gi go (at_ bi) (at_ bk) (removelast i) (last i 0%nat) (bits_nonneg _ _ _ (proj1 (proj2 (proj2 Si))) Ei) (bits_nonneg _ _ _ (proj1 (proj2 (proj2 Sk))) Ek)); try assumption.
  apply C; [apply in_indices; exact Vo|exact Hco].
Qed.
Lemma conv_shape pad cs G gi go u u' k z z' : shape u = shape u' -> keras_conv pad cs G gi go k u = Some z -> keras_conv pad cs G gi go k u' = Some z' -> shape z = shape z'.
Proof. intros S. unfold keras_conv. rewrite S. destruct (shape u') as [|n s]; [discriminate|]. destruct (conv_fits _ _ _ _ _ _); [|discriminate]. intros H H'. apply some_inj in H. apply some_inj in H'. subst. reflexivity. Qed.
Theorem conv_constant tab iq kq w bias a oq pad cs G gi go pf e x x' y y' : on_numbers (act_fn a) -> (0 < conv_n_parallel pad cs)%nat ->
  silent (tab iq) -> over_batch (qb_k (qbits_of (tab iq))) -> silent (tab kq) -> widths_ok_opt (bias_bits tab bias) ->
  conv_ebops pad cs G gi go pf (qbits_of (tab iq)) (qbits_of (tab kq)) (bias_bits tab bias) = Some e -> e == 0 -> shape x = shape x' ->
  eval tab (layer_prog (layer_of iq kq w bias (TConv pad cs G gi go) a oq) (One x)) = Some y -> eval tab (layer_prog (layer_of iq kq w bias (TConv pad cs G gi go) a oq) (One x')) = Some y' -> same_tensor y y'.
Proof.
  intros A Hn Si Ob Sk Wb E Z Sx. apply (rest_same tab iq kq w bias (TConv pad cs G gi go) a oq x x' y y' (fun k u => keras_conv pad cs G gi go k u) A).
  - intros k c C u. apply some_inj in C. subst c. cbn [core_call]. destruct (keras_conv pad cs G gi go k u); reflexivity.
  - intros k b c C u. apply some_inj in C. subst c. reflexivity.
  - intros u u' k z z' U U' K M M'. pose proof (quant_shape _ _ _ U) as Su. pose proof (quant_shape _ _ _ U') as Su'. pose proof (quant_shape _ _ _ K) as Sk'.
    apply zeros_same; [apply (conv_shape pad cs G gi go u u' k); [congruence|exact M|exact M']| |].
    + exact (conv_zero_out (tab iq) (tab kq) pad cs G gi go pf _ e x w u k z Hn Si Ob Sk Wb E Z U K Sk' M).
    + exact (conv_zero_out (tab iq) (tab kq) pad cs G gi go pf _ e x' w u' k z' Hn Si Ob Sk Wb E Z U' K Sk' M').
Qed.

(** ** einsum *)
Lemma sum_over_zero2 a (dims dims' : nat -> nat) (F F' : (nat -> nat) -> Q) : (forall e, 0 <= F' e) ->
  (forall e e0, (forall m, m <> a -> e m = e0 m) -> e0 a = 0%nat -> F' e0 == 0 -> F e == 0) ->
  forall ls e e0, ~ In a ls -> (forall l, In l ls -> dims l = dims' l) -> (forall m, m <> a -> e m = e0 m) -> e0 a = 0%nat ->
  sum_over 0 Qplus dims' ls F' e0 == 0 -> sum_over 0 Qplus dims ls F e == 0.
Proof.
  intros N H. assert (NN : forall ls e, 0 <= sum_over 0 Qplus dims' ls F' e). { induction ls as [|l ls IH]; intros e; [apply N|]. cbn [sum_over]. rewrite csum_Q. apply qsum_nonneg. intros v _. apply IH. }
  induction ls as [|l ls IH]; intros e e0 Na D R R0 Z; [exact (H e e0 R R0 Z)|].
  cbn [sum_over] in *. rewrite csum_Q in Z. rewrite qsum_zero_iff in Z by (intros v _; apply NN). apply csum_zero. intros v Hv. apply in_map_iff in Hv as (c & <- & Hc). rewrite (D l (or_introl eq_refl)) in Hc.
  apply (IH (upd e l c) (upd e0 l c)).
  - intros X. apply Na. right. exact X.
  - intros m Hm. apply D. right. exact Hm.
  - intros m Hm. unfold upd. destruct (m =? l)%nat; [reflexivity|apply R; exact Hm].
  - unfold upd. destruct (Nat.eqb_spec a l) as [->|]; [contradiction Na; left; reflexivity|exact R0].
  - apply Z. exact Hc.
Qed.
Lemma label_dims_eq li s lk t l : length li = length s -> length lk = length t -> einsum_dims li s lk t l = label_dims li s lk t l.
Proof.
  intros H1 H2. assert (X : forall ls sh, length ls = length sh -> label_dim ls sh l = if memb l ls then Some (nth (index_of l ls) sh 0%nat) else None).
  { induction ls as [|m ls IH]; intros [|d sh] E; try discriminate; [reflexivity|]. cbn [label_dim index_of memb existsb]. destruct (Nat.eqb_spec l m) as [->|Hm].
    - rewrite ?Nat.eqb_refl. reflexivity.
    - rewrite ?(proj2 (Nat.eqb_neq _ _) Hm), ?(proj2 (Nat.eqb_neq _ _) (not_eq_sym Hm)). cbn [orb nth]. apply IH. cbn [length] in E. lia. }
  unfold einsum_dims, label_dims. rewrite !X by assumption. destruct (memb l li); [reflexivity|]. destruct (memb l lk) eqn:M; [reflexivity|].
  symmetry. assert (Y : forall ls : list nat, memb l ls = false -> index_of l ls = length ls).
  { induction ls as [|m ls IH]; intros Z; [reflexivity|]. cbn [memb existsb index_of] in *. apply orb_false_iff in Z as (Z1 & Z2). rewrite Z1. cbn [length]. f_equal. apply IH, Z2. }
  rewrite (Y lk M), H2. apply nth_overflow. lia.
Qed.
Lemma einsum_zero_out iq kq a li lk lo s osh pf bq e x w u k z : ~ In a (li ++ lk ++ lo) -> NoDup lo -> incl lo (li ++ lk) -> bias_fits osh bq -> widths_ok_bias bq ->
  (0 < einsum_n_parallel (a :: li) lk (a :: lo) (1%nat :: s))%nat -> pf <> 0%Z -> silent iq -> over_batch (qb_k (qbits_of iq)) -> silent kq ->
  einsum_dense_ebops (a :: li) lk (a :: lo) (1%nat :: s) (shape w) osh pf (qbits_of iq) (qbits_of kq) bq = Some e -> e == 0 ->
  tl (shape u) = s -> shape u <> [] -> quant_call iq x = Some u -> quant_call kq w = Some k -> shape k = shape w ->
  np_einsum (a :: li) lk (a :: lo) u k = Some z -> forall i, valid_index (shape z) i -> at_ z i == 0.
Proof.
  intros Na ND Inc Bf Wb Hn Hp Si Ob Sk E Z Su Nu Q K Shk M i V.
  assert (Nli : ~ In a li) by (intros X; apply Na; apply in_or_app; left; exact X). assert (Nlk : ~ In a lk) by (intros X; apply Na; apply in_or_app; right; apply in_or_app; left; exact X).
  assert (Nlo : ~ In a lo) by (intros X; apply Na; apply in_or_app; right; apply in_or_app; right; exact X).
  assert (ND' : NoDup (a :: lo)) by (constructor; assumption). assert (Inc' : incl (a :: lo) ((a :: li) ++ lk)) by (intros m [->|Hm]; [left; reflexivity|right; apply Inc; exact Hm]).
  destruct (einsum_dense_spec _ _ _ _ _ _ _ _ _ _ _ ND' Inc' Bf E) as (bi & bk & c & Ei & Ek & Hc & He). cbv zeta in He.
  pose proof (bits_nonneg _ _ _ (proj1 (proj2 (proj2 Si))) Ei) as Nbi. pose proof (bits_nonneg _ _ _ (proj1 (proj2 (proj2 Sk))) Ek) as Nbk.
  rewrite He in Z. apply scaled_zero in Z; [|apply qsum_nonneg; intros o _; apply cost_nonneg; assumption|exact (einsum_bias_nonneg _ _ _ Wb Hc)|apply dense_factor_pos; assumption|apply nQ_pos; assumption].
  rewrite qsum_zero_iff in Z by (intros o _; apply cost_nonneg; assumption).
  destruct (shape u) as [|B s'] eqn:Shu; [contradiction Nu; reflexivity|]. cbn [tl] in Su. subst s'.
  unfold np_einsum in M. rewrite Shu, Shk in M. cbv zeta in M. destruct (_ && _ && _)%bool eqn:F; [|discriminate]. apply some_inj in M. subst z. cbn [shape at_] in *.
  apply andb_true_iff in F as (F & _). apply andb_true_iff in F as (F1 & F2). apply Nat.eqb_eq in F1. apply Nat.eqb_eq in F2.
  set (dims := label_dims (a :: li) (B :: s) lk (shape w)) in *. set (dims' := einsum_dims (a :: li) (1%nat :: s) lk (shape w)) in *.
  assert (F1' : length (a :: li) = length (1%nat :: s)) by (cbn [length] in *; lia).
  assert (Dd : forall l, l <> a -> dims l = dims' l).
  { intros l Hl. unfold dims, dims'. rewrite label_dims_eq by assumption. unfold label_dims. destruct (memb l (a :: li)); [|reflexivity]. cbn [index_of]. destruct (Nat.eqb_spec l a); [congruence|]. reflexivity. }
  assert (Da : dims' a = 1%nat) by (unfold dims'; rewrite label_dims_eq by assumption; unfold label_dims; replace (memb a (a :: li)) with true by (symmetry; apply memb_In; left; reflexivity); cbn [index_of]; rewrite Nat.eqb_refl; reflexivity).
  destruct i as [|b i]; [inversion V|]. cbn [map] in V. assert (Vi : valid_index (map dims' lo) i).
  { replace (map dims' lo) with (map dims lo) by (apply map_ext_in; intros m Hm; apply Dd; intros ->; contradiction). inversion V; subst; assumption. }
  assert (Z0 : einsum 0 Qplus Qmult dims' (a :: li) lk (a :: lo) (at_ bi) (at_ bk) (0%nat :: i) == 0).
  { rewrite einsum_value. apply Z. apply in_indices. cbn [map]. rewrite Da. constructor; [lia|exact Vi]. }
  unfold einsum in *.
  assert (Nc : forall m, In m (contracted (a :: li) lk (a :: lo)) -> m <> a).
  { intros m Hm ->. unfold contracted in Hm. apply filter_In in Hm as (_ & X). replace (memb a (a :: lo)) with true in X by (symmetry; apply memb_In; left; reflexivity). discriminate. }
  refine (sum_over_zero2 a dims dims' _ _ _ _ _ _ _ _ _ _ _ Z0).
  - intros e0. apply Qmult_le_0_compat; auto.
  - intros e1 e0 R R0 H. cbn [map] in *. rewrite R0 in H.
    replace (map e1 li) with (map e0 li) by (apply map_ext_in; intros m Hm; symmetry; apply R; intros ->; contradiction). replace (map e1 lk) with (map e0 lk) by (apply map_ext_in; intros m Hm; symmetry; apply R; intros ->; contradiction).
    exact (costless iq kq x w u k bi bk s (e1 a) (map e0 li) (map e0 lk) Si Ob Sk Q K Ei Ek H).
  - intros X. exact (Nc a X eq_refl).
  - intros l Hl. apply Dd. exact (Nc l Hl).
  - intros m Hm. apply bind_agree. exact Hm.
  - cbn [bind_idx]. unfold upd. rewrite Nat.eqb_refl. reflexivity.
Qed.
Lemma einsum_shape li lk lo u u' k z z' : shape u = shape u' -> np_einsum li lk lo u k = Some z -> np_einsum li lk lo u' k = Some z' -> shape z = shape z'.
Proof. intros S. unfold np_einsum. rewrite S. cbv zeta. destruct (_ && _ && _)%bool; [|discriminate]. intros H H'. apply some_inj in H. apply some_inj in H'. subst. reflexivity. Qed.
Theorem einsum_constant tab iq kq w bias ac oq a li lk lo s osh pf e B x x' y y' : on_numbers (act_fn ac) -> ~ In a (li ++ lk ++ lo) -> NoDup lo -> incl lo (li ++ lk) ->
  bias_fits osh (bias_shape_bits tab bias) -> widths_ok_bias (bias_shape_bits tab bias) ->
  (0 < einsum_n_parallel (a :: li) lk (a :: lo) (1%nat :: s))%nat -> pf <> 0%Z -> silent (tab iq) -> over_batch (qb_k (qbits_of (tab iq))) -> silent (tab kq) ->
  einsum_dense_ebops (a :: li) lk (a :: lo) (1%nat :: s) (shape w) osh pf (qbits_of (tab iq)) (qbits_of (tab kq)) (bias_shape_bits tab bias) = Some e -> e == 0 ->
  shape x = B :: s -> shape x' = B :: s ->
  eval tab (layer_prog (layer_of iq kq w bias (TEinsum (a :: li) lk (a :: lo)) ac oq) (One x)) = Some y ->
  eval tab (layer_prog (layer_of iq kq w bias (TEinsum (a :: li) lk (a :: lo)) ac oq) (One x')) = Some y' -> same_tensor y y'.
Proof.
  intros A Na ND Inc Bf Wb Hn Hp Si Ob Sk E Z Sx Sx'. apply (rest_same tab iq kq w bias (TEinsum (a :: li) lk (a :: lo)) ac oq x x' y y' (fun k u => np_einsum (a :: li) lk (a :: lo) u k) A).
  - intros k c C u. apply some_inj in C. subst c. cbn [core_call]. destruct (np_einsum (a :: li) lk (a :: lo) u k); reflexivity.
  - intros k b c C u. apply some_inj in C. subst c. reflexivity.
  - intros u u' k z z' U U' K M M'. pose proof (quant_shape _ _ _ U) as Su. pose proof (quant_shape _ _ _ U') as Su'. pose proof (quant_shape _ _ _ K) as Sk'.
    apply zeros_same; [apply (einsum_shape (a :: li) lk (a :: lo) u u' k); [congruence|exact M|exact M']| |].
    + apply (einsum_zero_out (tab iq) (tab kq) a li lk lo s osh pf (bias_shape_bits tab bias) e x w u k z); try assumption; rewrite Su, Sx; [reflexivity|discriminate].
    + apply (einsum_zero_out (tab iq) (tab kq) a li lk lo s osh pf (bias_shape_bits tab bias) e x' w u' k z'); try assumption; rewrite Su', Sx'; [reflexivity|discriminate].
Qed.
