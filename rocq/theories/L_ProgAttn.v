(** Lemmas for C65: inference of the attention program, sample by sample. *)
From Coq Require Import String.
From Verif Require Import Num M_Fixed L_Fixed M_State S_State L_State M_Wrapper M_Mapper S_Mapper L_Mapper M_Contr M_Ebops L_Ebops M_Pow2 M_Patch L_Patch M_Ops L_Ops M_Mirror L_Mirror M_Trace M_Softmax M_Net S_Net L_Net L_Net2 L_Net3 M_NetX L_NetX3 M_Causal M_Calib S_Ops S_Calib L_Calib L_Calib2 M_Rnn S_Rnn M_Attn S_Attn L_Attn M_Prog S_Prog L_Prog L_Prog2 L_Prog3 M_ProgAttn S_ProgAttn.
Local Open Scope list_scope.

Lemma bi_ (d i n : nat) : (i < n)%nat -> d = n -> (if (d =? 1)%nat then 0%nat else i) = i.
Proof. intros H ->. destruct (Nat.eqb_spec n 1); lia. Qed.
Section Sample.
  Context (tab : nat -> quant) (B b : nat) (Hb : (b < B)%nat).
  Definition inr_ (i ds : list nat) : Prop := Forall2 lt i ds.
  Definition on (ds : list nat) (x : tensor Q) (v : index -> Q) : Prop := shape x = B :: ds /\ forall i, inr_ i ds -> at_ x (b :: i) == v i.
  Definition i2 (v : ten) : index -> Q := fun i => match i with [a; c] => v a c 0%nat | _ => 0 end.
  Definition i3 (v : ten) : index -> Q := fun i => match i with [a; c; e] => v a c e | _ => 0 end.
  Notation on2 d1 d2 x v := (on [d1; d2] x (i2 v)).
  Notation on3 d1 d2 d3 x v := (on [d1; d2; d3] x (i3 v)).
  Lemma on2_intro d1 d2 x v : shape x = [B; d1; d2] -> (forall a c, (a < d1)%nat -> (c < d2)%nat -> at_ x [b; a; c] == v a c 0%nat) -> on2 d1 d2 x v.
  Proof. intros E H. split; [exact E|]. intros i F. inversion F as [|a ? ia ? Ha F1]; subst. inversion F1 as [|c ? ic ? Hc F2]; subst. inversion F2; subst. cbn [i2]. apply H; assumption. Qed.
  Lemma on3_intro d1 d2 d3 x v : shape x = [B; d1; d2; d3] -> (forall a c e, (a < d1)%nat -> (c < d2)%nat -> (e < d3)%nat -> at_ x [b; a; c; e] == v a c e) -> on3 d1 d2 d3 x v.
  Proof. intros E H. split; [exact E|]. intros i F. inversion F as [|a ? ia ? Ha F1]; subst. inversion F1 as [|c ? ic ? Hc F2]; subst. inversion F2 as [|e ? ie ? He F3]; subst. inversion F3; subst. cbn [i3]. apply H; assumption. Qed.
  Lemma on2_elim d1 d2 x v a c : on2 d1 d2 x v -> (a < d1)%nat -> (c < d2)%nat -> at_ x [b; a; c] == v a c 0%nat.
  Proof. intros (_ & H) Ha Hc. apply (H [a; c]). repeat constructor; assumption. Qed.
  Lemma on3_elim d1 d2 d3 x v a c e : on3 d1 d2 d3 x v -> (a < d1)%nat -> (c < d2)%nat -> (e < d3)%nat -> at_ x [b; a; c; e] == v a c e.
  Proof. intros (_ & H) Ha Hc He. apply (H [a; c; e]). repeat constructor; assumption. Qed.
  Lemma on3_ext d1 d2 d3 x v w : on3 d1 d2 d3 x v -> (forall a c e, (a < d1)%nat -> (c < d2)%nat -> (e < d3)%nat -> v a c e == w a c e) -> on3 d1 d2 d3 x w.
  Proof. intros O H. apply on3_intro; [exact (proj1 O)|]. intros a c e Ha Hc He. rewrite (on3_elim _ _ _ _ _ _ _ _ O Ha Hc He). apply H; assumption. Qed.

  (** quantizers *)
  Lemma bcast_pos {A} (w : tensor A) t ds : shape w = 1%nat :: t -> bcast_ok t ds = true -> exists w', broadcast_to w (B :: ds) = Some w' /\ forall i, at_ w' (b :: i) = width_at w i.
  Proof. intros E K. unfold broadcast_to. rewrite E. cbn [bcast_ok Nat.eqb orb andb]. rewrite K. eexists. split; [reflexivity|]. intros i. cbn [at_ bcast_index Nat.eqb]. unfold width_at. rewrite E. reflexivity. Qed.
  Lemma base_pos c k i f x v t ds y : shape k = 1%nat :: t -> shape i = 1%nat :: t -> shape f = 1%nat :: t -> bcast_ok t ds = true -> on ds x v -> base_tcall c false k i f x = Some y ->
    on ds y (fun j => base_call (c_rm c) (c_om c) false (width_at k j) (width_at i j) (width_at f j) (v j)).
  Proof.
    intros Ek Ei Ef K (Ex & V). unfold base_tcall. rewrite Ex. destruct (bcast_pos k t ds Ek K) as (k' & -> & Ak). destruct (bcast_pos i t ds Ei K) as (i' & -> & Ai). destruct (bcast_pos f t ds Ef K) as (f' & -> & Af). cbn [bind].
    intros H. apply some_inj in H. subst y. split; [reflexivity|]. intros j Hj. cbn [at_]. rewrite Ak, Ai, Af. apply base_call_Proper. apply V, Hj.
  Qed.
  Definition fmt_of (q : quant) (j : index) (v : Q) : Q :=
    affine_of (w_affine (q_w q)) (match q_s q with
      | inl s => base_call (c_rm (q_c q)) (c_om (q_c q)) false (width_at (M_Mapper.t_k s) j) (round_even (width_at (M_Mapper.t_i s) j)) (round_even (width_at (M_Mapper.t_f s) j)) v
      | inr s => base_call (c_rm (q_c q)) (c_om (q_c q)) false (width_at (u_k s) j) (round_even (width_at (u_i s) j)) (round_even (width_at (u_b s) j) - round_even (width_at (u_i s) j)) v end).
  Lemma on_quant ds q x v y : pos_quant ds q -> on ds x v -> quant_call q x = Some y -> on ds y (fun j => fmt_of q j (v j)).
  Proof.
    intros (Ns & Nw & t & K & R) O. unfold quant_call, quantizer_infer. rewrite Ns. cbv zeta. intros H. destruct (match q_s q with inl s => _ | inr s => _ end x) as [o|] eqn:E; [|discriminate]. cbn [bind] in H. apply some_inj in H. subst y.
    assert (G : on ds o (fun j => match q_s q with
      | inl s => base_call (c_rm (q_c q)) (c_om (q_c q)) false (width_at (M_Mapper.t_k s) j) (round_even (width_at (M_Mapper.t_i s) j)) (round_even (width_at (M_Mapper.t_f s) j)) (v j)
      | inr s => base_call (c_rm (q_c q)) (c_om (q_c q)) false (width_at (u_k s) j) (round_even (width_at (u_i s) j)) (round_even (width_at (u_b s) j) - round_even (width_at (u_i s) j)) (v j) end)).
    { destruct (q_s q) as [s|s].
      - destruct R as (R1 & R2 & R3). unfold kif_infer in E. destruct (kif_tcall (q_c q) (q_hom q) Infer s x) as [[s' o']|] eqn:J; [|discriminate]. cbn [bind] in E. apply some_inj in E. subst o'.
        assert (Y : base_tcall (q_c q) false (M_Mapper.t_k s) (tmap round_even (M_Mapper.t_i s)) (tmap round_even (M_Mapper.t_f s)) x = Some o).
        { unfold kif_tcall in J. cbv zeta in J. cbn [is_train] in J. rewrite Nw in J. destruct (is_wrap (c_om (q_c q)) && c_trainable (q_c q)); [destruct (broadcast_to _ (shape x)); [cbn [bind] in J|discriminate]|]; (destruct (base_tcall _ _ _ _ _ x) as [y|]; [|discriminate]); injection J as <- <-; reflexivity. }
        exact (base_pos _ _ _ _ _ _ t ds _ R1 (R2 : shape (tmap round_even (M_Mapper.t_i s)) = _) (R3 : shape (tmap round_even (M_Mapper.t_f s)) = _) K O Y).
      - destruct R as (R1 & R2 & R3). unfold kbi_infer in E. destruct (kbi_tcall (q_c q) (q_hom q) Infer s x) as [[s' o']|] eqn:J; [|discriminate]. cbn [bind] in E. apply some_inj in E. subst o'.
        assert (Y : base_tcall (q_c q) false (u_k s) (tmap round_even (u_i s)) (tmap2 Z.sub (tmap round_even (u_b s)) (tmap round_even (u_i s))) x = Some o).
        { unfold kbi_tcall in J. cbv zeta in J. cbn [is_train] in J. rewrite Nw in J. cbn [andb] in J. destruct (is_wrap (c_om (q_c q)) && c_trainable (q_c q)); [destruct (broadcast_to _ (shape x)); [cbn [bind] in J|discriminate]|]; (destruct (base_tcall _ _ _ _ _ x) as [y|]; [|discriminate]); injection J as <- <-; reflexivity. }
        pose proof (base_pos _ _ _ _ _ _ t ds _ R1 (R3 : shape (tmap round_even (u_i s)) = _) (R2 : shape (tmap2 Z.sub (tmap round_even (u_b s)) (tmap round_even (u_i s))) = _) K O Y) as G.
        destruct G as (Es & G). split; [exact Es|]. intros i Hi. rewrite (G i Hi). unfold width_at. cbn [tmap tmap2 shape at_]. rewrite R2, R3. reflexivity. }
    destruct G as (Es & G). unfold fmt_of. destruct (w_affine (q_w q)) as [[m c]|]; cbn [affine_of]; (split; [exact Es|]); intros i Hi; [|apply G, Hi]. cbn [tmap at_]. rewrite (G i Hi). reflexivity.
  Qed.
  Lemma fmt3 q v a c e : fmt_of q [a; c; e] (v a c e) = lq (tq3 q) v a c e.
  Proof. unfold fmt_of, lq, tq3, tq_of. destruct (q_s q); reflexivity. Qed.
  Lemma fmt2 q (v : ten) a c : fmt_of q [a; c] (v a c 0%nat) = lq (tq2 q) v a c 0%nat.
  Proof. unfold fmt_of, lq, tq2, tq_of. destruct (q_s q); reflexivity. Qed.
  Lemma q3 d1 d2 d3 q x v y : pos_quant [d1; d2; d3] q -> on3 d1 d2 d3 x v -> quant_call q x = Some y -> on3 d1 d2 d3 y (lq (tq3 q) v).
  Proof. intros P O E. destruct (on_quant _ _ _ _ _ P O E) as (S & G). apply on3_intro; [exact S|]. intros a c e Ha Hc He. rewrite (G [a; c; e]) by (repeat constructor; assumption). cbn [i3]. rewrite fmt3. reflexivity. Qed.
  Lemma q2 d1 d2 q x v y : pos_quant [d1; d2] q -> on2 d1 d2 x v -> quant_call q x = Some y -> on2 d1 d2 y (lq (tq2 q) v).
  Proof. intros P O E. destruct (on_quant _ _ _ _ _ P O E) as (S & G). apply on2_intro; [exact S|]. intros a c Ha Hc. rewrite (G [a; c]) by (repeat constructor; assumption). cbn [i2]. rewrite fmt2. reflexivity. Qed.

  (** sums *)
  Lemma csum_qsumn n (f g : nat -> Q) : (forall j, (j < n)%nat -> f j == g j) -> csum 0 Qplus (map f (seq 0 n)) == qsumn n g.
  Proof.
    intros H. unfold qsumn. assert (L : forall l, (forall j, In j l -> (j < n)%nat) -> csum 0 Qplus (map f l) == qsum (map g l)).
    { induction l as [|j l IH]; intros Hl; cbn [map]; [reflexivity|]. change (csum 0 Qplus (?a :: ?r)) with (a + csum 0 Qplus r). change (qsum (?a :: ?r)) with (a + qsum r). rewrite IH by (intros j' Hj'; apply Hl; right; exact Hj'). rewrite (H j (Hl j (or_introl eq_refl))). reflexivity. }
    apply L. intros j Hj. apply in_seq in Hj. lia.
  Qed.
  Ltac einsum_start E Ex Ek := unfold np_einsum in E; rewrite Ex, Ek in E; match type of E with (let _ := _ in if ?c then _ else _) = _ => idtac | _ => idtac end; cbv zeta in E;
    match type of E with (if ?c then _ else _) = _ => destruct c; [|discriminate E] end; apply some_inj in E.
  Lemma e_proj T C N D x v k y : on2 T C x v -> shape k = [C; N; D] -> np_einsum [0;1;2]%nat [2;3;4]%nat [0;1;3;4]%nat x k = Some y ->
    on3 T N D y (fun p n d => qsumn C (fun j => v p j 0%nat * at_ k [j; n; d])).
  Proof.
    intros O Ek E. pose proof (proj1 O) as Ex. einsum_start E Ex Ek. subst y. apply on3_intro; [reflexivity|]. intros p n d Hp Hn Hd. cbn [at_]. 
    change (csum 0 Qplus (map (fun j => at_ x [b; p; j] * at_ k [j; n; d]) (seq 0 C)) == qsumn C (fun j => v p j 0%nat * at_ k [j; n; d])).
    apply csum_qsumn. intros j Hj. rewrite (on2_elim _ _ _ _ _ _ O Hp Hj). reflexivity.
  Qed.
  Lemma e_dot T S N D k q vk vq y : on3 S N D k vk -> on3 T N D q vq -> np_einsum [0;4;2;3]%nat [0;1;2;3]%nat [0;2;1;4]%nat k q = Some y ->
    on3 N T S y (fun n t s => qsumn D (fun d => vk s n d * vq t n d)).
  Proof.
    intros Ok Oq E. pose proof (proj1 Ok) as Ek. pose proof (proj1 Oq) as Eq. einsum_start E Ek Eq. subst y. apply on3_intro; [reflexivity|]. intros n t s Hn Ht Hs. cbn [at_].
    change (csum 0 Qplus (map (fun d => at_ k [b; s; n; d] * at_ q [b; t; n; d]) (seq 0 D)) == qsumn D (fun d => vk s n d * vq t n d)).
    apply csum_qsumn. intros d Hd. rewrite (on3_elim _ _ _ _ _ _ _ _ Ok Hs Hn Hd), (on3_elim _ _ _ _ _ _ _ _ Oq Ht Hn Hd). reflexivity.
  Qed.
  Lemma e_comb T S N D w u vw vu y : on3 N T S w vw -> on3 S N D u vu -> np_einsum [0;2;1;4]%nat [0;4;2;3]%nat [0;1;2;3]%nat w u = Some y ->
    on3 T N D y (fun t n d => qsumn S (fun s => vw n t s * vu s n d)).
  Proof.
    intros Ow Ou E. pose proof (proj1 Ow) as Ew. pose proof (proj1 Ou) as Eu. einsum_start E Ew Eu. subst y. apply on3_intro; [reflexivity|]. intros t n d Ht Hn Hd. cbn [at_].
    change (csum 0 Qplus (map (fun s => at_ w [b; n; t; s] * at_ u [b; s; n; d]) (seq 0 S)) == qsumn S (fun s => vw n t s * vu s n d)).
    apply csum_qsumn. intros s Hs. rewrite (on3_elim _ _ _ _ _ _ _ _ Ow Hn Ht Hs), (on3_elim _ _ _ _ _ _ _ _ Ou Hs Hn Hd). reflexivity.
  Qed.
  Lemma e_out T N D F x v k y : on3 T N D x v -> shape k = [N; D; F] -> np_einsum [0;1;2;3]%nat [2;3;4]%nat [0;1;4]%nat x k = Some y ->
    on2 T F y (fun t e _ => qsumn N (fun n => qsumn D (fun d => v t n d * at_ k [n; d; e]))).
  Proof.
    intros O Ek E. pose proof (proj1 O) as Ex. einsum_start E Ex Ek. subst y. apply on2_intro; [reflexivity|]. intros t e Ht He. cbn [at_].
    change (csum 0 Qplus (map (fun n => csum 0 Qplus (map (fun d => at_ x [b; t; n; d] * at_ k [n; d; e]) (seq 0 D))) (seq 0 N)) == qsumn N (fun n => qsumn D (fun d => v t n d * at_ k [n; d; e]))).
    apply csum_qsumn. intros n Hn. apply csum_qsumn. intros d Hd. rewrite (on3_elim _ _ _ _ _ _ _ _ O Ht Hn Hd). reflexivity.
  Qed.
  Lemma jd1 d : join_dim d 1 = Some d.
  Proof. unfold join_dim. destruct (Nat.eqb_spec d 1) as [->|]; reflexivity. Qed.
  Lemma j1d d : join_dim 1 d = Some d.
  Proof. reflexivity. Qed.
  Lemma bias3 T N D x v t z : on3 T N D x v -> shape t = [N; D] -> np_binary Qplus x t = Some z -> on3 T N D z (fun p n d => v p n d + at_ t [n; d]).
  Proof.
    intros O Et. pose proof (proj1 O) as Ex. unfold np_binary. rewrite Ex, Et. cbn [List.length Nat.max]. unfold lpad. cbn [List.length Nat.sub repeat app join_shape]. rewrite !jd1, !jd. cbn [bind]. intros H. apply some_inj in H. subst z.
    apply on3_intro; [reflexivity|]. intros p n d Hp Hn Hd. cbn [at_]. unfold bcast_at, lpad. rewrite Ex, Et. cbn [List.length Nat.sub repeat app skipn bcast_index].
    rewrite (bi_ B b B Hb eq_refl), (bi_ T p T Hp eq_refl), (bi_ N n N Hn eq_refl), (bi_ D d D Hd eq_refl), (on3_elim _ _ _ _ _ _ _ _ O Hp Hn Hd). reflexivity.
  Qed.
  Lemma bias2_ T F x v t z : on2 T F x v -> shape t = [F] -> np_binary Qplus x t = Some z -> on2 T F z (fun p e u => v p e u + at_ t [e]).
  Proof.
    intros O Et. pose proof (proj1 O) as Ex. unfold np_binary. rewrite Ex, Et. cbn [List.length Nat.max]. unfold lpad. cbn [List.length Nat.sub repeat app join_shape]. rewrite !jd1, !jd. cbn [bind]. intros H. apply some_inj in H. subst z.
    apply on2_intro; [reflexivity|]. intros p e Hp He. cbn [at_]. unfold bcast_at, lpad. rewrite Ex, Et. cbn [List.length Nat.sub repeat app skipn bcast_index].
    rewrite (bi_ B b B Hb eq_refl), (bi_ T p T Hp eq_refl), (bi_ F e F He eq_refl), (on2_elim _ _ _ _ _ _ O Hp He). reflexivity.
  Qed.
  (** max - x and e * d in the softmax: one operand has one value for each head and query position *)
  Lemma bin_l (f : Q -> Q -> Q) N T S x y u v z : (forall p q r s, p == q -> r == s -> f p r == f q s) -> on3 N T 1%nat x u -> on3 N T S y v -> np_binary f x y = Some z -> on3 N T S z (fun n t s => f (u n t 0%nat) (v n t s)).
  Proof.
    intros Hf Ox Oy. pose proof (proj1 Ox) as Ex. pose proof (proj1 Oy) as Ey. unfold np_binary. rewrite Ex, Ey. cbn [List.length Nat.max]. unfold lpad. cbn [List.length Nat.sub repeat app join_shape]. rewrite !jd, j1d. cbn [bind]. intros H. apply some_inj in H. subst z.
    apply on3_intro; [reflexivity|]. intros n t s Hn Ht Hs. cbn [at_]. unfold bcast_at, lpad. rewrite Ex, Ey. cbn [List.length Nat.sub repeat app skipn bcast_index Nat.eqb].
    rewrite (bi_ B b B Hb eq_refl), (bi_ N n N Hn eq_refl), (bi_ T t T Ht eq_refl), (bi_ S s S Hs eq_refl). apply Hf; [apply (on3_elim _ _ _ _ _ _ _ _ Ox Hn Ht); lia|exact (on3_elim _ _ _ _ _ _ _ _ Oy Hn Ht Hs)].
  Qed.
  Lemma bin_r (f : Q -> Q -> Q) N T S x y u v z : (forall p q r s, p == q -> r == s -> f p r == f q s) -> on3 N T S x u -> on3 N T 1%nat y v -> np_binary f x y = Some z -> on3 N T S z (fun n t s => f (u n t s) (v n t 0%nat)).
  Proof.
    intros Hf Ox Oy. pose proof (proj1 Ox) as Ex. pose proof (proj1 Oy) as Ey. unfold np_binary. rewrite Ex, Ey. cbn [List.length Nat.max]. unfold lpad. cbn [List.length Nat.sub repeat app join_shape]. rewrite !jd, jd1. cbn [bind]. intros H. apply some_inj in H. subst z.
    apply on3_intro; [reflexivity|]. intros n t s Hn Ht Hs. cbn [at_]. unfold bcast_at, lpad. rewrite Ex, Ey. cbn [List.length Nat.sub repeat app skipn bcast_index Nat.eqb].
    rewrite (bi_ B b B Hb eq_refl), (bi_ N n N Hn eq_refl), (bi_ T t T Ht eq_refl), (bi_ S s S Hs eq_refl). apply Hf; [exact (on3_elim _ _ _ _ _ _ _ _ Ox Hn Ht Hs)|apply (on3_elim _ _ _ _ _ _ _ _ Oy Hn Ht); lia].
  Qed.
  (** reductions over the last axis *)
  Lemma index_eqb_cons i j k l : index_eqb (i :: k) (j :: l) = ((i =? j)%nat && index_eqb k l)%bool.
  Proof. unfold index_eqb. destruct (list_eq_dec Nat.eq_dec (i :: k) (j :: l)) as [E|E], (Nat.eqb_spec i j) as [->|Ne], (list_eq_dec Nat.eq_dec k l) as [->|Nk]; try reflexivity; try (exfalso; congruence). Qed.
  Lemma filt_lead a hom d sh i g : memb a hom = false -> (i < d)%nat ->
    filter (fun idx => index_eqb (keep_from a hom idx) (i :: g)) (flat_map (fun j => map (cons j) (indices sh)) (seq 0 d)) = map (cons i) (filter (fun idx => index_eqb (keep_from (S a) hom idx) g) (indices sh)).
  Proof.
    intros M Hi. assert (One : forall j l, filter (fun idx => index_eqb (keep_from a hom idx) (i :: g)) (map (cons j) l) = if (j =? i)%nat then map (cons i) (filter (fun idx => index_eqb (keep_from (S a) hom idx) g) l) else []).
    { intros j l. induction l as [|k l IH]; cbn [map filter]; [destruct (j =? i)%nat; reflexivity|]. cbn [keep_from]. rewrite M, index_eqb_cons. destruct (Nat.eqb_spec j i) as [->|]; cbn [andb]; [|exact IH]. rewrite IH. destruct (index_eqb _ g); reflexivity. }
    assert (G : forall n k, filter (fun idx => index_eqb (keep_from a hom idx) (i :: g)) (flat_map (fun j => map (cons j) (indices sh)) (seq k n)) = if ((k <=? i)%nat && (i <? k + n)%nat)%bool then map (cons i) (filter (fun idx => index_eqb (keep_from (S a) hom idx) g) (indices sh)) else []).
    { induction n as [|n IH]; intros k; cbn [seq flat_map].
      - cbn [filter]. destruct (Nat.leb_spec k i), (Nat.ltb_spec i (k + 0)); cbn [andb]; try reflexivity. lia.
      - rewrite filter_app, One, IH. destruct (Nat.eqb_spec k i) as [->|Ne].
        + destruct (Nat.leb_spec i i), (Nat.ltb_spec i (i + S n)), (Nat.leb_spec (S i) i); cbn [andb]; try lia. apply app_nil_r.
        + cbn [app]. destruct (Nat.leb_spec k i), (Nat.ltb_spec i (k + S n)), (Nat.leb_spec (S k) i), (Nat.ltb_spec i (S k + n)); cbn [andb]; try reflexivity; lia. }
    rewrite G. cbn [Nat.leb andb Nat.add]. destruct (Nat.ltb_spec i d); [reflexivity|lia].
  Qed.
  Lemma filt_last a hom S : memb a hom = true -> filter (fun idx => index_eqb (keep_from a hom idx) [0%nat]) (indices [S]) = map (fun s => [s]) (seq 0 S).
  Proof.
    intros M. cbn [indices]. generalize (seq 0 S). induction l as [|s l IH]; [reflexivity|]. cbn [flat_map map app filter keep_from]. rewrite M. change (index_eqb [0%nat] [0%nat]) with true. cbn iota. f_equal. exact IH.
  Qed.
  Lemma red3 (f : list Q -> Q) N T S x v : (forall l l', Forall2 Qeq l l' -> f l == f l') -> on3 N T S x v -> on3 N T 1%nat (np_reduce f [3%nat] true x) (fun n t _ => f (map (v n t) (seq 0 S))).
  Proof.
    intros Hf O. pose proof (proj1 O) as Ex. unfold np_reduce. cbv zeta. apply on3_intro; [cbn [reduce_keep shape]; rewrite Ex; reflexivity|]. intros n t e Hn Ht He. assert (e = 0%nat) by lia. subst e. cbn [reduce_keep at_]. apply Hf. unfold collect, keep. rewrite Ex.
    change (indices [B; N; T; S]) with (flat_map (fun j => map (cons j) (indices [N; T; S])) (seq 0 B)). rewrite (filt_lead 0 [3%nat] B [N; T; S] b [n; t; 0%nat] eq_refl Hb).
    change (indices [N; T; S]) with (flat_map (fun j => map (cons j) (indices [T; S])) (seq 0 N)). rewrite (filt_lead 1 [3%nat] N [T; S] n [t; 0%nat] eq_refl Hn).
    change (indices [T; S]) with (flat_map (fun j => map (cons j) (indices [S])) (seq 0 T)). rewrite (filt_lead 2 [3%nat] T [S] t [0%nat] eq_refl Ht). rewrite (filt_last 3 [3%nat] S eq_refl), !map_map.
    assert (L : forall l, (forall s, In s l -> (s < S)%nat) -> Forall2 Qeq (map (fun s => at_ x [b; n; t; s]) l) (map (v n t) l)).
    { induction l as [|s l IH]; intros H; cbn [map]; constructor; [|apply IH; intros s' Hs'; apply H; right; exact Hs']. apply (on3_elim _ _ _ _ _ _ _ _ O Hn Ht), H. left. reflexivity. }
    apply L. intros s Hs. apply in_seq in Hs. lia.
  Qed.
  Lemma act3 (f : Q -> Q) d1 d2 d3 x v : on_numbers f -> on3 d1 d2 d3 x v -> on3 d1 d2 d3 (tmap f x) (fun a c e => f (v a c e)).
  Proof. intros Hf O. apply on3_intro; [exact (proj1 O)|]. intros a c e Ha Hc He. cbn [tmap at_]. apply Hf, (on3_elim _ _ _ _ _ _ _ _ O Ha Hc He). Qed.

  (** *** the layers *)
  Lemma eval_ws k bias : eval tab (ask_ws (kernel_bias k bias)) =
    (do w <- quant_call (tab (fst k)) (snd k); match bias with Some (id, t) => do u <- quant_call (tab id) t; Some [w; u] | None => Some [w] end).
  Proof.
    unfold kernel_bias. cbn [ask_ws]. rewrite eval_then, eval_ask_opt. destruct (quant_call (tab (fst k)) (snd k)) as [w|]; [|reflexivity]. cbn [bind]. rewrite eval_then. destruct bias as [[id t]|]; cbn [ask_ws fst snd]; [|reflexivity].
    rewrite eval_then, eval_ask_opt. destruct (quant_call (tab id) t); reflexivity.
  Qed.
  Lemma eval_iq iq x : eval tab (ask_iq (opt_iq iq) (One x)) = (do y <- eval tab (ask_opt iq x); Some (One y)).
  Proof. destruct iq as [i|]; cbn [opt_iq ask_iq ask_opt]; [|reflexivity]. rewrite eval_then. reflexivity. Qed.
  Definition otq2 (iq : option nat) : option tq := option_map (fun i => tq2 (tab i)) iq.
  Lemma on_iq d1 d2 iq x v y : (forall i, iq = Some i -> pos_quant [d1; d2] (tab i)) -> on2 d1 d2 x v -> eval tab (ask_opt iq x) = Some y -> on2 d1 d2 y (oapp lq (otq2 iq) v).
  Proof. intros P O. rewrite eval_ask_opt. destruct iq as [i|]; cbn [otq2 option_map oapp]; [apply q2; [apply P; reflexivity|exact O]|]. intros H. apply some_inj in H. subst y. exact O. Qed.
  Lemma lin_num : on_numbers (act_fn ALinear).
  Proof. intros p q E. exact E. Qed.
  Lemma head_sample iq p T C N D x v y : (forall i, iq = Some i -> pos_quant [T; C] (tab i)) -> proj_built tab p C N D T -> shape x = [B; T; C] -> (forall a c, (a < T)%nat -> (c < C)%nat -> at_ x [b; a; c] == v a c) ->
    eval tab (layer_prog (head_layer iq p) (One x)) = Some y -> exists P, proj_of tab p = Some P /\ on3 T N D y (dense_call lq (otq2 iq) C P v).
  Proof.
    intros Pi (Sk & Sb & Po) Ex V. unfold layer_prog, head_layer. cbn [y_iq y_ws y_op y_oq]. rewrite eval_then, eval_iq. assert (O : on2 T C x (M_Attn.lift v)) by (apply on2_intro; [exact Ex|intros a c Ha Hc; apply V; assumption]).
    destruct (eval tab (ask_opt iq x)) as [x'|] eqn:E1; [|discriminate]. cbn [bind]. pose proof (on_iq _ _ _ _ _ _ Pi O E1) as O1. rewrite eval_then, eval_ws. unfold proj_of. destruct (quant_call (tab (fst (h_kernel p))) _) as [k|] eqn:E2; [|discriminate]. cbn [bind].
    pose proof (quant_shape _ _ _ E2) as S2. rewrite Sk in S2. destruct (h_bias p) as [[id t]|] eqn:Eb.
    - destruct (quant_call (tab id) t) as [u|] eqn:E3; [|discriminate]. cbn [bind]. rewrite eval_then, eval_lift. unfold net_op, core_of. cbn [bind core_call add_bias]. destruct (np_einsum _ _ _ x' k) as [z|] eqn:E4; [|discriminate]. cbn [bind].
      destruct (np_binary Qplus z u) as [z2|] eqn:E5; [|discriminate]. cbn [bind]. rewrite eval_ask_opt. intros E6. eexists. split; [reflexivity|]. pose proof (quant_shape _ _ _ E3) as S3. rewrite (Sb _ _ eq_refl) in S3.
      pose proof (bias3 _ _ _ _ _ _ _ (e_proj _ _ _ _ _ _ _ _ O1 S2 E4) S3 E5) as O2. exact (q3 _ _ _ _ _ _ _ Po (act3 (act_fn ALinear) _ _ _ _ _ lin_num O2) E6).
    - cbn [bind]. rewrite eval_then, eval_lift. unfold net_op, core_of. cbn [bind core_call add_bias]. destruct (np_einsum _ _ _ x' k) as [z|] eqn:E4; [|discriminate]. cbn [bind]. rewrite eval_ask_opt. intros E6. eexists. split; [reflexivity|].
      pose proof (on3_ext _ _ _ _ _ (fun p0 n d => qsumn C (fun j => oapp lq (otq2 iq) (M_Attn.lift v) p0 j 0%nat * at_ k [j; n; d]) + 0) (e_proj _ _ _ _ _ _ _ _ O1 S2 E4) ltac:(intros; symmetry; apply Qplus_0_r)) as O2. exact (q3 _ _ _ _ _ _ _ Po (act3 (act_fn ALinear) _ _ _ _ _ lin_num O2) E6).
  Qed.
  Lemma out_sample a T N D F x v y : pos_quant [T; N; D] (tab (ha_o_iq a)) -> shape (snd (ha_o_kernel a)) = [N; D; F] -> (forall id t, ha_o_bias a = Some (id, t) -> shape t = [F]) -> on3 T N D x v ->
    eval tab (layer_prog (out_layer a) (One x)) = Some y -> exists k ob, quant_call (tab (fst (ha_o_kernel a))) (snd (ha_o_kernel a)) = Some k /\
      match ha_o_bias a with Some (id, t) => do u <- quant_call (tab id) t; Some (Some (fun e => at_ u [e])) | None => Some None end = Some ob /\
      on2 T F y (fun t e _ => qsumn N (fun n => qsumn D (fun d => lq (tq3 (tab (ha_o_iq a))) v t n d * at_ k [n; d; e])) + bias1 ob e).
  Proof.
    intros Pi Sk Sb O. unfold layer_prog, out_layer. cbn [y_iq y_ws y_op y_oq]. rewrite eval_then. change (IqOne (ha_o_iq a)) with (opt_iq (Some (ha_o_iq a))). rewrite eval_iq, eval_ask_opt.
    destruct (quant_call (tab (ha_o_iq a)) x) as [x'|] eqn:E1; [|discriminate]. cbn [bind]. pose proof (q3 _ _ _ _ _ _ _ Pi O E1) as O1. rewrite eval_then, eval_ws. destruct (quant_call (tab (fst (ha_o_kernel a))) _) as [k|] eqn:E2; [|discriminate]. cbn [bind].
    pose proof (quant_shape _ _ _ E2) as S2. rewrite Sk in S2. intros EE. exists k. revert EE. destruct (ha_o_bias a) as [[id t]|] eqn:Eb.
    - destruct (quant_call (tab id) t) as [u|] eqn:E3; [|discriminate]. cbn [bind]. rewrite eval_then, eval_lift. unfold net_op, core_of. cbn [bind core_call add_bias]. destruct (np_einsum _ _ _ x' k) as [z|] eqn:E4; [|discriminate]. cbn [bind].
      destruct (np_binary Qplus z u) as [z2|] eqn:E5; [|discriminate]. cbn [bind]. rewrite eval_ask_opt. intros H. apply some_inj in H. subst y. eexists. split; [reflexivity|]. split; [reflexivity|]. pose proof (quant_shape _ _ _ E3) as S3. rewrite (Sb _ _ eq_refl) in S3.
      exact (bias2_ _ _ _ _ _ _ (e_out _ _ _ _ _ _ _ _ O1 S2 E4) S3 E5).
    - cbn [bind]. rewrite eval_then, eval_lift. unfold net_op, core_of. cbn [bind core_call add_bias]. destruct (np_einsum _ _ _ x' k) as [z|] eqn:E4; [|discriminate]. cbn [bind]. rewrite eval_ask_opt. intros H. apply some_inj in H. subst y. eexists. split; [reflexivity|]. split; [reflexivity|].
      pose proof (e_out _ _ _ _ _ _ _ _ O1 S2 E4) as O2. apply on2_intro; [exact (proj1 O2)|]. intros t e Ht He. cbn [tmap at_ act_fn]. rewrite (on2_elim _ _ _ _ _ _ O2 Ht He). cbn [bias1]. ring.
  Qed.
  (** softmax *)
  Lemma soft_sample a c N T S x v y : on_numbers (ha_exp a) -> on_numbers (ha_inv a) ->
    (ha_stable a = true -> pos_quant [N; T; S] (tab (ha_exp_iq a))) -> pos_quant [N; T; S] (tab (ha_exp_oq a)) -> pos_quant [N; T; 1%nat] (tab (ha_inv_iq a)) -> pos_quant [N; T; 1%nat] (tab (ha_inv_oq a)) -> pos_quant [N; T; S] (tab (ha_sm_oq a)) ->
    a_S c = S -> a_stable c = ha_stable a -> a_exp_iq c = tq3 (tab (ha_exp_iq a)) -> a_exp c = (fun _ _ _ => ha_exp a) -> a_exp_oq c = tq3 (tab (ha_exp_oq a)) ->
    a_inv_iq c = tq3 (tab (ha_inv_iq a)) -> a_inv c = ha_inv a -> a_inv_oq c = tq3 (tab (ha_inv_oq a)) -> a_sm_oq c = tq3 (tab (ha_sm_oq a)) ->
    on3 N T S x v -> eval tab (ssoft_core (attn_softmax a) x) = Some y -> on3 N T S y (layer_weights c None v).
  Proof.
    intros Fe Fi P1 P2 P3 P4 P5 C1 C2 C3 C4 C5 C6 C7 C8 C9 O. unfold ssoft_core, attn_softmax. cbn [so_iq so_axes so_stable so_mask so_exp_iq so_exp so_exp_oq so_inv_iq so_inv so_inv_oq so_oq].
    rewrite eval_then, eval_ask_opt. cbn [bind]. rewrite eval_then, eval_lift.
    assert (G : forall x1, (if ha_stable a then do x0 <- Some x; np_binary Qminus (np_reduce qmax_of [3%nat] true x0) x0 else Some x) = Some x1 ->
      on3 N T S x1 (fun n t s => if ha_stable a then qmax_of (map (v n t) (seq 0 S)) - v n t s else v n t s)).
    { intros x1. destruct (ha_stable a); cbn [bind]; [|intros H; apply some_inj in H; subst x1; exact O]. intros E. exact (bin_l Qminus N T S _ _ _ _ _ Qminus_ext (red3 qmax_of N T S x v qmax_Forall2 O) O E). }
    destruct (if ha_stable a then _ else Some x) as [x1|] eqn:E1; [|discriminate]. cbn [bind]. specialize (G x1 eq_refl). rewrite eval_then, eval_ask_opt.
    assert (G2 : forall x2, match (if ha_stable a then Some (ha_exp_iq a) else None) with Some i => quant_call (tab i) x1 | None => Some x1 end = Some x2 ->
      on3 N T S x2 (fun n t s => oapp lq (if ha_stable a then Some (tq3 (tab (ha_exp_iq a))) else None) (fun n t s => if ha_stable a then qmax_of (map (v n t) (seq 0 S)) - v n t s else v n t s) n t s)).
    { intros x2. destruct (ha_stable a); cbn [oapp]; [intros E; exact (q3 _ _ _ _ _ _ _ (P1 eq_refl) G E)|]. intros H. apply some_inj in H. subst x2. exact G. }
    destruct (match (if ha_stable a then Some (ha_exp_iq a) else None) with Some i => quant_call (tab i) x1 | None => Some x1 end) as [x2|] eqn:E2; [|discriminate]. cbn [bind]. specialize (G2 x2 eq_refl). rewrite eval_then, eval_ask.
    destruct (quant_call (tab (ha_exp_oq a)) _) as [e|] eqn:E3; [|discriminate]. cbn [bind]. pose proof (q3 _ _ _ _ _ _ _ P2 (act3 _ _ _ _ _ _ Fe G2) E3) as G3. rewrite eval_then, eval_lift. cbn [bind]. rewrite eval_then, eval_ask.
    destruct (quant_call (tab (ha_inv_iq a)) _) as [s|] eqn:E4; [|discriminate]. cbn [bind]. pose proof (q3 _ _ _ _ _ _ _ P3 (red3 qsum _ _ _ _ _ qsum_Forall2 G3) E4) as G4. rewrite eval_then, eval_ask.
    destruct (quant_call (tab (ha_inv_oq a)) _) as [d|] eqn:E5; [|discriminate]. cbn [bind]. pose proof (q3 _ _ _ _ _ _ _ P4 (act3 _ _ _ _ _ _ Fi G4) E5) as G5. rewrite eval_then, eval_lift.
    destruct (np_binary Qmult e d) as [z|] eqn:E6; [|discriminate]. cbn [bind]. pose proof (bin_r Qmult _ _ _ _ _ _ _ _ Qmult_ext G3 G5 E6) as G6. rewrite eval_ask_opt. intros E7. pose proof (q3 _ _ _ _ _ _ _ P5 G6 E7) as G7.
    unfold layer_weights, group_softmax, sm_call, sm_exps, sm_exp_input, mask_input, table, at_query. cbn [sm_stable M_Softmax.sm_iq sm_exp sm_inv]. rewrite C1, C2, C3, C4, C5, C6, C7, C8, C9. destruct (ha_stable a); exact G7.
  Qed.
End Sample.
