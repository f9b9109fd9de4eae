(** Lemmas for C56: the tables. *)
From Verif Require Import Num M_Fixed M_State M_Mapper S_Mapper L_Mapper M_Contr M_Ebops L_Ebops M_Patch L_Patch M_Ops L_Ops M_Cebops L_Cebops M_Table S_Table L_Table M_Trace L_Trace M_EinsumT.
From Verif Require Import S_Ops.
From Verif Require Import L_EinsumT L_EinsumT2 L_EinsumT3.
From Verif Require Export S_EinsumT.
From Coq Require Import Permutation.
Notation qsum_ext := L_Ebops.qsum_ext.

Lemma opt_all_map {A B} (f : A -> option B) (g : A -> B) l : (forall x, In x l -> f x = Some (g x)) -> opt_all (map f l) = Some (map g l).
Proof. induction l as [|x l IH]; intros H; [reflexivity|]. cbn [map opt_all]. rewrite (H x (or_introl eq_refl)). cbn [bind]. rewrite IH by (intros y Hy; apply H; right; exact Hy). reflexivity. Qed.

Definition dflt_cell : elayer := mk_elayer (fun _ _ _ => 0) None 0 0 (fun x => x).
Definition cellf (b : tbuilt) (psh : list nat) (l : edense) (p : nat) : elayer := match cell_layer b psh l p with Some e => e | None => dflt_cell end.
Definition cell_net (b : tbuilt) (psh : list nat) (act' : (Q -> Q) -> Q -> Q) (ls : list edense) (p : nat) (x : Q) : Q :=
  nth 0 (fold_left (fun v l => dense_apply (with_act act' (cellf b psh l p)) 0%nat v) ls [x]) 0.
Lemma run_cells_spec act' (cell : nat -> elayer) (g : nat -> list Q) ps :
  run_cells act' (map cell ps) (map g ps) = map (fun p => dense_apply (with_act act' (cell p)) 0%nat (g p)) ps.
Proof. unfold run_cells. rewrite map2_map. reflexivity. Qed.
Lemma run_net_spec b psh act' ps : forall ls (g : nat -> list Q),
  fold_left (fun vs el => run_cells act' el vs) (map (fun l => map (cellf b psh l) ps) ls) (map g ps) =
  map (fun p => fold_left (fun v l => dense_apply (with_act act' (cellf b psh l p)) 0%nat v) ls (g p)) ps.
Proof.
  induction ls as [|l ls IH]; intros g; [reflexivity|]. cbn [map fold_left]. rewrite run_cells_spec. rewrite (IH (fun p => dense_apply (with_act act' (cellf b psh l p)) 0%nat (g p))). reflexivity.
Qed.
Lemma group_t_spec b psh ls act' vars mask n : length mask = length vars ->
  (forall l p, In l ls -> (p < length vars)%nat -> cell_layer b psh l p = Some (cellf b psh l p)) ->
  group_t b psh ls act' vars mask n =
  Some (map (fun t => map (fun p => cell_net b psh act' ls p (let v := nth p vars dflt_lhs in linspace (v_l v) (v_h v) n t)) (true_at mask)) (seq 0 n)).
Proof.
  intros Hl Hc. unfold group_t. cbv zeta. rewrite (sel_spec 0 mask vars Hl).
  rewrite (opt_all_map _ (fun l => map (cellf b psh l) (true_at mask))).
  - cbn [bind]. f_equal. apply map_ext. intros t. rewrite map_map. change (true_from 0 mask) with (true_at mask).
    rewrite (run_net_spec b psh act' (true_at mask) ls (fun p => [linspace (v_l (nth (p - 0) vars dflt_lhs)) (v_h (nth (p - 0) vars dflt_lhs)) n t])).
    rewrite map_map. apply map_ext. intros p. unfold cell_net. rewrite Nat.sub_0_r. reflexivity.
  - intros l Hin. apply opt_all_map. intros p Hp. apply Hc; [exact Hin|]. rewrite true_at_from in Hp. apply true_from_range in Hp. lia.
Qed.
Lemma raw_tables_t_spec b psh ls act' vars :
  (forall l p, In l ls -> (p < length vars)%nat -> cell_layer b psh l p = Some (cellf b psh l p)) ->
  exists tabs, raw_tables_t b psh ls act' vars = Some tabs /\ forall p, (p < length vars)%nat ->
    let v := nth p vars dflt_lhs in
    tabs p = Some (map (fun t => cell_net b psh act' ls p (linspace (v_l v) (v_h v) (table_size v) t)) (seq 0 (table_size v))).
Proof.
  intros Hc. unfold raw_tables_t.
  assert (G : forall ns tabs0, exists tabs, fold_left (fun acc n => do tabs <- acc; let mask := map (fun v => (table_size v =? n)%nat) vars in do rows <- group_t b psh ls act' vars mask n; Some (scatter rows mask tabs)) ns (Some tabs0) = Some tabs /\
    forall p, (p < length vars)%nat -> let v := nth p vars dflt_lhs in
      tabs p = if existsb (Nat.eqb (table_size v)) ns then Some (map (fun t => cell_net b psh act' ls p (linspace (v_l v) (v_h v) (table_size v) t)) (seq 0 (table_size v))) else tabs0 p).
  { induction ns as [|n ns IH]; intros tabs0; [exists tabs0; split; reflexivity|]. cbn [fold_left bind]. cbv zeta. rewrite group_t_spec by (try exact Hc; rewrite map_length; reflexivity). cbn [bind].
    match goal with |- exists tabs, fold_left _ ns (Some ?t1) = _ /\ _ => destruct (IH t1) as (tabs & Et & Vt) end. cbv zeta in Et. exists tabs. split; [exact Et|]. intros p Hp. rewrite (Vt p Hp). set (v := nth p vars dflt_lhs). cbn [existsb].
    destruct (existsb (Nat.eqb (table_size v)) ns); [rewrite orb_true_r; reflexivity|]. rewrite orb_false_r.
    rewrite (scatter_spec (fun q t => cell_net b psh act' ls q (let v := nth q vars dflt_lhs in linspace (v_l v) (v_h v) n t))).
    rewrite existsb_true_at. rewrite (nth_indep _ false (table_size dflt_lhs =? n)%nat) by (rewrite map_length; exact Hp).
    rewrite (map_nth (fun v => (table_size v =? n)%nat)). fold v. destruct (Nat.eqb_spec (table_size v) n) as [<-|]; reflexivity. }
  destruct (G (unique_sizes vars) (fun _ => None)) as (tabs & Et & Vt). exists tabs. split; [exact Et|]. intros p Hp. rewrite (Vt p Hp). cbv zeta. set (v := nth p vars dflt_lhs).
  assert (E : existsb (Nat.eqb (table_size v)) (unique_sizes vars) = true); [|rewrite E; reflexivity].
  apply existsb_exists. exists (table_size v). split; [|apply Nat.eqb_refl]. unfold unique_sizes. apply filter_In.
  assert (Hin : In v vars) by (apply nth_In; exact Hp). split.
  - apply in_seq. split; [lia|]. assert (table_size v <= list_max (map table_size vars))%nat; [|lia].
    pose proof (proj1 (list_max_le (map table_size vars) (list_max (map table_size vars))) (Nat.le_refl _)) as F.
    rewrite Forall_forall in F. apply F. apply in_map. exact Hin.
  - apply existsb_exists. exists v. split; [exact Hin|apply Nat.eqb_refl].
Qed.

Lemma in_range_letters (dims env : nat -> nat) L : (forall l, In l L -> (env l < dims l)%nat) -> in_range (map dims L) (map env L) = true.
Proof.
  intros H. unfold in_range. rewrite !map_length, Nat.eqb_refl. cbn [andb]. apply forallb_forall. intros [d i] Hp.
  rewrite combine_map in Hp. apply in_map_iff in Hp. destruct Hp as (l & E & Hl). injection E as <- <-. apply Nat.ltb_lt, H, Hl.
Qed.

Section Cells.
  Context (c : tconf) (dims : nat -> nat) (ish : list (option nat)) (b : tbuilt) (d_hl : nat) (act' : (Q -> Q) -> Q -> Q).
  Context (Heq : good_equation c) (Hsz : known_sizes ish (map dims (t_li c))) (Hb : build_t c ish (map dims (t_lw c)) = Some b).
  Context (Hal : bias_aligned c).
  Let presum := presum_idxs c.
  Let psh := map dims presum.
  Lemma kernel_coords_ok env : inside c dims env -> kernel_coords b psh (flat psh (map env presum)) = map env (t_lw c).
  Proof.
    intros He. destruct (build_inv c dims ish b Hsz Hb) as (_ & _ & _ & _ & _ & Ek & _). unfold kernel_coords. rewrite Ek, map_map.
    unfold psh. rewrite unflat_flat by (apply env_valid, He). apply map_ext_in. intros l Hl. apply nth_map_letter, lw_presum, Hl.
  Qed.
  Lemma cell_last env l din : inside c dims env -> shape (ed_w l) = map dims (t_lw c) ++ [din] ->
    match ed_b l with Some bi => has_bias c = true /\ shape bi = keras_bias_shape dims presum (t_lw c) | None => has_bias c = false end ->
    exists el, cell_layer b psh l (flat psh (map env presum)) = Some el /\
      e_in el = din /\ e_out el = 1%nat /\ e_act el = ed_act l /\ (forall d e, e_w el 0%nat d e = at_ (ed_w l) (map env (t_lw c) ++ [d])) /\
      match ed_b l with Some bi => exists f, e_b el = Some f /\ forall e, f 0%nat e = at_ bi (bias_index c env) | None => e_b el = None end.
  Proof.
    intros He Hw Hbi. unfold cell_layer. rewrite (kernel_coords_ok env He). rewrite map_length, Hw, app_length, map_length. cbn [length]. rewrite Nat.add_1_r, Nat.eqb_refl.
    assert (Ed : nth (length (t_lw c)) (map dims (t_lw c) ++ [din]) 0%nat = din) by (rewrite app_nth2 by (rewrite map_length; lia); rewrite map_length, Nat.sub_diag; reflexivity).
    rewrite Ed. destruct (ed_b l) as [bi|].
    - destruct Hbi as [T Sb]. specialize (Hal T). fold presum in Hal. unfold keras_bias_shape in Sb. rewrite Hal in Sb.
      assert (Sb' : shape bi = map dims (t_lw c)) by (rewrite Sb; apply map_ext_in; intros a Ha; apply memb_In in Ha; rewrite Ha; reflexivity).
      rewrite Sb'. rewrite map_length, Nat.eqb_refl. replace (firstn (length (t_lw c)) (map dims (t_lw c))) with (map dims (t_lw c)) by (symmetry; rewrite <- (map_length dims (t_lw c)); apply firstn_all).
      rewrite in_range_letters by (intros a Ha; apply He, lw_presum, Ha). cbn [andb]. eexists. split; [reflexivity|]. cbn [e_in e_out e_act e_w e_b].
      repeat (split; [reflexivity|]). eexists. split; [reflexivity|]. intros e. cbv beta. rewrite app_nil_r. f_equal. unfold bias_index. fold presum. rewrite Hal. apply map_ext_in. intros a Ha. apply memb_In in Ha. rewrite Ha. reflexivity.
    - eexists. split; [reflexivity|]. cbn [e_in e_out e_act e_w e_b]. repeat (split; [reflexivity|]). reflexivity.
  Qed.
  Lemma cell_hidden env l din h : ~ In h presum -> inside c dims env -> shape (ed_w l) = map dims (t_lw c) ++ [din; d_hl] ->
    match ed_b l with Some bi => has_bias c = true /\ shape bi = keras_bias_shape (upd dims h d_hl) (presum ++ [h]) (t_lw c ++ [h]) | None => has_bias c = false end ->
    exists el, cell_layer b psh l (flat psh (map env presum)) = Some el /\
      e_in el = din /\ e_out el = d_hl /\ e_act el = ed_act l /\ (forall d e, e_w el 0%nat d e = at_ (ed_w l) (map env (t_lw c) ++ [d; e])) /\
      match ed_b l with Some bi => exists f, e_b el = Some f /\ forall e, f 0%nat e = at_ bi (bias_index c env ++ [e]) | None => e_b el = None end.
  Proof.
    intros Hh He Hw Hbi. unfold cell_layer. rewrite (kernel_coords_ok env He). rewrite map_length, Hw, app_length, map_length. cbn [length].
    replace (length (t_lw c) + 2 =? S (length (t_lw c)))%nat with false by (symmetry; apply Nat.eqb_neq; lia).
    assert (Ed : nth (length (t_lw c)) (map dims (t_lw c) ++ [din; d_hl]) 0%nat = din) by (rewrite app_nth2 by (rewrite map_length; lia); rewrite map_length, Nat.sub_diag; reflexivity).
    assert (Eo : nth (S (length (t_lw c))) (map dims (t_lw c) ++ [din; d_hl]) 0%nat = d_hl).
    { rewrite app_nth2 by (rewrite map_length; lia). rewrite map_length. replace (S (length (t_lw c)) - length (t_lw c))%nat with 1%nat by lia. reflexivity. }
    rewrite Ed, Eo. destruct (ed_b l) as [bi|].
    - destruct Hbi as [T Sb]. specialize (Hal T). fold presum in Hal. unfold keras_bias_shape in Sb. rewrite from_first_snoc in Sb by exact Hh. rewrite Hal in Sb.
      assert (Sb' : shape bi = map dims (t_lw c) ++ [d_hl]).
      { rewrite Sb, map_app. cbn [map]. f_equal.
        - apply map_ext_in. intros a Ha. rewrite memb_app. pose proof Ha as Ha'. apply memb_In in Ha'. rewrite Ha'. cbn [orb]. unfold upd. destruct (Nat.eqb_spec a h) as [->|]; [exfalso; apply Hh, lw_presum, Ha|reflexivity].
        - rewrite memb_app. replace (memb h [h]) with true by (symmetry; apply memb_In; left; reflexivity). rewrite orb_true_r. unfold upd. rewrite Nat.eqb_refl. reflexivity. }
      rewrite Sb'. rewrite app_length, map_length. cbn [length]. rewrite Nat.add_1_r, Nat.eqb_refl. replace (firstn (length (t_lw c)) (map dims (t_lw c) ++ [d_hl])) with (map dims (t_lw c)) by (symmetry; rewrite <- (map_length dims (t_lw c)); rewrite firstn_app, firstn_all, Nat.sub_diag; cbn [firstn]; apply app_nil_r).
      rewrite in_range_letters by (intros a Ha; apply He, lw_presum, Ha). cbn [andb]. eexists. split; [reflexivity|]. cbn [e_in e_out e_act e_w e_b].
      repeat (split; [reflexivity|]). eexists. split; [reflexivity|]. intros e. cbv beta. f_equal. f_equal. unfold bias_index. fold presum. rewrite Hal. apply map_ext_in. intros a Ha. apply memb_In in Ha. rewrite Ha. reflexivity.
    - eexists. split; [reflexivity|]. cbn [e_in e_out e_act e_w e_b]. repeat (split; [reflexivity|]). reflexivity.
  Qed.
  (** the traced network of one kernel entry *)
  Lemma cells_ok env : inside c dims env -> forall ls hin hout din, ~ In hin presum -> ~ In hout presum -> module_fits c dims d_hl hin hout din ls -> translates_t act' ls ->
    (forall l, In l ls -> cell_layer b psh l (flat psh (map env presum)) = Some (cellf b psh l (flat psh (map env presum)))) /\
    forall vs v, (forall d, (d < din)%nat -> nth d vs 0 == v d) ->
      nth 0 (fold_left (fun v l => dense_apply (with_act act' (cellf b psh l (flat psh (map env presum)))) 0%nat v) ls vs) 0 ==
      entry_net d_hl din ls (map env (t_lw c)) (bias_index c env) v.
  Proof.
    intros He. induction ls as [|l ls IH]; intros hin hout din N1 N2 HF HT; [contradiction HF|].
    destruct ls as [|l' ls].
    - cbn [module_fits] in HF. destruct HF as [Hw Hbi]. fold presum in Hbi. destruct (cell_last env l din He Hw Hbi) as (el & Ec & Ein & Eout & Eact & Ew & Ebi).
      assert (Ef : cellf b psh l (flat psh (map env presum)) = el) by (unfold cellf; rewrite Ec; reflexivity).
      split; [intros x [<-|[]]; rewrite Ef; exact Ec|]. intros vs v Hv. cbn [fold_left entry_net]. rewrite Ef. unfold dense_apply, with_act. cbn [e_in e_out e_act e_w e_b]. rewrite Ein, Eout, Eact.
      cbn [seq map nth]. apply HT; [left; reflexivity|]. apply Qplus_comp.
      + apply qsum_ext. intros d Hd. apply in_seq in Hd. rewrite Ew, (Hv d) by lia. reflexivity.
      + destruct (ed_b l) as [bi|]; [|rewrite Ebi; reflexivity]. destruct Ebi as (f & -> & Hf). rewrite Hf. reflexivity.
    - cbn [module_fits] in HF. destruct HF as (Hw & Hbi & HF). fold (module_fits c dims d_hl hout hin d_hl (l' :: ls)) in HF. fold presum in Hbi.
      destruct (cell_hidden env l din hout N2 He Hw Hbi) as (el & Ec & Ein & Eout & Eact & Ew & Ebi).
      assert (Ef : cellf b psh l (flat psh (map env presum)) = el) by (unfold cellf; rewrite Ec; reflexivity).
      destruct (IH hout hin d_hl N2 N1 HF) as [I1 I2]; [intros x Hx; apply HT; right; exact Hx|].
      split; [intros x [<-|Hx]; [rewrite Ef; exact Ec|apply I1, Hx]|]. intros vs v Hv.
      change (fold_left (fun v l => dense_apply (with_act act' (cellf b psh l (flat psh (map env presum)))) 0%nat v) (l :: l' :: ls) vs) with
        (fold_left (fun v l => dense_apply (with_act act' (cellf b psh l (flat psh (map env presum)))) 0%nat v) (l' :: ls) (dense_apply (with_act act' (cellf b psh l (flat psh (map env presum)))) 0%nat vs)).
      change (entry_net d_hl din (l :: l' :: ls) (map env (t_lw c)) (bias_index c env) v) with
        (entry_net d_hl d_hl (l' :: ls) (map env (t_lw c)) (bias_index c env)
          (fun e => ed_act l (qsum (map (fun d => v d * at_ (ed_w l) (map env (t_lw c) ++ [d; e])) (seq 0 din)) + match ed_b l with Some bi => at_ bi (bias_index c env ++ [e]) | None => 0 end))).
      apply I2. intros e He'. rewrite Ef. unfold dense_apply, with_act. cbn [e_in e_out e_act e_w e_b]. rewrite Ein, Eout, Eact. rewrite nth_map_seq by exact He'.
      apply HT; [left; reflexivity|]. apply Qplus_comp.
      + apply qsum_ext. intros d Hd. apply in_seq in Hd. rewrite Ew, (Hv d) by lia. reflexivity.
      + destruct (ed_b l) as [bi|]; [|rewrite Ebi; reflexivity]. destruct Ebi as (f & -> & Hf). rewrite Hf. reflexivity.
  Qed.
End Cells.

Lemma valid_psh (dims : nat -> nat) L idx : NoDup L -> valid_index (map dims L) idx -> exists env : nat -> nat, idx = map env L /\ forall l, In l L -> (env l < dims l)%nat.
Proof. apply valid_env. Qed.
Lemma flat_onto sh p : (p < nprod sh)%nat -> exists idx, valid_index sh idx /\ flat sh idx = p.
Proof.
  intros H. assert (I : In p (map (flat sh) (indices sh))) by (rewrite map_flat_indices; apply in_seq; lia).
  apply in_map_iff in I. destruct I as (idx & E & Hi). exists idx. split; [apply in_indices, Hi|exact E].
Qed.
Section Replay.
  Context (L : tlayer) (dims : nat -> nat) (d_hl : nat) (ish : list (option nat)) (act' : (Q -> Q) -> Q -> Q) (quant : nat -> Q -> Q).
  Context (vars : list lhs) (codes : nat -> nat) (xq : nat -> Q) (x : tensor Q).
  Let c := tl_conf L.
  Let psh := map dims (presum_idxs c).
  Context (HL : good_layer L dims d_hl ish) (Hal : bias_aligned (tl_conf L)).
  Context (Hlen : length vars = nprod psh).
  Context (Hvar : forall p, (p < length vars)%nat -> var_ok (nth p vars dflt_lhs) (codes p) /\ var_value (nth p vars dflt_lhs) (codes p) (xq p)).
  Context (Hxq : forall idx, valid_index psh idx -> xq (flat psh idx) == tl_iq L (tl idx) (at_ x (firstn (length (t_li c)) idx))).
  Context (Hquant : forall idx u v, valid_index psh idx -> u == v -> quant (flat psh idx) u == tl_toq L (tl idx) v).
  Context (Htr : translates_t act' (tl_module L)) (Hact : forall u v, u == v -> act' (tl_act L) u == tl_act L v).

  Lemma replay_ok : exists r, replay_t L act' quant psh vars xq = Some r /\ shape r = map dims (t_lo c) /\
    forall o, valid_index (shape r) o -> at_ r o == table_einsum L dims d_hl x o.
  Proof.
    pose proof HL as [Geq Gsz Gb Gl Gm Gbn (Pact & Ptoq & Pmod)]. fold c in Geq, Gsz, Gb, Gl, Gm, Gbn. set (b := tl_built L) in *.
    destruct (hidden_fresh c _ _ Gl) as (F1 & F2 & F3).
    assert (Np : NoDup (presum_idxs c)) by (apply presum_nodup, Geq).
    assert (Hc : forall l p, In l (tl_module L) -> (p < length vars)%nat -> cell_layer b psh l p = Some (cellf b psh l p)).
    { intros l p Hl Hp. rewrite Hlen in Hp. destruct (flat_onto psh p Hp) as (idx & Vi & <-). destruct (valid_env dims _ idx Np Vi) as (env & -> & He).
      destruct (cells_ok c dims ish b d_hl act' Gsz Gb Hal env He (tl_module L) (tl_hin L) (tl_hout L) 1 F1 F2 Gm Htr) as [I1 _]. apply I1, Hl. }
    destruct (raw_tables_t_spec b psh (tl_module L) act' vars Hc) as (tabs & Et & Vt).
    unfold replay_t. fold b. rewrite Et. cbn [bind].
    set (val := fun p => let v := nth p vars dflt_lhs in
      let t := map (fun t => cell_net b psh act' (tl_module L) p (linspace (v_l v) (v_h v) (table_size v) t)) (seq 0 (table_size v)) in
      let t := match tl_bnorm L with Some bn => map (bn_table b psh (tl_rsqrt L) bn p) t | None => t end in
      lookup v (map (quant p) t) (xq p)).
    rewrite (opt_all_map _ val).
    2:{ intros p Hp. apply in_seq in Hp. assert (Hp' : (p < length vars)%nat) by (rewrite Hlen; lia). rewrite (Vt p Hp'). rewrite (nth_error_nth' vars dflt_lhs Hp'). reflexivity. }
    cbn [bind]. set (tt := mk_tensor psh _).
    assert (Pa : Proper (Qeq ==> Qeq) (act' (tl_act L))).
    { intros u v E. rewrite (Hact u v E). symmetry. apply Hact. reflexivity. }
    destruct (post_sum_ok c dims ish b Geq Gsz Gb (act' (tl_act L)) tt Pa eq_refl) as (r & Er & Sr & Vr).
    exists r. split; [exact Er|]. split; [exact Sr|]. intros o Vo. rewrite Sr in Vo. rewrite (Vr o Vo). unfold table_einsum. fold c. apply Hact.
    apply so_valid. intros f H1 H2. unfold tt. cbn [at_].
    assert (He : inside c dims f).
    { intros l Hl. destruct (in_dec Nat.eq_dec l (filter (fun l => negb (memb l (t_lo c))) (t_li c))) as [I|I]; [apply H1, I|]. rewrite (H2 l I).
      assert (Hlo : In l (t_lo c)).
      { destruct (in_dec Nat.eq_dec l (t_lo c)) as [J|J]; [exact J|]. exfalso. apply in_app_or in Hl. destruct Hl as [Hl|Hl].
        - apply I, filter_In. split; [exact Hl|]. apply negb_true_iff, memb_false, J.
        - apply (extra_in c) in Hl. destruct Hl as [Hw Hn]. destruct Geq as (_ & _ & _ & _ & HW). destruct (HW l Hw); contradiction. }
      clear - Vo Hlo. revert o Vo. induction (t_lo c) as [|a Lo IH]; intros o Vo; [contradiction|]. destruct o as [|i o]; inversion Vo; subst. cbn [bind_idx]. unfold upd.
      destruct (Nat.eqb_spec l a) as [->|Hn]; [assumption|]. destruct Hlo as [Hl|Hl]; [congruence|]. apply IH; assumption. }
    assert (Vi : valid_index psh (map f (presum_idxs c))) by (apply env_valid, He).
    set (p := flat psh (map f (presum_idxs c))). assert (Hp : (p < nprod psh)%nat) by (apply flat_lt, Vi). assert (Hp' : (p < length vars)%nat) by (rewrite Hlen; exact Hp).
    rewrite (nth_map_seq val _ _ Hp). unfold val. cbv zeta. destruct (Hvar p Hp') as [V (t & Ht & Ex)]. set (v := nth p vars dflt_lhs) in *. rewrite (table_size_ok v _ V).
    rewrite (lookup_at v (codes p) _ (xq p) t V Ex).
    assert (Es : cell_net b psh act' (tl_module L) p (linspace (v_l v) (v_h v) (S (codes p)) t) ==
                 entry_net d_hl 1 (tl_module L) (map f (t_lw c)) (bias_index c f) (fun _ => tl_iq L (tl (map f (presum_idxs c))) (at_ x (map f (t_li c))))).
    { destruct (cells_ok c dims ish b d_hl act' Gsz Gb Hal f He (tl_module L) (tl_hin L) (tl_hout L) 1 F1 F2 Gm Htr) as [_ I2].
      unfold cell_net. apply I2. intros d Hd. replace d with 0%nat by lia. cbn [nth]. rewrite (linspace_at v (codes p) t V Ht), <- Ex. unfold p. rewrite (Hxq _ Vi).
      assert (Ef : firstn (length (t_li c)) (map f (presum_idxs c)) = map f (t_li c)); [|rewrite Ef; reflexivity].
      unfold presum_idxs. rewrite map_app, firstn_app, map_length, Nat.sub_diag. cbn [firstn]. rewrite app_nil_r. rewrite <- (map_length f (t_li c)). apply firstn_all. }
    unfold table_term. fold c. unfold p at 1. destruct (tl_bnorm L) as [bn|].
    - rewrite !map_map. rewrite nth_map_seq by lia. unfold p. apply Hquant; [exact Vi|]. fold p. destruct Gbn as (T & Sm & Ss).
      destruct (build_inv c dims ish b Gsz Gb) as (_ & _ & _ & _ & _ & _ & Ea & Eb). rewrite T in Ea. destruct (Eb T) as [Hi _].
      unfold bn_table. cbv zeta. rewrite Ea, map_map.
      assert (En : map (fun l => nth (index_of l (presum_idxs c)) (unflat psh p) 0%nat) (norm_idxs c) = map f (norm_idxs c)).
      { unfold p. rewrite unflat_flat by exact Vi. apply map_ext_in. intros l Hl. apply nth_map_letter, Hi, Hl. }
      rewrite En. unfold normalized. rewrite Es. ring.
    - rewrite map_map. rewrite nth_map_seq by lia. unfold p. apply Hquant; [exact Vi|]. exact Es.
  Qed.
End Replay.
