(** Lemmas for C64: for every layer kind, the gradient of a width lies between the price of its last bit and the price of one
    more bit. *)
From Verif Require Import Num M_Fixed M_State M_Mapper S_Mapper L_Mapper M_Contr M_Ebops S_Ebops L_Ebops M_Cebops M_Grad S_Grad L_Grad L_Grad2 L_Grad3 L_Grad4.

(** averages *)
Lemma avg_le {A} (h : A -> Q) l : l <> [] -> exists j, In j l /\ h j <= qsum (map h l) / nQ (length l).
Proof.
  intros Hl. assert (E : exists j, In j l /\ forall x, In x l -> h j <= h x).
  { induction l as [|a l IH]; [congruence|]. destruct l as [|b l]; [exists a; split; [left; reflexivity|]; intros x [<-|[]]; apply Qle_refl|].
    destruct IH as (j & Hj & Hm); [discriminate|]. destruct (Qlt_le_dec (h a) (h j)) as [H|H].
    - exists a. split; [left; reflexivity|]. intros x [<-|Hx]; [apply Qle_refl|]. specialize (Hm x Hx). lra.
    - exists j. split; [right; exact Hj|]. intros x [<-|Hx]; [exact H|apply Hm, Hx]. }
  destruct E as (j & Hj & Hm). exists j. split; [exact Hj|].
  assert (L : nQ (length l) * h j <= qsum (map h l)).
  { clear Hj Hl. induction l as [|a l IH]; [change (nQ (length (@nil A))) with 0; cbn; lra|]. cbn [map length]. rewrite qsum_cons.
    assert (Hn : nQ (S (length l)) == 1 + nQ (length l)). { unfold nQ. rewrite Nat2Z.inj_succ. unfold Z.succ. rewrite injZ_add. change (inject_Z 1) with 1. ring. }
    assert (Hx : nQ (S (length l)) * h j == h j + nQ (length l) * h j) by (rewrite Hn; ring). rewrite Hx.
    pose proof (Hm a (or_introl eq_refl)). specialize (IH (fun x Hx => Hm x (or_intror Hx))). lra. }
  apply Qle_shift_div_l; [apply nQ_pos; destruct l; [congruence|cbn [length]; lia]|]. rewrite Qmult_comm. exact L.
Qed.

Lemma qsum_minus {A} (f g : A -> Q) l : qsum (map (fun a => f a - g a) l) == qsum (map f l) - qsum (map g l).
Proof. induction l as [|a l IH]; cbn [map]; [reflexivity|]. rewrite !qsum_cons, IH. ring. Qed.

Section Price.
  Context (p : par) (Hp : par_ok p) (Hln : ln2_ok p) (up : bool) (s0 : nat) (n0 : wname) (g0 : index).
  Notation v0 := (s0, n0, g0).
  Notation sg := (if up then 1 else -(1)).
  Definition Kr (q : Q) (d : dual) : Prop :=
    0 <= q /\ 0 <= dv d /\ (forall v, 0 <= dg d v) /\ dv d + sg * dg d v0 <= q /\ (if up then dv d <= q else q <= dv d).
  Definition Br (q : Q) (d : dual) : Prop :=
    0 <= q /\ 0 <= dv d /\ (forall v, 0 <= dg d v) /\ q == dv d + sg * dg d v0 /\ (exists z, dv d == inject_Z z) /\ (dg d v0 == 0 \/ dg d v0 == 1).
  Lemma B_K q d : Br q d -> Kr q d.
  Proof. intros (H1 & H2 & H3 & H4 & _). repeat split; auto; [rewrite H4; apply Qle_refl|]. pose proof (H3 v0). destruct up; lra. Qed.
  Lemma K_P q d : Kr q d -> Pr (dv d) d. Proof. intros (H1 & H2 & H3 & _). repeat split; auto. Qed.
  Lemma K_cst c : 0 <= c -> Kr c (d_cst c).
  Proof. intros H. unfold Kr. cbn [d_cst dv dg]. repeat split; auto; [intros; apply Qle_refl|destruct up; lra|destruct up; apply Qle_refl]. Qed.
  Lemma K_add x x' y y' : Kr x x' -> Kr y y' -> Kr (x + y) (d_add x' y').
  Proof.
    intros (A1 & A2 & A3 & A4 & A5) (B1 & B2 & B3 & B4 & B5). unfold Kr. cbn [d_add dv dg]. split; [lra|]. split; [lra|]. split; [intros v; specialize (A3 v); specialize (B3 v); lra|]. destruct up; split; lra.
  Qed.
  Lemma mul_le a b c d : 0 <= a -> a <= b -> 0 <= c -> c <= d -> a * c <= b * d.
  Proof. intros Ha Hab Hc Hcd. apply (M_mul a b c d); split; assumption. Qed.
  Lemma K_mul x x' y y' : Kr x x' -> Kr y y' -> Kr (x * y) (d_mul x' y').
  Proof.
    intros (A1 & A2 & A3 & A4 & A5) (B1 & B2 & B3 & B4 & B5). unfold Kr. cbn [d_mul dv dg].
    pose proof (A3 v0) as GA. pose proof (B3 v0) as GB. set (u := dg x' v0) in *. set (w := dg y' v0) in *. repeat split.
    - apply mulnn; assumption.
    - apply mulnn; assumption.
    - intros v. specialize (A3 v). specialize (B3 v). assert (0 <= dg x' v * dv y') by (apply mulnn; assumption). assert (0 <= dv x' * dg y' v) by (apply mulnn; assumption). lra.
    - destruct up.
      + assert (L : (dv x' + u) * (dv y' + w) <= x * y) by (apply mul_le; lra).
        assert (E : (dv x' + u) * (dv y' + w) == dv x' * dv y' + (u * dv y' + dv x' * w) + u * w) by ring.
        assert (0 <= u * w) by (apply mulnn; assumption). lra.
      + assert (L1 : (dv x' - x) * dv y' <= u * dv y') by (apply Qmult_le_compat_r; lra).
        assert (L2 : x * (dv y' - y) <= dv x' * w) by (apply mul_le; lra).
        assert (E : x * y == dv x' * dv y' - (dv x' - x) * dv y' - x * (dv y' - y)) by ring. lra.
    - destruct up; apply mul_le; assumption.
  Qed.
  (** values that dominate a convex combination *)
  Lemma comb_le s a b m : 0 <= s -> s <= 1 -> a <= m -> b <= m -> s * a + (1 - s) * b <= m.
  Proof.
    intros H0 H1 Ha Hb. assert (s * a <= s * m) by (rewrite (Qmult_comm s a), (Qmult_comm s m); apply Qmult_le_compat_r; assumption).
    assert ((1 - s) * b <= (1 - s) * m) by (rewrite (Qmult_comm _ b), (Qmult_comm _ m); apply Qmult_le_compat_r; lra).
    assert (E : s * m + (1 - s) * m == m) by ring. lra.
  Qed.
  Lemma share_cases a b : (share p a b == 1 /\ a <= b) \/ (share p a b == 0 /\ b <= a) \/ (a == b).
  Proof.
    unfold share. destruct (Qeq_bool a b) eqn:E; [right; right; apply Qeq_bool_iff, E|]. destruct (Qle_bool a b) eqn:L.
    - left. split; [reflexivity|]. apply Qle_bool_iff, L.
    - right. left. split; [reflexivity|]. destruct (Qlt_le_dec a b) as [H|H]; [|exact H]. apply Qlt_le_weak, Qle_bool_iff in H. congruence.
  Qed.
  Lemma K_max x x' y y' : Kr x x' -> Kr y y' -> Kr (Qmax x y) (d_max2 p x' y').
  Proof.
    intros HA HB. pose proof (P_max p Hp (dv x') x' (dv y') y' (K_P _ _ HA) (K_P _ _ HB)) as (_ & PV & PG).
    destruct HA as (A1 & A2 & A3 & A4 & A5), HB as (B1 & B2 & B3 & B4 & B5). repeat split; [|exact PV|exact PG| |].
    - pose proof (Q.le_max_l x y). lra.
    - cbn [d_max2 dv dg]. pose proof (Q.le_max_l x y) as ML. pose proof (Q.le_max_r x y) as MR.
      set (a := dg x' v0) in *. set (b := dg y' v0) in *.
      destruct (share_cases (dv y') (dv x')) as [[S C]|[[S C]|C]].
      + rewrite S, (Q.max_l _ _ C). assert (E : sg * (1 * a + (1 - 1) * b) == sg * a) by ring. rewrite E. lra.
      + rewrite S, (Q.max_r _ _ C). assert (E : sg * (0 * a + (1 - 0) * b) == sg * b) by ring. rewrite E. lra.
      + destruct (share_bounds p (dv y') (dv x') Hp) as [S0 S1]. set (s := share p (dv y') (dv x')) in *. clearbody s.
        assert (Em : Qmax (dv x') (dv y') == dv x') by (apply Q.max_l; lra). rewrite Em.
        assert (L : s * (dv x' + sg * a) + (1 - s) * (dv x' + sg * b) <= Qmax x y) by (apply comb_le; lra).
        assert (E : s * (dv x' + sg * a) + (1 - s) * (dv x' + sg * b) == dv x' + sg * (s * a + (1 - s) * b)) by ring. lra.
    - cbn [d_max2 dv]. destruct up; apply Q.max_le_compat; assumption.
  Qed.
  Lemma K_exp x x' : Br x x' -> Kr (pow2 (Qfloor x)) (d_exp2 p x').
  Proof.
    intros (H1 & H2 & H3 & H4 & (z & Hz) & H5). unfold Kr. cbn [d_exp2 dv dg].
    assert (Fz : Qfloor (dv x') = z) by (rewrite Hz; apply floor_inject). rewrite Fz.
    pose proof (pow2_pos z) as Pz. repeat split.
    - apply Qlt_le_weak, pow2_pos.
    - apply Qlt_le_weak, pow2_pos.
    - intros v. apply mulnn; [|apply H3]. apply mulnn; [lra|]. destruct Hln. lra.
    - destruct H5 as [G|G].
      + assert (Fx : Qfloor x = z). { rewrite H4, G. assert (E : dv x' + sg * 0 == inject_Z z) by (rewrite Hz; ring). rewrite E. apply floor_inject. }
        rewrite Fx, G. assert (E : pow2 z + sg * (pow2 z * p_ln2 p * 0) == pow2 z) by ring. rewrite E. apply Qle_refl.
      + destruct Hln as [L1 L2]. rewrite G. destruct up.
        * assert (Fx : Qfloor x = (z + 1)%Z). { rewrite H4, G, Hz. assert (E : inject_Z z + 1 * 1 == inject_Z z + inject_Z 1) by (change (inject_Z 1) with 1; ring). rewrite E, <- injZ_add. apply floor_inject. }
          rewrite Fx, pow2_succ. assert (pow2 z * p_ln2 p <= pow2 z * 1) by (rewrite (Qmult_comm _ (p_ln2 p)), (Qmult_comm _ 1); apply Qmult_le_compat_r; lra). lra.
        * assert (Fx : Qfloor x = (z - 1)%Z). { rewrite H4, G, Hz. assert (E : inject_Z z + - (1) * 1 == inject_Z z + inject_Z (-1)) by (change (inject_Z (-1)) with (-(1)); ring). rewrite E, <- injZ_add. apply floor_inject. }
          rewrite Fx. pose proof (pow2_pred z) as E. assert (pow2 z * (1 # 2) <= pow2 z * p_ln2 p) by (rewrite (Qmult_comm _ (p_ln2 p)), (Qmult_comm _ (1 # 2)); apply Qmult_le_compat_r; lra). lra.
    - assert (Hx : if up then dv x' <= x else x <= dv x') by (pose proof (H3 v0); destruct up; lra).
      destruct up; rewrite <- Fz; apply pow2_le, floor_mono, Hx.
  Qed.

  (** sum minus minimum *)
  Lemma drop_one l l' : Forall2 Kr l l' -> forall j, In j l' -> exists qj, In qj l /\
    qsum (map (fun d => dv d + sg * dg d v0) l') - (dv j + sg * dg j v0) <= qsum l - qj.
  Proof.
    assert (G : forall l l', Forall2 Kr l l' -> qsum (map (fun d => dv d + sg * dg d v0) l') <= qsum l).
    { clear. induction 1 as [|x y l l' (_ & _ & _ & H & _) _ IH]; [apply Qle_refl|]. cbn [map]. rewrite !qsum_cons. lra. }
    induction 1 as [|x y l l' Hxy Hl IH]; intros j Hj; [destruct Hj|]. cbn [map]. destruct Hj as [<-|Hj].
    - exists x. split; [left; reflexivity|]. rewrite !qsum_cons. specialize (G _ _ Hl). lra.
    - destruct (IH j Hj) as (qj & Hq & H). exists qj. split; [right; exact Hq|]. rewrite !qsum_cons. destruct Hxy as (_ & _ & _ & H4 & _). lra.
  Qed.
  (** [d] is a minimum of [l'] and its derivative is on the right side of that of one of the minimal elements *)
  Definition min_dual (l' : list dual) (d : dual) : Prop := exists j, In j l' /\ dv j == dv d /\ sg * dg j v0 <= sg * dg d v0.
  Lemma smm_K x l l' d : Forall2 Kr (x :: l) l' -> min_dual l' d ->
    qsum (map dv l') - dv d + sg * (qsum (map (fun e => dg e v0) l') - dg d v0) <= qsum (x :: l) - qmin_list x l.
  Proof.
    intros H (j & Hj & E & G). destruct (drop_one _ _ H j Hj) as (qj & Hq & L).
    assert (M : qmin_list x l <= qj). { destruct (qmin_list_le x l) as [M1 M2]. destruct Hq as [<-|Hq]; [exact M1|apply M2, Hq]. }
    assert (S : qsum (map (fun d => dv d + sg * dg d v0) l') == qsum (map dv l') + sg * qsum (map (fun e => dg e v0) l')).
    { clear. induction l' as [|a l IH]; cbn [map]; [change (qsum []) with 0; ring|]. rewrite !qsum_cons, IH. ring. }
    rewrite S in L. assert (E2 : sg * (qsum (map (fun e => dg e v0) l') - dg d v0) == sg * qsum (map (fun e => dg e v0) l') - sg * dg d v0) by ring. rewrite E2. lra.
  Qed.
  Lemma minl_min l : l <> [] -> min_dual l (d_minl l).
  Proof.
    intros Hl. unfold d_minl. set (m := a_minl q_arith (map dv l)). set (ties := filter (fun d => Qeq_bool (dv d) m) l).
    assert (Ht : ties <> []).
    { assert (E : exists d, In d l /\ dv d == m).
      { unfold m. destruct l as [|a l]; [congruence|]. cbn [map a_minl q_arith]. destruct (qmin_list_in (dv a) (map dv l)) as [E|(x & Hx & E)].
        - exists a. split; [left; reflexivity|]. symmetry. exact E.
        - apply in_map_iff in Hx. destruct Hx as (d & <- & Hd). exists d. split; [right; exact Hd|]. symmetry. exact E. }
      destruct E as (d & Hd & E). intros C. assert (I : In d ties) by (apply filter_In; split; [exact Hd|apply Qeq_bool_iff, E]). rewrite C in I. destruct I. }
    destruct (avg_le (fun d => sg * dg d v0) ties Ht) as (j & Hj & L). exists j. cbn [dv dg].
    apply filter_In in Hj. destruct Hj as [Hj E]. apply Qeq_bool_iff in E. split; [exact Hj|]. split; [exact E|].
    assert (S : qsum (map (fun d => sg * dg d v0) ties) == sg * qsum (map (fun d => dg d v0) ties)).
    { clear. induction ties as [|a t IH]; cbn [map]; [change (qsum []) with 0; ring|]. rewrite !qsum_cons, IH. ring. }
    unfold Qdiv in *. rewrite S in L. rewrite Qmult_assoc. exact L.
  Qed.
  Lemma fold_min_min l : forall a L, min_dual L a -> (forall d, In d l -> In d L) -> min_dual L (fold_left (d_min2 p) l a).
  Proof.
    induction l as [|x l IH]; intros a L Ha Hl; cbn [fold_left]; [exact Ha|]. apply IH.
    - destruct Ha as (j & Hj & E & G). assert (Hx : In x L) by (apply Hl; left; reflexivity). unfold min_dual. cbn [d_min2 dv dg].
      destruct (share_cases (dv a) (dv x)) as [[S C]|[[S C]|C]].
      + exists j. split; [exact Hj|]. rewrite (Q.min_l _ _ C), S. split; [exact E|]. assert (E2 : sg * (1 * dg a v0 + (1 - 1) * dg x v0) == sg * dg a v0) by ring. rewrite E2. exact G.
      + exists x. split; [exact Hx|]. rewrite (Q.min_r _ _ C), S. split; [reflexivity|]. assert (E2 : sg * (0 * dg a v0 + (1 - 0) * dg x v0) == sg * dg x v0) by ring. rewrite E2. apply Qle_refl.
      + destruct (share_bounds p (dv a) (dv x) Hp) as [S0 S1]. set (s := share p (dv a) (dv x)) in *. clearbody s.
        assert (Em : Qmin (dv a) (dv x) == dv a) by (apply Q.min_l; lra).
        assert (E2 : sg * (s * dg a v0 + (1 - s) * dg x v0) == s * (sg * dg a v0) + (1 - s) * (sg * dg x v0)) by ring.
        destruct (Qlt_le_dec (sg * dg a v0) (sg * dg x v0)) as [H|H].
        * exists j. split; [exact Hj|]. rewrite Em. split; [exact E|]. rewrite E2.
          assert (L2 : s * (- (sg * dg a v0)) + (1 - s) * (- (sg * dg x v0)) <= - (sg * dg a v0)) by (apply comb_le; lra). 
          assert (E3 : s * (- (sg * dg a v0)) + (1 - s) * (- (sg * dg x v0)) == - (s * (sg * dg a v0) + (1 - s) * (sg * dg x v0))) by ring. lra.
        * exists x. split; [exact Hx|]. rewrite Em. split; [symmetry; exact C|]. rewrite E2.
          assert (L2 : s * (- (sg * dg a v0)) + (1 - s) * (- (sg * dg x v0)) <= - (sg * dg x v0)) by (apply comb_le; lra). 
          assert (E3 : s * (- (sg * dg a v0)) + (1 - s) * (- (sg * dg x v0)) == - (s * (sg * dg a v0) + (1 - s) * (sg * dg x v0))) by ring. lra.
    - intros d Hd. apply Hl. right. exact Hd.
  Qed.

  Lemma accum_h (h : dual -> Q) axes t : (forall a b, h (d_sub a b) = h a - h b) -> (forall l, h (g_sum (d_arith p) l) = qsum (map h l)) ->
    h (g_accum (d_arith p) axes t) == qsum (map (fun g => qsum (map h (collect axes t g)) - h (d_minl (collect axes t g))) (indices (keep_shape_from 0 axes (shape t)))).
  Proof.
    intros Hs Hq. unfold g_accum. change (a_sub (d_arith p)) with d_sub. rewrite Hs. unfold g_tsum. rewrite !Hq, !map_map.
    rewrite (qsum_partition (keep axes) (fun i => h (at_ t i)) (indices (shape t)) (indices (keep_shape_from 0 axes (shape t))) (NoDup_indices _)).
    2:{ intros a Ha. apply in_indices. apply in_indices in Ha. apply keep_valid. exact Ha. }
    unfold g_min_over, reduce_keep. cbn [shape at_ d_arith a_minl].
    rewrite <- qsum_minus. apply qsum_ext. intros g _. unfold collect. rewrite map_map. reflexivity.
  Qed.
  Lemma K_accum axes t t' : trel Kr t t' -> Kr (g_accum q_arith axes t) (g_accum (d_arith p) axes t').
  Proof.
    intros H.
    assert (HP : trel Pr (tmap dv t') t') by (split; [reflexivity|]; intros i; cbn [tmap at_]; apply (K_P _ _ (proj2 H i))).
    destruct (P_accum p axes _ _ HP) as (PE & PV & PG).
    assert (HM : if up then trel Mr (tmap dv t') t else trel Mr t (tmap dv t')).
    { destruct H as [HS H]. unfold trel, Mr. cbn [tmap shape at_].
      assert (H' := H). unfold Kr in H'. destruct up; (split; [congruence|]); intros i; destruct (H' i) as (A1 & A2 & _ & _ & A5); split; assumption. }
    assert (HM2 : 0 <= g_accum q_arith axes t /\ if up then dv (g_accum (d_arith p) axes t') <= g_accum q_arith axes t else g_accum q_arith axes t <= dv (g_accum (d_arith p) axes t')).
    { destruct up; destruct (M_accum axes _ _ HM) as [M1 M2]; [split; lra|split; [exact M1|lra]]. }
    split; [apply HM2|]. split; [exact PV|]. split; [exact PG|]. split; [|apply HM2].
    rewrite accum_form. rewrite (accum_h dv axes t'); [|reflexivity|apply dsum_v]. rewrite (accum_h (fun d => dg d v0) axes t'); [|reflexivity|intros; apply dsum_g].
    rewrite (proj1 H). rewrite <- qsum_scale. rewrite <- qsum_plus. apply qsum_le. intros g _.
    pose proof (collect_rel Kr axes t t' g H) as C. destruct (collect axes t g) as [|x l]; inversion C as [|? ? ? ? ? ? E1 E2]; subst.
    - cbn [map]. change (qsum []) with 0. change (min_of []) with 0. unfold d_minl. cbn [map filter dv dg a_minl q_arith length]. change (qsum []) with 0. destruct up; vm_compute; discriminate.
    - rewrite E2. cbn [min_of]. apply smm_K; [exact C|]. apply minl_min. rewrite <- E2. discriminate.
  Qed.
  Lemma K_excl idx b0 b0' rest rest' : trel Kr b0 b0' -> Forall2 (trel Kr) rest rest' ->
    Kr (Qminus (g_sum q_arith (map (fun i => fold_left Qplus (map (fun b => at_ b i) (b0 :: rest)) 0) idx))
               (g_sum q_arith (map (fun i => fold_left Qmin (map (fun b => at_ b i) rest) (at_ b0 i)) idx)))
       (d_sub (g_sum (d_arith p) (map (fun i => fold_left d_add (map (fun b => at_ b i) (b0' :: rest')) (d_cst 0)) idx))
              (g_sum (d_arith p) (map (fun i => fold_left (d_min2 p) (map (fun b => at_ b i) rest') (at_ b0' i)) idx))).
  Proof.
    intros H0 Hr.
    assert (HP0 : trel Pr (tmap dv b0') b0') by (split; [reflexivity|]; intros i; cbn [tmap at_]; apply (K_P _ _ (proj2 H0 i))).
    assert (HPr : Forall2 (trel Pr) (map (tmap dv) rest') rest').
    { clear -Hr. induction Hr as [|x y l l' [_ Hx] _ IH]; cbn [map]; constructor; [|exact IH]. split; [reflexivity|]. intros i. cbn [tmap at_]. apply (K_P _ _ (Hx i)). }
    destruct (P_excl p Hp idx _ _ _ _ HP0 HPr) as (PE & PV & PG).
    match type of PV with 0 <= dv ?d => set (D := d) in * end.
    match goal with |- Kr ?q _ => set (qq := q) end.
    assert (HM2 : 0 <= qq /\ if up then dv D <= qq else qq <= dv D).
    { assert (T0 : if up then trel Mr (tmap dv b0') b0 else trel Mr b0 (tmap dv b0')).
      { destruct H0 as [HS H]. unfold trel, Mr. cbn [tmap shape at_]. assert (H' := H). unfold Kr in H'.
        destruct up; (split; [congruence|]); intros i; destruct (H' i) as (A1 & A2 & _ & _ & A5); split; assumption. }
      assert (Tr : if up then Forall2 (trel Mr) (map (tmap dv) rest') rest else Forall2 (trel Mr) rest (map (tmap dv) rest')).
      { clear -Hr. unfold Kr in Hr. destruct up; induction Hr as [|x y l l' [HS H] _ IH]; cbn [map]; constructor; try exact IH; (split; [cbn [tmap shape]; congruence|]); intros i;
          cbn [tmap at_]; destruct (H i) as (A1 & A2 & _ & _ & A5); split; assumption. }
      destruct up; destruct (M_excl idx _ _ _ _ T0 Tr) as [M1 M2]; fold qq in M1, M2; [split; lra|split; [exact M1|lra]]. }
    split; [apply HM2|]. split; [exact PV|]. split; [exact PG|]. split; [|apply HM2].
    unfold D, qq. cbn [d_sub dv dg]. rewrite !dsum_v, !dsum_g, !map_map. change (g_sum q_arith) with qsum.
    rewrite <- !qsum_minus. rewrite <- qsum_scale, <- qsum_plus. apply qsum_le. intros i _.
    rewrite fold_add_v, fold_add_g, fold_plus. cbn [d_cst dv dg].
    assert (C : Forall2 Kr (map (fun b => at_ b i) (b0 :: rest)) (map (fun b => at_ b i) (b0' :: rest'))).
    { cbn [map]. constructor; [apply H0|]. clear -Hr. induction Hr as [|x y l l' [_ Hx] _ IH]; cbn [map]; constructor; auto. }
    cbn [map] in C. set (L' := at_ b0' i :: map (fun b => at_ b i) rest') in *.
    pose proof (smm_K (at_ b0 i) (map (fun b => at_ b i) rest) L' (fold_left (d_min2 p) (map (fun b => at_ b i) rest') (at_ b0' i)) C) as S.
    assert (MD : min_dual L' (fold_left (d_min2 p) (map (fun b => at_ b i) rest') (at_ b0' i))).
    { apply fold_min_min; [|intros d Hd; right; exact Hd]. exists (at_ b0' i). split; [left; reflexivity|]. split; [reflexivity|apply Qle_refl]. }
    specialize (S MD). unfold qmin_list in S. fold L'.
    assert (E : map (fun b => at_ b i) (b0' :: rest') = L') by reflexivity. rewrite E.
    assert (E2 : map (fun b => at_ b i) (b0 :: rest) = at_ b0 i :: map (fun b => at_ b i) rest) by reflexivity. rewrite E2.
    set (X := fold_left (d_min2 p) (map (fun b => at_ b i) rest') (at_ b0' i)) in *. clearbody X.
    set (Y := fold_left Qmin _ _) in *. clearbody Y.
    assert (E3 : sg * (0 + qsum (map (fun d => dg d v0) L') - dg X v0) == sg * (qsum (map (fun e => dg e v0) L') - dg X v0)) by ring.
    rewrite E3. lra.
  Qed.
  Theorem price_rel l qs qs' : pf_ok l -> Forall2 (trel Br) qs qs' -> orel Kr (g_ebops q_arith l qs) (g_ebops (d_arith p) l qs').
  Proof.
    apply layer_rel; [apply B_K| |exact K_cst|apply K_add|apply K_mul|apply K_max|apply K_exp|apply K_accum|apply K_excl].
    unfold Br. cbn [q_arith d_arith a_cst d_cst dv dg]. repeat split; try apply Qle_refl; [intros; apply Qle_refl|ring|exists 0%Z; reflexivity|left; reflexivity].
  Qed.

  (** the bits of the quantizers *)
  Notation dz := (if up then 1 else -1)%Z.
  Lemma bits_B k q : b_ok q -> (k = s0 -> acts q n0 g0 /\ (up = false -> (0 < at_ (qb_b (to_qbits q)) g0)%Z)) ->
    trel Br (bits_t (if (k =? s0)%nat then add_bits dz (to_qbits q) g0 else to_qbits q)) (d_bits k q).
  Proof.
    intros Hb Ha. destruct (d_bits_P k q Hb) as [HS HV]. split; [destruct (k =? s0)%nat; exact HS|]. intros g. destruct (HV g) as (V & N & G).
    assert (Z : exists z, dv (at_ (d_bits k q) g) == inject_Z z) by (eexists; rewrite <- V; unfold q_bits_t; cbn [tmap2 at_]; reflexivity).
    destruct (Nat.eqb_spec k s0) as [E|E].
    - subst k. destruct (Ha eq_refl) as [Hact Hpos]. destruct (own_S s0 n0 g0 q Hact) as [_ O]. destruct (O g) as [O1 _]. unfold Ar in O1.
      assert (G01 : dg (at_ (d_bits s0 q) g) v0 == inject_Z (if index_eqb g g0 then 1 else 0)).
      { rewrite <- V in O1. unfold bits_t, add_bits, q_bits_t in O1. cbn [tmap2 at_ qb_om qb_k qb_b] in O1. cbn [to_qbits qb_om qb_k qb_b] in O1.
        destruct (tq_om q); cbn [q_bits] in O1; rewrite ?injZ_add in O1; lra. }
      assert (EQ : at_ (bits_t (add_bits dz (to_qbits q) g0)) g == dv (at_ (d_bits s0 q) g) + sg * dg (at_ (d_bits s0 q) g) v0).
      { rewrite G01, <- V. unfold bits_t, add_bits, q_bits_t. cbn [tmap2 at_ qb_om qb_k qb_b]. cbn [to_qbits qb_om qb_k qb_b].
        destruct (index_eqb g g0), up; destruct (tq_om q); cbn [q_bits]; rewrite ?injZ_add; change (inject_Z 1) with 1; change (inject_Z 0) with 0; change (inject_Z (-1)) with (-(1)); ring. }
      assert (NN : 0 <= at_ (bits_t (add_bits dz (to_qbits q) g0)) g).
      { unfold bits_t, add_bits. cbn [tmap2 at_ qb_om qb_k qb_b]. change 0 with (inject_Z 0). rewrite <- Zle_Qle. apply q_bits_nonneg.
        pose proof (b_nonneg q g Hb) as B. destruct (index_eqb g g0) eqn:Eg; [|lia]. apply index_eqb_eq in Eg. subst g. destruct up; [lia|]. specialize (Hpos eq_refl). lia. }
      repeat split; auto. rewrite G01. destruct (index_eqb g g0); [right|left]; reflexivity.
    - destruct (other_S s0 n0 g0 k q E) as [_ O]. destruct (O g) as [_ C]. destruct (C E) as [C1 C2].
      assert (EQ : at_ (bits_t (to_qbits q)) g == dv (at_ (d_bits k q) g) + sg * dg (at_ (d_bits k q) g) v0) by (rewrite C1, C2; ring).
      repeat split; auto. rewrite C1. exact N.
  Qed.
  Lemma ebops_price l qs : pf_ok l -> Forall b_ok qs ->
    (forall q, nth_error qs s0 = Some q -> acts q n0 g0 /\ (up = false -> (0 < at_ (qb_b (to_qbits q)) g0)%Z)) ->
    orel Kr (ebops_with l (add_bits_at dz s0 g0 (map to_qbits qs))) (d_ebops p l qs).
  Proof.
    intros Hl Hb Ha. rewrite ebops_with_g. unfold d_ebops. apply price_rel; [exact Hl|]. unfold add_bits_at.
    assert (G : forall l' k, Forall b_ok l' -> (forall j q, nth_error l' j = Some q -> (k + j)%nat = s0 -> acts q n0 g0 /\ (up = false -> (0 < at_ (qb_b (to_qbits q)) g0)%Z)) ->
      Forall2 (trel Br) (map bits_t (number_from (fun j q => if (j =? s0)%nat then add_bits dz q g0 else q) k (map to_qbits l'))) (number_from d_bits k l')).
    { induction l' as [|a l' IH]; intros k HF H; cbn [map number_from]; constructor.
      - apply bits_B; [inversion HF; assumption|]. intros ->. apply (H 0%nat a eq_refl). lia.
      - apply IH; [inversion HF; assumption|]. intros j q Hj Hk. apply (H (S j) q Hj). lia. }
    apply G; [exact Hb|]. intros j q Hj Hk. cbn [Nat.add] in Hk. subst j. apply Ha, Hj.
  Qed.
End Price.

Lemma price_between p l qs s n g q d : backend_ok p -> ln2_ok p -> factor_ok l -> Forall well_set qs -> nth_error qs s = Some q -> acts q n g -> d_ebops p l qs = Some d ->
  exists e, ebops_with l (map to_qbits qs) = Some e /\
    (exists e', ebops_with l (add_bits_at 1 s g (map to_qbits qs)) = Some e' /\ dg d (s, n, g) <= e' - e) /\
    ((0 < at_ (qb_b (to_qbits q)) g)%Z -> exists e', ebops_with l (add_bits_at (-1) s g (map to_qbits qs)) = Some e' /\ e - e' <= dg d (s, n, g)).
Proof.
  intros Hp Hln Hl HW Hq Ha E. assert (Hb : Forall b_ok qs) by (eapply Forall_impl; [|exact HW]; intros; apply well_set_b; assumption).
  pose proof (d_ebops_value p l qs Hl) as V. rewrite E in V. rewrite ebops_same in V. destruct (ebops_with l (map to_qbits qs)) as [e|]; cbn [orel] in V; [|contradiction]. unfold Vr in V.
  exists e. split; [reflexivity|]. split.
  - assert (Hc : forall q', nth_error qs s = Some q' -> acts q' n g /\ (true = false -> (0 < at_ (qb_b (to_qbits q')) g)%Z)).
    { intros q' Hq'. assert (q' = q) by congruence. subst. split; [exact Ha|discriminate]. }
    pose proof (ebops_price p Hp Hln true s n g l qs Hl Hb Hc) as K. rewrite E in K. cbn beta iota in K.
    destruct (ebops_with l (add_bits_at 1 s g (map to_qbits qs))) as [e'|]; cbn [orel] in K; [|contradiction]. exists e'. split; [reflexivity|].
    destruct K as (_ & _ & _ & K & _). cbn beta iota in K. lra.
  - intros Hpos. assert (Hc : forall q', nth_error qs s = Some q' -> acts q' n g /\ (false = false -> (0 < at_ (qb_b (to_qbits q')) g)%Z)).
    { intros q' Hq'. assert (q' = q) by congruence. subst. split; [exact Ha|intros _; exact Hpos]. }
    pose proof (ebops_price p Hp Hln false s n g l qs Hl Hb Hc) as K. rewrite E in K. cbn beta iota in K.
    destruct (ebops_with l (add_bits_at (-1) s g (map to_qbits qs))) as [e'|]; cbn [orel] in K; [|contradiction]. exists e'. split; [reflexivity|].
    destruct K as (_ & _ & _ & K & _). cbn beta iota in K. lra.
Qed.
