From Coq Require Import String.
From Verif Require Import Num M_Fixed L_Fixed M_State S_State L_State M_Wrapper M_Mapper S_Mapper L_Mapper M_Contr M_Ebops S_Ebops L_Ebops M_Ops L_Ops M_Mirror M_Net M_Cost S_Cost L_Cost.
Local Open Scope list_scope.

(** ** calibration leaves no sign bit without magnitude bits *)
Definition kif_sound (s : kif_state) : Prop := kif_k s = true -> (0 < kif_iz s + kif_fz s)%Z.
Lemma kif_trace_sound c s xs s' out : wrap_trainable c -> c_ic c = None -> kif_sound s -> kif_call c Trace s xs = Some (s', out) -> kif_sound s'.
Proof.
  intros W I S E. destruct (kif_trace_step c s xs s' out W E) as (m & A & _ & Ef & Ei & _ & Ek). unfold kif_sound in *. unfold kif_fz at 1. rewrite Ef. fold (kif_fz s). rewrite Ei, Ek, I. cbn [apply_cz]. intros K.
  apply orb_true_iff in K as [K|K]; [specialize (S K); lia|]. apply any_neg_spec in K as (v & Hv & Nv). pose proof (absmax_bound _ _ _ A Hv) as B. pose proof (pow2_pos (- kif_fz s)) as P.
  assert (Q0 : 0 < m). { rewrite Qabs_neg in B by lra. lra. }
  assert (X : (- kif_fz s < minimal_i_xf m (kif_fz s))%Z).
  { apply Z.nle_gt. intros L. unfold minimal_i_xf in L. apply ceil_log2_le in L; lra. }
  lia.
Qed.
Lemma kif_run_sound c h : wrap_trainable c -> c_ic c = None -> forall s s' outs, kif_sound s -> kif_run c s (map (fun b => (Trace, b)) h) = Some (s', outs) -> kif_sound s'.
Proof.
  intros W I. induction h as [|x h IH]; intros s s' outs S E; cbn [map kif_run] in E; [injection E as <- _; exact S|].
  destruct (kif_call c Trace s x) as [[s1 o]|] eqn:C; [|discriminate]. destruct (kif_run c s1 _) as [[s2 os]|] eqn:R; [|discriminate]. injection E as <- _. exact (IH s1 s2 os (kif_trace_sound c s x s1 o W I S C) R).
Qed.
(** outside the weights nothing is recorded *)
Lemma kif_trun_outside ha oa built het hom w c h : wrap_trainable c -> built_for ha oa built het hom w -> Forall (fun x => shape_matches built (shape x)) h ->
  forall s s' outs g, ~ valid_index w g -> kif_built w s -> kif_trun c hom s (map (fun b => (Trace, b)) h) = Some (s', outs) -> at_ (t_k s') g = at_ (t_k s) g.
Proof.
  intros (Wo & Wt) B. induction 1 as [|x h Hx Hh IH]; intros s s' outs g Ng Bs E; cbn [map kif_trun] in E; [injection E as <- _; reflexivity|].
  destruct (kif_tcall c hom Trace s x) as [[s1 o]|] eqn:C; [|discriminate]. cbn [bind] in E. destruct (kif_trun c hom s1 _) as [[s2 os]|] eqn:R; [|discriminate]. cbn [bind] in E. injection E as <- _.
  destruct (kif_tcall_groupwise _ _ _ _ _ _ _ _ _ _ _ _ B Hx Bs C) as (_ & B1 & _).
  rewrite (IH s1 s2 os g Ng B1 R). unfold kif_tcall in C. rewrite Wo, Wt in C. cbn [is_wrap andb] in C. cbv zeta in C. destruct (broadcast_to _ _) as [f|] eqn:Bf; [|discriminate]. cbn [bind] in C.
  destruct (x_to_bw_absmax hom _) as [xr|]; [|discriminate]. cbn [bind] in C. injection C as <- _. cbn [t_k tmap2 at_]. unfold x_to_bw_sign, reduce_keep. cbn [at_].
  assert (Z : collect hom (round_t c x f) g = []).
  { destruct (collect hom (round_t c x f) g) as [|v l] eqn:Ec; [reflexivity|exfalso]. assert (Hv : In v (collect hom (round_t c x f) g)) by (rewrite Ec; left; reflexivity).
    pose proof (built_setting _ _ _ _ _ _ _ B Hx) as S. apply (in_collect hom (shape x) (round_t c x f) g v eq_refl) in Hv as (idx & Hi & <- & _). exact (Ng (ms_valid _ _ _ _ _ S idx Hi)). }
  rewrite Z. cbn [any_neg existsb]. apply orb_false_r.
Qed.
Lemma valid_dec w g : {valid_index w g} + {~ valid_index w g}.
Proof. destruct (in_dec (list_eq_dec Nat.eq_dec) g (indices w)) as [H|H]; [left; apply in_indices; exact H|right; intros X; apply H; apply in_indices; exact X]. Qed.
Theorem kif_calibrated_silent ha oa built het hom w c s batches s' outs (sc : option Q) sp : wrap_trainable c -> c_ic c = None -> c_weight c = false -> built_for ha oa built het hom w -> kif_built w s ->
  Forall (fun x => shape_matches built (shape x)) batches -> kif_ttrace c hom true s batches = Some (s', outs) -> silent (mk_quant (mk_wrapper sc None sp) c hom (inl s')).
Proof.
  intros W I Cw B Bs M E. unfold kif_ttrace in E. destruct W as (Wo & Wt). set (s0 := kif_treset c s) in E.
  assert (E0 : s0 = mk_kift (tmap (fun _ => false) (t_k s)) (tmap (fun _ => inject_Z (-1000000000)) (t_i s)) (t_f s)) by (unfold s0, kif_treset; rewrite Wo, Wt; reflexivity).
  assert (B0 : kif_built w s0) by (rewrite E0; exact Bs).
  assert (K0 : forall g, at_ (t_k s0) g = false) by (intros g; rewrite E0; reflexivity).
  assert (M' : Forall (fun mx => shape_matches built (shape (snd mx))) (map (fun b => (Trace, b)) batches)) by (apply Forall_map; exact M).
  destruct (kif_trun_groups _ _ _ _ _ _ c _ B M' s0 s' outs B0 E) as ((S1 & S2 & S3) & G).
  unfold silent. cbn [q_w w_affine q_c]. split; [reflexivity|]. split; [unfold one_shape; cbn [q_s]; split; congruence|]. unfold qbits_of. cbn [q_s q_c]. split.
  - intros g. cbn [qb_b tmap2 at_]. unfold kif_b. lia.
  - right. split; [exact Cw|]. intros g. cbn [qb_k qb_b tmap2 tmap at_]. intros K. destruct (valid_dec w g) as [V|V].
    + specialize (G g V). rewrite map_map in G. cbn [fst snd] in G.
      assert (X : kif_sound (kif_at s' g)). { eapply (kif_run_sound c (map (fun b => collect hom b g) batches) (conj Wo Wt) I (kif_at s0 g)); [intros X; cbn [kif_at kif_k] in X; rewrite K0 in X; discriminate|]. rewrite map_map. exact G. }
      specialize (X K). unfold kif_b. unfold kif_iz, kif_fz in X. cbn [kif_at kif_i kif_f] in X. lia.
    + rewrite (kif_trun_outside _ _ _ _ _ _ c batches (conj Wo Wt) B M s0 s' outs g V B0 E), K0 in K. discriminate.
Qed.
Theorem kbi_calibrated_silent ha oa built het hom w c s batches s' outs (sc : option Q) sp : wrap_trainable c -> c_weight c = false -> built_for ha oa built het hom w -> kbi_built w s ->
  (forall g, (0 <= round_even (at_ (u_b s) g))%Z) ->
  Forall (fun x => shape_matches built (shape x)) batches -> kbi_ttrace c hom true s batches = Some (s', outs) -> silent (mk_quant (mk_wrapper sc None sp) c hom (inr s')).
Proof.
  intros W Cw B Bs Nb M E. unfold kbi_ttrace in E. destruct W as (Wo & Wt). set (s0 := kbi_treset c s) in E.
  assert (E0 : s0 = mk_kbit (tmap (fun _ => false) (u_k s)) (u_b s) (tmap (fun _ => inject_Z (-1000000000)) (u_i s))) by (unfold s0, kbi_treset; rewrite Wo, Wt; reflexivity).
  assert (B0 : kbi_built w s0) by (rewrite E0; exact Bs).
  assert (M' : Forall (fun mx => shape_matches built (shape (snd mx))) (map (fun b => (Trace, b)) batches)) by (apply Forall_map; exact M).
  destruct (kbi_trun_groups _ _ _ _ _ _ c _ B M' s0 s' outs B0 E) as ((S1 & S2 & S3) & _).
  assert (X : forall h s1 s2 os, kbi_trun c hom s1 (map (fun b => (Trace, b)) h) = Some (s2, os) -> (forall g, at_ (u_k s1) g = true -> (0 < round_even (at_ (u_b s1) g))%Z) ->
     u_b s2 = u_b s1 /\ forall g, at_ (u_k s2) g = true -> (0 < round_even (at_ (u_b s2) g))%Z).
  { induction h as [|x h IH]; intros s1 s2 os R K; cbn [map kbi_trun] in R; [injection R as <- _; split; [reflexivity|exact K]|].
    destruct (kbi_tcall c hom Trace s1 x) as [[s3 o]|] eqn:C; [|discriminate]. cbn [bind] in R. destruct (kbi_trun c hom s3 _) as [[s4 os']|] eqn:R'; [|discriminate]. cbn [bind] in R. injection R as <- _.
    unfold kbi_tcall in C. rewrite Wo, Wt in C. cbn [is_wrap andb] in C. cbv zeta in C. destruct (x_to_bw_absmax hom x) as [xr|]; [|discriminate]. cbn [bind] in C.
    destruct (broadcast_to _ _) as [f|]; [|discriminate]. cbn [bind] in C. injection C as <- _.
    refine (IH _ _ _ R' _). cbn [u_k u_b tmap2 tmap at_]. intros g H. apply orb_true_iff in H as [H|H]; [exact (K g H)|]. apply andb_true_iff in H as (_ & H). apply Z.ltb_lt. exact H. }
  destruct (X batches s0 s' outs E) as (Eb & K); [intros g H; rewrite E0 in H; discriminate|].
  unfold silent. cbn [q_w w_affine q_c]. split; [reflexivity|]. split; [unfold one_shape; cbn [q_s]; split; congruence|]. unfold qbits_of. cbn [q_s q_c]. split.
  - intros g. cbn [qb_b tmap at_]. rewrite Eb, E0. cbn [u_b]. apply Nb.
  - right. split; [exact Cw|]. intros g. cbn [qb_k qb_b tmap at_]. apply K.
Qed.
