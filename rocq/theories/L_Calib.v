(** Lemmas for C59. *)
From Verif Require Import Num M_Fixed L_Fixed M_State S_State L_State M_Wrapper M_Mapper S_Mapper L_Mapper M_Contr M_Ebops L_Ebops M_Pow2 M_Patch L_Patch M_Ops L_Ops M_Mirror L_Mirror M_Trace L_Trace M_Net L_Net M_Causal L_Causal M_Calib S_Ops S_Calib.

(** *** one quantizer *)
Fixpoint quant_run (q : quant) (xs : list (tensor Q)) : option (quant * list (tensor Q)) :=
  match xs with
  | [] => Some (q, [])
  | x :: xs' => do (q1, y) <- quant_step Trace q x; do (q2, ys) <- quant_run q1 xs'; Some (q2, y :: ys)
  end.
Definition posted (q : quant) (y : tensor Q) : tensor Q :=
  let y := match w_scaler (q_w q) with Some s => tmap (fun y => y * s) y | None => y end in
  match w_affine (q_w q) with Some (a, b) => tmap (fun y => y * a + b) y | None => y end.
Lemma posted_same q y y' : same_tensor y y' -> same_tensor (posted q y) (posted q y').
Proof.
  intros H. unfold posted. cbv zeta. assert (E : same_tensor (match w_scaler (q_w q) with Some s => tmap (fun y => y * s) y | None => y end) (match w_scaler (q_w q) with Some s => tmap (fun y => y * s) y' | None => y' end)).
  { destruct (w_scaler (q_w q)); [|exact H]. apply st_tmap; [|exact H]. intros a b ->. reflexivity. }
  destruct (w_affine (q_w q)) as [[a b]|]; [|exact E]. apply st_tmap; [|exact E]. intros u v ->. reflexivity.
Qed.
Lemma scaled_same q x x' : same_tensor x x' -> same_tensor (scaled q x) (scaled q x').
Proof. intros H. unfold scaled. destruct (w_scaler (q_w q)); [|exact H]. apply st_tmap; [|exact H]. intros a b ->. reflexivity. Qed.
Lemma scaled_shape q x : shape (scaled q x) = shape x.
Proof. unfold scaled. destruct (w_scaler (q_w q)); reflexivity. Qed.
(** a traced call and a call at inference, through the wrapper *)
Lemma step_trace q x : quant_step Trace q x = do (q', y) <- inner_call Trace q (scaled q x); Some (q', posted q y).
Proof. unfold quant_step, scaled, posted. cbv zeta. destruct (inner_call Trace q _) as [[q' y]|]; [|reflexivity]. cbn [bind is_train]. destruct (w_noise (q_w q)); reflexivity. Qed.
Lemma call_scaled q x : quant_call q x = do y <- match q_s q with inl s => kif_infer (q_c q) (q_hom q) s (scaled q x) | inr s => kbi_infer (q_c q) (q_hom q) s (scaled q x) end; Some (posted q y).
Proof. unfold quant_call, quantizer_infer, scaled, posted. cbv zeta. destruct (q_s q); reflexivity. Qed.

(** a call at inference depends on the values only *)
Lemma base_same c k i f x x' y : same_tensor x x' -> base_tcall c false k i f x = Some y -> exists y', base_tcall c false k i f x' = Some y' /\ same_tensor y y'.
Proof.
  intros (S & A). unfold base_tcall. rewrite <- S. destruct (broadcast_to k _) as [kx|]; cbn [bind]; [|discriminate]. destruct (broadcast_to i _) as [ix|]; cbn [bind]; [|discriminate].
  destruct (broadcast_to f _) as [fx|]; cbn [bind]; [|discriminate]. intros H. apply some_inj in H. subst y. eexists. split; [reflexivity|]. split; [reflexivity|].
  cbn [shape at_]. intros j Hj. apply base_call_Proper, A, Hj.
Qed.
Lemma round_same c x x' f : same_tensor x x' -> same_tensor (round_t c x f) (round_t c x' f).
Proof. intros (S & A). split; [exact S|]. cbn [round_t tmap2 shape at_]. intros j Hj. rewrite (A j Hj). reflexivity. Qed.
Lemma kif_infer_same c hom s x x' y : same_tensor x x' -> kif_infer c hom s x = Some y -> exists y', kif_infer c hom s x' = Some y' /\ same_tensor y y'.
Proof.
  intros H. unfold kif_infer, kif_tcall. cbv zeta. pose proof H as (S & _). rewrite <- S.
  assert (B : (do (_, y) <- (do y <- base_tcall c false (t_k s) (tmap round_even (t_i s)) (tmap round_even (t_f s)) x; Some (s, y)); Some y) = Some y ->
    exists y', (do (_, y) <- (do y <- base_tcall c false (t_k s) (tmap round_even (t_i s)) (tmap round_even (t_f s)) x'; Some (s, y)); Some y) = Some y' /\ same_tensor y y').
  { destruct (base_tcall c false _ _ _ x) as [z|] eqn:E; [|discriminate]. cbn [bind]. intros Y. apply some_inj in Y. subst z. destruct (base_same _ _ _ _ _ _ _ H E) as (y' & -> & S'). exists y'. auto. }
  destruct (_ && _); [|exact B]. destruct (broadcast_to (tmap round_even (t_f s)) (shape x)) as [f|]; cbn [bind]; [|discriminate]. destruct (c_weight c); [|exact B]. cbn [bind]. intros Y. apply some_inj in Y. subst y.
  eexists. split; [reflexivity|]. apply round_same, H.
Qed.
Lemma kbi_infer_same c hom s x x' y : same_tensor x x' -> kbi_infer c hom s x = Some y -> exists y', kbi_infer c hom s x' = Some y' /\ same_tensor y y'.
Proof.
  intros H. unfold kbi_infer, kbi_tcall. cbv zeta. pose proof H as (S & _). rewrite <- S.
  assert (B : (do (_, y) <- (do y <- base_tcall c false (u_k s) (tmap round_even (u_i s)) (tmap2 Z.sub (tmap round_even (u_b s)) (tmap round_even (u_i s))) x; Some (s, y)); Some y) = Some y ->
    exists y', (do (_, y) <- (do y <- base_tcall c false (u_k s) (tmap round_even (u_i s)) (tmap2 Z.sub (tmap round_even (u_b s)) (tmap round_even (u_i s))) x'; Some (s, y)); Some y) = Some y' /\ same_tensor y y').
  { destruct (base_tcall c false _ _ _ x) as [z|] eqn:E; [|discriminate]. cbn [bind]. intros Y. apply some_inj in Y. subst z. destruct (base_same _ _ _ _ _ _ _ H E) as (y' & -> & S'). exists y'. auto. }
  destruct (is_wrap _ && _); [|exact B]. destruct (broadcast_to _ (shape x)) as [f|]; cbn [bind]; [|discriminate]. destruct (c_weight c && _); [|exact B]. cbn [bind]. intros Y. apply some_inj in Y. subst y.
  eexists. split; [reflexivity|]. apply round_same, H.
Qed.
Lemma quant_call_same q x x' y : same_tensor x x' -> quant_call q x = Some y -> exists y', quant_call q x' = Some y' /\ same_tensor y y'.
Proof.
  intros H. rewrite !call_scaled. pose proof (scaled_same q _ _ H) as H'. destruct (q_s q) as [s|s].
  - destruct (kif_infer _ _ s (scaled q x)) as [z|] eqn:E; [|discriminate]. cbn [bind]. intros Y. apply some_inj in Y. subst y. destruct (kif_infer_same _ _ _ _ _ _ H' E) as (z' & -> & S).
    eexists. split; [reflexivity|]. apply posted_same, S.
  - destruct (kbi_infer _ _ s (scaled q x)) as [z|] eqn:E; [|discriminate]. cbn [bind]. intros Y. apply some_inj in Y. subst y. destruct (kbi_infer_same _ _ _ _ _ _ H' E) as (z' & -> & S).
    eexists. split; [reflexivity|]. apply posted_same, S.
Qed.

(** the run of a wrapper as the run of the quantizer inside *)
Lemma run_kif w c hom : forall xs s q' ys, quant_run (mk_quant w c hom (inl s)) xs = Some (q', ys) ->
  exists s' outs, kif_trun c hom s (map (fun x => (Trace, scaled (mk_quant w c hom (inl s)) x)) xs) = Some (s', outs) /\ q' = mk_quant w c hom (inl s') /\ ys = map (posted (mk_quant w c hom (inl s))) outs.
Proof.
  induction xs as [|x xs IH]; intros s q' ys H; cbn [quant_run] in H.
  - injection H as <- <-. exists s, []. repeat split.
  - rewrite step_trace in H. unfold inner_call in H. cbn [q_s q_c q_hom q_w] in H. cbn [map kif_trun]. destruct (kif_tcall c hom Trace s _) as [[s1 o]|] eqn:E; [|discriminate]. cbn [bind] in *.
    destruct (quant_run _ xs) as [[q2 os]|] eqn:R; [|discriminate]. cbn [bind] in H. injection H as <- <-.
    destruct (IH s1 _ _ R) as (s' & outs & T & -> & ->). exists s', (o :: outs).
    change (map (fun x => (Trace, scaled (mk_quant w c hom (inl s)) x)) xs) with (map (fun x => (Trace, scaled (mk_quant w c hom (inl s1)) x)) xs). rewrite T. cbn [bind]. repeat split.
Qed.
Lemma run_kbi w c hom : forall xs s q' ys, quant_run (mk_quant w c hom (inr s)) xs = Some (q', ys) ->
  exists s' outs, kbi_trun c hom s (map (fun x => (Trace, scaled (mk_quant w c hom (inr s)) x)) xs) = Some (s', outs) /\ q' = mk_quant w c hom (inr s') /\ ys = map (posted (mk_quant w c hom (inr s))) outs.
Proof.
  induction xs as [|x xs IH]; intros s q' ys H; cbn [quant_run] in H.
  - injection H as <- <-. exists s, []. repeat split.
  - rewrite step_trace in H. unfold inner_call in H. cbn [q_s q_c q_hom q_w] in H. cbn [map kbi_trun]. destruct (kbi_tcall c hom Trace s _) as [[s1 o]|] eqn:E; [|discriminate]. cbn [bind] in *.
    destruct (quant_run _ xs) as [[q2 os]|] eqn:R; [|discriminate]. cbn [bind] in H. injection H as <- <-.
    destruct (IH s1 _ _ R) as (s' & outs & T & -> & ->). exists s', (o :: outs).
    change (map (fun x => (Trace, scaled (mk_quant w c hom (inr s)) x)) xs) with (map (fun x => (Trace, scaled (mk_quant w c hom (inr s1)) x)) xs). rewrite T. cbn [bind]. repeat split.
Qed.

(** [good q x y]: at inference the quantizer maps [x] to [y] *)
Definition good (q : quant) (x y : tensor Q) : Prop := exists y', quant_call q x = Some y' /\ same_tensor y y'.

(** static quantizers *)
Lemma run_static q : static q -> forall xs q' ys, quant_run q xs = Some (q', ys) -> q' = q /\ Forall2 (good q) xs ys.
Proof.
  intros St. induction xs as [|x xs IH]; intros q' ys H; cbn [quant_run] in H.
  - injection H as <- <-. split; [reflexivity|constructor].
  - destruct (quant_step Trace q x) as [[q1 y]|] eqn:E; [|discriminate]. cbn [bind] in H.
    assert (Q1 : q1 = q /\ good q x y).
    { rewrite step_trace in E. unfold inner_call in E. unfold good. rewrite call_scaled. unfold static in St. destruct q as [w c hom [s|s]]; cbn [q_s q_c q_hom q_w] in *.
      - unfold kif_infer, kif_tcall in *. cbv zeta in *. rewrite St in *. cbn [is_train] in *. destruct (base_tcall c false _ _ _ _) as [z|]; cbn [bind] in *; [|discriminate]. injection E as <- <-. split; [reflexivity|].
        eexists. split; [reflexivity|]. apply st_refl.
      - unfold kbi_infer, kbi_tcall in *. cbv zeta in *. rewrite St in *. cbn [is_train] in *. destruct (base_tcall c false _ _ _ _) as [z|]; cbn [bind] in *; [|discriminate]. injection E as <- <-. split; [reflexivity|].
        eexists. split; [reflexivity|]. apply st_refl. }
    destruct Q1 as (-> & G). destruct (quant_run q xs) as [[q2 os]|] eqn:R; [|discriminate]. cbn [bind] in H. injection H as <- <-. destruct (IH _ _ eq_refl) as (-> & F). split; [reflexivity|]. constructor; assumption.
Qed.

(** KIF: fraction widths never change, traced values are the rounded ones *)
Lemma kif_trace_step c hom s x s' y : wrap_trainable c -> kif_tcall c hom Trace s x = Some (s', y) ->
  t_f s' = t_f s /\ exists f, broadcast_to (tmap round_even (t_f s)) (shape x) = Some f /\ y = round_t c x f.
Proof.
  intros (Wm & Wt). unfold kif_tcall. cbv zeta. rewrite Wm, Wt. cbn [is_wrap andb]. destruct (broadcast_to _ _) as [f|]; cbn [bind]; [|discriminate].
  destruct (x_to_bw_absmax _ _); cbn [bind]; [|discriminate]. intros H. injection H as <- <-. cbn [t_f]. split; [reflexivity|]. exists f. split; reflexivity.
Qed.
Lemma kif_trace_outs c hom : wrap_trainable c -> forall xs s s' outs, kif_trun c hom s (map (fun x => (Trace, x)) xs) = Some (s', outs) ->
  t_f s' = t_f s /\ Forall2 (fun x y => exists f, broadcast_to (tmap round_even (t_f s)) (shape x) = Some f /\ y = round_t c x f) xs outs.
Proof.
  intros W. induction xs as [|x xs IH]; intros s s' outs H; cbn [map kif_trun] in H.
  - injection H as <- <-. split; [reflexivity|constructor].
  - destruct (kif_tcall c hom Trace s x) as [[s1 o]|] eqn:E; [|discriminate]. cbn [bind] in H. destruct (kif_trun c hom s1 _) as [[s2 os]|] eqn:R; [|discriminate]. cbn [bind] in H. injection H as <- <-.
    destruct (kif_trace_step _ _ _ _ _ _ W E) as (F1 & f & B & ->). destruct (IH _ _ _ R) as (F2 & A). rewrite F1 in *. split; [exact F2|]. constructor; [|exact A]. exists f. split; [exact B|reflexivity].
Qed.
Lemma not_static q : is_wrap (c_om (q_c q)) && c_trainable (q_c q) = true -> wrap_trainable (q_c q).
Proof. intros H. apply andb_true_iff in H as (A & B). split; [destruct (c_om (q_c q)); try discriminate; reflexivity|exact B]. Qed.
Lemma treset_f c s : t_f (kif_treset c s) = t_f s.
Proof. unfold kif_treset. destruct (_ && _); reflexivity. Qed.

Lemma run_kif_good (reset : bool) q xs q' ys : wrap_trainable (q_c q) -> kif_tracks q xs -> quant_run (if reset then quant_reset q else q) xs = Some (q', ys) -> Forall2 (good q') xs ys.
Proof.
  intros W (s & Es & C) H. destruct q as [w c hom qs]. cbn [q_s q_c q_hom] in *. subst qs.
  set (s0 := if reset then kif_treset c s else s).
  assert (H' : quant_run (mk_quant w c hom (inl s0)) xs = Some (q', ys)) by (unfold s0; destruct reset; exact H). clear H.
  destruct (run_kif _ _ _ _ _ _ _ H') as (s' & outs & T & -> & ->). clear H'.
  change (map (fun x => (Trace, scaled (mk_quant w c hom (inl s0)) x)) xs) with (map (fun x => (Trace, scaled (mk_quant w c hom (inl s)) x)) xs) in T.
  rewrite <- (map_map (scaled (mk_quant w c hom (inl s))) (fun x => (Trace, x))) in T.
  destruct (kif_trace_outs c hom W _ _ _ _ T) as (F & A). assert (F0 : t_f s0 = t_f s) by (unfold s0; destruct reset; [apply treset_f|reflexivity]). rewrite F0 in F, A.
  assert (G : forall x y, In x xs -> (exists f, broadcast_to (tmap round_even (t_f s)) (shape (scaled (mk_quant w c hom (inl s)) x)) = Some f /\ y = round_t c (scaled (mk_quant w c hom (inl s)) x) f) -> good (mk_quant w c hom (inl s')) x (posted (mk_quant w c hom (inl s0)) y)).
  { intros x y Hx (f & B & ->). unfold good. rewrite call_scaled. cbn [q_s q_c q_hom].
    change (scaled (mk_quant w c hom (inl s')) x) with (scaled (mk_quant w c hom (inl s)) x). set (z := scaled (mk_quant w c hom (inl s)) x) in *.
    assert (I : exists o, kif_infer c hom s' z = Some o /\ same_tensor (round_t c z f) o).
    { destruct C as [C|(ha & oa & built & het & wsh & Bf & Bs & P)].
      - unfold kif_infer, kif_tcall. cbv zeta. pose proof W as (W1 & W2). rewrite W1, W2. cbn [is_wrap andb]. rewrite F, B. cbn [bind]. rewrite C. cbn [bind]. eexists. split; [reflexivity|]. apply st_refl.
      - assert (Sh : forall x, In x xs -> shape_matches built (shape (scaled (mk_quant w c hom (inl s)) x))) by (intros x0 Hx0; rewrite scaled_shape; apply P, Hx0).
        assert (Fs : Forall (fun x => shape_matches built (shape x)) (map (scaled (mk_quant w c hom (inl s))) xs)).
        { apply Forall_forall. intros x0 Hx0. apply in_map_iff in Hx0 as (x1 & <- & Hx1). apply Sh, Hx1. }
        assert (Rc : forall x f i, In x (map (scaled (mk_quant w c hom (inl s))) xs) -> broadcast_to (tmap round_even (t_f s)) (shape x) = Some f -> valid_index (shape x) i -> kif_reachable c (at_ f i) (at_ x i)).
        { intros x0 f0 i Hx0 Bx Vi. apply in_map_iff in Hx0 as (x1 & <- & Hx1). rewrite scaled_shape in *. apply (proj2 (P x1 Hx1)); assumption. }
        assert (T' : kif_ttrace c hom reset s (map (scaled (mk_quant w c hom (inl s))) xs) = Some (s', outs)) by exact T.
        assert (D : exists o, kif_tcall c hom Infer s' z = Some (s', o)).
        { assert (Bs' : kif_built wsh s').
          { assert (Hh : Forall (fun mx : mode * tensor Q => shape_matches built (shape (snd mx))) (map (fun b => (Trace, b)) (map (scaled (mk_quant w c hom (inl s))) xs))).
            { apply Forall_forall. intros mx Hm. apply in_map_iff in Hm as (b & <- & Hb'). cbn [snd]. rewrite Forall_forall in Fs. auto. }
            refine (proj1 (kif_trun_groups _ _ _ _ _ _ c _ Bf Hh s0 s' outs _ T)). destruct Bs as (b1 & b2 & b3). unfold s0, kif_treset. destruct reset; [|repeat split; assumption]. destruct (_ && _); repeat split; assumption. }
          pose proof (built_setting _ _ _ _ _ _ _ Bf (Sh x Hx)) as Se. fold z in Se. destruct Bs' as (b1 & b2 & b3).
          unfold kif_tcall. cbv zeta. pose proof W as (W1 & W2). rewrite W1, W2. cbn [is_wrap andb]. rewrite F, B. cbn [bind]. destruct (c_weight c); [eexists; reflexivity|].
          assert (B3 : shape (tmap round_even (t_f s)) = wsh) by (cbn [tmap shape]; rewrite <- F; exact b3).
          unfold base_tcall. rewrite (broadcast_spec _ _ _ _ _ Se (t_k s') b1), (broadcast_spec _ _ _ _ _ Se (tmap round_even (t_i s')) b2), (broadcast_spec _ _ _ _ _ Se (tmap round_even (t_f s)) B3).
          cbn [bind]. eexists. reflexivity. }
        destruct D as (o & D). destruct (kif_tensor_calibrated _ _ _ _ _ _ _ reset _ _ _ _ Bf W Bs Fs Rc T' z (in_map _ _ _ Hx) _ _ D) as (_ & So & f' & Bf' & Af).
        rewrite B in Bf'. apply some_inj in Bf'. subst f'. exists o. unfold kif_infer. rewrite D. cbn [bind]. split; [reflexivity|]. split; [cbn [round_t tmap2 shape]; congruence|].
        cbn [round_t tmap2 shape at_]. intros i Vi. rewrite (Af i Vi). reflexivity. }
    destruct I as (o & -> & So). cbn [bind]. eexists. split; [reflexivity|]. exact (posted_same (mk_quant w c hom (inl s0)) _ _ So). }
  clear T C W F. revert outs A G. induction xs as [|x xs IH]; intros outs A G; cbn [map] in A; inversion A as [|? o ? os Ao Aos]; subst; [constructor|]. cbn [map]. constructor.
  - apply G; [left; reflexivity|exact Ao].
  - apply IH; [exact Aos|]. intros x1 y1 H1. apply G. right. exact H1.
Qed.

(** KBI on one input throughout *)
Lemma apply_cz_idem c a m : (m <= a)%Z -> apply_cz c (Z.max (apply_cz c a) m) = apply_cz c a.
Proof. intros H. unfold apply_cz. destruct c as [[lo hi|v|lo|hi]|]; lia. Qed.
Definition next_i (c : qconf) (xr : tensor Q) (s : kbi_tstate) (g : index) : Z :=
  apply_cz (c_ic c) (Z.max (round_even (at_ (u_i s) g)) (minimal_i_xb (at_ xr g) (round_even (at_ (u_b s) g)))).
Lemma kbi_trace_step c hom s x s' y : wrap_trainable c -> kbi_tcall c hom Trace s x = Some (s', y) ->
  exists xr, x_to_bw_absmax hom x = Some xr /\ u_b s' = u_b s /\ shape (u_i s') = shape (u_i s) /\ (forall g, at_ (u_i s') g = inject_Z (next_i c xr s g)) /\
  bcast_ok (shape (u_b s)) (shape x) = true /\ shape y = shape x /\
  forall j, at_ y j = round_f (c_rm c) (round_even (at_ (u_b s) (bcast_index (shape (u_b s)) j)) - next_i c xr s (bcast_index (shape (u_b s)) j)) (at_ x j).
Proof.
  intros (Wm & Wt). unfold kbi_tcall. cbv zeta. rewrite Wm, Wt. cbn [is_wrap andb]. destruct (x_to_bw_absmax _ _) as [xr|]; cbn [bind]; [|discriminate].
  unfold broadcast_to. cbn [tmap2 tmap shape]. destruct (bcast_ok _ _) eqn:B; cbn [bind]; [|discriminate]. intros H. injection H as <- <-. exists xr. cbn [u_b u_i tmap tmap2 shape at_ round_t].
  repeat split; reflexivity.
Qed.
(** after the first call nothing changes any more *)
Lemma kbi_trun_const c hom z : wrap_trainable c -> forall n s s' outs, kbi_trun c hom s (map (fun x => (Trace, x)) (repeat z (S n))) = Some (s', outs) ->
  exists xr, x_to_bw_absmax hom z = Some xr /\ u_b s' = u_b s /\ (forall g, at_ (u_i s') g = inject_Z (next_i c xr s g)) /\ bcast_ok (shape (u_b s)) (shape z) = true /\
  Forall (fun y => shape y = shape z /\ forall j, at_ y j = round_f (c_rm c) (round_even (at_ (u_b s) (bcast_index (shape (u_b s)) j)) - next_i c xr s (bcast_index (shape (u_b s)) j)) (at_ z j)) outs.
Proof.
  intros W. induction n as [|n IH]; intros s s' outs H.
  - cbn [repeat map kbi_trun] in H. destruct (kbi_tcall c hom Trace s z) as [[s1 o]|] eqn:E; [|discriminate]. cbn [bind] in H. injection H as <- <-.
    destruct (kbi_trace_step _ _ _ _ _ _ W E) as (xr & X & B & _ & I & K & So & Ao). exists xr. repeat (split; [assumption|]). constructor; [split; assumption|constructor].
  - change (repeat z (S (S n))) with (z :: repeat z (S n)) in H. cbn [map kbi_trun] in H. destruct (kbi_tcall c hom Trace s z) as [[s1 o]|] eqn:E; [|discriminate]. cbn [bind] in H.
    destruct (kbi_trun c hom s1 _) as [[s2 os]|] eqn:R; [|discriminate]. cbn [bind] in H. injection H as <- <-.
    destruct (kbi_trace_step _ _ _ _ _ _ W E) as (xr & X & B & _ & I & K & So & Ao). destruct (IH _ _ _ R) as (xr' & X' & B' & I' & K' & A'). rewrite X in X'. apply some_inj in X'. subst xr'.
    assert (N : forall g, next_i c xr s1 g = next_i c xr s g).
    { intros g. unfold next_i at 1. rewrite (I g), B, round_even_Z. unfold next_i. rewrite apply_cz_idem; [reflexivity|]. lia. }
    exists xr. split; [exact X|]. split; [congruence|]. split; [intros g; rewrite I', N; reflexivity|]. split; [exact K|]. constructor; [split; assumption|].
    eapply Forall_impl; [|exact A']. cbn beta. intros y (S1 & S2). split; [exact S1|]. intros j. rewrite S2, B, N. reflexivity.
Qed.
Lemma all_same_repeat {A} (x0 : A) xs : (forall x, In x xs -> x = x0) -> xs = repeat x0 (length xs).
Proof. induction xs as [|x xs IH]; intros H; [reflexivity|]. cbn [length repeat]. rewrite (H x (or_introl eq_refl)), <- IH; [reflexivity|]. intros y Hy. apply H. right. exact Hy. Qed.
Lemma kbi_reset_b c s : u_b (kbi_treset c s) = u_b s.
Proof. unfold kbi_treset. destruct (_ && _); reflexivity. Qed.
Lemma run_kbi_good (reset : bool) q xs q' ys : wrap_trainable (q_c q) -> kbi_constant q xs -> quant_run (if reset then quant_reset q else q) xs = Some (q', ys) -> Forall2 (good q') xs ys.
Proof.
  intros W (s & x0 & Es & Cx & C) H. destruct q as [w c hom qs]. cbn [q_s q_c q_hom] in *. subst qs.
  set (s0 := if reset then kbi_treset c s else s).
  assert (H' : quant_run (mk_quant w c hom (inr s0)) xs = Some (q', ys)) by (unfold s0; destruct reset; exact H). clear H.
  rewrite (all_same_repeat x0 xs Cx) in *. clear Cx. generalize dependent (length xs). clear xs. intros n H. destruct n as [|n].
  { cbn [repeat quant_run] in *. injection H as <- <-. constructor. }
  destruct (run_kbi _ _ _ _ _ _ _ H) as (s' & outs & T & -> & ->). clear H.
  change (scaled (mk_quant w c hom (inr s0))) with (scaled (mk_quant w c hom (inr s))) in T. set (sc := scaled (mk_quant w c hom (inr s))) in *.
  rewrite <- (map_map sc (fun x => (Trace, x))) in T. assert (Mr : map sc (repeat x0 (S n)) = repeat (sc x0) (S n)) by (clear; induction (S n) as [|m IH]; [reflexivity|]; cbn [repeat map]; rewrite IH; reflexivity).
  rewrite Mr in T. destruct (kbi_trun_const c hom (sc x0) W n _ _ _ T) as (xr & X & B & I & K & A).
  assert (B0 : u_b s0 = u_b s) by (unfold s0; destruct reset; [apply kbi_reset_b|reflexivity]). set (z := sc x0) in *.
  assert (G : forall y, shape y = shape z /\ (forall j, at_ y j = round_f (c_rm c) (round_even (at_ (u_b s0) (bcast_index (shape (u_b s0)) j)) - next_i c xr s0 (bcast_index (shape (u_b s0)) j)) (at_ z j)) -> good (mk_quant w c hom (inr s')) x0 (posted (mk_quant w c hom (inr s0)) y)).
  { intros y (Sy & Ay). unfold good. rewrite call_scaled. cbn [q_s q_c q_hom]. change (scaled (mk_quant w c hom (inr s')) x0) with z.
    assert (IO : exists o, kbi_infer c hom s' z = Some o /\ same_tensor y o).
    { destruct C as [(C1 & C2)|(ha & oa & built & het & wsh & Bf & Bs & P & Rc)].
      - unfold kbi_infer, kbi_tcall. cbv zeta. pose proof W as (W1 & W2). rewrite W1, W2, C1, C2. cbn [is_wrap andb]. unfold broadcast_to. cbn [tmap tmap2 shape]. rewrite B, K. cbn [bind]. eexists. split; [reflexivity|].
        split; [cbn [round_t tmap2 shape]; congruence|]. cbn [round_t tmap2 shape at_ tmap]. intros i _. rewrite Ay, I, round_even_Z, C2. reflexivity.
      - assert (Pz : shape_matches built (shape z)) by (unfold z, sc; rewrite scaled_shape; exact P). pose proof (built_setting _ _ _ _ _ _ _ Bf Pz) as Se.
        assert (Fs : Forall (fun x => shape_matches built (shape x)) (repeat z (S n))) by (apply Forall_forall; intros y0 Hy; apply repeat_spec in Hy; subst y0; exact Pz).
        assert (Rc' : forall x b i, In x (repeat z (S n)) -> broadcast_to (tmap round_even (u_b s)) (shape x) = Some b -> valid_index (shape x) i -> (0 < at_ b i <= 22)%Z /\ kbi_reachable c (at_ b i) (at_ x i)).
        { intros x b i Hx Bx Vi. apply repeat_spec in Hx. subst x. unfold z, sc in Bx, Vi. rewrite scaled_shape in Bx, Vi. exact (Rc b i Bx Vi). }
        assert (T' : kbi_ttrace c hom reset s (repeat z (S n)) = Some (s', outs)) by exact T.
        assert (Bs' : kbi_built wsh s').
        { assert (Hh : Forall (fun mx : mode * tensor Q => shape_matches built (shape (snd mx))) (map (fun b => (Trace, b)) (repeat z (S n)))).
          { apply Forall_forall. intros mx Hm. apply in_map_iff in Hm as (b & <- & Hb'). cbn [snd]. rewrite Forall_forall in Fs. auto. }
          refine (proj1 (kbi_trun_groups _ _ _ _ _ _ c _ Bf Hh s0 s' outs _ T)). destruct Bs as (b1 & b2 & b3). unfold s0, kbi_treset. destruct reset; [|repeat split; assumption]. destruct (_ && _); repeat split; assumption. }
        destruct Bs' as (b1 & b2 & b3).
        assert (D : exists o, kbi_tcall c hom Infer s' z = Some (s', o)).
        { unfold kbi_tcall. cbv zeta. pose proof W as (W1 & W2). rewrite W1, W2. cbn [is_wrap andb].
          rewrite (broadcast_spec _ _ _ _ _ Se (tmap2 Z.sub (tmap round_even (u_b s')) (tmap round_even (u_i s'))) b2). cbn [bind]. destruct (c_weight c && _); [eexists; reflexivity|].
          unfold base_tcall. rewrite (broadcast_spec _ _ _ _ _ Se (u_k s') b1), (broadcast_spec _ _ _ _ _ Se (tmap round_even (u_i s')) b3), (broadcast_spec _ _ _ _ _ Se (tmap2 Z.sub (tmap round_even (u_b s')) (tmap round_even (u_i s'))) b2).
          cbn [bind]. eexists. reflexivity. }
        destruct D as (o & D). assert (Hin : In z (repeat z (S n))) by (left; reflexivity).
        destruct (kbi_tensor_calibrated _ _ _ _ _ _ _ reset _ _ _ _ Bf W Bs Fs Rc' T' z Hin _ _ D) as (_ & So & b & i & Eb & Ei & Af).
        exists o. unfold kbi_infer. rewrite D. cbn [bind]. split; [reflexivity|]. split; [congruence|]. rewrite Sy. intros j Vj. rewrite (Af j Vj).
        unfold broadcast_to in Eb, Ei. cbn [tmap shape] in Eb, Ei. destruct (bcast_ok (shape (u_b s)) _); [|discriminate]. destruct (bcast_ok (shape (u_i s')) _); [|discriminate]. apply some_inj in Eb, Ei. subst b i.
        cbn [at_ tmap]. rewrite Ay, I, round_even_Z, B0. destruct Bs as (a1 & a2 & a3). rewrite a2, b3. reflexivity. }
    destruct IO as (o & -> & So). cbn [bind]. eexists. split; [reflexivity|]. exact (posted_same (mk_quant w c hom (inr s0)) _ _ So). }
  assert (L : length outs = S n).
  { clear -T. revert T. generalize (S n) s0 s' outs. clear. induction n as [|n IH]; intros s0 s' outs T; cbn [repeat map kbi_trun] in T; [injection T as <- <-; reflexivity|].
    destruct (kbi_tcall _ _ _ _ _) as [[s1 o]|]; [|discriminate]. cbn [bind] in T. destruct (kbi_trun _ _ s1 _) as [[s2 os]|] eqn:R; [|discriminate]. cbn [bind] in T. injection T as <- <-. cbn [length]. rewrite (IH _ _ _ R). reflexivity. }
  clear T Mr. revert L A. generalize (S n). intros m. revert outs. clear -G. intros outs. revert m. induction outs as [|o os IH]; intros m L A; cbn [length] in L; subst m; cbn [repeat map]; [constructor|].
  inversion A; subst. constructor; [apply G; assumption|]. apply IH; [reflexivity|assumption].
Qed.
Lemma reset_static q : static q -> quant_reset q = q.
Proof. unfold static, quant_reset, kif_treset, kbi_treset. intros ->. destruct q as [w c hom [s|s]]; reflexivity. Qed.
Lemma run_good (reset : bool) q xs q' ys : calibratable q xs -> quant_run (if reset then quant_reset q else q) xs = Some (q', ys) -> Forall2 (good q') xs ys.
Proof.
  intros C H. destruct (is_wrap (c_om (q_c q)) && c_trainable (q_c q)) eqn:W.
  - destruct C as [C|[C|C]]; [unfold static in C; congruence| |]; [eapply run_kif_good|eapply run_kbi_good]; eauto using not_static.
  - assert (H' : quant_run q xs = Some (q', ys)) by (destruct reset; [rewrite (reset_static q W) in H|]; exact H). destruct (run_static q W _ _ _ H') as (-> & F). exact F.
Qed.

(** *** the network *)
(** the calls of quantizer [id] in a log, seen as a run of that quantizer *)
Definition outs_of (id : nat) (log : list event) : list (tensor Q) := map e_out (filter (fun e => (e_q e =? id)%nat) log).
Definition explains (st st' : nstate) (new : list event) : Prop :=
  n_log st' = n_log st ++ new /\ forall id, quant_run (n_tab st id) (inputs_of id new) = Some (n_tab st' id, outs_of id new).
Lemma quant_run_app q xs : forall ys q1 o1 q2 o2, quant_run q xs = Some (q1, o1) -> quant_run q1 ys = Some (q2, o2) -> quant_run q (xs ++ ys) = Some (q2, o1 ++ o2).
Proof.
  revert q. induction xs as [|x xs IH]; intros q ys q1 o1 q2 o2 H1 H2; cbn [app quant_run] in *.
  - injection H1 as <- <-. exact H2.
  - destruct (quant_step Trace q x) as [[q' y]|]; [|discriminate]. cbn [bind] in *. destruct (quant_run q' xs) as [[q'' os]|] eqn:E; [|discriminate]. cbn [bind] in H1. injection H1 as <- <-.
    rewrite (IH _ _ _ _ _ _ E H2). reflexivity.
Qed.
Lemma explains_refl st : explains st st [].
Proof. split; [symmetry; apply app_nil_r|]. intros id. reflexivity. Qed.
Lemma explains_trans st1 st2 st3 a b : explains st1 st2 a -> explains st2 st3 b -> explains st1 st3 (a ++ b).
Proof.
  intros (L1 & R1) (L2 & R2). split; [rewrite L2, L1; symmetry; apply app_assoc|]. intros id. unfold inputs_of, outs_of. rewrite filter_app, !map_app. exact (quant_run_app _ _ _ _ _ _ _ (R1 id) (R2 id)).
Qed.
Lemma call_q_explains st id x st' y : call_q Trace st id x = Some (st', y) -> explains st st' [mk_event id x y].
Proof.
  unfold call_q. destruct (quant_step Trace _ x) as [[q' z]|] eqn:E; [|discriminate]. cbn [bind]. intros H. injection H as <- <-. split; [reflexivity|]. intros j. unfold inputs_of, outs_of. cbn [filter e_q n_tab].
  rewrite (Nat.eqb_sym id j). destruct (Nat.eqb_spec j id) as [->|]; [|reflexivity]. cbn [map e_in e_out quant_run]. rewrite E. reflexivity.
Qed.

(** [replays tab ev]: at inference with the quantizers [tab] the call of the event returns the same *)
Definition replays (tab : nat -> quant) (e : event) : Prop := good (tab (e_q e)) (e_in e) (e_out e).
(** at inference the table does not change *)
Definition sametab (t t' : nat -> quant) : Prop := forall i, t i = t' i.
(** the pass ended with the same table, and its calls were the same as those of [ev] *)
Definition same_event (e e' : event) : Prop := e_q e' = e_q e /\ same_tensor (e_in e) (e_in e') /\ same_tensor (e_out e) (e_out e').
Definition ends (tab : nat -> quant) (ev : list event) (it it' : nstate) : Prop :=
  sametab (n_tab it') tab /\ exists ev', n_log it' = n_log it ++ ev' /\ Forall2 same_event ev ev'.
Lemma ends_refl tab it : sametab (n_tab it) tab -> ends tab [] it it.
Proof. intros T. split; [exact T|]. exists []. split; [symmetry; apply app_nil_r|constructor]. Qed.
Lemma ends_trans tab a b it1 it2 it3 : ends tab a it1 it2 -> ends tab b it2 it3 -> ends tab (a ++ b) it1 it3.
Proof. intros (_ & a' & L1 & F1) (T & b' & L2 & F2). split; [exact T|]. exists (a' ++ b'). split; [rewrite L2, L1; symmetry; apply app_assoc|apply Forall2_app; assumption]. Qed.
Lemma infer_call_q tab st id x x' y : sametab (n_tab st) tab -> same_tensor x x' -> replays tab (mk_event id x y) ->
  exists st' y', call_q Infer st id x' = Some (st', y') /\ ends tab [mk_event id x y] st st' /\ same_tensor y y'.
Proof.
  intros T S (z & Ez & Sz). cbn [e_q e_in e_out] in *. destruct (quant_call_same _ _ _ _ S Ez) as (y' & Ey & Sy). unfold call_q. rewrite (T id), step_infer, Ey. cbn [bind].
  eexists. exists y'. split; [reflexivity|]. pose proof (st_trans _ _ _ Sz Sy) as Syy. split; [|exact Syy]. split.
  - intros j. cbn [n_tab]. destruct (Nat.eqb_spec j id) as [->|]; [reflexivity|apply T].
  - eexists. split; [reflexivity|]. constructor; [|constructor]. split; [reflexivity|]. split; assumption.
Qed.
Lemma Forall2_impl' {A B} (P P' : A -> B -> Prop) l l' : (forall a b, P a b -> P' a b) -> Forall2 P l l' -> Forall2 P' l l'.
Proof. intros H. induction 1; constructor; auto. Qed.
Section Replay.
  (** the quantizers at the end of the calibration *)
  Context (tab : nat -> quant).
  Lemma qs_replay ids : forall xs st st' ys, call_qs Trace st ids xs = Some (st', ys) ->
    exists ev, explains st st' ev /\ (Forall (replays tab) ev -> forall it xs', sametab (n_tab it) tab -> Forall2 same_tensor xs xs' ->
      exists it' ys', call_qs Infer it ids xs' = Some (it', ys') /\ ends tab ev it it' /\ Forall2 same_tensor ys ys').
  Proof.
    induction ids as [|id ids IH]; intros xs st st' ys H; destruct xs as [|x xs]; cbn [call_qs] in H; try discriminate.
    - injection H as <- <-. exists []. split; [apply explains_refl|]. intros _ it xs' T F. inversion F; subst. exists it, []. split; [reflexivity|]. split; [exact (ends_refl _ _ T)|constructor].
    - destruct (call_q Trace st id x) as [[st1 y]|] eqn:E; [|discriminate]. cbn [bind] in H. destruct (call_qs Trace st1 ids xs) as [[st2 os]|] eqn:R; [|discriminate]. cbn [bind] in H. injection H as <- <-.
      destruct (IH _ _ _ _ R) as (ev & Ex & P). exists ([mk_event id x y] ++ ev). split; [exact (explains_trans _ _ _ _ _ (call_q_explains _ _ _ _ _ E) Ex)|].
      intros G it xs' T F. apply Forall_app in G as (G1 & G2). inversion G1; subst. inversion F as [|? x' ? xs'' Fx Fxs]; subst.
      destruct (infer_call_q tab it id x x' y T Fx) as (it1 & y' & E1 & T1 & S1); [assumption|]. destruct (P G2 it1 xs'' (proj1 T1) Fxs) as (it2 & ys' & E2 & T2 & S2).
      exists it2, (y' :: ys'). cbn [call_qs]. rewrite E1. cbn [bind]. rewrite E2. split; [reflexivity|]. split; [exact (ends_trans _ _ _ _ _ _ T1 T2)|]. constructor; assumption.
  Qed.
  Lemma iq_replay' iq : forall x st st' y, call_iq Trace st iq x = Some (st', y) ->
    exists ev, explains st st' ev /\ (Forall (replays tab) ev -> forall it x', sametab (n_tab it) tab -> same_inputs x x' ->
      exists it' y', call_iq Infer it iq x' = Some (it', y') /\ ends tab ev it it' /\ same_inputs y y').
  Proof.
    intros x st st' y H. destruct iq as [|id|ids]; cbn [call_iq] in H.
    - injection H as <- <-. exists []. split; [apply explains_refl|]. intros _ it x' T S. exists it, x'. split; [reflexivity|]. split; [exact (ends_refl _ _ T)|assumption].
    - destruct x as [x|]; [|discriminate]. destruct (call_q Trace st id x) as [[st1 z]|] eqn:E; [|discriminate]. cbn [bind] in H. injection H as <- <-.
      exists [mk_event id x z]. split; [exact (call_q_explains _ _ _ _ _ E)|]. intros G it x' T S. inversion G; subst. destruct x' as [x'|]; [|contradiction]. cbn [same_inputs] in S.
      destruct (infer_call_q tab it id x x' z T S) as (it1 & y' & E1 & T1 & S1); [assumption|]. exists it1, (One y'). cbn [call_iq]. rewrite E1. cbn [bind]. split; [reflexivity|]. split; assumption.
    - destruct x as [|xs]; [discriminate|]. destruct (call_qs Trace st ids xs) as [[st1 zs]|] eqn:E; [|discriminate]. cbn [bind] in H. injection H as <- <-.
      destruct (qs_replay _ _ _ _ _ E) as (ev & Ex & P). exists ev. split; [exact Ex|]. intros G it x' T S. destruct x' as [|xs']; [contradiction|]. cbn [same_inputs] in S.
      destruct (P G it xs' T S) as (it1 & ys' & E1 & T1 & S1). exists it1, (Many ys'). cbn [call_iq]. rewrite E1. cbn [bind]. split; [reflexivity|]. split; assumption.
  Qed.
  Lemma ws_replay ws : forall st st' ys, call_ws Trace st ws = Some (st', ys) ->
    exists ev, explains st st' ev /\ (Forall (replays tab) ev -> forall it, sametab (n_tab it) tab ->
      exists it' ys', call_ws Infer it ws = Some (it', ys') /\ ends tab ev it it' /\ Forall2 same_tensor ys ys').
  Proof.
    induction ws as [|[[id|] w] ws IH]; intros st st' ys H; cbn [call_ws] in H.
    - injection H as <- <-. exists []. split; [apply explains_refl|]. intros _ it T. exists it, []. split; [reflexivity|]. split; [exact (ends_refl _ _ T)|constructor].
    - destruct (call_q Trace st id w) as [[st1 y]|] eqn:E; [|discriminate]. cbn [bind] in H. destruct (call_ws Trace st1 ws) as [[st2 os]|] eqn:R; [|discriminate]. cbn [bind] in H. injection H as <- <-.
      destruct (IH _ _ _ R) as (ev & Ex & P). exists ([mk_event id w y] ++ ev). split; [exact (explains_trans _ _ _ _ _ (call_q_explains _ _ _ _ _ E) Ex)|].
      intros G it T. apply Forall_app in G as (G1 & G2). inversion G1; subst.
      destruct (infer_call_q tab it id w w y T (st_refl w)) as (it1 & y' & E1 & T1 & S1); [assumption|]. destruct (P G2 it1 (proj1 T1)) as (it2 & ys' & E2 & T2 & S2).
      exists it2, (y' :: ys'). cbn [call_ws]. rewrite E1. cbn [bind]. rewrite E2. split; [reflexivity|]. split; [exact (ends_trans _ _ _ _ _ _ T1 T2)|]. constructor; assumption.
    - destruct (call_ws Trace st ws) as [[st2 os]|] eqn:R; [|discriminate]. cbn [bind] in H. injection H as <- <-. destruct (IH _ _ _ R) as (ev & Ex & P). exists ev. split; [exact Ex|]. intros G it T.
      destruct (P G it T) as (it2 & ys' & E2 & T2 & S2). exists it2, (w :: ys'). cbn [call_ws]. rewrite E2. split; [reflexivity|]. split; [exact T2|]. constructor; [apply st_refl|assumption].
  Qed.
  Lemma layer_replay l : by_value (y_op l) -> forall x st st' y, layer_call Trace l st x = Some (st', y) ->
    exists ev, explains st st' ev /\ (Forall (replays tab) ev -> forall it x', sametab (n_tab it) tab -> same_inputs x x' ->
      exists it' y', layer_call Infer l it x' = Some (it', y') /\ ends tab ev it it' /\ same_tensor y y').
  Proof.
    intros V x st st' y H. unfold layer_call in H. destruct (call_iq Trace st (y_iq l) x) as [[st1 x1]|] eqn:E1; [|discriminate]. cbn [bind] in H.
    destruct (call_ws Trace st1 (y_ws l)) as [[st2 ws]|] eqn:E2; [|discriminate]. cbn [bind] in H. destruct (y_op l ws x1) as [z|] eqn:E3; [|discriminate]. cbn [bind] in H.
    destruct (iq_replay' _ _ _ _ _ E1) as (ev1 & X1 & P1). destruct (ws_replay _ _ _ _ E2) as (ev2 & X2 & P2). pose proof (explains_trans _ _ _ _ _ X1 X2) as X12.
    assert (Q : Forall (replays tab) (ev1 ++ ev2) -> forall it x', sametab (n_tab it) tab -> same_inputs x x' ->
      exists it2 ws' x1' z', call_iq Infer it (y_iq l) x' = Some x1' /\ call_ws Infer (fst x1') (y_ws l) = Some (it2, ws') /\ y_op l ws' (snd x1') = Some z' /\ ends tab (ev1 ++ ev2) it it2 /\ same_tensor z z').
    { intros G it x' T S. apply Forall_app in G as (G1 & G2). destruct (P1 G1 it x' T S) as (it1 & x1' & F1 & T1 & S1). destruct (P2 G2 it1 (proj1 T1)) as (it2 & ws' & F2 & T2 & S2).
      destruct (V _ _ _ _ _ S2 S1 E3) as (z' & F3 & S3). exists it2, ws', (it1, x1'), z'. repeat (split; [assumption|]). split; [exact (ends_trans _ _ _ _ _ _ T1 T2)|assumption]. }
    destruct (y_oq l) as [id|] eqn:Eo.
    - exists ((ev1 ++ ev2) ++ [mk_event id z y]). split; [exact (explains_trans _ _ _ _ _ X12 (call_q_explains _ _ _ _ _ H))|]. intros G it x' T S. apply Forall_app in G as (G1 & G2). inversion G2; subst.
      destruct (Q G1 it x' T S) as (it2 & ws' & x1' & z' & F1 & F2 & F3 & T2 & S2). destruct (infer_call_q tab it2 id z z' y (proj1 T2) S2) as (it3 & y' & F4 & T3 & S3); [assumption|].
      exists it3, y'. unfold layer_call. rewrite F1. destruct x1' as [it1 x1']. cbn [fst snd] in *. cbn [bind]. rewrite F2. cbn [bind]. rewrite F3. cbn [bind]. rewrite Eo. split; [exact F4|]. split; [exact (ends_trans _ _ _ _ _ _ T2 T3)|assumption].
    - injection H as <- <-. exists (ev1 ++ ev2). split; [exact X12|]. intros G it x' T S. destruct (Q G it x' T S) as (it2 & ws' & x1' & z' & F1 & F2 & F3 & T2 & S2).
      exists it2, z'. unfold layer_call. rewrite F1. destruct x1' as [it1 x1']. cbn [fst snd] in *. cbn [bind]. rewrite F2. cbn [bind]. rewrite F3. cbn [bind]. rewrite Eo. split; [reflexivity|]. split; assumption.
  Qed.
  Lemma value_same env env' i x : Forall2 same_tensor env env' -> value env i = Some x -> exists x', value env' i = Some x' /\ same_tensor x x'.
  Proof.
    unfold value. intros F. revert i. induction F as [|a b l l' S F IH]; intros i H; destruct i; cbn [nth_error] in *; try discriminate.
    - apply some_inj in H. subst a. exists b. auto.
    - apply IH, H.
  Qed.
  Lemma args_same env env' a x : Forall2 same_tensor env env' -> args_of env a = Some x -> exists x', args_of env' a = Some x' /\ same_inputs x x'.
  Proof.
    intros F H. destruct a as [i|is]; cbn [args_of] in *.
    - destruct (value env i) as [v|] eqn:E; [|discriminate]. cbn [bind] in H. apply some_inj in H. subst x. destruct (value_same _ _ _ _ F E) as (v' & -> & S). exists (One v'). auto.
    - destruct (opt_all (map (value env) is)) as [vs|] eqn:E; [|discriminate]. cbn [bind] in H. apply some_inj in H. subst x.
      assert (G : exists vs', opt_all (map (value env') is) = Some vs' /\ Forall2 same_tensor vs vs').
      { revert vs E. induction is as [|i is IH]; intros vs E; cbn [map opt_all] in *; [apply some_inj in E; subst vs; exists []; split; [reflexivity|constructor]|].
        destruct (value env i) as [v|] eqn:Ei; [|discriminate]. destruct (opt_all (map (value env) is)) as [vs0|]; [|discriminate]. apply some_inj in E. subst vs.
        destruct (value_same _ _ _ _ F Ei) as (v' & -> & S). destruct (IH _ eq_refl) as (vs' & -> & S'). eexists. split; [reflexivity|]. constructor; assumption. }
      destruct G as (vs' & -> & S). exists (Many vs'). auto.
  Qed.
  Lemma nodes_replay net : Forall (fun n => by_value (y_op (d_layer n))) net -> forall env st st' vs, run_nodes Trace net st env = Some (st', vs) ->
    exists ev, explains st st' ev /\ (Forall (replays tab) ev -> forall it env', sametab (n_tab it) tab -> Forall2 same_tensor env env' ->
      exists it' vs', run_nodes Infer net it env' = Some (it', vs') /\ ends tab ev it it' /\ Forall2 same_tensor vs vs').
  Proof.
    induction 1 as [|n net V Vs IH]; intros env st st' vs H; cbn [run_nodes] in H.
    - injection H as <- <-. exists []. split; [apply explains_refl|]. intros _ it env' T F. exists it, env'. split; [reflexivity|]. split; [exact (ends_refl _ _ T)|assumption].
    - destruct (args_of env (d_args n)) as [x|] eqn:Ea; [|discriminate]. cbn [bind] in H. destruct (layer_call Trace (d_layer n) st x) as [[st1 y]|] eqn:El; [|discriminate]. cbn [bind] in H.
      destruct (layer_replay _ V _ _ _ _ El) as (ev1 & X1 & P1). destruct (IH _ _ _ _ H) as (ev2 & X2 & P2). exists (ev1 ++ ev2). split; [exact (explains_trans _ _ _ _ _ X1 X2)|].
      intros G it env' T F. apply Forall_app in G as (G1 & G2). destruct (args_same _ _ _ _ F Ea) as (x' & Ea' & Sx). destruct (P1 G1 it x' T Sx) as (it1 & y' & El' & T1 & Sy).
      destruct (P2 G2 it1 (env' ++ [y']) (proj1 T1)) as (it2 & vs' & En & T2 & Sv); [apply Forall2_app; [exact F|constructor; [exact Sy|constructor]]|].
      exists it2, vs'. cbn [run_nodes]. rewrite Ea'. cbn [bind]. rewrite El'. cbn [bind]. split; [exact En|]. split; [exact (ends_trans _ _ _ _ _ _ T1 T2)|assumption].
  Qed.
  Lemma batches_replay net : Forall (fun n => by_value (y_op (d_layer n))) net -> forall bs st st' rec, trace_batches net st bs = Some (st', rec) ->
    exists ev, explains st st' ev /\ (Forall (replays tab) ev -> Forall2 (fun b vs => exists evb, incl evb ev /\ forall it b', sametab (n_tab it) tab -> Forall2 same_tensor b b' ->
      exists it' vs', forward Infer net it b' = Some (it', vs') /\ ends tab evb it it' /\ Forall2 same_tensor vs vs') bs rec).
  Proof.
    intros V. induction bs as [|b bs IH]; intros st st' rec H; cbn [trace_batches] in H.
    - injection H as <- <-. exists []. split; [apply explains_refl|]. intros _. constructor.
    - destruct (forward Trace net st b) as [[st1 vs]|] eqn:E; [|discriminate]. cbn [bind] in H. destruct (trace_batches net st1 bs) as [[st2 rest]|] eqn:R; [|discriminate]. cbn [bind] in H. injection H as <- <-.
      destruct (nodes_replay net V _ _ _ _ E) as (ev1 & X1 & P1). destruct (IH _ _ _ R) as (ev2 & X2 & P2). exists (ev1 ++ ev2). split; [exact (explains_trans _ _ _ _ _ X1 X2)|].
      intros G. apply Forall_app in G as (G1 & G2). constructor.
      + exists ev1. split; [apply incl_appl, incl_refl|exact (P1 G1)].
      + eapply Forall2_impl'; [|exact (P2 G2)]. cbn beta. intros b0 vs0 (evb & I & X). exists evb. split; [apply incl_appr, I|exact X].
  Qed.
End Replay.

Lemma good_events tab log : (forall id, Forall2 (good (tab id)) (inputs_of id log) (outs_of id log)) -> Forall (replays tab) log.
Proof.
  intros H. apply Forall_forall. intros e He. unfold replays. specialize (H (e_q e)). unfold inputs_of, outs_of in H.
  assert (Hin : In e (filter (fun e' => (e_q e' =? e_q e)%nat) log)) by (apply filter_In; split; [exact He|apply Nat.eqb_refl]). revert H Hin. generalize (filter (fun e' => (e_q e' =? e_q e)%nat) log). intros l.
  induction l as [|a l IH]; cbn [map]; intros F Hin; [destruct Hin|]. inversion F; subst. destruct Hin as [->|Hin]; [assumption|apply IH; assumption].
Qed.
Lemma Forall2_diag {A} (P : A -> A -> Prop) l : (forall a, P a a) -> Forall2 P l l.
Proof. intros H. induction l; constructor; auto. Qed.
Lemma calibrated net reset tab bs st rec : Forall (fun n => by_value (y_op (d_layer n))) net -> trace_minmax net reset tab bs = Some (st, rec) ->
  (forall id, calibratable (tab id) (inputs_of id (n_log st))) ->
  Forall2 (fun b vs => exists evb, incl evb (n_log st) /\ forall log b', Forall2 same_tensor b b' -> exists st' vs', forward Infer net (mk_nstate (n_tab st) log) b' = Some (st', vs') /\
    ends (n_tab st) evb (mk_nstate (n_tab st) log) st' /\ Forall2 same_tensor vs vs') bs rec.
Proof.
  intros V H C. unfold trace_minmax in H. destruct (batches_replay (n_tab st) net V _ _ _ _ H) as (ev & (Lg & Ex) & P). cbn [n_log app] in Lg. subst ev.
  assert (G : Forall (replays (n_tab st)) (n_log st)).
  { apply good_events. intros id. apply (run_good reset (tab id)); [apply C|]. specialize (Ex id). cbn [n_tab] in Ex. destruct reset; exact Ex. }
  eapply Forall2_impl'; [|exact (P G)]. cbn beta. intros b vs (evb & I & X). exists evb. split; [exact I|]. intros log b' S.
  destruct (X (mk_nstate (n_tab st) log) b') as (it & vs' & A & B & D); [intros i; reflexivity|exact S|]. exists it, vs'. split; [exact A|]. split; [exact B|exact D].
Qed.
Lemma network_calibrated net reset tab bs st rec : Forall (fun n => by_value (y_op (d_layer n))) net -> trace_minmax net reset tab bs = Some (st, rec) ->
  (forall id, calibratable (tab id) (inputs_of id (n_log st))) ->
  Forall2 (fun b vs => exists st' vs', forward Infer net (mk_nstate (n_tab st) []) b = Some (st', vs') /\ (forall id, n_tab st' id = n_tab st id) /\ Forall2 same_tensor vs vs') bs rec.
Proof.
  intros V H C. eapply Forall2_impl'; [|exact (calibrated _ _ _ _ _ _ V H C)]. cbn beta. intros b vs (evb & _ & X). destruct (X [] b (Forall2_diag _ _ st_refl)) as (st' & vs' & A & (B & _) & D).
  exists st', vs'. split; [exact A|]. split; [exact B|exact D].
Qed.

(** a traced KIF quantizer only rounds *)
Lemma run_rounds (reset : bool) q s xs q' ys : kif_wrap q s -> quant_run (if reset then quant_reset q else q) xs = Some (q', ys) -> Forall2 (only_rounded q s) xs ys.
Proof.
  intros (Es & W & Nw & Na) H. destruct q as [w c hom qs]. cbn [q_s q_c q_w] in *. subst qs. set (s0 := if reset then kif_treset c s else s).
  assert (H' : quant_run (mk_quant w c hom (inl s0)) xs = Some (q', ys)) by (unfold s0; destruct reset; exact H). clear H.
  destruct (run_kif _ _ _ _ _ _ _ H') as (s' & outs & T & _ & ->). clear H'.
  assert (Id : forall x, scaled (mk_quant w c hom (inl s0)) x = x) by (intros x; unfold scaled; cbn [q_w]; rewrite Nw; reflexivity).
  assert (Ip : map (posted (mk_quant w c hom (inl s0))) outs = outs).
  { rewrite <- (map_id outs) at 2. apply map_ext. intros y. unfold posted. cbn [q_w]. rewrite Nw, Na. reflexivity. }
  rewrite Ip. rewrite (map_ext _ (fun x => (Trace, x)) (fun x => f_equal (pair Trace) (Id x))) in T.
  destruct (kif_trace_outs c hom W _ _ _ _ T) as (_ & A). assert (F0 : t_f s0 = t_f s) by (unfold s0; destruct reset; [apply treset_f|reflexivity]). rewrite F0 in A.
  eapply Forall2_impl'; [|exact A]. cbn beta. intros x y (f & B & ->). exists f. split; [exact B|]. split; [reflexivity|]. intros i _. reflexivity.
Qed.
Lemma rounded_same q s x x' y y' : same_tensor x x' -> same_tensor y y' -> only_rounded q s x y -> only_rounded q s x' y'.
Proof.
  intros (Sx & Ax) (Sy & Ay) (f & B & S & A). exists f. rewrite <- Sx. split; [exact B|]. split; [congruence|]. intros i Vi. rewrite <- (Ay i), <- (Ax i Vi); [apply A, Vi|]. rewrite S. exact Vi.
Qed.
Lemma events_rel id (P : tensor Q -> tensor Q -> Prop) log : Forall2 P (inputs_of id log) (outs_of id log) -> forall e, In e log -> e_q e = id -> P (e_in e) (e_out e).
Proof.
  intros F e He <-. unfold inputs_of, outs_of in F. assert (Hin : In e (filter (fun e' => (e_q e' =? e_q e)%nat) log)) by (apply filter_In; split; [exact He|apply Nat.eqb_refl]).
  revert F Hin. generalize (filter (fun e' => (e_q e' =? e_q e)%nat) log). intros l. induction l as [|a l IH]; cbn [map]; intros F Hin; [destruct Hin|]. inversion F; subst. destruct Hin as [->|Hin]; [assumption|apply IH; assumption].
Qed.
Lemma no_overflow net reset tab bs st rec : Forall (fun n => by_value (y_op (d_layer n))) net -> trace_minmax net reset tab bs = Some (st, rec) ->
  (forall id, calibratable (tab id) (inputs_of id (n_log st))) ->
  forall b st' vs, In b bs -> forward Infer net (mk_nstate (n_tab st) []) b = Some (st', vs) ->
  forall e s, In e (n_log st') -> kif_wrap (tab (e_q e)) s -> only_rounded (tab (e_q e)) s (e_in e) (e_out e).
Proof.
  intros V H C b st' vs Hb Hf e s He K. pose proof (calibrated _ _ _ _ _ _ V H C) as F.
  assert (X : exists evb, incl evb (n_log st) /\ forall log b', Forall2 same_tensor b b' -> exists st' vs', forward Infer net (mk_nstate (n_tab st) log) b' = Some (st', vs') /\ ends (n_tab st) evb (mk_nstate (n_tab st) log) st').
  { clear -F Hb. induction F as [|b0 v0 bs rec X F IH]; [destruct Hb|]. destruct Hb as [->|Hb]; [|exact (IH Hb)]. destruct X as (evb & I & X). exists evb. split; [exact I|]. intros log b' S. destruct (X log b' S) as (st' & vs' & A & B & _). exists st', vs'. auto. }
  destruct X as (evb & I & X). destruct (X [] b (Forall2_diag _ _ st_refl)) as (st1 & vs1 & E1 & (_ & ev' & Lg & Fe)). rewrite Hf in E1. injection E1 as <- <-. cbn [n_log app] in Lg. rewrite Lg in He.
  assert (Y : exists e0, In e0 evb /\ same_event e0 e).
  { clear -Fe He. induction Fe as [|a a' l l' S F IH]; [destruct He|]. destruct He as [->|He]; [exists a; split; [left; reflexivity|exact S]|]. destruct (IH He) as (e0 & A & B). exists e0. split; [right; exact A|exact B]. }
  destruct Y as (e0 & He0 & (Eq & Sin & Sout)). rewrite Eq in *. apply (rounded_same _ _ (e_in e0) _ (e_out e0)); [exact Sin|exact Sout|].
  unfold trace_minmax in H. destruct (batches_replay (n_tab st) net V _ _ _ _ H) as (ev & (Lg' & Ex) & _). cbn [n_log app] in Lg'. subst ev.
  apply (events_rel (e_q e0) _ (n_log st)); [|exact (I e0 He0)|reflexivity]. apply (run_rounds reset (tab (e_q e0)) s _ (n_tab st (e_q e0))); [exact K|]. specialize (Ex (e_q e0)). cbn [n_tab] in Ex. destruct reset; exact Ex.
Qed.
