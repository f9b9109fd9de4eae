(** Proofs about creating quantizers, and about hard tanh and hard sigmoid. *)
From Coq Require Import List Bool String Ascii.
From Verif Require Import Num M_Fixed M_State M_Wrapper S_Fixed L_Fixed M_Config S_Config L_Config M_Make S_Make.
Import ListNotations.
Open Scope string_scope.
Local Open Scope list_scope.
Open Scope Q_scope.

(** ** the parameters of an accepted configuration *)
Lemma get_map_params (kw d : kwargs) k : has k d = true -> forall v, get k kw = Some v ->
  get k (map (fun p => (fst p, match get (fst p) kw with Some v => v | None => snd p end)) d) = Some v.
Proof.
  intros H v G. induction d as [|[k' v'] d IH]; [discriminate|]. cbn [map get fst snd]. destruct (String.eqb_spec k k') as [->|N].
  - rewrite G. reflexivity.
  - apply IH. unfold has in *. cbn [get] in H. apply String.eqb_neq in N. rewrite N in H. exact H.
Qed.
Lemma get_fix_axes k (kw : kwargs) : k <> "homogeneous_axis" -> k <> "heterogeneous_axis" -> get k (fix_axes kw) = get k kw.
Proof.
  intros N1 N2. unfold fix_axes.
  assert (P : forall k' (v : cval) (d : kwargs), k <> k' -> get k (put k' v d) = get k d).
  { intros k' v d N. unfold put. rewrite get_app, get_remove. apply String.eqb_neq in N. rewrite N. destruct (get k d) eqn:E; [reflexivity|]. cbn [get]. rewrite N. reflexivity. }
  cbv zeta. destruct (is_set (get "homogeneous_axis" kw)); match goal with |- context [if ?b then _ else _] => destruct b end; rewrite ?P by assumption; reflexivity.
Qed.
Lemma plain_params E cls qt pl sc af qn kw c k v : plain_init E cls qt pl sc af qn kw = Some c -> q_type c <> "dummy" ->
  k <> "homogeneous_axis" -> k <> "heterogeneous_axis" -> get k kw = Some v ->
  get k (params c) = Some v /\ scaler c = sc /\ affine c = af.
Proof.
  unfold plain_init. destruct (if String.eqb qt "default" then dqt E pl else Some qt) as [qt'|]; [|discriminate].
  destruct (negb _); [discriminate|]. destruct (String.eqb_spec qt' "dummy") as [->|ND]; [intros H D; injection H as <-; cbn [q_type] in D; congruence|].
  destruct (dconf E qt' pl) as [d|]; [|discriminate]. destruct (is_set _ && is_set _); [discriminate|]. cbv zeta.
  destruct (forallb _ _) eqn:F; [|discriminate]. intros H _ N1 N2 G. injection H as <-. cbn [params scaler affine]. split; [|split; reflexivity].
  assert (G' : get k (fix_axes kw) = Some v) by (rewrite get_fix_axes by assumption; exact G).
  apply get_map_params; [|exact G']. rewrite forallb_forall in F. apply get_In in G'. exact (F _ G').
Qed.
Lemma with_fixed_get fixed (kw kw' : kwargs) k v : with_fixed fixed kw = Some kw' -> get k fixed = Some v -> get k kw' = Some v.
Proof. unfold with_fixed. destruct (existsb _ _); [discriminate|]. intros H G. injection H as <-. rewrite get_app, G. reflexivity. Qed.

(** what make_fixed stores *)
Lemma make_fixed_inv I cl kw x : make_fixed I cl kw = Some (IFixed x) ->
  x_class x = cl /\ sign_of (get "k0" kw) = Some (x_k0 x) /\ num_of (get "i0" kw) = Some (x_i0 x) /\
  (exists os, get "overflow_mode" kw = Some (CStr os) /\ omode_of os = Some (c_om (x_conf x))) /\
  constr_of I (get "ic" kw) = Some (c_ic (x_conf x)).
Proof.
  unfold make_fixed. destruct (sign_of _) as [k|]; [|discriminate]. destruct (num_of (get "i0" kw)) as [i|]; [|discriminate].
  destruct (num_of (get _ kw)) as [w|]; [|discriminate]. destruct (str_of (get "round_mode" kw)) as [rs|]; [|discriminate].
  destruct (str_of (get "overflow_mode" kw)) as [os|] eqn:Os; [|discriminate]. destruct (rmode_of rs) as [rm|]; [|discriminate].
  destruct (omode_of os) as [om|] eqn:Om; [|discriminate]. destruct (constr_of I (get "ic" kw)) as [ic|]; [|discriminate].
  destruct (constr_of I (get _ kw)) as [wc|]; [|discriminate]. destruct (decay_of I _) as [d|]; [|discriminate].
  destruct (_ && _ && _ && _ && _); [|discriminate]. intros H. injection H as <-. cbn [x_class x_k0 x_i0 x_conf c_om c_ic].
  repeat split; try reflexivity. exists os. split; [|exact Om]. unfold str_of in Os. destruct (get "overflow_mode" kw) as [[]|]; try discriminate. injection Os as ->. reflexivity.
Qed.
Lemma make_inv I c x : make I c = Some (IFixed x) -> q_type c <> "dummy" /\ make_fixed I (x_class x) (params c) = Some (IFixed x).
Proof.
  unfold make. destruct (String.eqb_spec (q_type c) "dummy") as [D|D]; [discriminate|]. intros H. split; [exact D|].
  destruct (String.eqb (q_type c) "kif"); [|destruct (String.eqb (q_type c) "kbi"); [|destruct (String.eqb (q_type c) "float"); [destruct (_ && _); discriminate|discriminate]]];
    destruct (make_fixed_inv _ _ _ _ H) as [-> _]; exact H.
Qed.

(** ** saturating quantizers keep a pinned integer width and their sign *)
Definition pinned (v : Z) (s : qstate) : Prop :=
  match s with SKif s => kif_k s = true /\ kif_i s = inject_Z v | SKbi s => kbi_k s = true /\ kbi_i s = inject_Z v end.
Lemma life_pinned x v h : c_ic (x_conf x) = Some (CConstant v) -> is_wrap (c_om (x_conf x)) = false ->
  forall s s', pinned v s -> life x s h = Some s' -> pinned v s'.
Proof.
  intros Hc Hw. induction h as [|e h IH]; intros s s' P L; [injection L as <-; exact P|]. cbn [life] in L. destruct e as [m xs|i' w'|].
  - destruct s as [s|s]; cbn [q_call] in L; [unfold kif_call in L|unfold kbi_call in L]; rewrite Hw in L; cbn [andb] in L; exact (IH _ _ P L).
  - refine (IH _ _ _ L). destruct s as [s|s]; cbn [q_update pinned kif_k kif_i kbi_k kbi_i] in *; rewrite Hw, Hc; cbn [apply_c]; exact (conj (proj1 P) eq_refl).
  - refine (IH _ _ _ L). destruct s as [s|s]; cbn [q_reset]; [unfold kif_reset|unfold kbi_reset]; rewrite Hw; exact P.
Qed.
Lemma infer_pinned c x s v u : is_wrap (c_om (x_conf x)) = false -> pinned v s ->
  u = (match scaler c with Some sc => u | None => u end) -> forall w,
  w = (match scaler c with Some sc => u / sc | None => u end) ->
  infer c x s u = Some (wrapper_call (wrapper_of c) (fun _ => base_call (c_rm (x_conf x)) (c_om (x_conf x)) false true v (frac s) w) false u).
Proof.
  intros Hw P _ w ->. unfold infer. destruct s as [s|s]; cbn [q_call pinned frac] in *; destruct P as [Pk Pi].
  - unfold kif_call. rewrite Hw. cbn [andb map]. rewrite Pk. unfold kif_iz. rewrite Pi, round_even_inject. reflexivity.
  - unfold kbi_call. rewrite Hw. cbn [andb map]. rewrite Pk. unfold kbi_iz. rewrite Pi, round_even_inject. reflexivity.
Qed.
Lemma saturated_clip rm lo hi f u : lo <= hi -> saturated rm lo hi f u (clip lo hi (round_f rm f u)).
Proof.
  intros L. exists (round_f rm f u). split; [apply round_f_rounds|]. unfold clip. set (r := round_f rm f u). clearbody r.
  destruct (Q.max_spec r lo) as [[A B]|[A B]]; rewrite B.
  - left. split; [lra|]. apply Q.min_l. exact L.
  - destruct (Q.min_spec r hi) as [[C D]|[C D]]; rewrite D; [right; left|right; right]; split; try lra; reflexivity.
Qed.
Lemma saturated_between rm lo hi f u z : lo <= hi -> saturated rm lo hi f u z -> lo <= z /\ z <= hi.
Proof. intros L (r & _ & [[A B]|[[A B]|[A B]]]); rewrite B; split; lra. Qed.
Lemma base_saturated rm om v f u : om <> WRAP -> (0 < 1 + v + f)%Z ->
  saturated rm (match om with SAT_SYM => - (pow2 v - pow2 (- f)) | _ => - pow2 v end) (pow2 v - pow2 (- f)) f u (base_call rm om false true v f u).
Proof.
  intros No Hp. unfold base_call. change (kz true) with 1%Z. destruct (Z.ltb_spec 0 (1 + v + f)) as [A|A]; [|lia].
  assert (Hb : pow2 (- f) <= pow2 v) by (apply pow2_le; lia). pose proof (pow2_pos v) as Pv. pose proof (pow2_pos (- f)) as Pf.
  destruct om; [congruence| |]; unfold stateless, overflow; change (inject_Z (kz true)) with 1.
  - destruct (saturated_clip rm (- (1) * pow2 v) (pow2 v - pow2 (- f)) f u ltac:(lra)) as (r & R & C). exists r. split; [exact R|].
    destruct C as [[C D]|[[C D]|[C D]]]; [left|right; left|right; right]; (split; [lra|]); rewrite D; try reflexivity; ring.
  - destruct (saturated_clip rm (- (1) * (pow2 v - pow2 (- f))) (pow2 v - pow2 (- f)) f u ltac:(lra)) as (r & R & C). exists r. split; [exact R|].
    destruct C as [[C D]|[[C D]|[C D]]]; [left|right; left|right; right]; (split; [lra|]); rewrite D; try reflexivity; ring.
Qed.
Lemma base_none rm om v f u : (1 + v + f <= 0)%Z -> base_call rm om false true v f u = 0.
Proof. intros H. unfold base_call. change (kz true) with 1%Z. destruct (Z.ltb_spec 0 (1 + v + f)); [lia|reflexivity]. Qed.

Definition unscaled (c : conf) (v : Q) : Q := match scaler c with Some sc => v / sc | None => v end.
Definition scale (c : conf) : Q := match scaler c with Some sc => sc | None => 1 end.

Section Hard.
  Context (I : string -> option obj) (E : env) (a : args) (c : conf) (x : fixed) (h : list event) (s : qstate).
  Context (IC0 : I "Constant(0)" = Some (OConstr (CConstant 0))) (IC1 : I "Constant(1)" = Some (OConstr (CConstant 1))).
  Context (M : make I c = Some (IFixed x)) (L : life x (start x) h = Some s).
  Lemma start_pinned v : x_k0 x = true -> x_i0 x = inject_Z v -> pinned v (start x).
  Proof. intros K Hi. unfold start. destruct (x_class x); cbn [pinned kif_k kif_i kbi_k kbi_i]; auto. Qed.
  Lemma tanh_facts : conf_init E HardTanh a = Some c ->
    pinned 0 s /\ c_om (x_conf x) = (if (match a_symmetric a with Some b => b | None => false end) then SAT_SYM else SAT) /\ affine c = None.
  Proof.
    intros H. destruct (make_inv _ _ _ M) as [D MF]. destruct (make_fixed_inv _ _ _ _ MF) as (_ & K & Hi & (os & O1 & O2) & C).
    cbn [conf_init] in H. unfold hard_tanh_init in H. destruct (_ || _); [discriminate|]. cbv zeta in H. set (sym := match a_symmetric a with Some b => b | None => false end) in *.
    destruct (with_fixed _ _) as [kw|] eqn:W; [|discriminate].
    assert (G : forall k v, get k [("k0", CNum 1); ("ic", CObj "Constant(0)"); ("i0", CNum 0); ("overflow_mode", CStr (if sym then "SAT_SYM" else "SAT"))] = Some v ->
      k <> "homogeneous_axis" -> k <> "heterogeneous_axis" -> get k (params c) = Some v /\ affine c = None).
    { intros k v G1 N1 N2. destruct (plain_params _ _ _ _ _ _ _ _ _ k v H D N1 N2 (with_fixed_get _ _ _ _ _ W G1)) as (P & _ & A). exact (conj P A). }
    destruct (G "k0" _ eq_refl ltac:(discriminate) ltac:(discriminate)) as [Gk A]. destruct (G "ic" _ eq_refl ltac:(discriminate) ltac:(discriminate)) as [Gc _].
    destruct (G "i0" _ eq_refl ltac:(discriminate) ltac:(discriminate)) as [Gi _]. destruct (G "overflow_mode" _ eq_refl ltac:(discriminate) ltac:(discriminate)) as [Go _].
    rewrite Gk in K. change (Some true = Some (x_k0 x)) in K. injection K as K. rewrite Gi in Hi. cbn [num_of] in Hi. injection Hi as Hi. rewrite Gc in C. cbn [constr_of] in C. rewrite IC0 in C. injection C as C.
    rewrite Go in O1. injection O1 as <-.
    assert (OM : c_om (x_conf x) = if sym then SAT_SYM else SAT) by (destruct sym; [change (Some SAT_SYM = Some (c_om (x_conf x))) in O2|change (Some SAT = Some (c_om (x_conf x))) in O2]; injection O2 as O2; symmetry; exact O2).
    split; [|split; [exact OM|exact A]]. refine (life_pinned x 0 h (eq_sym C) _ (start x) s (start_pinned 0 (eq_sym K) (eq_sym Hi)) L). rewrite OM. destruct sym; reflexivity.
  Qed.
  Lemma sigmoid_facts : conf_init E HardSigmoid a = Some c ->
    pinned 1 s /\ c_om (x_conf x) = SAT /\ affine c = Some (1 # 4, 1 # 2).
  Proof.
    intros H. destruct (make_inv _ _ _ M) as [D MF]. destruct (make_fixed_inv _ _ _ _ MF) as (_ & K & Hi & (os & O1 & O2) & C).
    cbn [conf_init] in H. unfold hard_sigmoid_init in H. destruct (_ || _); [discriminate|]. cbv zeta in H.
    destruct (with_fixed _ _) as [kw|] eqn:W; [|discriminate].
    assert (G : forall k v, get k [("k0", CNum 1); ("ic", CObj "Constant(1)"); ("i0", CNum 1); ("overflow_mode", CStr "SAT")] = Some v ->
      k <> "homogeneous_axis" -> k <> "heterogeneous_axis" -> get k (params c) = Some v /\ affine c = Some (1 # 4, 1 # 2)).
    { intros k v G1 N1 N2. destruct (plain_params _ _ _ _ _ _ _ _ _ k v H D N1 N2 (with_fixed_get _ _ _ _ _ W G1)) as (P & _ & A). exact (conj P A). }
    destruct (G "k0" _ eq_refl ltac:(discriminate) ltac:(discriminate)) as [Gk A]. destruct (G "ic" _ eq_refl ltac:(discriminate) ltac:(discriminate)) as [Gc _].
    destruct (G "i0" _ eq_refl ltac:(discriminate) ltac:(discriminate)) as [Gi _]. destruct (G "overflow_mode" _ eq_refl ltac:(discriminate) ltac:(discriminate)) as [Go _].
    rewrite Gk in K. change (Some true = Some (x_k0 x)) in K. injection K as K. rewrite Gi in Hi. cbn [num_of] in Hi. injection Hi as Hi. rewrite Gc in C. cbn [constr_of] in C. rewrite IC1 in C. injection C as C.
    rewrite Go in O1. injection O1 as <-.
    assert (OM : c_om (x_conf x) = SAT) by (change (Some SAT = Some (c_om (x_conf x))) in O2; injection O2 as O2; symmetry; exact O2).
    split; [|split; [exact OM|exact A]]. refine (life_pinned x 1 h (eq_sym C) _ (start x) s (start_pinned 1 (eq_sym K) (eq_sym Hi)) L). rewrite OM. reflexivity.
  Qed.
  Lemma hard_tanh_works v : conf_init E HardTanh a = Some c ->
    exists y z, infer c x s v = Some y /\ y == scale c * z /\ -(1) <= z <= 1 /\
      hard_tanh (c_rm (x_conf x)) (match a_symmetric a with Some b => b | None => false end) (frac s) (unscaled c v) z.
  Proof.
    intros H. destruct (tanh_facts H) as (P & OM & A). set (sym := match a_symmetric a with Some b => b | None => false end) in *.
    assert (W : is_wrap (c_om (x_conf x)) = false) by (rewrite OM; destruct sym; reflexivity).
    rewrite (infer_pinned c x s 0 v W P ltac:(destruct (scaler c); reflexivity) (unscaled c v) eq_refl). set (z := base_call _ _ _ _ _ _ _).
    eexists. exists z. split; [reflexivity|]. split.
    - unfold wrapper_call, wrapper_of. cbn [w_scaler w_noise w_affine]. rewrite A. unfold scale. destruct (qnoise c); destruct (scaler c); ring.
    - unfold hard_tanh. destruct (Z.ltb_spec 0 (frac s + 1)) as [B|B].
      + pose proof (base_saturated (c_rm (x_conf x)) (c_om (x_conf x)) 0 (frac s) (unscaled c v) ltac:(rewrite OM; destruct sym; discriminate) ltac:(lia)) as S. fold z in S.
        assert (PF : pow2 (- frac s) <= 1) by (rewrite <- pow2_0; apply pow2_le; lia). pose proof (pow2_pos (- frac s)) as PP.
        assert (S' : saturated (c_rm (x_conf x)) (if sym then - (1 - pow2 (- frac s)) else -(1)) (1 - pow2 (- frac s)) (frac s) (unscaled c v) z).
        { destruct S as (r & R & C). exists r. split; [exact R|]. rewrite OM in C. pose proof pow2_0 as P0. destruct sym; destruct C as [[C1 C2]|[[C1 C2]|[C1 C2]]]; [left|right; left|right; right|left|right; left|right; right]; (split; [lra|]); rewrite C2; lra. }
        split; [|exact S']. apply saturated_between in S'; [|destruct sym; lra]. destruct sym; split; lra.
      + assert (z = 0) as -> by (apply base_none; lia). split; [split; lra|reflexivity].
  Qed.
  Lemma hard_sigmoid_works v : conf_init E HardSigmoid a = Some c ->
    exists y z, infer c x s v = Some y /\ y == scale c * (z / 4) + (1 # 2) /\ hard_sigmoid (c_rm (x_conf x)) (frac s) (unscaled c v) (z / 4 + (1 # 2)) /\
      0 <= z / 4 + (1 # 2) /\ z / 4 + (1 # 2) < 1.
  Proof.
    intros H. destruct (sigmoid_facts H) as (P & OM & A). assert (W : is_wrap (c_om (x_conf x)) = false) by (rewrite OM; reflexivity).
    rewrite (infer_pinned c x s 1 v W P ltac:(destruct (scaler c); reflexivity) (unscaled c v) eq_refl). set (z := base_call _ _ _ _ _ _ _).
    eexists. exists z. split; [reflexivity|]. split.
    - unfold wrapper_call, wrapper_of. cbn [w_scaler w_noise w_affine]. rewrite A. unfold scale. destruct (qnoise c); destruct (scaler c); field.
    - unfold hard_sigmoid. destruct (Z.ltb_spec 0 (frac s + 2)) as [B|B].
      + pose proof (base_saturated (c_rm (x_conf x)) (c_om (x_conf x)) 1 (frac s) (unscaled c v) ltac:(rewrite OM; discriminate) ltac:(lia)) as S. fold z in S.
        assert (PF : pow2 (- frac s) <= 2) by (rewrite <- pow2_1; apply pow2_le; lia). pose proof (pow2_pos (- frac s)) as PP. pose proof pow2_1 as P1.
        assert (S' : saturated (c_rm (x_conf x)) (-(2)) (2 - pow2 (- frac s)) (frac s) (unscaled c v) z).
        { destruct S as (r & R & C). exists r. split; [exact R|]. rewrite OM in C. destruct C as [[C1 C2]|[[C1 C2]|[C1 C2]]]; [left|right; left|right; right]; (split; [lra|]); rewrite C2; lra. }
        split; [exists z; split; [reflexivity|exact S']|]. apply saturated_between in S'; [|lra].
        setoid_replace (z / 4 + (1 # 2)) with ((1 # 4) * z + (1 # 2)) by field. split; lra.
      + assert (z = 0) as -> by (apply base_none; lia). split; [exists 0; split; reflexivity|split; reflexivity || (vm_compute; congruence)].
  Qed.
End Hard.

(** ** float quantizers *)
Lemma map_params_keys (kw d : kwargs) k : has k d = true -> In k (map fst (map (fun p => (fst p, match get (fst p) kw with Some v => v | None => snd p end)) d)).
Proof.
  intros H. rewrite map_map. cbn [fst]. change (map (fun x : string * cval => fst x) d) with (keys d). apply has_keys. exact H.
Qed.
Lemma plain_float E cls qt pl sc af qn kw c : plain_init E cls qt pl sc af qn kw = Some c -> q_type c = "float" ->
  (forall p d, dconf E "float" p = Some d -> has "is_weight" d = true) -> In "is_weight" (map fst (params c)).
Proof.
  unfold plain_init. destruct (if String.eqb qt "default" then dqt E pl else Some qt) as [qt'|]; [|discriminate].
  destruct (negb _); [discriminate|]. destruct (String.eqb_spec qt' "dummy") as [->|ND]; [intros H D; injection H as <-; cbn [q_type] in D; congruence|].
  destruct (dconf E qt' pl) as [d|] eqn:Ed; [|discriminate]. destruct (is_set _ && is_set _); [discriminate|]. cbv zeta.
  destruct (forallb _ _) eqn:F; [|discriminate]. intros H Q HK. injection H as <-. cbn [q_type params] in *. subst qt'. apply map_params_keys. exact (HK _ _ Ed).
Qed.
Lemma float_never I E cls a c : (forall p d, dconf E "float" p = Some d -> has "is_weight" d = true) ->
  conf_init E cls a = Some c -> q_type c = "float" -> make I c = None.
Proof.
  intros HK H Q. assert (IW : In "is_weight" (map fst (params c))).
  { destruct cls; cbn [conf_init] in H.
    - destruct (present _); [discriminate|]. exact (plain_float _ _ _ _ _ _ _ _ _ H Q HK).
    - unfold hard_tanh_init in H. destruct (_ || _); [discriminate|]. cbv zeta in H. destruct (with_fixed _ _); [|discriminate]. exact (plain_float _ _ _ _ _ _ _ _ _ H Q HK).
    - unfold hard_sigmoid_init in H. destruct (_ || _); [discriminate|]. cbv zeta in H. destruct (with_fixed _ _); [|discriminate]. exact (plain_float _ _ _ _ _ _ _ _ _ H Q HK). }
  unfold make. rewrite Q. cbn [String.eqb Ascii.eqb Bool.eqb]. 
  assert (A : accepted float_keywords (params c) = false).
  { apply not_true_iff_false. intros T. unfold accepted in T. rewrite forallb_forall in T. apply in_map_iff in IW. destruct IW as ([k v] & E1 & Hin). cbn [fst] in E1. subst k. specialize (T _ Hin). vm_compute in T. discriminate. }
  rewrite A. reflexivity.
Qed.

(** ** the shipped defaults can be used *)
Lemma created I qt pl k i w l : shipped_objects I -> In qt ["kif"; "kbi"] -> In pl ["weight"; "datalane"; "bias"; "table"] ->
  (if String.eqb qt "kif" then 0 <= i + w else 0 <= w) ->
  exists c x, conf_init shipped Plain (mk_args (Some qt) (Some pl) None None None None
      [("k0", CBool k); ("i0", CNum i); ((if String.eqb qt "kif" then "f0" else "b0"), CNum w); ("homogeneous_axis", CAxes l)]) = Some c /\
    make I c = Some (IFixed x) /\ x_class x = (if String.eqb qt "kif" then KIF else KBI) /\ x_k0 x = k /\ x_i0 x = i /\ x_w0 x = w /\
    get "homogeneous_axis" (x_params x) = Some (CAxes l) /\ get "heterogeneous_axis" (x_params x) = Some CNone /\
    c_om (x_conf x) = (if String.eqb pl "weight" || String.eqb pl "table" then SAT_SYM else WRAP) /\
    c_rm (x_conf x) = RND /\ c_weight (x_conf x) = String.eqb pl "weight" /\ c_trainable (x_conf x) = true.
Proof.
  intros (I1 & I2 & I3 & I4 & I5 & I6 & _) Hq Hp Hw.
  assert (SK : sign_of (Some (CBool k)) = Some k) by (destruct k; reflexivity).
  destruct Hq as [<-|[<-|[]]]; apply Qle_bool_iff in Hw;
  destruct Hp as [<-|[<-|[<-|[<-|[]]]]]; eexists; eexists; (split; [vm_compute; reflexivity|]); (split;
   [unfold make; cbn [q_type params String.eqb Ascii.eqb Bool.eqb]; unfold make_fixed;
    match goal with |- context [get "k0" ?kw] => set (KW := kw) end;
    change (get "k0" KW) with (Some (CBool k)); rewrite SK;
    change (num_of (get "i0" KW)) with (Some i);
    (change (num_of (get "f0" KW)) with (Some w) || change (num_of (get "b0" KW)) with (Some w));
    change (str_of (get "round_mode" KW)) with (Some "RND"); change (rmode_of "RND") with (Some RND);
    (change (str_of (get "overflow_mode" KW)) with (Some "WRAP") || change (str_of (get "overflow_mode" KW)) with (Some "SAT_SYM"));
    (change (omode_of "WRAP") with (Some WRAP) || change (omode_of "SAT_SYM") with (Some SAT_SYM));
    unfold KW; cbn [get String.eqb Ascii.eqb Bool.eqb constr_of decay_of reg_ok mapper_ok axes_of flag_of]; rewrite ?I1, ?I2, ?I3, ?I4, ?I5, ?I6; cbv iota beta;
    rewrite Hw; unfold mapper_ok; cbn [get String.eqb Ascii.eqb Bool.eqb axes_of]; cbn [andb]; reflexivity|]); repeat split.
Qed.
