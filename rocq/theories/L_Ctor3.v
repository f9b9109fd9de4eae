(** Layers that build other layers: cells of the sequence layers, projections and softmax of the attention layers. *)
From Coq Require Import List Bool String.
From Verif Require Import M_Ctor M_CtorTab M_CtorSub S_Ctor L_Ctor L_Ctor2.
Import ListNotations.
Open Scope string_scope.
Local Open Scope list_scope.

(** ** sequence layers *)
Definition reach1 (k : string) (ch : list ctor) (m : summary) (n : string) : bool :=
  existsb (fun c => match get (c_name c) (sm_bind m) with
                    | None => false
                    | Some e => existsb (fun t => mem t (c_uses c) && match get t e with Some s => sym_ok ch k n s | None => false end) (targets k n)
                    end) ch.
Definition cell_takes (args : list (string * expr)) (c : ctor) (n : string) : bool :=
  match get n args with
  | Some (EVar x) => String.eqb x n && has n (c_params c)
  | Some (EGet x _) => String.eqb x n && negb (has n (c_params c))
  | _ => false
  end.
Definition seq_ok (k : string) : bool :=
  match cell_of k, chain k with
  | Some (cell, args), c :: ch =>
      mem cell public && negb (existsb (fun n => mem n (overridden cell)) (map fst args)) &&
      match analyze (c :: ch) start with
      | Some m => forallb (fun n => mem n (fixed k) || mem n (overridden k) || reach1 k (c :: ch) m n || cell_takes args c n) (names (c :: ch))
      | None => false
      end
  | _, _ => false
  end.
Lemma seqs_ok : forallb seq_ok sequence_layers = true.
Proof. vm_compute. reflexivity. Qed.

Lemma bind_get : forall ps kw env n v, bind_params ps kw = Some env -> has n ps = true -> get n kw = Some v -> get n env = Some v.
Proof.
  induction ps as [|[m d] ps IH]; intros kw env n v B H G; [discriminate|]. cbn [bind_params] in B.
  destruct (match get m kw with Some v => Some v | None => d end) as [x|] eqn:X; [|discriminate].
  destruct (bind_params ps kw) as [e|] eqn:E; [|discriminate]. apply some_eq in B. subst env. cbn [get].
  unfold has in H. cbn [get] in H. destruct (String.eqb_spec n m) as [->|N].
  - rewrite G in X. exact (eq_sym X).
  - apply (IH kw e n v E); [exact H|exact G].
Qed.
Lemma leftover_get : forall ps kw n v, has n ps = false -> get n kw = Some v -> get n (leftover ps kw) = Some v.
Proof. intros ps kw n v H G. unfold leftover. rewrite (get_filter val (fun m => negb (has m ps))), H. exact G. Qed.

Lemma seq_known : forall k, In k sequence_layers -> In k known_classes.
Proof. intros k P. unfold known_classes. apply in_or_app. right. exact P. Qed.
Local Opaque chain analyze sequence_layers public known_classes cell_of.
Lemma reach1_arrives : forall k kw m n v, reach1 k (chain k) m n = true -> get n kw = Some v ->
  exists c t w, In c (chain k) /\ In t (c_uses c) /\ (t = n \/ In (n, t) (renamed k)) /\ got (outcome kw m) (c_name c) t = Some w /\ as_given k n v w.
Proof.
  intros k kw m n v R G. unfold reach1 in R. apply existsb_exists in R as (c & Ic & R). destruct (get (c_name c) (sm_bind m)) as [e|] eqn:E; [|discriminate].
  apply existsb_exists in R as (t' & It & R). apply andb_true_iff in R as [U R]. destruct (get t' e) as [s|] eqn:GS; [|discriminate].
  exists c, t', (sv kw s). split; [exact Ic|]. split; [apply mem_in, U|]. split.
  - destruct It as [<-|It]; [left; reflexivity|right]. apply in_map_iff in It as ([a b'] & E1 & It). apply filter_In in It as [It E2]. cbn [fst snd] in *. apply String.eqb_eq in E2. subst. exact It.
  - split; [exact (get_outcome kw m _ _ e s E GS)|]. apply (sym_ok_val (chain k) k n s kw v R). unfold argument. rewrite G. reflexivity.
Qed.
Theorem sequence_argument_arrives : forall k cell args kw o oc n v, In k sequence_layers -> cell_of k = Some (cell, args) ->
  construct k kw = Some o -> construct_cell k kw = Some oc -> get n kw = Some v -> dunder n = false ->
  (exists c t w, In c (chain k) /\ In t (c_uses c) /\ (t = n \/ In (n, t) (renamed k)) /\ got o (c_name c) t = Some w /\ as_given k n v w) \/
  (exists c w, In c (chain cell) /\ In n (c_uses c) /\ got oc (c_name c) n = Some w /\ as_given cell n v w).
Proof.
  intros k cell args kw o oc n v P CE C CC G D. pose proof seqs_ok as SO. rewrite forallb_forall in SO. specialize (SO k P). unfold seq_ok in SO. rewrite CE in SO.
  destruct (class_ok_inv k (seq_known k P)) as (m & NE & A & K & AC & _).
  destruct (chain k) as [|c0 ch] eqn:CH; [discriminate|]. rewrite A in SO. rewrite !andb_true_iff in SO. destruct SO as [[PC OV] SO].
  rewrite <- CH in *. rewrite (construct_ok k kw m NE A) in C. destruct (conds kw m) eqn:CO; [|discriminate]. apply some_eq in C. subst o.
  destruct (accept_parts k (chain k) m AC) as ((t & b & r & CL & TD & B) & _ & _ & _ & FF & _ & _).
  apply conds_parts in CO as (_ & CF & CCL & _). assert (H : has n kw = true) by (unfold has; rewrite G; reflexivity).
  assert (I : In n t). { specialize (CCL t b). rewrite CL in CCL. specialize (CCL (or_introl eq_refl) n H). unfold gone in CCL. rewrite D, andb_false_r, orb_false_r in CCL. apply mem_in, CCL. }
  assert (N : In n (names (chain k))) by (apply declared_names, TD, I).
  rewrite forallb_forall in SO. specialize (SO n N). rewrite !orb_true_iff in SO. destruct SO as [[[R|R]|R]|R].
  - exfalso. apply mem_in in R. rewrite (CF n (FF n R)) in H. discriminate.
  - exfalso. assert (X : forallb (fun k => match overridden k with [] => true | _ => false end) sequence_layers = true) by (vm_compute; reflexivity).
    rewrite forallb_forall in X. specialize (X k P). destruct (overridden k); [discriminate|discriminate].
  - left. exact (reach1_arrives k kw m n v R G).
  - right. unfold construct_cell in CC. rewrite CE, CH in CC.
    destruct (bind_params (c_params c0) kw) as [env|] eqn:BP; [|discriminate].
    set (ckw := map (fun p => (fst p, eval env (leftover (c_params c0) kw) (snd p))) args) in *.
    assert (GC : get n ckw = Some v).
    { unfold ckw. rewrite (get_map expr val (eval env (leftover (c_params c0) kw))). unfold cell_takes in R. destruct (get n args) as [[x|x|x d|x d]|] eqn:GA; try discriminate; cbn [option_map eval].
      - apply andb_true_iff in R as [R1 R2]. apply String.eqb_eq in R1. subst x. unfold lookup. rewrite (bind_get _ kw env n v BP R2 G). reflexivity.
      - apply andb_true_iff in R as [R1 R2]. apply String.eqb_eq in R1. subst x. apply negb_true_iff in R2. rewrite (leftover_get _ kw n v R2 G). reflexivity. }
    assert (NO : ~ In n (overridden cell)).
    { intros X. apply negb_true_iff in OV. assert (Y : existsb (fun n => mem n (overridden cell)) (map fst args) = true); [|congruence].
      apply existsb_exists. exists n. split; [|apply mem_in, X]. assert (has n ckw = true) by (unfold has; rewrite GC; reflexivity).
      apply has_in in H0. unfold ckw in H0. rewrite map_map in H0. exact H0. }
    apply mem_in in PC. destruct (argument_arrives cell ckw oc n v PC CC GC D NO) as (c & t' & w & H1 & H2 & H3 & H4 & H5).
    assert (RN : renamed cell = []).
    { assert (X : forallb (fun k => match cell_of k with Some (cl, _) => match renamed cl with [] => true | _ => false end | None => true end) sequence_layers = true) by (vm_compute; reflexivity).
      rewrite forallb_forall in X. specialize (X k P). rewrite CE in X. destruct (renamed cell); [reflexivity|discriminate]. }
    rewrite RN in H3. destruct H3 as [->|[]]. exists c, w. split; [exact H1|]. split; [exact H2|]. split; [exact H4|exact H5].
Qed.

(** ** attention layers *)
(** the source stands for the user's argument [n] of the layer with chain [ch] *)
Definition source_ok (k : string) (ch : list ctor) (m : summary) (n : string) (s : source) : bool :=
  match s with
  | From c p | FromOr c p _ => match get c (sm_bind m) with Some e => match get p e with Some s => sym_plain ch n s | None => false end | None => false end
  | Made _ => false
  end.
Definition plain_source (s : source) : bool := match s with FromOr _ _ _ => false | _ => true end.
Definition inner_ok (k : string) (ch : list ctor) (m : summary) (s : inner) : bool :=
  mem (in_class s) public && negb (mem (in_class s) ["QUnaryFunctionLUT"; "QAffinedUnaryFunctionLUT"]) &&
  match renamed (in_class s) with [] => true | _ => false end && match overridden (in_class s) with [] => true | _ => false end &&
  match analyze (chain (in_class s)) start with
  | None => false
  | Some mi =>
      forallb (fun n => has n (in_args s)) (sm_req mi) && forallb (fun n => negb (has n (in_args s))) (sm_forb mi) &&
      forallb (fun cl => forallb (fun p => gone (fst cl) (snd cl) (fst p)) (in_args s)) (sm_closed mi) &&
      forallb (fun ec => match snd ec with NotBoth x y => match get y (fst ec) with Some (SUser y' (Some (VLit d))) => String.eqb d "None" && negb (has y' (in_args s)) | _ => false end | _ => false end) (sm_checks mi)
  end &&
  forallb (fun np => negb (dunder (snd np)) && negb (mem (snd np) (none_replaced (in_class s))) &&
                     match get (snd np) (in_args s) with Some src => source_ok k ch m (fst np) src && (is_conf (fst np) || plain_source src) | None => false end) (meant_for (in_class s)).
Definition attention_ok (k : string) : bool :=
  mem k public &&
  match analyze (chain k) start with Some m => forallb (inner_ok k (chain k) m) (inners k true ++ inners k false) | None => false end.
Lemma attentions_ok : forallb attention_ok attention_layers = true.
Proof. vm_compute. reflexivity. Qed.
Lemma attention_inv : forall k, In k attention_layers ->
  exists m, In k public /\ analyze (chain k) start = Some m /\ forall dt s, In s (inners k dt) -> inner_ok k (chain k) m s = true.
Proof.
  intros k P. pose proof attentions_ok as H. rewrite forallb_forall in H. specialize (H k P). unfold attention_ok in H.
  apply andb_true_iff in H as [H1 H2]. destruct (analyze (chain k) start) as [m|] eqn:A; [|discriminate]. exists m.
  split; [apply mem_in, H1|]. split; [reflexivity|]. intros dt s I. rewrite forallb_forall in H2. apply H2, in_or_app. destruct dt; [left|right]; exact I.
Qed.
Lemma constructed : forall k kw o m, In k known_classes -> analyze (chain k) start = Some m -> construct k kw = Some o -> o = outcome kw m.
Proof.
  intros k kw o m P A C. destruct (class_ok_inv k P) as (m' & NE & A' & _). rewrite (construct_ok k kw m NE A) in C.
  destruct (conds kw m); [|discriminate]. apply some_eq in C. symmetry. exact C.
Qed.
Lemma received_ok : forall k kw m c p e s n v, get c (sm_bind m) = Some e -> get p e = Some s -> sym_plain (chain k) n s = true -> get n kw = Some v ->
  received (outcome kw m) c p = v.
Proof.
  intros k kw m c p e s n v E G S U. pose proof (get_outcome kw m c p e s E G) as GO. unfold received, got in *.
  destruct (get c (outcome kw m)) as [d|]; [|discriminate]. unfold lookup. rewrite GO. unfold sv. rewrite (sym_plain_val (chain k) n s kw S).
  unfold argument. rewrite U. reflexivity.
Qed.
Lemma supply_ok : forall k kw m n v s, source_ok k (chain k) m n s = true -> get n kw = Some v -> (plain_source s = true \/ truthy v = true) ->
  supply (outcome kw m) s = v.
Proof.
  intros k kw m n v [c p|c p d|t] S G T; cbn [source_ok] in S; try discriminate;
    destruct (get c (sm_bind m)) as [e|] eqn:E; try discriminate; destruct (get p e) as [y|] eqn:GE; try discriminate;
    cbn [supply]; rewrite (received_ok k kw m c p e y n v E GE S G); [reflexivity|].
  destruct T as [T|T]; [discriminate|]. rewrite T. reflexivity.
Qed.
(** the inner layer is constructed without an exception *)
Theorem inner_accepted : forall k dt s kw o, In k attention_layers -> In s (inners k dt) -> construct k kw = Some o -> construct_inner o s <> None.
Proof.
  intros k dt s kw o P I C. destruct (attention_inv k P) as (m & PB & A & H). specialize (H dt s I). unfold inner_ok in H. rewrite !andb_true_iff in H.
  destruct H as [[[[[P1 P2] P3] P4] P5] P6]. apply mem_in in P1. destruct (class_ok_inv (in_class s) (public_known _ P1)) as (mi & NE & AI & _).
  rewrite AI in P5. rewrite !andb_true_iff in P5. destruct P5 as [[[R F] CL] CK]. rewrite forallb_forall in R, F, CL, CK.
  unfold construct_inner. rewrite (construct_ok (in_class s) _ mi NE AI).
  assert (HN : forall n, has n (inner_kwargs o s) = has n (in_args s)).
  { intros n. unfold has, inner_kwargs. rewrite (get_map source val (supply o)). destruct (get n (in_args s)); reflexivity. }
  assert (CO : conds (inner_kwargs o s) mi = true).
  { apply conds_parts. split; [|split; [|split]].
    - intros n J. rewrite HN. exact (R n J).
    - intros n J. rewrite HN. apply negb_true_iff, (F n J).
    - intros t b J n HH. rewrite HN in HH. specialize (CL (t, b) J). cbn [fst snd] in CL. rewrite forallb_forall in CL. apply has_in in HH.
      apply in_map_iff in HH as (p & E & HH). specialize (CL p HH). rewrite E in CL. exact CL.
    - intros e c J. specialize (CK (e, c) J). cbn [fst snd] in CK. destruct c as [| | | |x y]; try discriminate.
      cbn [check_ok]. apply orb_true_iff. right. rewrite lookup_conc. unfold slookup.
      destruct (get y e) as [[y' [[d|]|]| |]|]; try discriminate. apply andb_true_iff in CK as [D N]. apply String.eqb_eq in D. subst d.
      apply negb_true_iff in N. rewrite <- HN in N. apply has_none in N. unfold sv. cbn [sval]. rewrite N. reflexivity. }
  rewrite CO. discriminate.
Qed.
(** ... and gets the user's argument *)
Theorem inner_gets : forall k dt s kw o oi n p v, In k attention_layers -> In s (inners k dt) -> construct k kw = Some o -> construct_inner o s = Some oi ->
  In (n, p) (meant_for (in_class s)) -> get n kw = Some v -> (is_conf n = true -> truthy v = true) ->
  exists c, In c (chain (in_class s)) /\ In p (c_uses c) /\ got oi (c_name c) p = Some v.
Proof.
  intros k dt s kw o oi n p v P I C CI M G T. destruct (attention_inv k P) as (m & PB & A & H). specialize (H dt s I). unfold inner_ok in H. rewrite !andb_true_iff in H.
  destruct H as [[[[[P1 P2] P3] P4] P5] P6]. apply mem_in in P1. rewrite forallb_forall in P6. specialize (P6 (n, p) M). cbn [fst snd] in P6.
  rewrite !andb_true_iff in P6. destruct P6 as [[DU NR] SO]. apply negb_true_iff in DU. apply negb_true_iff in NR.
  destruct (get p (in_args s)) as [src|] eqn:GS; [|discriminate]. apply andb_true_iff in SO as [SO PL].
  rewrite (constructed k kw o m (public_known k PB) A C) in CI. unfold construct_inner in CI.
  assert (GI : get p (inner_kwargs (outcome kw m) s) = Some v).
  { unfold inner_kwargs. rewrite (get_map source val (supply (outcome kw m))), GS. cbn [option_map]. f_equal. apply (supply_ok k kw m n v src SO G).
    apply orb_true_iff in PL as [PL|PL]; [right; apply T, PL|left; exact PL]. }
  assert (O : overridden (in_class s) = []) by (destruct (overridden (in_class s)); [reflexivity|discriminate]).
  assert (RN : renamed (in_class s) = []) by (destruct (renamed (in_class s)); [reflexivity|discriminate]).
  destruct (argument_arrives (in_class s) _ oi p v P1 CI GI DU) as (c & t & w & H1 & H2 & H3 & H4 & H5); [rewrite O; intros []|].
  rewrite RN in H3. destruct H3 as [->|[]]. exists c. split; [exact H1|]. split; [exact H2|].
  destruct H5 as [->|[X _]]; [exact H4|]. apply mem_in in X. congruence.
Qed.

(** ** positional arguments *)
Local Transparent chain analyze sequence_layers public known_classes cell_of.
Fixpoint nodup_b (l : list string) : bool := match l with [] => true | x :: l => negb (mem x l) && nodup_b l end.
Fixpoint prefix_b (a b : list string) : bool := match a, b with [], _ => true | x :: a, y :: b => String.eqb x y && prefix_b a b | _, _ => false end.
Lemma prefix_b_nth : forall a b i x, prefix_b a b = true -> nth_error a i = Some x -> nth_error b i = Some x.
Proof.
  induction a as [|y a IH]; intros b i x P N; [destruct i; discriminate|]. destruct b as [|z b]; [discriminate|].
  cbn [prefix_b] in P. apply andb_true_iff in P as [P1 P2]. apply String.eqb_eq in P1. subst z. destruct i as [|i]; [exact N|]. exact (IH b i x P2 N).
Qed.
Lemma combine_get : forall l (pos : list val) i n v, nodup_b l = true -> nth_error l i = Some n -> nth_error pos i = Some v -> get n (combine l pos) = Some v.
Proof.
  induction l as [|y l IH]; intros pos i n v N A B; [destruct i; discriminate|]. cbn [nodup_b] in N. apply andb_true_iff in N as [N1 N2].
  destruct pos as [|w pos]; [destruct i; discriminate|]. cbn [combine get]. destruct i as [|i].
  - cbn in A, B. apply some_eq in A. apply some_eq in B. subst. rewrite String.eqb_refl. reflexivity.
  - cbn [nth_error] in A, B. destruct (String.eqb_spec n y) as [->|NE]; [|exact (IH pos i n v N2 A B)].
    exfalso. apply nth_error_In in A. apply mem_in in A. rewrite A in N1. discriminate.
Qed.
Lemma positional_nodup : forallb (fun k => nodup_b (positional k)) known_classes = true.
Proof. vm_compute. reflexivity. Qed.
Lemma drop_in_ok : forallb (fun p => mem (fst p) known_classes && prefix_b (snd p) (positional (fst p)) &&
    negb (match snd p with [] => true | _ => false end)) drop_in = true.
Proof. vm_compute. reflexivity. Qed.
Local Opaque chain analyze sequence_layers public known_classes drop_in.
Theorem positional_ok : forall k c ch pos kw kw' i n v, In k known_classes -> chain k = c :: ch -> by_position c pos kw = Some kw' ->
  nth_error (positional k) i = Some n -> nth_error pos i = Some v -> get n kw' = Some v.
Proof.
  intros k c ch pos kw kw' i n v P CH B N V. unfold by_position in B. destruct (Nat.leb _ _ && _) eqn:E; [|discriminate]. apply some_eq in B. subst kw'.
  unfold positional in N. rewrite CH in N. pose proof positional_nodup as ND. rewrite forallb_forall in ND. specialize (ND k P). unfold positional in ND. rewrite CH in ND.
  rewrite get_app, (combine_get _ pos i n v ND N V). reflexivity.
Qed.
Theorem drop_in_position : forall q names, In (q, names) drop_in -> forall i n, nth_error names i = Some n -> nth_error (positional q) i = Some n.
Proof.
  intros q ns I i n N. pose proof drop_in_ok as D. rewrite forallb_forall in D. specialize (D _ I). cbn [fst snd] in D. rewrite !andb_true_iff in D.
  destruct D as [[D1 D2] D3]. exact (prefix_b_nth _ _ _ _ D2 N).
Qed.
(** ** facts about single layers *)
Theorem softmax_input_quantizer_off : forall k dt kw o oi, In k attention_layers -> In softmax (inners k dt) -> construct k kw = Some o -> construct_inner o softmax = Some oi ->
  got oi "QLayerBase" "enable_iq" = Some (VLit "False").
Proof.
  intros k dt kw o oi P I C CI. unfold construct_inner in CI. change (in_class softmax) with "QSoftmax" in CI.
  destruct (parameter_value "QSoftmax" (inner_kwargs o softmax) oi i_QLayerBase "enable_iq") as (v & w & A & G & W).
  - apply mem_in. vm_compute. reflexivity.
  - exact CI.
  - vm_compute. tauto.
  - vm_compute. tauto.
  - vm_compute. tauto.
  - vm_compute. tauto.
  - vm_compute. intros [X _]. discriminate.
  - change (c_name i_QLayerBase) with "QLayerBase" in G. rewrite G. destruct W as [->|[X _]]; [|vm_compute in X; destruct X as [X|[]]; discriminate].
    rewrite <- A. vm_compute. reflexivity.
Qed.
Definition w_call : kwargs := [("num_heads", VObj 1); ("key_dim", VObj 2); ("qkvo_kq_conf", VObj 7)].
Definition w_out : list (string * kwargs) := match construct "QMultiHeadAttentionT" w_call with Some o => o | None => [] end.
Lemma w_ok : construct "QMultiHeadAttentionT" w_call = Some w_out.
Proof. vm_compute. reflexivity. Qed.
Lemma w_unused : forall s p, In s (inners "QMultiHeadAttentionT" true) -> get p (inner_kwargs w_out s) <> Some (VObj 7).
Proof.
  intros s p I G.
  assert (X : forallb (fun s => forallb (fun a => negb (val_eqb (snd a) (VObj 7))) (inner_kwargs w_out s)) (inners "QMultiHeadAttentionT" true) = true) by (vm_compute; reflexivity).
  rewrite forallb_forall in X. specialize (X s I). rewrite forallb_forall in X.
  assert (J : In (p, VObj 7) (inner_kwargs w_out s)).
  { clear - G. induction (inner_kwargs w_out s) as [|[q y] l IH]; [discriminate|]. cbn [get] in G. destruct (String.eqb_spec p q) as [->|]; [apply some_eq in G; subst; left; reflexivity|right; exact (IH G)]. }
  specialize (X _ J). vm_compute in X. discriminate.
Qed.
Local Transparent chain sequence_layers public known_classes.
Lemma standard_ok : forallb (fun k => mem k ["SpikingNeuralCell"; "LIFCell"; "EarlyStoppingWithEbopsThres"] ||
  forallb (fun n => isdecl (declared (chain k) n) && negb (mem n (fixed k)) && negb (mem n (overridden k))) (standard_arguments k)) known_classes = true.
Proof. vm_compute. reflexivity. Qed.
Local Opaque chain sequence_layers public known_classes.
Theorem standard_arguments_taken : forall k n, quantized k -> In n (standard_arguments k) ->
  declared (chain k) n <> None /\ ~ In n (fixed k) /\ ~ In n (overridden k).
Proof.
  intros k n [P E] I. pose proof standard_ok as H. rewrite forallb_forall in H. specialize (H k P). apply orb_true_iff in H as [H|H]; [apply mem_in in H; contradiction|].
  rewrite forallb_forall in H. specialize (H n I). rewrite !andb_true_iff in H. destruct H as [[A B] C]. apply negb_true_iff in B. apply negb_true_iff in C.
  split; [destruct (declared (chain k) n); discriminate|]. split; intros X; apply mem_in in X; congruence.
Qed.
