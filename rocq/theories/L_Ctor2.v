(** The constructors of the package: from the symbolic summaries to statements about every call. *)
From Coq Require Import List Bool String.
From Verif Require Import M_Ctor M_CtorTab S_Ctor L_Ctor.
Import ListNotations.
Open Scope string_scope.
Local Open Scope list_scope.

Definition oval_eqb (a b : option val) : bool := match a, b with Some x, Some y => val_eqb x y | None, None => true | _, _ => false end.
Lemma oval_eqb_eq : forall a b, oval_eqb a b = true -> a = b.
Proof. intros [x|] [y|] H; cbn in H; try discriminate; [apply val_eqb_eq in H; subst|]; reflexivity. Qed.

(** the symbol stands for the user's argument [n] with the declared default *)
Definition sym_plain (ch : list ctor) (n : string) (s : sym) : bool :=
  match s with SUser x d => String.eqb x n && match declared ch n with Some d' => oval_eqb d d' | None => false end | _ => false end.
Definition sym_ok (ch : list ctor) (k n : string) (s : sym) : bool :=
  match s with SOr s _ => sym_plain ch n s && mem n (none_replaced k) | _ => sym_plain ch n s end.
Lemma sym_plain_val : forall ch n s kw, sym_plain ch n s = true -> sval kw s = argument ch kw n.
Proof.
  intros ch n [x d|v|s d] kw H; try discriminate. cbn [sym_plain] in H. apply andb_true_iff in H as [E D]. apply String.eqb_eq in E. subst x.
  cbn [sval]. unfold argument. destruct (get n kw); [reflexivity|]. destruct (declared ch n); [apply oval_eqb_eq in D; exact D|discriminate].
Qed.
Lemma sym_ok_val : forall ch k n s kw v, sym_ok ch k n s = true -> argument ch kw n = Some v -> as_given k n v (sv kw s).
Proof.
  intros ch k n s kw v H A. unfold as_given. destruct s as [x d|c|s d].
  - left. unfold sv. rewrite (sym_plain_val _ _ _ kw H), A. reflexivity.
  - discriminate.
  - cbn [sym_ok] in H. apply andb_true_iff in H as [P M]. unfold sv. cbn [sval]. rewrite (sym_plain_val _ _ _ kw P), A.
    destruct (val_eqb v vnone) eqn:E; [right|left; reflexivity]. split; [apply mem_in, M|apply val_eqb_eq, E].
Qed.

Definition names (ch : list ctor) : list string := flat_map (fun c => map fst (c_params c)) ch.
Lemma declared_names : forall ch n, declared ch n <> None <-> In n (names ch).
Proof.
  induction ch as [|c ch IH]; intros n; cbn [declared names flat_map]; [split; [congruence|intros []]|].
  rewrite in_app_iff, <- (has_in _ n (c_params c)). unfold has. destruct (get n (c_params c)); [split; [auto|discriminate]|].
  rewrite IH. unfold names. split; [auto|intros [|]; [discriminate|assumption]].
Qed.

Definition check_names (c : check) : list string := match c with MustBe x _ | MustNotBe x _ | Truthy x | Falsy x => [x] | NotBoth x y => [x; y] end.
Definition required (d : option (option val)) : bool := match d with Some None => true | _ => false end.
Definition isdecl (d : option (option val)) : bool := match d with Some _ => true | None => false end.

(** everything that has to be checked of a summary *)
Definition keep_ok (k : string) (ch : list ctor) (m : summary) : bool :=
  forallb (fun c => match get (c_name c) (sm_bind m) with
                    | None => false
                    | Some e => forallb (fun n => mem n (fixed k) || mem n (overridden k) || (String.eqb (c_name c) "Layer" && mem n (not_for_keras k)) ||
                                                  match get n e with Some s => sym_ok ch k n s | None => false end) (c_uses c)
                    end) ch.
Definition targets (k n : string) : list string := n :: map snd (filter (fun p => String.eqb (fst p) n) (renamed k)).
Definition reach_ok (k : string) (ch : list ctor) (m : summary) : bool :=
  forallb (fun n => mem n (fixed k) || mem n (overridden k) ||
    existsb (fun c => match get (c_name c) (sm_bind m) with
                      | None => false
                      | Some e => existsb (fun t => mem t (c_uses c) && match get t e with Some s => sym_ok ch k n s | None => false end) (targets k n)
                      end) ch) (names ch).
Definition accept_ok (k : string) (ch : list ctor) (m : summary) : bool :=
  (match sm_closed m with [] => false | cl :: _ => forallb (fun n => isdecl (declared ch n)) (fst cl) && Bool.eqb (snd cl) (gathers k) end) &&
  forallb (fun cl => forallb (fun n => mem n (fixed k) || gone (fst cl) (snd cl) n) (names ch) && implb (gathers k) (snd cl)) (sm_closed m) &&
  forallb (fun n => implb (required (declared ch n)) (mem n (fixed k) || mem n (sm_req m))) (names ch) &&
  forallb (fun n => required (declared ch n) && negb (mem n (fixed k))) (sm_req m) &&
  forallb (fun n => mem n (sm_forb m)) (fixed k) &&
  forallb (fun n => (mem n (fixed k) || negb (isdecl (declared ch n))) && negb (dunder n)) (sm_forb m) &&
  forallb (fun ec => forallb (fun n => match get n (fst ec) with Some s => sym_plain ch n s | None => false end) (check_names (snd ec))) (sm_checks m).
Definition class_ok (k : string) : bool :=
  match chain k with
  | [] => false
  | ch => match analyze ch start with Some m => keep_ok k ch m && accept_ok k ch m && (reach_ok k ch m || mem k sequence_layers) | None => false end
  end.
Definition known_classes : list string := public ++ sequence_layers.

Lemma get_outcome : forall kw m c n e s, get c (sm_bind m) = Some e -> get n e = Some s -> got (outcome kw m) c n = Some (sv kw s).
Proof.
  intros kw m c n e s G H. unfold got, outcome. rewrite (get_map senv kwargs (conc kw)), G. cbn [option_map]. rewrite get_conc, H. reflexivity.
Qed.

Lemma classes_ok : forallb class_ok known_classes = true.
Proof. vm_compute. reflexivity. Qed.
Lemma public_known : forall k, In k public -> In k known_classes.
Proof. intros k P. unfold known_classes. apply in_or_app. left. exact P. Qed.
Local Opaque chain analyze sequence_layers public known_classes.
Lemma class_ok_inv : forall k, In k known_classes ->
  exists m, chain k <> [] /\ analyze (chain k) start = Some m /\ keep_ok k (chain k) m = true /\ accept_ok k (chain k) m = true /\
    (mem k sequence_layers = false -> reach_ok k (chain k) m = true).
Proof.
  intros k I. pose proof classes_ok as H. rewrite forallb_forall in H. specialize (H k I). unfold class_ok in H.
  destruct (chain k) as [|c ch] eqn:E; [discriminate|]. destruct (analyze (c :: ch) start) as [m|] eqn:A; [|discriminate].
  apply andb_true_iff in H as [H R]. apply andb_true_iff in H as [K C]. exists m. split; [discriminate|]. split; [reflexivity|]. split; [exact K|]. split; [exact C|].
  intros S. rewrite S, orb_false_r in R. exact R.
Qed.
Lemma construct_ok : forall k kw m, chain k <> [] -> analyze (chain k) start = Some m -> construct k kw = if conds kw m then Some (outcome kw m) else None.
Proof.
  intros k kw m N A. unfold construct. destruct (chain k) as [|c ch] eqn:E; [contradiction|]. apply run_ok, A.
Qed.

Lemma accept_parts : forall k ch m, accept_ok k ch m = true ->
  (exists t b rest, sm_closed m = (t, b) :: rest /\ (forall n, In n t -> declared ch n <> None) /\ b = gathers k) /\
  (forall t b, In (t, b) (sm_closed m) -> (forall n, In n (names ch) -> In n (fixed k) \/ gone t b n = true) /\ (gathers k = true -> b = true)) /\
  (forall n, declared ch n = Some None -> In n (fixed k) \/ In n (sm_req m)) /\
  (forall n, In n (sm_req m) -> declared ch n = Some None /\ ~ In n (fixed k)) /\
  (forall n, In n (fixed k) -> In n (sm_forb m)) /\
  (forall n, In n (sm_forb m) -> (In n (fixed k) \/ declared ch n = None) /\ dunder n = false) /\
  (forall e c, In (e, c) (sm_checks m) -> forall n, In n (check_names c) -> exists s, get n e = Some s /\ sym_plain ch n s = true).
Proof.
  intros k ch m H. unfold accept_ok in H. rewrite !andb_true_iff in H. destruct H as [[[[[[H1 H2] H3] H4] H5] H6] H7].
  rewrite forallb_forall in H2, H3, H4, H5, H6, H7. repeat apply conj.
  - destruct (sm_closed m) as [|[t b] r]; [discriminate|]. cbn [fst snd] in H1. apply andb_true_iff in H1 as [A B].
    exists t, b, r. split; [reflexivity|]. split; [|apply eqb_prop, B]. intros n I. rewrite forallb_forall in A. specialize (A n I). destruct (declared ch n); [discriminate|discriminate].
  - intros t b I. specialize (H2 _ I). cbn [fst snd] in H2. apply andb_true_iff in H2 as [A B]. rewrite forallb_forall in A. split.
    + intros n J. specialize (A n J). apply orb_true_iff in A as [A|A]; [left; apply mem_in, A|right; exact A].
    + intros G. rewrite G in B. exact B.
  - intros n D. assert (I : In n (names ch)) by (apply declared_names; congruence). specialize (H3 n I). rewrite D in H3. cbn [required implb] in H3.
    apply orb_true_iff in H3 as [A|A]; [left|right]; apply mem_in, A.
  - intros n I. specialize (H4 n I). apply andb_true_iff in H4 as [A B]. split.
    + destruct (declared ch n) as [[v|]|]; try discriminate. reflexivity.
    + intros J. apply mem_in in J. rewrite J in B. discriminate.
  - intros n I. apply mem_in, H5, I.
  - intros n I. specialize (H6 n I). apply andb_true_iff in H6 as [A B]. split; [|apply negb_true_iff, B].
    apply orb_true_iff in A as [A|A]; [left; apply mem_in, A|right]. destruct (declared ch n); [discriminate|reflexivity].
  - intros e c I n J. specialize (H7 _ I). cbn [fst snd] in H7. rewrite forallb_forall in H7. specialize (H7 n J).
    destruct (get n e) as [s|]; [exists s; split; [reflexivity|exact H7]|discriminate].
Qed.
Lemma conds_parts : forall kw m, conds kw m = true <->
  (forall n, In n (sm_req m) -> has n kw = true) /\ (forall n, In n (sm_forb m) -> has n kw = false) /\
  (forall t b, In (t, b) (sm_closed m) -> forall n, has n kw = true -> gone t b n = true) /\
  (forall e c, In (e, c) (sm_checks m) -> check_ok (conc kw e) c = true).
Proof.
  intros kw m. unfold conds. rewrite !andb_true_iff, !forallb_forall. split.
  - intros [[[A B] C] D]. repeat apply conj.
    + exact A.
    + intros n I. apply negb_true_iff, B, I.
    + intros t b I n H. specialize (C _ I). cbn [fst snd] in C. rewrite forallb_forall in C. apply has_in in H. apply in_map_iff in H as (p & E & J).
      specialize (C p J). rewrite E in C. exact C.
    + intros e c I. exact (D _ I).
  - intros (A & B & C & D). repeat apply conj.
    + exact A.
    + intros n I. rewrite (B n I). reflexivity.
    + intros [t b] I. cbn [fst snd]. apply forallb_forall. intros p J. apply (C t b I). apply has_in, in_map, J.
    + intros [e c] I. exact (D e c I).
Qed.

(** every argument given by the user arrives *)
Theorem argument_arrives : forall k kw o n v, In k public -> construct k kw = Some o -> get n kw = Some v -> dunder n = false -> ~ In n (overridden k) ->
  exists c t w, In c (chain k) /\ In t (c_uses c) /\ (t = n \/ In (n, t) (renamed k)) /\ got o (c_name c) t = Some w /\ as_given k n v w.
Proof.
  intros k kw o n v P C G D O. destruct (class_ok_inv k (public_known k P)) as (m & NE & A & K & AC & R).
  assert (S : mem k sequence_layers = false).
  { assert (X : forallb (fun k => negb (mem k sequence_layers)) public = true) by (vm_compute; reflexivity).
    rewrite forallb_forall in X. apply negb_true_iff, X, P. }
  specialize (R S). rewrite (construct_ok k kw m NE A) in C. destruct (conds kw m) eqn:CO; [|discriminate]. apply some_eq in C. subst o.
  destruct (accept_parts k (chain k) m AC) as ((t & b & r & CL & TD & B) & _ & _ & _ & FF & _ & _).
  apply conds_parts in CO as (_ & CF & CC & _). assert (H : has n kw = true) by (unfold has; rewrite G; reflexivity).
  assert (I : In n t). { specialize (CC t b). rewrite CL in CC. specialize (CC (or_introl eq_refl) n H). unfold gone in CC. rewrite D, andb_false_r, orb_false_r in CC. apply mem_in, CC. }
  assert (N : In n (names (chain k))) by (apply declared_names, TD, I).
  unfold reach_ok in R. rewrite forallb_forall in R. specialize (R n N). apply orb_true_iff in R as [R|R].
  - exfalso. apply orb_true_iff in R as [R|R]; apply mem_in in R; [|contradiction]. rewrite (CF n (FF n R)) in H. discriminate.
  - apply existsb_exists in R as (c & Ic & R). destruct (get (c_name c) (sm_bind m)) as [e|] eqn:E; [|discriminate].
    apply existsb_exists in R as (t' & It & R). apply andb_true_iff in R as [U R]. destruct (get t' e) as [s|] eqn:GS; [|discriminate].
    exists c, t', (sv kw s). split; [exact Ic|]. split; [apply mem_in, U|]. split.
    + destruct It as [<-|It]; [left; reflexivity|right]. apply in_map_iff in It as ([a b'] & E1 & It). apply filter_In in It as [It E2]. cbn [fst snd] in *. apply String.eqb_eq in E2. subst. exact It.
    + split; [exact (get_outcome kw m _ _ e s E GS)|]. apply (sym_ok_val (chain k) k n s kw v R). unfold argument. rewrite G. reflexivity.
Qed.
(** every parameter that some class uses has the value of the argument *)
Theorem parameter_value : forall k kw o c n, In k known_classes -> construct k kw = Some o -> In c (chain k) -> In n (c_uses c) ->
  ~ In n (fixed k) -> ~ In n (overridden k) -> ~ (c_name c = "Layer" /\ In n (not_for_keras k)) ->
  exists v w, argument (chain k) kw n = Some v /\ got o (c_name c) n = Some w /\ as_given k n v w.
Proof.
  intros k kw o c n P C Ic Iu NF NO NL. destruct (class_ok_inv k P) as (m & NE & A & K & AC & _).
  rewrite (construct_ok k kw m NE A) in C. destruct (conds kw m) eqn:CO; [|discriminate]. apply some_eq in C. subst o.
  destruct (accept_parts k (chain k) m AC) as (_ & _ & RQ & _ & _ & _ & _).
  apply conds_parts in CO as (CR & _ & _ & _).
  unfold keep_ok in K. rewrite forallb_forall in K. specialize (K c Ic). destruct (get (c_name c) (sm_bind m)) as [e|] eqn:E; [|discriminate].
  rewrite forallb_forall in K. specialize (K n Iu). rewrite !orb_true_iff in K. destruct K as [[[K|K]|K]|K].
  - apply mem_in in K. contradiction.
  - apply mem_in in K. contradiction.
  - apply andb_true_iff in K as [K1 K2]. apply String.eqb_eq in K1. apply mem_in in K2. destruct NL; split; assumption.
  - destruct (get n e) as [s|] eqn:G; [|discriminate].
    assert (D : argument (chain k) kw n <> None).
    { unfold argument. destruct (get n kw) eqn:U; [discriminate|]. destruct (declared (chain k) n) as [[d|]|] eqn:D; [discriminate| |].
      - destruct (RQ n D) as [X|X]; [contradiction|]. specialize (CR n X). unfold has in CR. rewrite U in CR. discriminate.
      - exfalso. destruct s as [x d|x|[x d|x|x d] d']; cbn [sym_ok sym_plain] in K; rewrite ?D, ?andb_false_r in K; discriminate. }
    destruct (argument (chain k) kw n) as [v|] eqn:AR; [|contradiction]. exists v, (sv kw s). split; [reflexivity|].
    split; [exact (get_outcome kw m _ _ e s E G)|exact (sym_ok_val (chain k) k n s kw v K AR)].
Qed.

(** which calls are accepted *)
Local Transparent analyze.
Lemma checks_names : forall ch s m, analyze ch s = Some m -> map snd (sm_checks m) = flat_map c_checks ch.
Proof.
  induction ch as [|c ch IH]; intros s m H; cbn [analyze] in H.
  - destruct (known s); inversion H. reflexivity.
  - destruct (has "self" (known s)); [discriminate|]. destruct (sbind (c_params c) s) as [e|]; [|discriminate].
    destruct (negb (c_star c) && _); [discriminate|]. destruct (sevals e (c_pass c)); [|discriminate].
    destruct (existsb _ _); [discriminate|]. match type of H with match ?x with _ => _ end = _ => destruct x as [m'|] eqn:A end; [|discriminate].
    inversion H. cbn [sm_checks flat_map]. rewrite map_app, map_map. cbn [snd]. rewrite map_id, (IH _ _ A). reflexivity.
Qed.
Lemma check_condition : forall (ch : list ctor) kw e c,
  (forall n, In n (check_names c) -> exists s, get n e = Some s /\ sym_plain ch n s = true) ->
  (check_ok (conc kw e) c = true <-> condition (fun n => match argument ch kw n with Some v => v | None => vnone end) c).
Proof.
  intros ch kw e c H.
  assert (L : forall n, In n (check_names c) -> lookup n (conc kw e) = match argument ch kw n with Some v => v | None => vnone end).
  { intros n I. destruct (H n I) as (s & G & S). rewrite lookup_conc. unfold slookup. rewrite G. unfold sv. rewrite (sym_plain_val ch n s kw S). reflexivity. }
  assert (EX : forall v l, existsb (val_eqb v) l = true <-> In v l).
  { intros v l. rewrite existsb_exists. split; [intros (x & I & E); apply val_eqb_eq in E; subst; exact I|]. intros I. exists v. split; [exact I|apply val_eqb_eq; reflexivity]. }
  destruct c as [x l|x l|x|x|x y]; cbn [check_ok condition check_names] in *.
  - rewrite (L x (or_introl eq_refl)). apply EX.
  - rewrite (L x (or_introl eq_refl)), negb_true_iff, <- EX. destruct (existsb _ l); split; congruence.
  - rewrite (L x (or_introl eq_refl)). reflexivity.
  - rewrite (L x (or_introl eq_refl)). apply negb_true_iff.
  - rewrite (L x (or_introl eq_refl)), (L y (or_intror (or_introl eq_refl))), orb_true_iff, !val_eqb_eq. reflexivity.
Qed.
Theorem accepted_calls : forall k kw, In k known_classes -> (construct k kw <> None <-> acceptable k kw).
Proof.
  intros k kw P. destruct (class_ok_inv k P) as (m & NE & A & _ & AC & _). rewrite (construct_ok k kw m NE A).
  assert (E : (if conds kw m then Some (outcome kw m) else None) <> None <-> conds kw m = true) by (destruct (conds kw m); split; congruence).
  rewrite E, conds_parts. clear E.
  destruct (accept_parts k (chain k) m AC) as ((t & b & r & CL & TD & B) & AL & RQ & RD & FF & FB & CK).
  pose proof (checks_names _ _ _ A) as CN.
  assert (CHK : (forall e c, In (e, c) (sm_checks m) -> check_ok (conc kw e) c = true) <->
                (forall c ch, In c (chain k) -> In ch (c_checks c) -> condition (fun n => match argument (chain k) kw n with Some v => v | None => vnone end) ch)).
  { split.
    - intros H c ch Ic Ih. assert (I : In ch (map snd (sm_checks m))) by (rewrite CN; apply in_flat_map; exists c; split; assumption).
      apply in_map_iff in I as ([e ch'] & E & I). cbn in E. subst ch'. apply (check_condition (chain k) kw e ch (CK e ch I)), (H e ch I).
    - intros H e c I. apply (check_condition (chain k) kw e c (CK e c I)). assert (J : In c (flat_map c_checks (chain k))) by (rewrite <- CN; apply (in_map snd _ _ I)).
      apply in_flat_map in J as (c' & J1 & J2). exact (H c' c J1 J2). }
  unfold acceptable. rewrite <- CHK. split.
  - intros (H1 & H2 & H3 & H4). split; [|split]; [| |exact H4].
    + intros n H. assert (G : gone t b n = true) by (apply (H3 t b); [rewrite CL; left; reflexivity|exact H]).
      unfold gone in G. apply orb_true_iff in G as [G|G].
      * left. apply mem_in in G. split; [exact (TD n G)|]. intros F. rewrite (H2 n (FF n F)) in H. discriminate.
      * right. apply andb_true_iff in G as [G1 G2]. rewrite <- B. split; assumption.
    + intros n D F. destruct (RQ n D) as [X|X]; [contradiction|exact (H1 n X)].
  - intros (H1 & H2 & H4). split; [|split; [|split]]; [| | |exact H4].
    + intros n I. destruct (RD n I) as [D F]. exact (H2 n D F).
    + intros n I. apply not_true_is_false. intros H. destruct (FB n I) as [F ND]. destruct (H1 n H) as [[D NF]|[_ D]]; [|congruence].
      destruct F; [contradiction|congruence].
    + intros t' b' I n H. destruct (AL t' b' I) as [L1 L2]. destruct (H1 n H) as [[D NF]|[G D]].
      * destruct (L1 n) as [F|F]; [apply declared_names, D|contradiction|exact F].
      * unfold gone. rewrite (L2 G), D. apply orb_true_r.
Qed.

(** ** patterns *)
Lemma prefix_cons : forall x a y s, String.prefix (String x a) (String y s) = if Ascii.ascii_dec x y then String.prefix a s else false.
Proof. reflexivity. Qed.
Lemma prefix_append : forall a s, String.prefix a s = true <-> s = (a ++ drop (String.length a) s)%string.
Proof.
  induction a as [|x a IH]; intros s; [destruct s; split; reflexivity|].
  destruct s as [|y s]; [split; [discriminate|intros H; discriminate]|]. rewrite prefix_cons.
  change (drop (String.length (String x a)) (String y s)) with (drop (String.length a) s).
  change (String x a ++ drop (String.length a) s)%string with (String x (a ++ drop (String.length a) s)%string).
  destruct (Ascii.ascii_dec x y) as [->|N].
  - rewrite IH. split; intros H; [f_equal; exact H|].
    exact (f_equal (fun z => match z with String _ w => w | EmptyString => EmptyString end) H).
  - split; [discriminate|]. intros H. destruct N. exact (eq_sym (f_equal (fun z => match z with String c _ => c | EmptyString => x end) H)).
Qed.
Lemma drop_append : forall a t, drop (String.length a) (a ++ t)%string = t.
Proof. induction a; intros; [reflexivity|apply IHa]. Qed.
Lemma some_suffix_spec : forall f s, some_suffix f s = true <-> exists u t, u <> EmptyString /\ s = (u ++ t)%string /\ f t = true.
Proof.
  intros f. induction s as [|x s IH]; cbn [some_suffix].
  - split; [discriminate|]. intros (u & t & N & E & _). destruct u; [contradiction|discriminate].
  - rewrite orb_true_iff, IH. split.
    + intros [H|(u & t & N & E & H)].
      * exists (String x EmptyString), s. split; [discriminate|split; [reflexivity|exact H]].
      * exists (String x u), t. split; [discriminate|split; [cbn; rewrite E; reflexivity|exact H]].
    + intros (u & t & N & E & H). destruct u as [|y u]; [contradiction|]. inversion E; subst. destruct u as [|z u].
      * left. exact H.
      * right. exists (String z u), t. split; [discriminate|split; [reflexivity|exact H]].
Qed.
Theorem matches_spec : forall p s, matches p s = true <-> denotes p s.
Proof.
  induction p as [|[a|] p IH]; intros s; cbn [matches denotes].
  - split; trivial.
  - rewrite andb_true_iff, prefix_append. split.
    + intros [E H]. exists (drop (String.length a) s). split; [exact E|apply IH, H].
    + intros (t & E & H). subst s. rewrite drop_append. split; [reflexivity|apply IH, H].
  - rewrite some_suffix_spec. split; intros (u & t & N & E & H); exists u, t; (split; [exact N|split; [exact E|apply IH, H]]).
Qed.
