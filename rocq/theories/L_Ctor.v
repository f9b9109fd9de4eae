(** Symbolic execution of a chain of constructors, and its soundness. *)
From Coq Require Import List Bool String Arith Lia.
From Verif Require Import M_Ctor.
Import ListNotations.
Open Scope string_scope.
Local Open Scope list_scope.

(** ** dictionaries *)
Lemma get_filter : forall A (f : string -> bool) n (d : list (string * A)),
  get n (filter (fun p => f (fst p)) d) = if f n then get n d else None.
Proof.
  induction d as [|[k v] d IH]; cbn [filter get fst]; [destruct (f n); reflexivity|].
  destruct (String.eqb_spec n k) as [->|N].
  - destruct (f k) eqn:F; cbn [get]; [rewrite String.eqb_refl; reflexivity|]. rewrite IH, ?F. reflexivity.
  - destruct (f k); cbn [get]; [destruct (String.eqb_spec n k); [contradiction|]|]; exact IH.
Qed.
Lemma get_app : forall A n (d e : list (string * A)), get n (d ++ e) = match get n d with Some v => Some v | None => get n e end.
Proof. induction d as [|[k v] d IH]; intros; cbn [get app]; [reflexivity|]. destruct (String.eqb n k); [reflexivity|apply IH]. Qed.
Lemma get_update : forall A n (d e : list (string * A)), get n (update d e) = match get n e with Some v => Some v | None => get n d end.
Proof.
  intros. unfold update. rewrite get_app, (get_filter A (fun m => negb (has m e))). unfold has.
  destruct (get n e) eqn:G; cbn [negb]; [reflexivity|]. destruct (get n d); reflexivity.
Qed.
Lemma get_map : forall A B (f : A -> B) n (d : list (string * A)), get n (map (fun p => (fst p, f (snd p))) d) = option_map f (get n d).
Proof. induction d as [|[k v] d IH]; cbn [map get fst snd]; [reflexivity|]. destruct (String.eqb n k); [reflexivity|exact IH]. Qed.
Lemma has_in : forall A n (d : list (string * A)), has n d = true <-> In n (map fst d).
Proof.
  intros. unfold has. induction d as [|[k v] d IH]; cbn [get map fst In]; [split; [discriminate|intros []]|].
  destruct (String.eqb_spec n k) as [->|N]; [split; auto|]. rewrite IH. split; [auto|intros [->|]; [contradiction|assumption]].
Qed.
Lemma mem_in : forall n l, mem n l = true <-> In n l.
Proof.
  intros. unfold mem. rewrite existsb_exists. split; [intros (x & I & E); apply String.eqb_eq in E; subst; exact I|].
  intros I. exists n. split; [exact I|apply String.eqb_refl].
Qed.
Lemma has_none : forall A n (d : list (string * A)), has n d = false <-> get n d = None.
Proof. intros. unfold has. destruct (get n d); split; congruence. Qed.
Lemma nil_get : forall A (d : list (string * A)), (forall n, get n d = None) -> d = [].
Proof. intros A [|[k v] d] H; [reflexivity|]. specialize (H k). cbn [get] in H. rewrite String.eqb_refl in H. discriminate. Qed.
Lemma val_eqb_eq : forall a b, val_eqb a b = true <-> a = b.
Proof.
  intros [s|n] [t|m]; cbn [val_eqb]; split; intros H; try discriminate; try (inversion H; subst).
  - apply String.eqb_eq in H. subst. reflexivity.
  - apply String.eqb_refl.
  - apply Nat.eqb_eq in H. subst. reflexivity.
  - apply Nat.eqb_refl.
Qed.

(** ** symbolic values: the user's argument [x] or a default, a constant, a value with None replaced *)
Inductive sym := SUser (x : string) (d : option val) | SConst (v : val) | SOr (s : sym) (d : val).
Fixpoint sval (user : kwargs) (s : sym) : option val :=
  match s with
  | SUser x d => match get x user with Some v => Some v | None => d end
  | SConst v => Some v
  | SOr s d => match sval user s with Some v => Some (if val_eqb v vnone then d else v) | None => None end
  end.
Definition sv (user : kwargs) (s : sym) : val := match sval user s with Some v => v | None => vnone end.
Notation senv := (list (string * sym)).
Definition conc (user : kwargs) (e : senv) : kwargs := map (fun p => (fst p, sv user (snd p))) e.

(** the keywords of a call: known ones, then the user's that no constructor has taken *)
Record st := mk_st { known : senv; taken : list string; dun : bool }.
Definition gone (t : list string) (du : bool) (n : string) : bool := mem n t || (du && dunder n).
Definition kwspec (user : kwargs) (s : st) (kw : kwargs) : Prop :=
  forall n, get n kw = match get n (known s) with Some x => sval user x | None => if gone (taken s) (dun s) n then None else get n user end.
Definition proper (user : kwargs) (e : senv) : Prop := forall n s, get n e = Some s -> sval user s <> None.

Record summary := mk_sm {
  sm_bind : list (string * senv); sm_req : list string; sm_forb : list string;
  sm_closed : list (list string * bool); sm_checks : list (senv * check) }.

Fixpoint sbind (ps : list (string * option val)) (s : st) : option senv :=
  match ps with
  | [] => Some []
  | (n, d) :: ps =>
      match (match get n (known s) with
             | Some x => Some x
             | None => if gone (taken s) (dun s) n then match d with Some v => Some (SConst v) | None => None end else Some (SUser n d)
             end), sbind ps s with
      | Some x, Some e => Some ((n, x) :: e)
      | _, _ => None
      end
  end.
(** the arguments the user has to give for the binding to succeed *)
Fixpoint need (s : sym) : list string := match s with SUser x None => [x] | SOr s _ => need s | _ => [] end.
Definition slookup (x : string) (e : senv) : sym := match get x e with Some s => s | None => SConst vnone end.
Definition seval (e : senv) (x : expr) : option sym :=
  match x with EVar y => Some (slookup y e) | ELit v => Some (SConst v) | EOr y d => Some (SOr (slookup y e) d) | EGet _ _ => None end.
Fixpoint sevals (e : senv) (l : list (string * expr)) : option senv :=
  match l with [] => Some [] | (n, x) :: l => match seval e x, sevals e l with Some s, Some r => Some ((n, s) :: r) | _, _ => None end end.
Definition s_rest (c : ctor) (s : st) : st :=
  mk_st (filter (fun p => negb (has (fst p) (c_params c))) (known s)) (map fst (c_params c) ++ taken s) (dun s).
Definition s_gather (alts : list (list token)) (e : senv) (r : st) : st :=
  let vars := ("self", SConst (VLit "self")) :: ("__class__", SConst (VLit "__class__")) :: e in
  mk_st (filter (fun p => negb (dunder (fst p))) (update (known r) (filter (fun p => negb (skipped alts (fst p))) vars))) (taken r) true.
Definition s_edit (c : ctor) (g : st) : st :=
  mk_st (filter (fun p => negb (mem (fst p) (c_pop c))) (update (known g) (map (fun p => (fst p, SConst (snd p))) (c_set c)))) (c_pop c ++ taken g) (dun g).

Fixpoint analyze (ch : list ctor) (s : st) : option summary :=
  match ch with
  | [] => match known s with [] => Some (mk_sm [] [] [] [(taken s, dun s)] []) | _ => None end
  | c :: ch =>
      if has "self" (known s) then None
      else match sbind (c_params c) s with
           | None => None
           | Some e =>
               let r := s_rest c s in
               if negb (c_star c) && (match known r with [] => false | _ => true end) then None
               else let g := match c_gather c with Some alts => s_gather alts e r | None => r end in
                    let k := s_edit c g in
                    match sevals e (c_pass c) with
                    | None => None
                    | Some ps =>
                        if existsb (fun p => has (fst p) (known k)) ps then None
                        else match analyze ch (mk_st (ps ++ known k) (taken k) (dun k)) with
                             | None => None
                             | Some m =>
                                 Some (mk_sm ((c_name c, e) :: sm_bind m)
                                             (flat_map (fun p => need (snd p)) e ++ sm_req m)
                                             ((if gone (taken s) (dun s) "self" then [] else ["self"]) ++
                                              filter (fun n => negb (gone (taken k) (dun k) n)) (map fst ps) ++ sm_forb m)
                                             ((if c_star c then [] else [(taken r, dun r)]) ++ sm_closed m)
                                             (map (fun x => (e, x)) (c_checks c) ++ sm_checks m))
                             end
                    end
           end
  end.

Definition conds (user : kwargs) (m : summary) : bool :=
  forallb (fun n => has n user) (sm_req m) && forallb (fun n => negb (has n user)) (sm_forb m) &&
  forallb (fun cl => forallb (fun p => gone (fst cl) (snd cl) (fst p)) user) (sm_closed m) &&
  forallb (fun ec => check_ok (conc user (fst ec)) (snd ec)) (sm_checks m).
Definition outcome (user : kwargs) (m : summary) : list (string * kwargs) := map (fun p => (fst p, conc user (snd p))) (sm_bind m).

(** ** soundness *)
Lemma need_some : forall user s, forallb (fun n => has n user) (need s) = true <-> sval user s <> None.
Proof.
  induction s as [x [d|]|v|s IH d]; cbn [need sval forallb].
  - destruct (get x user); split; congruence.
  - unfold has. destruct (get x user); cbn; split; congruence.
  - split; congruence.
  - rewrite IH. destruct (sval user s); split; congruence.
Qed.
Lemma sbind_get : forall s ps e n, sbind ps s = Some e -> has n e = has n ps.
Proof.
  induction ps as [|[m d] ps IH]; intros e n H; cbn [sbind] in H; [inversion H; reflexivity|].
  destruct (match get m (known s) with Some x => Some x | None => if gone (taken s) (dun s) m then match d with Some v => Some (SConst v) | None => None end else Some (SUser m d) end) as [x|] eqn:X; [|discriminate].
  destruct (sbind ps s) as [e'|] eqn:E; [|discriminate]. inversion H; subst e. unfold has in *. cbn [get].
  destruct (String.eqb n m); [reflexivity|]. exact (IH e' n eq_refl).
Qed.
Lemma sbind_ok : forall user s kw ps e, kwspec user s kw -> proper user (known s) -> sbind ps s = Some e ->
  bind_params ps kw = if forallb (fun n => has n user) (flat_map (fun p => need (snd p)) e) then Some (conc user e) else None.
Proof.
  intros user s kw ps. induction ps as [|[n d] ps IH]; intros e K P H; cbn [sbind] in H.
  - inversion H. reflexivity.
  - destruct (match get n (known s) with Some x => Some x | None => if gone (taken s) (dun s) n then match d with Some v => Some (SConst v) | None => None end else Some (SUser n d) end) as [x|] eqn:X; [|discriminate].
    destruct (sbind ps s) as [e'|] eqn:E; [|discriminate]. inversion H; subst e. clear H.
    cbn [bind_params flat_map fst snd]. rewrite (IH e' K P eq_refl), forallb_app.
    assert (V : (match get n kw with Some v => Some v | None => d end) = sval user x).
    { rewrite (K n). destruct (get n (known s)) as [y|] eqn:G.
      - inversion X; subst y. destruct (sval user x) eqn:S; [reflexivity|]. destruct (P n x G S).
      - destruct (gone (taken s) (dun s) n); [destruct d; inversion X; reflexivity|]. inversion X. reflexivity. }
    rewrite V. pose proof (need_some user x) as N. cbn [conc map fst snd]. unfold sv.
    destruct (sval user x) as [v|] eqn:S; destruct (forallb (fun n0 => has n0 user) (need x)) eqn:F; cbn [andb].
    + destruct (forallb (fun n0 => has n0 user) (flat_map (fun p => need (snd p)) e')); reflexivity.
    + exfalso. assert (false = true) by (apply N; discriminate). discriminate.
    + exfalso. apply (proj1 N); reflexivity.
    + reflexivity.
Qed.
Lemma sbind_proper : forall user e, forallb (fun n => has n user) (flat_map (fun p => need (snd p)) e) = true -> proper user e.
Proof.
  intros user e H n s G. induction e as [|[m x] e IH]; [discriminate|]. cbn [flat_map snd] in H. rewrite forallb_app in H.
  apply andb_true_iff in H as [H1 H2]. cbn [get] in G. destruct (String.eqb n m); [inversion G; subst; apply need_some; exact H1|exact (IH H2 G)].
Qed.
Lemma get_conc : forall user n e, get n (conc user e) = option_map (sv user) (get n e).
Proof. intros. unfold conc. apply get_map. Qed.
Lemma sv_some : forall user s, sval user s <> None -> sval user s = Some (sv user s).
Proof. intros user s. unfold sv. destruct (sval user s); congruence. Qed.
Lemma lookup_conc : forall user x e, lookup x (conc user e) = sv user (slookup x e).
Proof. intros. unfold lookup, slookup. rewrite get_conc. destruct (get x e); reflexivity. Qed.
Lemma slookup_proper : forall user x e, proper user e -> sval user (slookup x e) <> None.
Proof. intros user x e P. unfold slookup. destruct (get x e) eqn:G; [exact (P _ _ G)|discriminate]. Qed.
Lemma seval_ok : forall user e rest x s, proper user e -> seval e x = Some s -> sval user s = Some (eval (conc user e) rest x).
Proof.
  intros user e rest [y|v|y d|y d] s P H; inversion H; subst s; cbn [eval sval].
  - rewrite lookup_conc. apply sv_some, slookup_proper, P.
  - reflexivity.
  - rewrite lookup_conc, (sv_some user _ (slookup_proper user y e P)). reflexivity.
Qed.
Lemma sevals_ok : forall user e rest l r, proper user e -> sevals e l = Some r ->
  conc user r = map (fun p => (fst p, eval (conc user e) rest (snd p))) l /\ proper user r.
Proof.
  intros user e rest l. induction l as [|[n x] l IH]; intros r P H; cbn [sevals] in H.
  - inversion H. split; [reflexivity|discriminate].
  - destruct (seval e x) as [s|] eqn:E; [|discriminate]. destruct (sevals e l) as [r'|]; [|discriminate]. inversion H; subst r.
    destruct (IH r' P eq_refl) as [A B]. pose proof (seval_ok user e rest x s P E) as V. cbn [map fst snd conc]. split.
    + unfold conc in A. rewrite A. unfold sv. rewrite V. reflexivity.
    + intros m y G. cbn [get] in G. destruct (String.eqb m n); [inversion G; subst; congruence|exact (B m y G)].
Qed.
Lemma sevals_names : forall e l r, sevals e l = Some r -> map fst r = map fst l.
Proof.
  induction l as [|[n x] l IH]; intros r H; cbn [sevals] in H; [inversion H; reflexivity|].
  destruct (seval e x); [|discriminate]. destruct (sevals e l) as [r'|]; [|discriminate]. inversion H. cbn [map fst]. rewrite (IH r' eq_refl). reflexivity.
Qed.
Lemma proper_filter : forall user (f : string -> bool) e, proper user e -> proper user (filter (fun p => f (fst p)) e).
Proof. intros user f e P n s G. rewrite get_filter in G. destruct (f n); [exact (P n s G)|discriminate]. Qed.
Lemma proper_update : forall user d e, proper user d -> proper user e -> proper user (update d e).
Proof. intros user d e P Q n s G. rewrite get_update in G. destruct (get n e) eqn:E; [inversion G; subst; exact (Q n s E)|exact (P n s G)]. Qed.
Lemma proper_cons : forall user n s e, sval user s <> None -> proper user e -> proper user ((n, s) :: e).
Proof. intros user n s e S P m y G. cbn [get] in G. destruct (String.eqb m n); [inversion G; subst; exact S|exact (P m y G)]. Qed.

Lemma rest_ok : forall user c s kw, kwspec user s kw -> kwspec user (s_rest c s) (leftover (c_params c) kw).
Proof.
  intros user c s kw K n. unfold leftover, s_rest. cbn [known taken dun].
  rewrite (get_filter val (fun m => negb (has m (c_params c)))), (get_filter sym (fun m => negb (has m (c_params c)))).
  destruct (has n (c_params c)) eqn:H; cbn [negb].
  - unfold gone. rewrite (proj2 (mem_in n (map fst (c_params c) ++ taken s))); [reflexivity|]. apply in_or_app. left. apply has_in, H.
  - rewrite (K n). destruct (get n (known s)); [reflexivity|]. unfold gone.
    replace (mem n (map fst (c_params c) ++ taken s)) with (mem n (taken s)); [reflexivity|].
    unfold mem. rewrite existsb_app. replace (existsb (String.eqb n) (map fst (c_params c))) with false; [reflexivity|].
    symmetry. apply not_true_is_false. intros E. apply (mem_in n) in E. apply has_in in E. congruence.
Qed.
Lemma gone_dun : forall t b n, gone t true n = gone t b n || dunder n.
Proof. intros t [] n; unfold gone; destruct (mem n t), (dunder n); reflexivity. Qed.
Lemma gather_ok : forall user alts e r rest, proper user e -> kwspec user r rest -> kwspec user (s_gather alts e r) (gather alts (conc user e) rest).
Proof.
  intros user alts e r rest P K n. unfold gather, s_gather. cbn [known taken dun].
  rewrite (get_filter val (fun m => negb (dunder m))), (get_filter sym (fun m => negb (dunder m))), !get_update.
  set (vc := ("self", VLit "self") :: ("__class__", VLit "__class__") :: conc user e).
  set (vs := ("self", SConst (VLit "self")) :: ("__class__", SConst (VLit "__class__")) :: e).
  assert (V : get n (filter (fun p => negb (skipped alts (fst p))) vc) =
              match get n (filter (fun p => negb (skipped alts (fst p))) vs) with Some s => sval user s | None => None end).
  { rewrite (get_filter val (fun m => negb (skipped alts m))), (get_filter sym (fun m => negb (skipped alts m))).
    destruct (skipped alts n); cbn [negb]; [reflexivity|]. unfold vc, vs. cbn [get].
    destruct (String.eqb n "self"); [reflexivity|]. destruct (String.eqb n "__class__"); [reflexivity|].
    rewrite get_conc. destruct (get n e) as [s|] eqn:G; [|reflexivity]. cbn [option_map]. symmetry. apply sv_some, (P n s G). }
  rewrite V. destruct (dunder n) eqn:D; cbn [negb].
  - unfold gone. rewrite D. rewrite orb_true_r. reflexivity.
  - destruct (get n (filter (fun p => negb (skipped alts (fst p))) vs)) as [s|] eqn:G.
    + assert (Q : sval user s <> None).
      { rewrite (get_filter sym (fun m => negb (skipped alts m))) in G. destruct (skipped alts n); cbn [negb] in G; [discriminate|].
        unfold vs in G. cbn [get] in G. destruct (String.eqb n "self"); [inversion G; discriminate|]. destruct (String.eqb n "__class__"); [inversion G; discriminate|].
        exact (P n s G). }
      destruct (sval user s); [reflexivity|contradiction].
    + rewrite (K n). rewrite (gone_dun (taken r) (dun r) n), D, orb_false_r. reflexivity.
Qed.
Lemma edit_ok : forall user c g kw, proper user (known g) -> kwspec user g kw ->
  kwspec user (s_edit c g) (filter (fun p => negb (mem (fst p) (c_pop c))) (update kw (c_set c))).
Proof.
  intros user c g kw P K n. unfold s_edit. cbn [known taken dun].
  rewrite (get_filter val (fun m => negb (mem m (c_pop c)))), (get_filter sym (fun m => negb (mem m (c_pop c)))), !get_update.
  replace (get n (map (fun p => (fst p, SConst (snd p))) (c_set c))) with (option_map SConst (get n (c_set c))) by (symmetry; apply get_map).
  destruct (mem n (c_pop c)) eqn:M; cbn [negb].
  - unfold gone, mem. rewrite existsb_app. unfold mem in M. rewrite M. reflexivity.
  - destruct (get n (c_set c)) as [v|]; [reflexivity|]. cbn [option_map]. rewrite (K n).
    destruct (get n (known g)); [reflexivity|]. unfold gone, mem. rewrite existsb_app. unfold mem in M. rewrite M. reflexivity.
Qed.
Lemma proper_gather : forall user alts e r, proper user e -> proper user (known r) -> proper user (known (s_gather alts e r)).
Proof.
  intros user alts e r P Q. unfold s_gather. cbn [known]. apply (proper_filter user (fun m => negb (dunder m))), proper_update; [exact Q|].
  apply (proper_filter user (fun m => negb (skipped alts m))). apply proper_cons; [discriminate|]. apply proper_cons; [discriminate|exact P].
Qed.
Lemma proper_edit : forall user c g, proper user (known g) -> proper user (known (s_edit c g)).
Proof.
  intros user c g P. unfold s_edit. cbn [known]. apply (proper_filter user (fun m => negb (mem m (c_pop c)))), proper_update; [exact P|].
  intros n s G. replace (get n (map (fun p => (fst p, SConst (snd p))) (c_set c))) with (option_map SConst (get n (c_set c))) in G by (symmetry; apply get_map).
  destruct (get n (c_set c)); inversion G. discriminate.
Qed.
Lemma has_known : forall user s kw n, kwspec user s kw -> proper user (known s) ->
  has n kw = has n (known s) || (negb (gone (taken s) (dun s) n) && has n user).
Proof.
  intros user s kw n K P. unfold has. rewrite (K n). destruct (get n (known s)) as [x|] eqn:G.
  - pose proof (P n x G). destruct (sval user x); [reflexivity|contradiction].
  - destruct (gone _ _ n); cbn [orb negb andb]; [reflexivity|]. destruct (get n user); reflexivity.
Qed.
(** nothing left over *)
Lemma rest_nil : forall user s kw, kwspec user s kw -> known s = [] ->
  (match kw with [] => false | _ => true end) = negb (forallb (fun p => gone (taken s) (dun s) (fst p)) user).
Proof.
  intros user s kw K N. destruct (forallb (fun p => gone (taken s) (dun s) (fst p)) user) eqn:F; cbn [negb].
  - rewrite (nil_get _ kw); [reflexivity|]. intros n. rewrite (K n), N. cbn [get].
    destruct (gone _ _ n) eqn:G; [reflexivity|]. destruct (get n user) eqn:U; [|reflexivity].
    rewrite forallb_forall in F. assert (I : In n (map fst user)) by (apply has_in; unfold has; rewrite U; reflexivity).
    apply in_map_iff in I as (p & E & I). specialize (F p I). rewrite E, G in F. discriminate.
  - destruct kw as [|q kw]; [|reflexivity]. exfalso.
    assert (X : exists p, In p user /\ gone (taken s) (dun s) (fst p) = false).
    { clear K. induction user as [|p user IH]; [discriminate|]. cbn [forallb] in F. apply andb_false_iff in F as [F|F].
      - exists p. split; [left; reflexivity|exact F].
      - destruct (IH F) as (p' & I & G). exists p'. split; [right; exact I|exact G]. }
    destruct X as (p & I & G). specialize (K (fst p)). rewrite N, G in K. cbn [get] in K.
    assert (H : has (fst p) user = true) by (apply has_in, in_map, I). apply (has_none val (fst p) user) in K || (symmetry in K; apply (has_none val (fst p) user) in K). congruence.
Qed.

Lemma some_eq : forall A (a b : A), Some a = Some b -> a = b.
Proof. intros A a b H. inversion H. reflexivity. Qed.
Theorem analyze_sound : forall ch user s kw m, kwspec user s kw -> proper user (known s) -> analyze ch s = Some m ->
  run ch kw = if conds user m then Some (outcome user m) else None.
Proof.
  induction ch as [|c ch IH]; intros user s kw m K P H; cbn [analyze] in H.
  - destruct (known s) eqn:N; [|discriminate]. inversion H; subst m. clear H. unfold conds, outcome.
    cbn [sm_bind sm_req sm_forb sm_closed sm_checks forallb run map fst snd]. rewrite !andb_true_r, !andb_true_l.
    pose proof (rest_nil user s kw K N) as R. destruct kw; destruct (forallb _ user); cbn in R; try discriminate; reflexivity.
  - destruct (has "self" (known s)) eqn:Self; [discriminate|].
    destruct (sbind (c_params c) s) as [e|] eqn:B; [|discriminate].
    destruct (negb (c_star c) && _) eqn:Star; [discriminate|].
    set (r := s_rest c s) in *.
    set (g := match c_gather c with Some alts => s_gather alts e r | None => r end) in *.
    set (k := s_edit c g) in *.
    destruct (sevals e (c_pass c)) as [ps|] eqn:V; [|discriminate].
    destruct (existsb (fun p => has (fst p) (known k)) ps) eqn:Dup; [discriminate|].
    destruct (analyze ch (mk_st (ps ++ known k) (taken k) (dun k))) as [m'|] eqn:A; [|discriminate].
    apply some_eq in H. subst m. unfold conds, outcome. cbn [sm_bind sm_req sm_forb sm_closed sm_checks].
    cbn [run]. rewrite (has_known user s kw "self" K P), Self. cbn [orb].
    rewrite !forallb_app.
    assert (SF : forallb (fun n => negb (has n user)) (if gone (taken s) (dun s) "self" then [] else ["self"]) =
                 negb (negb (gone (taken s) (dun s) "self") && has "self" user)).
    { destruct (gone _ _ "self"); cbn [forallb negb andb]; [reflexivity|]. rewrite andb_true_r. reflexivity. }
    rewrite SF. destruct (negb (gone (taken s) (dun s) "self") && has "self" user); cbn [negb andb]; [rewrite ?andb_false_r; cbn [andb]; reflexivity|].
    rewrite (sbind_ok user s kw _ e K P B).
    destruct (forallb (fun n => has n user) (flat_map (fun p => need (snd p)) e)) eqn:Req; [|reflexivity]. cbn [andb].
    pose proof (sbind_proper user e Req) as Pe.
    pose proof (rest_ok user c s kw K) as Kr. fold r in Kr.
    assert (Pr : proper user (known r)) by (apply (proper_filter user (fun m => negb (has m (c_params c)))), P).
    set (rest := leftover (c_params c) kw) in *.
    assert (CL : forallb (fun cl => forallb (fun p => gone (fst cl) (snd cl) (fst p)) user) (if c_star c then [] else [(taken r, dun r)]) =
                 negb (match rest with [] => false | _ => negb (c_star c) end)).
    { destruct (c_star c); cbn [negb andb] in *; [destruct rest; reflexivity|].
      assert (N : known r = []) by (destruct (known r); [reflexivity|discriminate]).
      pose proof (rest_nil user r rest Kr N) as R. cbn [forallb fst snd]. rewrite andb_true_r.
      destruct (forallb _ user); destruct rest; cbn in *; congruence. }
    rewrite CL. destruct (match rest with [] => false | _ => negb (c_star c) end); cbn [orb negb andb]; [rewrite ?andb_false_r; cbn [andb]; reflexivity|].
    assert (CH : forallb (fun ec => check_ok (conc user (fst ec)) (snd ec)) (map (fun x => (e, x)) (c_checks c)) = forallb (check_ok (conc user e)) (c_checks c)).
    { clear. induction (c_checks c); [reflexivity|]. cbn [map forallb fst snd]. rewrite IHl. reflexivity. }
    rewrite CH. destruct (forallb (check_ok (conc user e)) (c_checks c)); cbn [negb andb]; [|rewrite ?andb_false_r; reflexivity].
    assert (Kg : kwspec user g (match c_gather c with Some alts => gather alts (conc user e) rest | None => rest end)).
    { unfold g. destruct (c_gather c); [apply gather_ok; assumption|exact Kr]. }
    assert (Pg : proper user (known g)) by (unfold g; destruct (c_gather c); [apply proper_gather; assumption|exact Pr]).
    unfold next_kwargs.
    pose proof (edit_ok user c g _ Pg Kg) as Kk. fold k in Kk.
    pose proof (proper_edit user c g Pg) as Pk. fold k in Pk.
    set (kw1 := filter (fun p => negb (mem (fst p) (c_pop c))) (update (match c_gather c with Some alts => gather alts (conc user e) rest | None => rest end) (c_set c))) in *.
    destruct (sevals_ok user e rest _ ps Pe V) as [Ep Pp].
    assert (DD : existsb (fun p => has (fst p) kw1) (c_pass c) = negb (forallb (fun n => negb (has n user)) (filter (fun n => negb (gone (taken k) (dun k) n)) (map fst ps)))).
    { rewrite <- (sevals_names e _ _ V) || idtac.
      transitivity (existsb (fun n => has n kw1) (map fst ps)).
      - rewrite (sevals_names e _ _ V). clear. induction (c_pass c); [reflexivity|]. cbn [existsb map]. rewrite IHl. reflexivity.
      - clear - Kk Pk Dup. induction ps as [|[n x] ps IHp]; [reflexivity|]. cbn [existsb map fst] in *.
        apply orb_false_iff in Dup as [D1 D2]. rewrite (IHp D2), (has_known user k kw1 n Kk Pk), D1. cbn [orb filter].
        destruct (gone (taken k) (dun k) n); cbn [negb andb orb forallb]; [reflexivity|].
        rewrite negb_andb, negb_involutive. reflexivity. }
    rewrite DD. destruct (forallb (fun n => negb (has n user)) (filter _ (map fst ps))); cbn [negb andb]; [|rewrite ?andb_false_r; reflexivity].
    rewrite <- Ep.
    rewrite (IH user (mk_st (ps ++ known k) (taken k) (dun k)) (conc user ps ++ kw1) m').
    + unfold conds, outcome. cbn [andb]. destruct (forallb _ (sm_req m') && _ && _ && _); reflexivity.
    + intros n. rewrite get_app. cbn [known taken dun]. rewrite get_app, get_conc. destruct (get n ps) as [x|] eqn:G; cbn [option_map].
      * symmetry. apply sv_some, (Pp n x G).
      * exact (Kk n).
    + intros n x G. cbn [known] in G. rewrite get_app in G. destruct (get n ps) eqn:G2; [inversion G; subst; exact (Pp n x G2)|exact (Pk n x G)].
    + exact A.
Qed.
Definition start : st := mk_st [] [] false.
Lemma run_ok : forall ch kw m, analyze ch start = Some m -> run ch kw = if conds kw m then Some (outcome kw m) else None.
Proof.
  intros ch kw m H. apply (analyze_sound ch kw start kw m); [|intros n s G; discriminate|exact H]. intros n. reflexivity.
Qed.
