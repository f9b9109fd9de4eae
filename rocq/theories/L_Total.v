From Verif Require Import Num M_Total S_Total.
From Coq Require Import List Bool Arith ZArith Lia Permutation.
Import ListNotations.
Local Open Scope Z_scope.

Lemma zsum_app a b : zsum (a ++ b) = zsum a + zsum b.
Proof. induction a as [|x a IH]; cbn [app zsum]; lia. Qed.
Lemma zsum_perm a b : Permutation a b -> zsum a = zsum b.
Proof. intros P. induction P; cbn [zsum]; lia. Qed.
Lemma contribution_own n : contribution n = own_ebops n.
Proof. destruct n as [i [|] [z|] s]; reflexivity. Qed.

Definition subs_of (n : node) : list node := match n with Node _ _ _ s => s end.
Definition tot (l : list node) : nat := fold_right Nat.add 0%nat (map size l).
Lemma tot_app a b : tot (a ++ b) = (tot a + tot b)%nat.
Proof. unfold tot. rewrite map_app, fold_right_app. induction (map size a) as [|x l IH]; cbn [fold_right]; lia. Qed.
Lemma tot_rev a : tot (rev a) = tot a.
Proof. induction a as [|x a IH]; [reflexivity|]. cbn [rev]. rewrite tot_app, IH. unfold tot at 2. cbn [map fold_right]. unfold tot. cbn [map fold_right]. lia. Qed.
Lemma size_tot n : size n = S (tot (subs_of n)).
Proof. destruct n. reflexivity. Qed.
Lemma occ_self n : In n (occurrences n).
Proof. destruct n. left. reflexivity. Qed.
Fixpoint occ_child (root : node) : forall n c, In n (occurrences root) -> In c (subs_of n) -> In c (occurrences root).
Proof.
  destruct root as [i q o subs]. intros n c H C. cbn [occurrences] in *. destruct H as [<-|H].
  - right. apply in_flat_map. exists c. split; [exact C|apply occ_self].
  - right. induction subs as [|s subs IH]; [destruct H|]. cbn [flat_map] in *. apply in_or_app. apply in_app_or in H. destruct H as [H|H].
    + left. exact (occ_child s n c H C).
    + right. exact (IH H).
Defined.
Fixpoint occ_closed (root : node) : forall R : list node, In root R -> (forall v c, In v R -> In c (subs_of v) -> In c R) -> forall n, In n (occurrences root) -> In n R.
Proof.
  destruct root as [i q o subs]. intros R Hr Hc n H. cbn [occurrences] in H. destruct H as [<-|H]; [exact Hr|].
  assert (Hs : forall s, In s subs -> In s R) by (intros s Hs; exact (Hc _ s Hr Hs)). clear Hr.
  induction subs as [|s subs IH]; [destruct H|]. cbn [flat_map] in H. apply in_app_or in H. destruct H as [H|H].
  - exact (occ_closed s R (Hs s (or_introl eq_refl)) Hc n H).
  - apply IH; [exact H|]. intros s' H'. apply Hs. right. exact H'.
Defined.
Lemma flatten_spec (U : list node) fuel :
  (forall m n, In m U -> In n U -> nid m = nid n -> m = n) -> (forall n c, In n U -> In c (subs_of n) -> In c U) ->
  forall yielded work, (tot work <= fuel)%nat -> incl yielded U -> incl work U -> NoDup (map nid yielded) ->
  (forall v c, In v yielded -> In c (subs_of v) -> In c yielded \/ In c work) ->
  let R := flatten fuel yielded work in NoDup (map nid R) /\ incl R U /\ incl yielded R /\ incl work R /\ (forall v c, In v R -> In c (subs_of v) -> In c R).
Proof.
  intros HU CU. induction fuel as [|fuel IH]; intros yielded work F YU WU ND C; cbv zeta.
  - destruct work as [|n work]; [|exfalso; unfold tot in F; cbn [map fold_right] in F; pose proof (size_tot n); lia].
    cbn [flatten]. split; [exact ND|]. split; [exact YU|]. split; [apply incl_refl|]. split; [intros x []|]. intros v c Hv Hc. destruct (C v c Hv Hc) as [H|[]]. exact H.
  - destruct work as [|n work]; cbn [flatten].
    + split; [exact ND|]. split; [exact YU|]. split; [apply incl_refl|]. split; [intros x []|]. intros v c Hv Hc. destruct (C v c Hv Hc) as [H|[]]. exact H.
    + assert (F' : (size n + tot work <= S fuel)%nat) by exact F.
      destruct (existsb (Nat.eqb (nid n)) (map nid yielded)) eqn:E.
      * apply existsb_exists in E. destruct E as (i & Hi & Ei). apply Nat.eqb_eq in Ei. apply in_map_iff in Hi. destruct Hi as (m & Em & Hm).
        assert (M : m = n) by (apply HU; [apply YU, Hm|apply WU; left; reflexivity|congruence]). subst m.
        rewrite size_tot in F'.
        destruct (IH yielded work) as (R1 & R2 & R3 & R4 & R5); [lia|exact YU|intros x Hx; apply WU; right; exact Hx|exact ND| |].
        { intros v c Hv Hc. destruct (C v c Hv Hc) as [H|[<-|H]]; [left; exact H|left; exact Hm|right; exact H]. }
        split; [exact R1|]. split; [exact R2|]. split; [exact R3|]. split; [|exact R5]. intros x [<-|Hx]; [apply R3, Hm|apply R4, Hx].
      * assert (NI : ~ In (nid n) (map nid yielded)).
        { intros H. assert (T : existsb (Nat.eqb (nid n)) (map nid yielded) = true) by (apply existsb_exists; exists (nid n); split; [exact H|apply Nat.eqb_refl]). congruence. }
        destruct n as [i q o subs] eqn:En. rewrite <- En in *.
        assert (Sn : subs = subs_of n) by (rewrite En; reflexivity). rewrite Sn. rewrite size_tot in F'.
        destruct (IH (yielded ++ [n]) (rev (subs_of n) ++ work)) as (R1 & R2 & R3 & R4 & R5).
        -- rewrite tot_app, tot_rev. lia.
        -- intros x Hx. apply in_app_or in Hx. destruct Hx as [Hx|[<-|[]]]; [apply YU, Hx|apply WU; left; reflexivity].
        -- intros x Hx. apply in_app_or in Hx. destruct Hx as [Hx|Hx]; [|apply WU; right; exact Hx]. apply in_rev in Hx. apply (CU n); [apply WU; left; reflexivity|exact Hx].
        -- rewrite map_app. cbn [map]. apply (Permutation_NoDup (l := nid n :: map nid yielded)); [apply Permutation_cons_append|]. constructor; [exact NI|exact ND].
        -- intros v c Hv Hc. apply in_app_or in Hv. destruct Hv as [Hv|[<-|[]]].
           ++ destruct (C v c Hv Hc) as [H|[<-|H]]; [left; apply in_or_app; left; exact H|left; apply in_or_app; right; left; reflexivity|right; apply in_or_app; right; exact H].
           ++ right. apply in_or_app. left. apply in_rev in Hc. exact Hc.
        -- split; [exact R1|]. split; [exact R2|]. split; [intros x Hx; apply R3, in_or_app; left; exact Hx|]. split; [|exact R5].
           intros x [<-|Hx]; [apply R3, in_or_app; right; left; reflexivity|apply R4, in_or_app; right; exact Hx].
Qed.
Lemma flatten_layers_spec root : same_identity_same_object root ->
  NoDup (map nid (flatten_layers root)) /\ forall n, In n (flatten_layers root) <-> In n (occurrences root).
Proof.
  intros H. unfold flatten_layers.
  destruct (flatten_spec (occurrences root) (size root) H (occ_child root) [] [root]) as (R1 & R2 & _ & R4 & R5).
  - unfold tot. cbn [map fold_right]. lia.
  - intros x [].
  - intros x [<-|[]]. apply occ_self.
  - constructor.
  - intros v c [].
  - split; [exact R1|]. intros n. split; [apply R2|]. intros Hn. apply (occ_closed root _ (R4 root (or_introl eq_refl)) R5 n Hn).
Qed.
(** the identities being distinct, the list has no repetition *)
Lemma NoDup_of_map {A B} (f : A -> B) l : NoDup (map f l) -> NoDup l.
Proof. induction l as [|x l IH]; intros H; [constructor|]. inversion H; subst. constructor; [|auto]. intros X. apply H2, in_map, X. Qed.
Lemma free_total_spec root objs : same_identity_same_object root -> NoDup objs -> (forall n, In n objs <-> In n (occurrences root)) ->
  free_total root = zsum (map own_ebops objs).
Proof.
  intros H ND E. destruct (flatten_layers_spec root H) as [N F]. unfold free_total. rewrite (map_ext _ _ contribution_own). apply zsum_perm, Permutation_map.
  apply NoDup_Permutation; [exact (NoDup_of_map nid _ N)|exact ND|]. intros n. rewrite F, E. reflexivity.
Qed.
Lemma unique_of_NoDup_ids (l : list node) : NoDup (map nid l) -> forall m n, In m l -> In n l -> nid m = nid n -> m = n.
Proof.
  induction l as [|x l IH]; intros H m n Hm Hn E; [destruct Hm|]. cbn [map] in H. inversion H as [|? ? N1 N2]; subst.
  destruct Hm as [<-|Hm], Hn as [<-|Hn]; [reflexivity| | |apply IH; assumption].
  - exfalso. apply N1. rewrite E. apply in_map, Hn.
  - exfalso. apply N1. rewrite <- E. apply in_map, Hm.
Qed.
Lemma free_total_no_sharing root : no_sharing root -> free_total root = zsum (map own_ebops (occurrences root)).
Proof.
  intros H. apply free_total_spec; [|exact (NoDup_of_map nid _ H)|reflexivity]. exact (unique_of_NoDup_ids _ H).
Qed.

(** *** the traced total *)
Lemma dict_set_new name v d : ~ In name (map fst d) -> dict_set name v d = d ++ [(name, v)].
Proof.
  induction d as [|[n w] d IH]; intros H; [reflexivity|]. cbn [dict_set map fst In] in *. destruct (Nat.eqb_spec n name); [subst; tauto|]. rewrite IH by tauto. reflexivity.
Qed.
Lemma trace_total_spec layers : NoDup (map fst layers) -> trace_total layers = zsum (map (fun p => if enabled (snd p) then reported (snd p) else 0) layers).
Proof.
  intros ND. unfold trace_total. cbv zeta.
  assert (G : forall d, (forall n, In n (map fst d) -> ~ In n (map fst layers)) ->
    zsum (map snd (fold_left (fun d p => if enabled (snd p) then dict_set (fst p) (reported (snd p)) d else d) layers d)) = zsum (map snd d) + zsum (map (fun p => if enabled (snd p) then reported (snd p) else 0) layers)).
  { induction layers as [|[n o] layers IH]; intros d D; cbn [fold_left map zsum fst snd]; [lia|]. cbn [map fst] in ND. inversion ND; subst.
    destruct (enabled o).
    - rewrite dict_set_new by (intros X; apply (D n X); left; reflexivity). rewrite IH; [|assumption|].
      + rewrite map_app, zsum_app. cbn [map snd zsum]. lia.
      + intros m Hm. rewrite map_app in Hm. apply in_app_or in Hm. destruct Hm as [Hm|[<-|[]]]; [|assumption]. intros X. apply (D m Hm). right. exact X.
    - rewrite IH; [lia|assumption|]. intros m Hm X. apply (D m Hm). right. exact X. }
  rewrite (G []); [reflexivity|]. intros n [].
Qed.

(** *** comparing *)
Definition below (o : obj) : Z := zsum (map own_ebops (occurrences (to_node o))).
Lemma below_leaf l : zsum (map own_ebops (occurrences (leaf_node l))) = leaf_ebops l.
Proof. destruct l as [i [z|]]; unfold leaf_ebops; cbn; lia. Qed.
Lemma occ_flat subs : zsum (map own_ebops (flat_map occurrences subs)) = zsum (map (fun s => zsum (map own_ebops (occurrences s))) subs).
Proof. induction subs as [|s subs IH]; [reflexivity|]. cbn [flat_map map zsum]. rewrite map_app, zsum_app, IH. reflexivity. Qed.
Lemma below_softmax s : zsum (map own_ebops (occurrences (softmax_node s))) = softmax_ebops s.
Proof.
  unfold softmax_node. cbn [occurrences]. cbn [map zsum]. rewrite occ_flat. cbn [map zsum]. rewrite !below_leaf. unfold softmax_ebops. destruct (sm_own s); cbn [own_ebops val]; lia.
Qed.
Lemma below_attention_subs a : zsum (map own_ebops (flat_map occurrences (attention_subs a))) =
  leaf_ebops (at_query a) + leaf_ebops (at_key a) + leaf_ebops (at_value a) + softmax_ebops (at_softmax a) + leaf_ebops (at_output a).
Proof. rewrite occ_flat. unfold attention_subs. cbn [map zsum]. rewrite !below_leaf, below_softmax. lia. Qed.
Lemma off_ebops l : leaf_off l -> leaf_ebops l = 0.
Proof. unfold leaf_off, leaf_ebops. intros ->. reflexivity. Qed.
Lemma softmax_off s : softmax_ok s -> sm_own s = None -> softmax_ebops s = 0.
Proof. intros H E. destruct (H E) as [A B]. unfold softmax_ebops. rewrite E, (off_ebops _ A), (off_ebops _ B). reflexivity. Qed.
Lemma attention_off a : attention_ok a -> at_own a = None ->
  leaf_ebops (at_query a) + leaf_ebops (at_key a) + leaf_ebops (at_value a) + softmax_ebops (at_softmax a) + leaf_ebops (at_output a) = 0.
Proof.
  intros [S H] E. destruct (H E) as (A & B & C & D & F). rewrite (off_ebops _ A), (off_ebops _ B), (off_ebops _ C), (off_ebops _ F), (softmax_off _ S D). reflexivity.
Qed.
Lemma below_spec o : built_ok o -> below o + recurrent_ebops o = (if enabled o then reported o else 0) + left_out o.
Proof.
  intros B. unfold below. destruct o as [l|s|a|a lk lv|a lk lv c|i own cell|i subs].
  - cbn [to_node enabled reported left_out recurrent_ebops]. rewrite below_leaf. unfold leaf_ebops. destruct (lf_own l); cbn [is_some val]; lia.
  - cbn [to_node enabled reported left_out recurrent_ebops]. rewrite below_softmax. cbn [built_ok] in B. destruct (sm_own s) eqn:E; cbn [is_some]; [lia|]. rewrite (softmax_off s B E). lia.
  - cbn [to_node enabled reported left_out recurrent_ebops occurrences map zsum]. rewrite below_attention_subs. cbn [built_ok] in B. unfold attention_ebops. destruct (at_own a) eqn:E; cbn [is_some own_ebops]; [lia|].
    rewrite (attention_off a B E). lia.
  - cbn [to_node enabled reported left_out recurrent_ebops occurrences map zsum flat_map]. rewrite !map_app, !zsum_app, !below_leaf, below_attention_subs. destruct B as [B1 B2]. unfold linformer_ebops.
    destruct (at_own a) eqn:E; cbn [is_some own_ebops]; [lia|]. destruct (B2 eq_refl) as [L1 L2]. rewrite (off_ebops _ L1), (off_ebops _ L2). lia.
  - cbn [to_node enabled reported left_out recurrent_ebops occurrences map zsum flat_map]. rewrite flat_map_app, !map_app, !zsum_app, !below_leaf, below_attention_subs. destruct B as [B1 B2]. unfold salt_ebops.
    destruct (at_own a) eqn:E; cbn [is_some own_ebops].
    + destruct c as [c|]; cbn [flat_map]; [rewrite app_nil_r, below_leaf|cbn [map zsum]]; lia.
    + destruct (B2 eq_refl) as (L1 & L2 & L3). rewrite (off_ebops _ L1), (off_ebops _ L2). destruct c as [c|]; cbn [flat_map]; [rewrite app_nil_r, below_leaf, (off_ebops _ L3)|cbn [map zsum]]; lia.
  - cbn [to_node enabled reported left_out recurrent_ebops occurrences map zsum flat_map]. rewrite app_nil_r, below_leaf. cbn [built_ok] in B. rewrite (off_ebops _ B). destruct own; cbn [is_some val own_ebops]; lia.
  - cbn [enabled left_out recurrent_ebops]. lia.
Qed.
Lemma zsum_map_plus {A} (f g : A -> Z) l : zsum (map f l) + zsum (map g l) = zsum (map (fun x => f x + g x) l).
Proof. induction l as [|x l IH]; cbn [map zsum]; lia. Qed.
Lemma model_occurrences id layers : zsum (map own_ebops (occurrences (model_node id layers))) = zsum (map (fun p => below (snd p)) layers).
Proof.
  unfold model_node. cbn [to_node occurrences map zsum own_ebops]. rewrite occ_flat, !map_map. unfold below. lia.
Qed.
Lemma totals_balance id layers : NoDup (map fst layers) -> no_sharing (model_node id layers) -> (forall p, In p layers -> built_ok (snd p)) ->
  free_total (model_node id layers) + zsum (map (fun p => recurrent_ebops (snd p)) layers) = trace_total layers + zsum (map (fun p => left_out (snd p)) layers).
Proof.
  intros ND NS B. rewrite (free_total_no_sharing _ NS), model_occurrences, (trace_total_spec _ ND), !zsum_map_plus. f_equal. apply map_ext_in. intros p Hp. apply below_spec, B, Hp.
Qed.
Lemma totals_agree id layers : NoDup (map fst layers) -> no_sharing (model_node id layers) -> (forall p, In p layers -> built_ok (snd p) /\ self_contained (snd p)) ->
  free_total (model_node id layers) = trace_total layers.
Proof.
  intros ND NS H. pose proof (totals_balance id layers ND NS (fun p Hp => proj1 (H p Hp))) as E.
  assert (Z1 : zsum (map (fun p => recurrent_ebops (snd p)) layers) = 0).
  { clear - H. induction layers as [|p l IH]; [reflexivity|]. cbn [map zsum]. rewrite IH by (intros q Hq; apply H; right; exact Hq). destruct (H p (or_introl eq_refl)) as [_ S]. destruct p as [n []]; cbn in *; tauto || lia. }
  assert (Z2 : zsum (map (fun p => left_out (snd p)) layers) = 0).
  { clear - H. induction layers as [|p l IH]; [reflexivity|]. cbn [map zsum]. rewrite IH by (intros q Hq; apply H; right; exact Hq). destruct (H p (or_introl eq_refl)) as [_ S]. destruct p as [n []]; cbn in *; tauto || lia. }
  lia.
Qed.
Lemma pid_total_spec layers : NoDup (map fst layers) -> (forall n s, In (n, Softmax s) layers -> sm_own s <> None) -> pid_total layers = Some (trace_total layers).
Proof.
  intros ND S. rewrite (trace_total_spec _ ND). unfold pid_total. clear ND.
  assert (G : forall z, fold_left (fun acc p => match acc, snd p with
                          | None, _ => None
                          | Some z, Softmax s => if is_some (sm_own s) then Some (z + softmax_ebops s) else None
                          | Some z, Other _ _ => Some z
                          | Some z, o => Some (z + reported o)
                          end) layers (Some z) = Some (z + zsum (map (fun p => if enabled (snd p) then reported (snd p) else 0) layers))).
  { induction layers as [|[n o] l IH]; intros z; cbn [fold_left map zsum snd]; [f_equal; lia|].
    assert (IH' := IH (fun m s H => S m s (or_intror H))). clear IH.
    destruct o as [lf|s|a|a lk lv|a lk lv c|i own cell|i subs]; cbn [enabled reported].
    - rewrite IH'. f_equal. unfold leaf_ebops. destruct (lf_own lf); cbn [is_some val]; lia.
    - pose proof (S n s (or_introl eq_refl)) as Hs. destruct (sm_own s) eqn:E; [|congruence]. cbn [is_some]. rewrite IH'. f_equal. lia.
    - rewrite IH'. f_equal. unfold attention_ebops. destruct (at_own a); cbn [is_some]; lia.
    - rewrite IH'. f_equal. unfold linformer_ebops. destruct (at_own a); cbn [is_some]; lia.
    - rewrite IH'. f_equal. unfold salt_ebops. destruct (at_own a); cbn [is_some]; lia.
    - rewrite IH'. f_equal. destruct own; cbn [is_some val]; lia.
    - rewrite IH'. f_equal. }
  rewrite G. reflexivity.
Qed.
Lemma dict_set_twice n v w d : dict_set n w (dict_set n v d) = dict_set n w d.
Proof. induction d as [|[m x] d IH]; cbn [dict_set]; [rewrite Nat.eqb_refl; reflexivity|]. destruct (Nat.eqb_spec m n); cbn [dict_set]; [subst; rewrite Nat.eqb_refl; reflexivity|]. destruct (Nat.eqb_spec m n); [contradiction|]. rewrite IH. reflexivity. Qed.
Lemma repeated_name layers n o o' : enabled o = true -> enabled o' = true -> trace_total (layers ++ [(n, o); (n, o')]) = trace_total (layers ++ [(n, o')]).
Proof. intros H H'. unfold trace_total. cbv zeta. rewrite !fold_left_app. cbn [fold_left fst snd]. rewrite H, H', dict_set_twice. reflexivity. Qed.
