(** C52: the EBOPs of the composite layers. *)
From Verif Require Import Num M_Fixed M_State M_Mapper M_Contr M_Ebops M_Attn S_Ebops M_Cebops S_Cebops L_Cebops.
Local Open Scope list_scope.

(** a quantizer of uniform signed width [w] (and a sign bit), for tensors of rank [r] *)
Definition uq (r : nat) (w : Z) : qbits :=
  mk_qbits SAT (mk_tensor (repeat 1%nat r) (fun _ => true)) (mk_tensor (repeat 1%nat r) (fun _ => w)).

(** attention over all sequence axes, of any number: one multiplication per (head, query position,
    key position, dimension) for the scores, and per (head, query position, value position,
    dimension) for the output, although the code passes query and key in the other order than the
    forward pass *)
Theorem C52_attention :
  forall heads dq dv qs ks vs pf bq bk bv ba tq tk tv ta, length ks = length qs -> length vs = length qs ->
  bits_ bq (1%nat :: qs ++ [heads; dq]) = Some tq -> bits_ bk (1%nat :: ks ++ [heads; dq]) = Some tk ->
  bits_ bv (1%nat :: vs ++ [heads; dv]) = Some tv -> bits_ ba (1%nat :: heads :: qs ++ vs) = Some ta ->
  exists e, mha_ebops (default_axes (length qs + 3)) heads dq dv qs ks vs pf bq bk bv ba = Some e /\
    e == (score_cost heads dq qs ks (at_ tq) (at_ tk) + mix_cost heads dv qs vs (at_ ta) (at_ tv)) * pf_or_one pf.
Proof. exact mha_value. Qed.
Print Assumptions C52_attention.

(** with one sequence axis these are the contractions of the forward pass, run on the widths *)
Theorem C52_attention_forward :
  forall heads dq dv T S (q k v a : index -> Q),
  score_cost heads dq [T] [S] q k ==
    sum_n heads (fun n => sum_n T (fun t => sum_n S (fun s =>
      dot_product dq (fun s n d => k [0%nat; s; n; d]) (fun t n d => q [0%nat; t; n; d]) n t s))) /\
  mix_cost heads dv [T] [S] a v ==
    sum_n T (fun t => sum_n heads (fun n => sum_n dv (fun d =>
      M_Attn.combine S (fun n t s => a [0%nat; n; t; s]) (fun s n d => v [0%nat; s; n; d]) t n d))).
Proof. exact forward_costs. Qed.
Print Assumptions C52_attention_forward.

Theorem C52_attention_monotone :
  forall heads dq dv qs ks vs pf bq bk bv ba bq' bk' bv' ba' e e', length ks = length qs -> length vs = length qs ->
  Forall widths_ok [bq; bk; bv; ba] -> Forall2 wider [bq; bk; bv; ba] [bq'; bk'; bv'; ba'] ->
  mha_ebops (default_axes (length qs + 3)) heads dq dv qs ks vs pf bq bk bv ba = Some e ->
  mha_ebops (default_axes (length qs + 3)) heads dq dv qs ks vs pf bq' bk' bv' ba' = Some e' -> 0 <= e /\ e <= e'.
Proof. exact mha_mono. Qed.
Print Assumptions C52_attention_monotone.

(** the figure exists only when the attention runs along every sequence axis *)
Theorem C52_attention_axes :
  forall axes heads dq dv qs ks vs pf bq bk bv ba e, length vs = length qs ->
  NoDup axes -> (forall a, In a axes -> (1 <= a <= length qs)%nat) ->
  mha_ebops axes heads dq dv qs ks vs pf bq bk bv ba = Some e -> length axes = length qs.
Proof. exact mha_axes. Qed.
Print Assumptions C52_attention_axes.

Example C52_attention_example :
  exists e, mha_ebops (default_axes 4) 2 3 3 [2%nat] [2%nat] [2%nat] (-1) (uq 4 3) (uq 4 4) (uq 4 5) (uq 4 6) = Some e /\ e == 1488 # 1.
Proof. eexists. split; [vm_compute; reflexivity|reflexivity]. Qed.

(** attention along the second of two sequence axes cannot be charged *)
Theorem C52_attention_axes_refuted :
  ~ (forall axes heads dq dv qs ks vs pf bq bk bv ba, length vs = length qs -> length ks = length qs ->
     axes <> [] -> NoDup axes -> (forall a, In a axes -> (1 <= a <= length qs)%nat) ->
     mha_ebops axes heads dq dv qs ks vs pf bq bk bv ba <> None).
Proof.
  exact (fun H => H [2%nat] 1%nat 1%nat 1%nat [2%nat; 2%nat] [2%nat; 2%nat] [2%nat; 2%nat] (-1)%Z (uq 5 1) (uq 5 1) (uq 5 1) (uq 6 1)
    eq_refl eq_refl ltac:(discriminate) ltac:(constructor; [intros []|constructor]) ltac:(intros a [<-|[]]; cbn; lia) eq_refl).
Qed.
Print Assumptions C52_attention_axes_refuted.

(** a positive parallelization factor multiplies the fully parallel figure instead of giving its share *)
Theorem C52_attention_factor_refuted :
  ~ (forall heads dq dv qs ks vs pf bq bk bv ba e full, length ks = length qs -> length vs = length qs -> (0 < pf)%Z ->
     Forall widths_ok [bq; bk; bv; ba] ->
     mha_ebops (default_axes (length qs + 3)) heads dq dv qs ks vs pf bq bk bv ba = Some e ->
     mha_ebops (default_axes (length qs + 3)) heads dq dv qs ks vs (-1) bq bk bv ba = Some full -> e <= full).
Proof. exact attention_factor_refuted. Qed.
Print Assumptions C52_attention_factor_refuted.

(** softmax: one subtraction per element (stable), all additions of a group but the narrowest, one
    multiplication per element by the inverse of its group, and the tables of the exponential when
    the unstable form leaves them to the layer *)
Theorem C52_softmax :
  forall axes sh stable pf iq exp_iq exp_oq inv_oq e, (0 < nprod sh)%nat ->
  softmax_ebops axes sh stable pf iq exp_iq exp_oq inv_oq = Some e ->
  exists tin tsub te ti, opt_bits iq sh = Some tin /\
    (stable = true -> match iq with Some q => bits_ q sh | None => bits_ exp_iq sh end = Some tsub) /\
    bits_ exp_oq sh = Some te /\ bits_ inv_oq (accum_shape axes sh) = Some ti /\
    forall m : index -> Q,
    (forall g, In g (indices (accum_shape axes sh)) -> is_min (m g) (map (at_ te) (group_of axes sh g))) ->
    e == ((if stable then sum_i sh (at_ tsub) else 0)
          + sum_i (accum_shape axes sh) (fun g => qsum (map (at_ te) (group_of axes sh g)) - m g)
          + sum_i sh (fun i => at_ te i * at_ ti (keep axes i))
          + (if stable then 0 else sum_i sh (fun i => pow2 (Qfloor (at_ tin i)) * at_ te i) * (1 # 10000)))
         * factor_or_one pf (nprod (accum_shape axes sh)).
Proof. exact softmax_figure. Qed.
Print Assumptions C52_softmax.

Theorem C52_softmax_monotone :
  forall axes sh stable pf iq exp_iq exp_oq inv_oq iq' exp_iq' exp_oq' inv_oq' e e', (0 < nprod sh)%nat ->
  widths_ok_opt iq -> Forall widths_ok [exp_iq; exp_oq; inv_oq] ->
  wider_opt iq iq' -> Forall2 wider [exp_iq; exp_oq; inv_oq] [exp_iq'; exp_oq'; inv_oq'] ->
  softmax_ebops axes sh stable pf iq exp_iq exp_oq inv_oq = Some e ->
  softmax_ebops axes sh stable pf iq' exp_iq' exp_oq' inv_oq' = Some e' -> 0 <= e /\ e <= e'.
Proof. exact softmax_mono. Qed.
Print Assumptions C52_softmax_monotone.

Example C52_softmax_example :
  exists e, softmax_ebops [1%nat] [1; 3]%nat true (-1) (Some (uq 2 4)) (uq 2 4) (uq 2 5) (uq 2 7) = Some e /\ e == 171 # 1.
Proof. eexists. split; [vm_compute; reflexivity|reflexivity]. Qed.

(** simple recurrent cell *)
Theorem C52_simple_cell :
  forall features units iq kq rkq state bq e, simple_cell_ebops [1%nat; features] units iq kq rkq state bq = Some e ->
  exists ti tk ts tr c, bits_ iq [1%nat; features] = Some ti /\ bits_ kq [features; units] = Some tk /\
    bits_ state [1%nat; units] = Some ts /\ bits_ rkq [units; units] = Some tr /\ bias_term units features bq = Some c /\
    e == vec_mat_cost features units (row ti) (entry tk) + vec_mat_cost units units (row ts) (entry tr) + c.
Proof. exact simple_cell_vec. Qed.
Print Assumptions C52_simple_cell.

(** the bias of a cell with as many inputs as units is charged correctly, in general it is not *)
Theorem C52_simple_cell_bias :
  forall units bq c, (0 < units)%nat -> bias_term units units bq = Some c -> bias_widths_sum units bq c.
Proof. exact bias_square. Qed.
Print Assumptions C52_simple_cell_bias.
Theorem C52_simple_cell_bias_refuted :
  ~ (forall features units bq c, (0 < units)%nat -> bias_term units features bq = Some c -> bias_widths_sum units bq c).
Proof. exact bias_refuted. Qed.
Print Assumptions C52_simple_cell_bias_refuted.

(** the whole layer: the input products of every time step are charged, and the sum is then
    multiplied by the factor, which is the number of time steps unless one is given *)
Theorem C52_simple_rnn :
  forall steps features units pf iq kq rkq state bq e, simple_rnn_ebops steps features units pf iq kq rkq state bq = Some e ->
  exists ti tk ts tr c, bits_ iq [1%nat; steps; features] = Some ti /\ bits_ kq [features; units] = Some tk /\
    bits_ state [1%nat; units] = Some ts /\ bits_ rkq [units; units] = Some tr /\ bias_term units (steps * features) bq = Some c /\
    e == (sum_n steps (fun t => vec_mat_cost features units (fun i => at_ ti [0%nat; t; i]) (entry tk))
          + vec_mat_cost units units (row ts) (entry tr) + c) * rnn_factor pf steps.
Proof. exact simple_rnn_value. Qed.
Print Assumptions C52_simple_rnn.
Theorem C52_simple_rnn_monotone :
  forall steps features units pf iq kq rkq state bq iq' kq' rkq' state' bq' e e', (-1 <= pf)%Z ->
  Forall widths_ok [iq; kq; rkq; state] -> widths_ok_opt bq ->
  Forall2 wider [iq; kq; rkq; state] [iq'; kq'; rkq'; state'] -> wider_opt bq bq' ->
  simple_rnn_ebops steps features units pf iq kq rkq state bq = Some e ->
  simple_rnn_ebops steps features units pf iq' kq' rkq' state' bq' = Some e' -> 0 <= e /\ e <= e'.
Proof. exact simple_rnn_mono. Qed.
Print Assumptions C52_simple_rnn_monotone.
(** so the layer does not cost its number of steps times its cell (without bias and with widths
    that do not depend on the time step) *)
Theorem C52_simple_rnn_steps_refuted :
  ~ (forall steps features units wi kq rkq state e c,
     simple_rnn_ebops steps features units (-1) (uq 3 wi) kq rkq state None = Some e ->
     simple_cell_ebops [1%nat; features] units (uq 2 wi) kq rkq state None = Some c -> e == nQ steps * c).
Proof. exact simple_steps_refuted. Qed.
Print Assumptions C52_simple_rnn_steps_refuted.

(** GRU *)
Theorem C52_gru :
  forall features units ra iq sq kq rkq rhq praq paq bq e, gru_cell_ebops features units ra iq sq kq rkq rhq praq paq bq = Some e ->
  exists x k s rk rh zr hh c, bits_ iq [1%nat; features] = Some x /\ bits_ kq [features; 3 * units]%nat = Some k /\
    bits_ sq [1%nat; units] = Some s /\ bits_ rkq [units; 3 * units]%nat = Some rk /\ bits_ rhq [1%nat; units] = Some rh /\
    bits_ praq [1; 2 * units]%nat = Some zr /\ bits_ paq [1%nat; units] = Some hh /\
    gru_bias_term units ra bq = Some c /\ e == gru_ops features units ra x k s rk rh zr hh + c.
Proof. exact gru_value. Qed.
Print Assumptions C52_gru.
Theorem C52_gru_steps :
  forall steps features units ra pf iq sq kq rkq rhq praq paq bq e,
  gru_ebops steps features units ra pf iq sq kq rkq rhq praq paq bq = Some e ->
  exists c, gru_cell_ebops features units ra iq sq kq rkq rhq praq paq bq = Some c /\
    e == (if (pf =? -1)%Z then nQ steps else inject_Z pf) * c.
Proof. exact gru_steps. Qed.
Print Assumptions C52_gru_steps.
Theorem C52_gru_monotone :
  forall features units ra iq sq kq rkq rhq praq paq bq iq' sq' kq' rkq' rhq' praq' paq' bq' e e',
  Forall widths_ok [iq; sq; kq; rkq; rhq; praq; paq] -> widths_ok_opt bq ->
  Forall2 wider [iq; sq; kq; rkq; rhq; praq; paq] [iq'; sq'; kq'; rkq'; rhq'; praq'; paq'] -> wider_opt bq bq' ->
  gru_cell_ebops features units ra iq sq kq rkq rhq praq paq bq = Some e ->
  gru_cell_ebops features units ra iq' sq' kq' rkq' rhq' praq' paq' bq' = Some e' -> 0 <= e /\ e <= e'.
Proof. exact gru_mono. Qed.
Print Assumptions C52_gru_monotone.
(** without reset_after only the first bias element is charged *)
Theorem C52_gru_bias_refuted :
  ~ (forall units bq b c, bits_ bq [3 * units]%nat = Some b -> gru_bias_term units false (Some bq) = Some c ->
     c == sum_n (3 * units) (fun j => at_ b [j])).
Proof. exact gru_bias_refuted. Qed.
Print Assumptions C52_gru_bias_refuted.

Example C52_gru_example :
  exists e, gru_ebops 3 2 2 false (-1) (uq 2 3) (uq 2 3) (uq 2 2) (uq 2 2) (uq 2 4) (uq 2 5) (uq 2 3) (Some (uq 1 5)) = Some e /\ e == 1350 # 1.
Proof. eexists. split; [vm_compute; reflexivity|reflexivity]. Qed.

(** table layers: every (input, output) pair costs its output width, times the tables plus one adder *)
Theorem C52_table :
  forall sh n_out B b pf iq toq e, dense_table_ebops sh n_out B b pf iq toq = Some e ->
  exists ti to, fbits_ iq (sh ++ [n_out]) = Some ti /\ fbits_ toq (sh ++ [n_out]) = Some to /\
    e == sum_i (sh ++ [n_out]) (fun i => (small_lut b (at_ ti i) * pow2 (Z.of_nat b - Z.of_nat B) + 1) * at_ to i)
         * dense_factor pf (nprod (removelast (tl sh))) / nQ (nprod (removelast (tl sh))).
Proof. exact dense_table_value. Qed.
Print Assumptions C52_table.
(** a table of exactly B address bits counts once; every further bit doubles it; the count never
    decreases with the width, also across the change of formula at b bits *)
Theorem C52_table_unit :
  forall b B, (b <= B)%nat ->
  small_lut b (nQ B) * pow2 (Z.of_nat b - Z.of_nat B) == 1 /\
  (forall w, (Z.of_nat b <= w)%Z -> small_lut b (inject_Z (w + 1)) == 2 * small_lut b (inject_Z w)) /\
  (forall w w', 0 <= w -> w <= w' -> 0 <= small_lut b w <= small_lut b w').
Proof. exact table_counts. Qed.
Print Assumptions C52_table_unit.
Theorem C52_table_monotone :
  forall sh n_out B b pf iq toq iq' toq' e e', widths_ok iq -> widths_ok toq -> wider iq iq' -> wider toq toq' ->
  dense_table_ebops sh n_out B b pf iq toq = Some e -> dense_table_ebops sh n_out B b pf iq' toq' = Some e' -> 0 <= e /\ e <= e'.
Proof. exact dense_table_mono. Qed.
Print Assumptions C52_table_monotone.
Example C52_table_example :
  exists e, dense_table_ebops [1; 4; 3]%nat 2 6 5 (-1) (uq 4 6) (uq 4 3) = Some e /\ e == 288 # 1.
Proof. eexists. split; [vm_compute; reflexivity|reflexivity]. Qed.

(** spiking cells *)
Theorem C52_spiking :
  forall sh n reset iq sq gsh gq beta e, snn_cell_ebops sh n reset (Some iq) sq gsh gq beta = Some e ->
  exists ti tm tg tgr l, bits_ iq sh = Some ti /\ accumulator_bits sh sq iq n = Some tm /\ bits_ gq gsh = Some tg /\
    bcast_right tg sh = Some tgr /\ leak_term sh tm beta = Some l /\
    e == l + sum_i sh (fun i => Qmax (at_ tm i) (at_ ti i)) * (65 # 100)
         + sum_i sh (at_ tm) * (65 # 100) + sum_i sh (at_ tgr) + sum_i sh (at_ tm) * reset_cost reset.
Proof. exact snn_value. Qed.
Print Assumptions C52_spiking.
Theorem C52_spiking_monotone :
  forall sh n reset iq sq gsh gq beta iq' sq' gq' beta' e e',
  widths_ok iq -> widths_ok gq -> widths_ok_opt sq -> widths_ok_bias beta ->
  wider iq iq' -> wider gq gq' -> wider_opt sq sq' -> wider_bias beta beta' ->
  snn_cell_ebops sh n reset (Some iq) sq gsh gq beta = Some e ->
  snn_cell_ebops sh n reset (Some iq') sq' gsh gq' beta' = Some e' -> 0 <= e /\ e <= e'.
Proof. exact snn_mono. Qed.
Print Assumptions C52_spiking_monotone.
(** without a state quantizer the membrane is given the fewest extra bits that hold n inputs *)
Theorem C52_spiking_accumulator :
  forall sh iq n t b, (1 <= n)%nat -> accumulator_bits sh None iq n = Some t -> bits_ iq sh = Some b ->
  exists extra, (0 <= extra)%Z /\ (forall i, at_ t i == at_ b i + inject_Z extra) /\
    (Z.of_nat n <= 2 ^ extra)%Z /\ forall e, (0 <= e)%Z -> (Z.of_nat n <= 2 ^ e)%Z -> (extra <= e)%Z.
Proof. exact accumulator_extra. Qed.
Print Assumptions C52_spiking_accumulator.
Theorem C52_spiking_steps :
  forall steps units reset pf iq sq gsh gq beta e, snn_ebops steps units reset pf iq sq gsh gq beta = Some e ->
  exists c, snn_cell_ebops [1%nat; units] steps reset iq sq gsh gq beta = Some c /\
    e == (if (pf =? -1)%Z then nQ steps else inject_Z pf) * c.
Proof. exact snn_steps. Qed.
Print Assumptions C52_spiking_steps.
Example C52_spiking_example :
  exists e, snn_ebops 4 2 RSubtract (-1) (Some (uq 2 3)) None [] (uq 0 2) (Some ([2%nat], uq 1 1)) = Some e /\
  e == 1068 # 5.
Proof. eexists. split; [vm_compute; reflexivity|reflexivity]. Qed.
