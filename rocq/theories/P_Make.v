(** C55: from a configuration to a working quantizer; hard tanh and hard sigmoid. *)
From Coq Require Import List Bool String.
From Verif Require Import Num M_Fixed M_State M_Wrapper S_Fixed M_Config M_Make S_Make L_Make.
Import ListNotations.
Open Scope string_scope.
Local Open Scope list_scope.
Open Scope Q_scope.

(** with the shipped defaults, fixed-point configurations of every place give a quantizer, with the widths and axes
    given and the other settings of the place *)
Theorem C55_created :
  forall I qt pl k i w l, shipped_objects I -> In qt ["kif"; "kbi"] -> In pl ["weight"; "datalane"; "bias"; "table"] ->
  (if String.eqb qt "kif" then 0 <= i + w else 0 <= w) ->
  exists c x, conf_init shipped Plain (mk_args (Some qt) (Some pl) None None None None
      [("k0", CBool k); ("i0", CNum i); ((if String.eqb qt "kif" then "f0" else "b0"), CNum w); ("homogeneous_axis", CAxes l)]) = Some c /\
    make I c = Some (IFixed x) /\ x_class x = (if String.eqb qt "kif" then KIF else KBI) /\ x_k0 x = k /\ x_i0 x = i /\ x_w0 x = w /\
    get "homogeneous_axis" (x_params x) = Some (CAxes l) /\ get "heterogeneous_axis" (x_params x) = Some CNone /\
    c_om (x_conf x) = (if String.eqb pl "weight" || String.eqb pl "table" then SAT_SYM else WRAP) /\
    c_rm (x_conf x) = RND /\ c_weight (x_conf x) = String.eqb pl "weight" /\ c_trainable (x_conf x) = true.
Proof. exact created. Qed.
Print Assumptions C55_created.

(** a hard tanh configuration, whatever the defaults, the arguments and the history of calls, resets and optimizer steps *)
Theorem C55_hard_tanh :
  forall I E a c x h s v, I "Constant(0)" = Some (OConstr (CConstant 0)) ->
  conf_init E HardTanh a = Some c -> make I c = Some (IFixed x) -> life x (start x) h = Some s ->
  let sc := match scaler c with Some q => q | None => 1 end in
  let u := match scaler c with Some q => v / q | None => v end in
  exists y z, infer c x s v = Some y /\ y == sc * z /\ -(1) <= z <= 1 /\
    hard_tanh (c_rm (x_conf x)) (match a_symmetric a with Some b => b | None => false end) (frac s) u z.
Proof. intros I E a c x h s v I0 H M L. exact (hard_tanh_works I E a c x h s I0 M L v H). Qed.
Print Assumptions C55_hard_tanh.

Theorem C55_hard_sigmoid :
  forall I E a c x h s v, I "Constant(1)" = Some (OConstr (CConstant 1)) ->
  conf_init E HardSigmoid a = Some c -> make I c = Some (IFixed x) -> life x (start x) h = Some s ->
  let sc := match scaler c with Some q => q | None => 1 end in
  let u := match scaler c with Some q => v / q | None => v end in
  exists y z, infer c x s v = Some y /\ y == sc * (z / 4) + (1 # 2) /\
    hard_sigmoid (c_rm (x_conf x)) (frac s) u (z / 4 + (1 # 2)) /\ 0 <= z / 4 + (1 # 2) /\ z / 4 + (1 # 2) < 1.
Proof. intros I E a c x h s v I1 H M L. exact (hard_sigmoid_works I E a c x h s I1 M L v H). Qed.
Print Assumptions C55_hard_sigmoid.

(** an accepted configuration need not give a quantizer: none of type 'float' does, in any process whose defaults have
    the shipped keys (scopes change values, not keys) *)
Theorem C55_float_never_created :
  forall I E cls a c, (forall p d, dconf E "float" p = Some d -> has "is_weight" d = true) ->
  conf_init E cls a = Some c -> q_type c = "float" -> make I c = None.
Proof. exact float_never. Qed.
Print Assumptions C55_float_never_created.
Theorem C55_accepted_is_created_refuted :
  ~ (forall I a c, shipped_objects I -> conf_init shipped Plain a = Some c -> exists q, make I c = Some q).
Proof.
  intros H. pose (I s := if String.eqb s "MinMax(0,23)" then Some (OConstr (CMinMax 0 23)) else if String.eqb s "MinMax(0,24)" then Some (OConstr (CMinMax 0 24))
    else if String.eqb s "MinMax(-23,23)" then Some (OConstr (CMinMax (-23) 23)) else if String.eqb s "MinMax(-24,24)" then Some (OConstr (CMinMax (-24) 24))
    else if String.eqb s "MonoL1(1e-8)" then Some OReg else if String.eqb s "inf" then Some OInf
    else if String.eqb s "Constant(0)" then Some (OConstr (CConstant 0)) else if String.eqb s "Constant(1)" then Some (OConstr (CConstant 1)) else None).
  assert (S : shipped_objects I) by (repeat split).
  destruct (conf_init shipped Plain (mk_args (Some "float") (Some "weight") None None None None [])) as [c|] eqn:C; [|vm_compute in C; discriminate].
  destruct (H I _ c S C) as [q M]. assert (Q : q_type c = "float") by (vm_compute in C; injection C as <-; reflexivity).
  assert (K : forall p d, dconf shipped "float" p = Some d -> has "is_weight" d = true).
  { intros p d. unfold shipped, dconf, shipped_table. cbn [lookup2 String.eqb Ascii.eqb Bool.eqb andb].
    destruct (String.eqb p "weight"); [intros X; injection X as <-; reflexivity|]. destruct (String.eqb p "bias"); [intros X; injection X as <-; reflexivity|].
    destruct (String.eqb p "table"); [intros X; injection X as <-; reflexivity|]. destruct (String.eqb p "datalane"); [intros X; injection X as <-; reflexivity|discriminate]. }
  rewrite (float_never I shipped Plain _ c K C Q) in M. discriminate.
Qed.
Print Assumptions C55_accepted_is_created_refuted.

(** ** The hypotheses are satisfiable *)
Definition ex_objects (s : string) : option obj :=
  if String.eqb s "MinMax(-24,24)" then Some (OConstr (CMinMax (-24) 24)) else if String.eqb s "MonoL1(1e-8)" then Some OReg else if String.eqb s "inf" then Some OInf
  else if String.eqb s "Constant(0)" then Some (OConstr (CConstant 0)) else if String.eqb s "Constant(1)" then Some (OConstr (CConstant 1)) else None.
Definition ex_args (sym : option bool) : args := mk_args None None None None None sym [("f0", CNum 3)].
(** after an optimizer step to i = 7/2, f = 2.2: i is back to 0, f is 2; 0.8 -> 3/4 *)
Example C55_hard_tanh_case :
  match conf_init shipped HardTanh (ex_args (Some true)) with
  | Some c => match make ex_objects c with
              | Some (IFixed x) => match life x (start x) [EUpdate (7 # 2) (22 # 10); ECall Train [5]; EReset] with
                                   | Some s => frac s = 2%Z /\ infer c x s (8 # 10) = Some (3 # 4) /\ infer c x s (-(9)) = Some (-3 # 4)
                                   | None => False end
              | _ => False end
  | None => False end.
Proof. vm_compute. repeat split; reflexivity. Qed.
Example C55_hard_sigmoid_case :
  match conf_init shipped HardSigmoid (ex_args None) with
  | Some c => match make ex_objects c with
              | Some (IFixed x) => match infer c x (start x) (1 # 2), infer c x (start x) (-(9)) with Some a, Some b => a == 5 # 8 /\ b == 0 | _, _ => False end
              | _ => False end
  | None => False end.
Proof. vm_compute. split; reflexivity. Qed.
