(** Specification vocabulary for C53: what a traced model must compute, and which layers are covered. *)
From Coq Require Import String.
From Verif Require Import Num M_Fixed M_State M_Wrapper M_Mapper S_Mapper M_Contr M_Ebops M_Pow2 M_Patch S_Patch M_Ops M_Mirror S_Mirror M_Trace S_Trace M_Net S_Ops.
Local Open Scope list_scope.

(** [x] is a batch of [n] samples, each with at least one axis *)
Definition batch_in (n : nat) (x : tensor Q) : Prop := exists d sh, shape x = n :: d :: sh.
(** the traced array [v] holds sample [b] of the batch [x] of [n] samples *)
Definition holds (n b : nat) (x v : tensor Q) : Prop := batch_in n x /\ same_tensor (sample b x) v.

(** a quantizer of activations, built for batches of some shape: no scaler, widths within int8 *)
Definition traceable_quant (q : quant) : Prop :=
  w_scaler (q_w q) = None /\ c_weight (q_c q) = false /\
  exists het_arg hom_arg built het wsh, built_for het_arg hom_arg (None :: built) het (q_hom q) wsh /\
    match q_s q with
    | inl s => kif_built wsh s /\ int8_widths (tmap round_even (t_i s)) /\ int8_widths (tmap round_even (t_f s))
    | inr s => kbi_built wsh s /\ int8_widths (tmap round_even (u_i s)) /\ int8_widths (tmap2 Z.sub (tmap round_even (u_b s)) (tmap round_even (u_i s)))
    end.
Definition traceable_quants (q : quants) : Prop := match q with QSingle q => traceable_quant q | QMulti qs => Forall traceable_quant qs end.
(** there is a bias, of at most [r] axes *)
Definition has_bias (b : option (tensor Q)) (r : nat) : Prop := exists t, b = Some t /\ (List.length (shape t) <= r)%nat.
Definition traceable_core (c : core) : Prop :=
  match c with
  | CQuantizer q => traceable_quant q
  | CDense _ b => has_bias b 1
  | CEinsum li lk lo _ b =>
      (* the first axis of input and output is the batch, which occurs nowhere else; the output has another axis *)
      exists a li' lo', li = a :: li' /\ lo = a :: lo' /\ ~ In a (li' ++ lk ++ lo') /\ lo' <> [] /\ has_bias b (List.length lo')
  | CConv _ cs groups cin_g cout_g _ b =>
      (0 < groups)%nat /\ (0 < cin_g)%nat /\ (0 < cout_g)%nat /\ (groups = 1%nat \/ cin_g = 1%nat) /\
      (Z.of_nat (nprod (map c_in cs ++ [groups * cin_g]%nat)) <= 2 ^ 24)%Z /\ has_bias b 1
  | CBatchNorm sh _ _ => exists d sh', sh = 1%nat :: d :: sh'
  | CSum ndim axes keepdims _ => ~ In 0%nat axes /\ (2 <= ndim)%nat /\ (keepdims = true \/ exists a, (0 < a < ndim)%nat /\ ~ In a axes)
  | CAvgPool _ cs ch => pool_ok cs /\ (Z.of_nat (nprod (map c_in cs ++ [ch])) <= 2 ^ 24)%Z
  | CMaxPool pad cs ch => pad = VALID /\ pool_ok cs /\ (Z.of_nat (nprod (map c_in cs ++ [ch])) <= 2 ^ 24)%Z
  | CReshape sh => sh <> []
  | CMerge _ | CFlatten | CReLU | CLut => True
  end.
Definition traceable_layer (l : layer) : Prop :=
  match l with
  | LPlain c a => traceable_core c /\ a = ALinear
  | LQ iq c a oq =>
      (forall q, iq = Some q -> traceable_quants q) /\ traceable_core c /\ (forall q, oq = Some q -> traceable_quant q) /\
      match a with
      | ALinear | ARelu => True
      | AFn f => c = CLut /\ forall x y, x == y -> f x == f y       (* other activations only in a lookup table *)
      end
  end.
(** every layer of a model and of its nested models *)
Fixpoint all_layers {layer : Type} (P : layer -> Prop) (fuel : nat) (m : model layer) : Prop :=
  match fuel with
  | 0%nat => True
  | S fuel' => forall o, In o (all_ops m) -> match o_kind o with KInput => True | KLayer l => P l | KModel sub => all_layers P fuel' sub end
  end.
