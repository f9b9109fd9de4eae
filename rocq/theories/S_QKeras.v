(** Specification vocabulary for the QKeras compatibility package. *)
From Coq Require Import NArith Decimal List Bool String Ascii.
From Verif Require Import Num M_QKeras.
Import ListNotations.
Local Open Scope list_scope.

(** ** written arguments *)
Definition blank (s : text) : Prop := Forall (fun c => space c = true) s.
(** something between commas: no comma, no '=', no white space at either end *)
Definition word (s : text) : Prop :=
  s <> [] /\ ~ In comma s /\ ~ In equals s /\
  (forall c r, s = c :: r -> space c = false) /\ (forall c r, s = r ++ [c] -> space c = false).
(** a positional argument with the white space around it *)
Record positional := mk_positional { p_left : text; p_text : text; p_right : text }.
(** a keyword argument:  left key mid1 = mid2 value right *)
Record keyword := mk_keyword { k_left : text; k_key : text; k_mid1 : text; k_mid2 : text; k_text : text; k_right : text }.
Definition good_positional (p : positional) : Prop := blank (p_left p) /\ word (p_text p) /\ blank (p_right p).
Definition good_keyword (k : keyword) : Prop :=
  blank (k_left k) /\ word (k_key k) /\ blank (k_mid1 k) /\ blank (k_mid2 k) /\ word (k_text k) /\ blank (k_right k).
Definition write_positional (p : positional) : text := p_left p ++ p_text p ++ p_right p.
Definition write_keyword (k : keyword) : text := k_left k ++ k_key k ++ k_mid1 k ++ [equals] ++ k_mid2 k ++ k_text k ++ k_right k.
Fixpoint join (l : list text) : text :=
  match l with [] => [] | [s] => s | s :: l' => s ++ [comma] ++ join l' end.
Definition write (ps : list positional) (ks : list keyword) : text := join (map write_positional ps ++ map write_keyword ks).

(** ** what a written value means *)
Inductive denotes (other_digit : N -> bool) (other_int : text -> option Z) (to_float : text -> option pyval) : text -> pyval -> Prop :=
| d_none : denotes _ _ _ (txt "None") VNone
| d_true : denotes _ _ _ (txt "True") (VBool true)
| d_false : denotes _ _ _ (txt "False") (VBool false)
| d_quoted q s : q = dquote \/ q = squote -> denotes _ _ _ (q :: s ++ [q]) (VStr s)
| d_lone_quote q : q = dquote \/ q = squote -> denotes _ _ _ [q] (VStr [])
| d_int s : s <> [] -> Forall (fun c => (48 <= c <= 57)%N) s -> denotes _ _ _ s (VInt (Z.of_N (N.of_uint (uint_of s))))
| d_other_int s z : s <> [] -> Forall (fun c => digit other_digit c = true) s -> ~ Forall (fun c => (48 <= c <= 57)%N) s ->
    other_int s = Some z -> denotes _ _ _ s (VInt z)
| d_float s v : s <> txt "None" -> s <> txt "True" -> s <> txt "False" ->
    (forall q r, q = dquote \/ q = squote -> s <> q :: r ++ [q] /\ s <> [q]) ->
    ~ (s <> [] /\ Forall (fun c => digit other_digit c = true) s) -> to_float s = Some v -> denotes _ _ _ s v.

(** ** keyword arguments as a dictionary: the last value of each key, at the place of its first occurrence *)
Fixpoint last_value {A} (k : text) (l : list (text * A)) : option A :=
  match l with
  | [] => None
  | (k', v) :: l' => match last_value k l' with Some w => Some w | None => if text_eqb k k' then Some v else None end
  end.
Definition is_dict_of {A} (d l : list (text * A)) : Prop :=
  NoDup (map fst d) /\ (forall k v, In (k, v) d <-> last_value k l = Some v).

(** the texts of the keyword arguments by key *)
Definition pair_of (k : keyword) : text * text := (k_key k, k_text k).
(** the dictionary of the values of the keyword arguments: for a repeated key the last *)
Definition holds_keywords (other_digit : N -> bool) (other_int : text -> option Z) (to_float : text -> option pyval) (ks : list keyword) (kw : list (text * pyval)) : Prop :=
  NoDup (map fst kw) /\ forall k v, In (k, v) kw <-> exists t, last_value k (map pair_of ks) = Some t /\ denotes other_digit other_int to_float t v.

(** ** printed configurations *)
(** the scale of the configured quantizer *)
Definition scaler_of (q : qb) : Q := match num_val (qscaler q) with Some s => s | None => 1 end.
(** the alpha a configuration prints *)
Definition printed_alpha (q : qb) : pyval := if is_none_val (qscaler q) then (if trainable q then po2 else VInt 1) else qscaler q.
(** the printed form of a value can be read back *)
Definition readable (other_digit : N -> bool) (other_int : text -> option Z) (to_float : text -> option pyval) (show : pyval -> text) (v : pyval) : Prop :=
  word (show v) /\ denotes other_digit other_int to_float (show v) v.
(** what the string of a configuration still tells: the rest is as by default, alpha None as 1 *)
Definition told (q : qb) : qb :=
  mk_qb (b0 q) (i0 q) (sym q) (k0 q) (match qscaler q with VNone => VFloat 1 | s => s end) false (stoch q) (VObj 2) VNone false min0 VNone minmax12 VNone.
(** printed numbers: a number that is not negative as its decimal digits *)
Fixpoint digits (u : uint) : text :=
  match u with
  | Nil => [] | D0 u => 48%N :: digits u | D1 u => 49%N :: digits u | D2 u => 50%N :: digits u | D3 u => 51%N :: digits u | D4 u => 52%N :: digits u
  | D5 u => 53%N :: digits u | D6 u => 54%N :: digits u | D7 u => 55%N :: digits u | D8 u => 56%N :: digits u | D9 u => 57%N :: digits u
  end.

(** ** layers *)
From Verif Require Import M_Config.
(** the qkeras names of each quantizer parameter *)
Definition qkeras_names : list (string * (string * string)) :=
  [("kq_conf", ("kernel_quantizer", "kq")); ("bq_conf", ("bias_quantizer", "bq")); ("oq_conf", ("output_quantizer", "oq")); ("iq_conf", ("input_quantizer", "iq"));
   ("exp_iq_conf", ("exp_input_quantizer", "exp_iq")); ("exp_oq_conf", ("exp_output_quantizer", "exp_oq"));
   ("inv_iq_conf", ("inv_input_quantizer", "inv_iq")); ("inv_oq_conf", ("inv_output_quantizer", "inv_oq"))]%string.
(** the parameter [t] can be given as [n] *)
Definition called (t n : string) : Prop := n = t \/ exists p q, In (t, (p, q)) qkeras_names /\ (n = p \/ n = q).
Definition gives (kw : layer) (t : string) (v : lval) : Prop := exists n, called t n /\ get n kw = Some v.
(** no parameter is given under two names *)
Definition no_double (kw : layer) : Prop := forall t a b, called t a -> called t b -> get a kw <> None -> get b kw <> None -> a = b.
(** the classes built on QLayerBaseSingleInput and QLayerBaseMultiInputs whose constructors hand enable_* on *)
Definition wrapped : list layer_class :=
  [QDense; QBatchNormDense; QConv; QEinsumDense; QEinsumDenseBatchnorm; QBatchNormalization; QSum; QMeanPow2; QMerge; QEinsum; QPooling; QUnaryFunctionLUT; QSoftmax].
(** a configuration that leaves its input alone *)
Definition dummy_conf (pl : string) : lval := LConf (mk_conf Plain "dummy"%string pl None None None []).
