(** Model of the QKeras compatibility package.

    Source: /repo/src/qkeras/quantizers/utils.py (argument strings), quantizers/quantized_bits.py,
    quantizers/__init__.py, qlayers/__init__.py.

    A string is the list of its code points.  [other_digit] and [other_int] stand for str.isdigit and int on
    characters outside ASCII, [to_float] for float(s) on the strings that are neither keywords, quoted nor
    digits; every theorem holds for all of them.  float nan is not represented. *)
From Coq Require Import NArith Decimal List Bool String Ascii.
From Verif Require Import Num M_Fixed M_Config.
Import ListNotations.
Local Open Scope list_scope.

Notation text := (list N).
Definition txt (s : string) : text := map N_of_ascii (list_ascii_of_string s).
Fixpoint text_eqb (s t : text) : bool :=
  match s, t with [], [] => true | c :: s', d :: t' => N.eqb c d && text_eqb s' t' | _, _ => false end.
Inductive exc := SyntaxError | ValueError | AssertionError | TypeError.
Inductive result (A : Type) := Ok (a : A) | Raise (e : exc).
Arguments Ok {A} a. Arguments Raise {A} e.
Definition bind {A B} (r : result A) (f : A -> result B) : result B := match r with Ok a => f a | Raise e => Raise e end.

(** ** Argument strings, utils.py *)
Definition comma : N := 44. Definition equals : N := 61. Definition dquote : N := 34. Definition squote : N := 39.
(** str.isspace, the characters that str.strip removes *)
Definition space (c : N) : bool :=
  ((9 <=? c) && (c <=? 13) || (28 <=? c) && (c <=? 32) || (c =? 133) || (c =? 160) || (c =? 5760) || (8192 <=? c) && (c <=? 8202)
   || (c =? 8232) || (c =? 8233) || (c =? 8239) || (c =? 8287) || (c =? 12288))%N.
(** s.split(sep) *)
Fixpoint split (sep : N) (s : text) : list text :=
  match s with
  | [] => [[]]
  | c :: s' => if N.eqb c sep then [] :: split sep s'
               else match split sep s' with h :: t => (c :: h) :: t | [] => [[c]] end
  end.
Fixpoint lstrip (s : text) : text := match s with c :: s' => if space c then lstrip s' else s | [] => [] end.
Definition strip (s : text) : text := rev (lstrip (rev (lstrip s))).

(** values an argument can have *)
Inductive pyval := VNone | VBool (b : bool) | VInt (z : Z) | VFloat (q : Q) | VInf (neg : bool) | VStr (s : text) | VObj (n : N).
Section Strings.
  Context (other_digit : N -> bool) (other_int : text -> option Z) (to_float : text -> option pyval).
  Definition ascii_digit (c : N) : bool := ((48 <=? c) && (c <=? 57))%N.
  Definition digit (c : N) : bool := if (c <? 128)%N then ascii_digit c else other_digit c.
  (** s.isdigit() *)
  Definition isdigit (s : text) : bool := negb (Nat.eqb (List.length s) 0) && forallb digit s.
  (** the decimal number written by ASCII digits *)
  Fixpoint uint_of (s : text) : uint :=
    match s with
    | [] => Nil
    | c :: s' =>
        let r := uint_of s' in
        match (c - 48)%N with
        | 0%N => D0 r | 1%N => D1 r | 2%N => D2 r | 3%N => D3 r | 4%N => D4 r | 5%N => D5 r | 6%N => D6 r | 7%N => D7 r | 8%N => D8 r | _ => D9 r
        end
    end.
  Definition int_of (s : text) : option Z :=
    if forallb ascii_digit s then Some (Z.of_N (N.of_uint (uint_of s))) else other_int s.
  Definition begins (c : N) (s : text) : bool := match s with d :: _ => N.eqb c d | [] => false end.
  (** s[1:-1] *)
  Definition inside (s : text) : text := removelast (tl s).
  (** str_float_int_or_none, utils.py 1-18 *)
  Definition str_value (s : text) : result pyval :=
    if text_eqb s (txt "None") then Ok VNone
    else if text_eqb s (txt "True") then Ok (VBool true)
    else if text_eqb s (txt "False") then Ok (VBool false)
    else if begins dquote s && begins dquote (rev s) then Ok (VStr (inside s))
    else if begins squote s && begins squote (rev s) then Ok (VStr (inside s))
    else if isdigit s then match int_of s with Some z => Ok (VInt z) | None => Raise ValueError end
    else match to_float s with Some v => Ok v | None => Raise ValueError end.

  (** kwargs[k] = v: a repeated key keeps its place *)
  Fixpoint dict_set {A} (k : text) (v : A) (d : list (text * A)) : list (text * A) :=
    match d with [] => [(k, v)] | (k', w) :: d' => if text_eqb k k' then (k', v) :: d' else (k', w) :: dict_set k v d' end.
  (** the loop of parse_string_to_args, utils.py 25-38; [ended]: a keyword argument was seen *)
  Fixpoint parse_chunks (chunks : list text) (args : list text) (kwargs : list (text * text)) (ended : bool) : result (list text * list (text * text)) :=
    match chunks with
    | [] => Ok (args, kwargs)
    | c :: cs =>
        let c := strip c in
        match c with
        | [] => Raise SyntaxError
        | _ =>
            if existsb (N.eqb equals) c then
              match split equals c with
              | [k; v] =>
                  match strip k, strip v with
                  | [], _ | _, [] => Raise SyntaxError
                  | k, v => parse_chunks cs args (dict_set k v kwargs) true
                  end
              | _ => Raise ValueError
              end
            else if ended then Raise AssertionError else parse_chunks cs (args ++ [c]) kwargs ended
        end
    end.
  Fixpoint values (l : list text) : result (list pyval) :=
    match l with [] => Ok [] | s :: l' => bind (str_value s) (fun v => bind (values l') (fun vs => Ok (v :: vs))) end.
  Fixpoint kvalues (l : list (text * text)) : result (list (text * pyval)) :=
    match l with [] => Ok [] | (k, s) :: l' => bind (str_value s) (fun v => bind (kvalues l') (fun vs => Ok ((k, v) :: vs))) end.
  (** parse_string_to_args, utils.py 21-42 *)
  Definition parse (s : text) : result (list pyval * list (text * pyval)) :=
    bind (parse_chunks (split comma s) [] [] false) (fun p =>
    bind (values (fst p)) (fun a => bind (kvalues (snd p)) (fun k => Ok (a, k)))).

  (** ** quantized_bits *)
  (** arguments of the constructor, quantized_bits.py 24-41 *)
  Record qargs := mk_qargs {
    q_bits : pyval; q_integer : pyval; q_symmetric : pyval; q_keep : pyval; q_alpha : pyval; q_stochastic : pyval; q_axis : pyval;
    q_noise : pyval; q_var_name : pyval; q_ste : pyval; q_vars : pyval; q_bc : pyval; q_br : pyval; q_ic : pyval; q_ir : pyval }.
  (** Min(0) and MinMax(-12, 12) *)
  Definition min0 : pyval := VObj 0. Definition minmax12 : pyval := VObj 1.
  Definition qdefaults : qargs :=
    mk_qargs (VInt 8) (VInt 0) (VInt 0) (VBool true) VNone (VBool false) VNone VNone VNone (VBool true) VNone min0 VNone minmax12 VNone.
  (** the configuration object; [None] for a scaler, noise factor that is None *)
  Record qb := mk_qb {
    b0 : pyval; i0 : pyval; sym : bool; k0 : pyval; qscaler : pyval; trainable : bool; stoch : bool; axis : pyval; noise : pyval; vars : bool;
    bc : pyval; br : pyval; ic : pyval; ir : pyval }.

  (** bool(v) *)
  Definition truth (v : pyval) : bool :=
    match v with
    | VNone => false | VBool b => b | VInt z => negb (Z.eqb z 0) | VFloat q => negb (Qeq_bool q 0) | VInf _ => true
    | VStr s => negb (Nat.eqb (List.length s) 0) | VObj _ => true
    end.
  (** isinstance(v, numbers); a bool is an int *)
  Definition is_number (v : pyval) : bool := match v with VBool _ | VInt _ | VFloat _ | VInf _ => true | _ => false end.
  Definition is_str (v : pyval) : bool := match v with VStr _ => true | _ => false end.
  (** v > 0; TypeError for other types *)
  Definition positive (v : pyval) : result bool :=
    match v with
    | VBool b => Ok b | VInt z => Ok (Z.ltb 0 z) | VFloat q => Ok (negb (Qle_bool q 0)) | VInf n => Ok (negb n)
    | _ => Raise TypeError
    end.
  Definition in_unit_interval (v : pyval) : result bool :=       (* config.py 470-471 *)
    match v with
    | VNone => Ok true | VBool b => Ok true | VInt z => Ok (Z.leb 0 z && Z.leb z 1) | VFloat q => Ok (Qle_bool 0 q && Qle_bool q 1) | VInf _ => Ok false
    | _ => Raise TypeError
    end.
  (** float(v) *)
  Definition as_float (v : pyval) : pyval :=
    match v with VBool b => VFloat (inject_Z (if b then 1 else 0)) | VInt z => VFloat (inject_Z z) | v => v end.
  Definition check (r : result bool) {A} (k : result A) : result A := bind r (fun b => if b then k else Raise AssertionError).
  Definition po2 : pyval := VStr (txt "trainable_po2").
  Definition is_po2 (v : pyval) : bool := match v with VStr s => text_eqb s (txt "trainable_po2") | _ => false end.
  Definition is_none_val (v : pyval) : bool := match v with VNone => true | _ => false end.
  (** __init__, quantized_bits.py 78-120; the scaler and noise factor become floats in QuantizerConfig.__init__, hgq/quantizer/config.py 474-485 *)
  Definition qb_init (a : qargs) : result qb :=
    check (positive (q_bits a))
      (check (if is_number (q_alpha a) then positive (q_alpha a) else Ok true)
        (check (Ok (negb (is_str (q_alpha a)) || is_po2 (q_alpha a)))
          (let tr := is_po2 (q_alpha a) in
           let uv := if is_none_val (q_vars a) then tr else truth (q_vars a) in
           check (Ok (negb tr || uv))
             (check (Ok (is_none_val (q_var_name a)))
               (check (Ok (truth (q_ste a)))
                 (check (in_unit_interval (q_noise a))
                   (Ok (mk_qb (q_bits a) (q_integer a) (truth (q_symmetric a)) (q_keep a) (if is_number (q_alpha a) then as_float (q_alpha a) else VNone)
                         tr (truth (q_stochastic a)) (if negb (is_none_val (q_axis a)) && tr then q_axis a else VObj 2 (* () *))
                         (as_float (q_noise a)) uv (q_bc a) (q_br a) (q_ic a) (q_ir a))))))))).
  Definition is_int (v : pyval) : bool := match v with VBool _ | VInt _ => true | _ => false end.
  (** get_config, quantized_bits.py 217-235, 122-132: the properties bits and integers assert an int *)
  Definition qb_config (q : qb) : result qargs :=
    if is_int (b0 q) && is_int (i0 q) then
      Ok (mk_qargs (b0 q) (i0 q) (VBool (sym q)) (VBool (truth (k0 q))) (if trainable q then po2 else qscaler q) (VBool (stoch q)) (axis q)
            (noise q) VNone (VBool true) (VBool (trainable q)) (bc q) (br q) (ic q) (ir q))
    else Raise AssertionError.

  (** __str__, quantized_bits.py 163-173; [show]: format of a value *)
  Definition qb_str (show : pyval -> text) (q : qb) : text :=
    txt "quantized_bits(" ++ show (b0 q) ++ txt ", " ++ show (i0 q) ++ txt ", symmetric=" ++ show (VBool (sym q)) ++
    txt ", keep_negative=" ++ show (k0 q) ++
    txt ", alpha=" ++ show (if is_none_val (qscaler q) then (if trainable q then po2 else VInt 1) else qscaler q) ++
    txt ", use_stochastic_rounding=" ++ show (VBool (stoch q)) ++ txt ")".

  (** inspect.signature(...).bind: the parameters in order, quantized_bits.py 243-247 *)
  Definition qnames : list string :=
    ["bits"; "integer"; "symmetric"; "keep_negative"; "alpha"; "use_stochastic_rounding"; "scale_axis"; "qnoise_factor"; "var_name"; "use_ste";
     "use_variables"; "bc"; "br"; "ic"; "ir"]%string.
  Definition in_texts (s : text) (l : list text) : bool := existsb (text_eqb s) l.
  Fixpoint text_get {A} (k : text) (d : list (text * A)) : option A :=
    match d with [] => None | (k', v) :: d' => if text_eqb k k' then Some v else text_get k d' end.
  Definition bind_args (args : list pyval) (kwargs : list (text * pyval)) : result qargs :=
    let names := map txt qnames in
    if Nat.ltb (List.length names) (List.length args)
       || existsb (fun p => negb (in_texts (fst p) names)) kwargs                       (* unexpected keyword *)
       || existsb (fun p => in_texts (fst p) (firstn (List.length args) names)) kwargs  (* multiple values *)
    then Raise TypeError
    else
      let val (n : nat) (d : pyval) := match nth_error args n with Some v => v
                                       | None => match text_get (txt (nth n qnames ""%string)) kwargs with Some v => v | None => d end end in
      let d := qdefaults in
      Ok (mk_qargs (val 0%nat (q_bits d)) (val 1%nat (q_integer d)) (val 2%nat (q_symmetric d)) (val 3%nat (q_keep d)) (val 4%nat (q_alpha d))
            (val 5%nat (q_stochastic d)) (val 6%nat (q_axis d)) (val 7%nat (q_noise d)) (val 8%nat (q_var_name d)) (val 9%nat (q_ste d))
            (val 10%nat (q_vars d)) (val 11%nat (q_bc d)) (val 12%nat (q_br d)) (val 13%nat (q_ic d)) (val 14%nat (q_ir d))).
  Fixpoint drop_prefix (p s : text) : option text :=
    match p, s with [], _ => Some s | c :: p', d :: s' => if N.eqb c d then drop_prefix p' s' else None | _ :: _, [] => None end.
  (** from_string, quantized_bits.py 237-248: string.split('(', 1)[1][:-1] *)
  Definition from_string (s : text) : result qb :=
    match drop_prefix (txt "quantized_bits(") s with
    | Some r => if begins 41 (rev s) then bind (parse (removelast r)) (fun p => bind (bind_args (fst p) (snd p)) qb_init) else Raise ValueError
    | None => Raise ValueError
    end.
End Strings.

(** ** Calling a configuration, quantized_bits.py 178-200, and its advertised range, 202-215 *)
Definition int_val (v : pyval) : Z := match v with VBool b => (if b then 1 else 0)%Z | VInt z => z | _ => 0%Z end.
Definition q_omode (q : qb) : omode := if sym q then SAT_SYM else SAT.
Definition num_val (v : pyval) : option Q :=
  match v with VBool b => Some (inject_Z (if b then 1 else 0)) | VInt z => Some (inject_Z z) | VFloat x => Some x | _ => None end.
(** The call on one element; the scaler and noise factor are finite.  The arguments (k, b, i) are passed
    where the stateless quantizer takes (k, i, f); S_RND_CONV is RND_CONV outside training. *)
Definition qb_call (q : qb) (x : Q) : result Q :=
  if negb (is_int (b0 q) && is_int (i0 q)) then Raise AssertionError
  else
    let quantize := stateless RND_CONV (q_omode q) false (truth (k0 q)) (int_val (b0 q)) (int_val (i0 q)) in
    let '(inputs, outputs) := match num_val (qscaler q) with
                              | Some s => (x / s, quantize (x / s) * s)
                              | None => (x, quantize x)
                              end in
    match num_val (noise q) with
    | None => Raise TypeError                                 (* None * array *)
    | Some n => Ok (if Qeq_bool n 1 then outputs else inputs + n * (outputs - inputs))
    end.
(** the quantizer the configuration describes: KBI with b = bits, i = integer (fixed_point_quantizer.py 248-307: f = b - i), behind the scaler of Quantizer.call (hgq/quantizer/quantizer.py 49-60) *)
Definition configured (q : qb) (x : Q) : Q :=
  let k := truth (k0 q) in let b := int_val (b0 q) in let i := int_val (i0 q) in
  match num_val (qscaler q) with
  | Some s => base_call RND_CONV (q_omode q) false k i (b - i) (x / s) * s
  | None => base_call RND_CONV (q_omode q) false k i (b - i) x
  end.
Definition qb_max (q : qb) : Q := pow2 (int_val (i0 q)) - pow2 (- (int_val (b0 q) - int_val (i0 q))).
Definition qb_min (q : qb) : Q :=
  if negb (truth (k0 q)) then 0 else if sym q then - qb_max q else - pow2 (int_val (i0 q)).

(** quantized_relu(...) = quantized_bits(..., keep_negative=False), quantized_bits.py 271-272, on a call with positional
    arguments [args]: a fourth positional one is a second value for keep_negative *)
Definition relu_args (args : list pyval) (kwargs : list (text * pyval)) : result qargs :=
  bind_args args (kwargs ++ [(txt "keep_negative", VBool false)]).

(** ** Layers, qlayers/__init__.py 23-72 *)
Definition kw_map_inv : list (string * string) :=
  [("kernel_quantizer", "kq_conf"); ("kq", "kq_conf"); ("bias_quantizer", "bq_conf"); ("bq", "bq_conf"); ("output_quantizer", "oq_conf"); ("oq", "oq_conf");
   ("input_quantizer", "iq_conf"); ("iq", "iq_conf"); ("exp_input_quantizer", "exp_iq_conf"); ("exp_iq", "exp_iq_conf");
   ("exp_output_quantizer", "exp_oq_conf"); ("exp_oq", "exp_oq_conf"); ("inv_input_quantizer", "inv_iq_conf"); ("inv_iq", "inv_iq_conf");
   ("inv_output_quantizer", "inv_oq_conf"); ("inv_oq", "inv_oq_conf")]%string.
(** qlayers/__init__.py 39-46: the loop over the keyword arguments; strings are turned into configurations by get_quantizer,
    which is not repeated here *)
Fixpoint rename (todo kw : layer) : option layer :=
  match todo with
  | [] => Some kw
  | (k, v) :: todo' =>
      match get k kw_map_inv with
      | None => rename todo' kw
      | Some k' => if has k' kw then None else rename todo' (put k' v (remove k kw))
      end
  end.
Definition given_conf (n : string) (kw : layer) : bool := negb (is_none (attr kw n)).
(** qlayers/__init__.py 48-52 *)
Definition force (kw : layer) : layer :=
  let kw := put "enable_ebops" (LVal (CBool false)) kw in
  let kw := put "enable_iq" (LVal (CBool (given_conf "iq_conf" kw))) kw in
  put "enable_oq" (LVal (CBool (given_conf "oq_conf" kw))) kw.
Definition wrap_kw (kw : layer) : option layer := option_map force (rename kw kw).
(** The loop 65-69 wraps every class of hgq.layers that is a QLayerBase, so also QLayerBaseSingleInput and
    QLayerBase itself.  The constructor of a layer calls theirs: QLayerBaseSingleInput takes iq_conf out of
    the arguments before it calls QLayerBase (hgq/layers/core/base.py 253-262), whose wrapper recomputes the three flags. *)
Definition seen_by_base (kw : layer) : option layer :=
  match wrap_kw kw with
  | Some kw1 => option_map (fun kw2 => fold_left (fun kw n => put n (attr kw2 n) kw) ["enable_ebops"; "enable_iq"; "enable_oq"]%string kw1)
                  (wrap_kw (remove "iq_conf" kw1))
  | None => None
  end.
(** 57-58: inside QuantizerConfigScope(default_q_type='dummy') *)
Definition with_dummy (E : genv) : genv := mk_genv (mk_env (dconf (quantizers E)) (fun _ => Some "dummy"%string)) (globals E).
Definition qkeras_layer (E : genv) (k : layer_class) (kw : layer) : option layer :=
  match seen_by_base kw with Some kw => layer_init (with_dummy E) (class_of k) kw | None => None end.
