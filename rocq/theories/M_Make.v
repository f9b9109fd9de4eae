(** Model of creating a quantizer from its configuration, and of the life of the quantizer.

    Source: /repo/src/hgq/quantizer/config.py 536-547 (get_quantizer), quantizer/quantizer.py 20-31,
    quantizer/internal/base.py 76-86 and 144-154, the constructors at fixed_point_quantizer.py 181-211 and
    343-370 and float_point_quantizer.py 42-59.

    Simplifications: initial widths are numbers (an Initializer object is not modelled: [None]); the
    overflow mode 'SYM' is not modelled.  One value of [qstate] is the state of one bit-width group, as in
    M_State; how tensors split into groups is M_Mapper. *)
From Coq Require Import List Bool String Ascii.
From Verif Require Import Num M_Fixed M_State M_Wrapper M_Config.
Import ListNotations.
Open Scope string_scope.
Local Open Scope list_scope.

(** what the objects named by [CObj] are *)
Inductive obj := OConstr (c : constr) | OReg | OMapper | OInf.

(** keyword arguments of the keras Layer constructor (external, keras/src/layers/layer.py): any other one is a ValueError *)
Definition layer_keywords : list string := ["activity_regularizer"; "trainable"; "dtype"; "autocast"; "name"; "input_dim"; "input_shape"].
(** removed by TrainableQuantizerBase.__init__, base.py 76-85 *)
Definition base_keywords : list string := ["homogeneous_axis"; "heterogeneous_axis"; "bw_mapper"; "seed"].
(** the parameters of the three constructors: fixed_point_quantizer.py 343-357, 181-195, float_point_quantizer.py 42-55 *)
Definition kif_keywords : list string := ["k0"; "i0"; "f0"; "round_mode"; "overflow_mode"; "ic"; "fc"; "ir"; "fr"; "i_decay_speed"; "is_weight"].
Definition kbi_keywords : list string := ["k0"; "b0"; "i0"; "round_mode"; "overflow_mode"; "bc"; "ic"; "br"; "ir"; "i_decay_speed"; "is_weight"].
Definition float_keywords : list string := ["m0"; "e0"; "e00"; "mc"; "ec"; "e0c"; "mr"; "er"; "e0r"].
Definition accepted (own : list string) (kw : kwargs) : bool :=
  forallb (fun p => existsb (String.eqb (fst p)) (own ++ base_keywords ++ layer_keywords)) kw.

(** str.upper *)
Definition upper_ascii (c : ascii) : ascii :=
  let n := nat_of_ascii c in if (97 <=? n)%nat && (n <=? 122)%nat then ascii_of_nat (n - 32) else c.
Fixpoint upper (s : string) : string := match s with EmptyString => EmptyString | String c s' => String (upper_ascii c) (upper s') end.
(** fixed_point_quantizer.py 204-205, 362-363 and [get_fixed_quantizer] (external); the stochastic modes round
    deterministically outside training *)
Definition rmode_of (s : string) : option rmode :=
  let u := upper s in
  if String.eqb u "TRN" then Some TRN else if String.eqb u "RND" || String.eqb u "S_RND" then Some RND
  else if String.eqb u "RND_CONV" || String.eqb u "S_RND_CONV" then Some RND_CONV else None.
Definition omode_of (s : string) : option omode :=
  let u := upper s in
  if String.eqb u "WRAP" then Some WRAP else if String.eqb u "SAT" then Some SAT else if String.eqb u "SAT_SYM" then Some SAT_SYM else None.

Definition num_of (o : option cval) : option Q :=
  match o with Some (CNum q) => Some q | Some (CBool b) => Some (if b then 1%Q else 0%Q) | _ => None end.
(** int(k0), which must be 0 or 1 *)
Definition trunc (q : Q) : Z := if Qle_bool 0 q then Qfloor q else (- Qfloor (- q))%Z.
Definition sign_of (o : option cval) : option bool :=
  match num_of o with
  | Some q => if (trunc q =? 1)%Z then Some true else if (trunc q =? 0)%Z then Some false else None
  | None => None
  end.
Definition str_of (o : option cval) : option string := match o with Some (CStr s) => Some s | _ => None end.
Definition axes_of (o : option cval) : option (option (list Z)) :=
  match o with None | Some CNone => Some None | Some (CAxes l) => Some (Some l) | _ => None end.
Definition flag_of (d : bool) (o : option cval) : bool := match o with Some (CBool b) => b | _ => d end.
(** validate_config: a constraint (a regularizer) or None *)
Definition constr_of (I : string -> option obj) (o : option cval) : option (option constr) :=
  match o with
  | None | Some CNone => Some None
  | Some (CObj s) => match I s with Some (OConstr c) => Some (Some c) | _ => None end
  | _ => None
  end.
Definition reg_ok (I : string -> option obj) (o : option cval) : bool :=
  match o with None | Some CNone => true | Some (CObj s) => match I s with Some OReg => true | _ => false end | _ => false end.
Definition decay_of (I : string -> option obj) (o : option cval) : option (option Q) :=
  match o with
  | None => Some None
  | Some (CNum q) => Some (Some q)
  | Some (CObj s) => match I s with Some OInf => Some None | _ => None end
  | _ => None
  end.
(** base.py 78-82, 144-151: the mapper is given, or exactly one of the axes is *)
Definition mapper_ok (I : string -> option obj) (kw : kwargs) : bool :=
  match get "bw_mapper" kw with
  | Some (CObj s) => match I s with Some OMapper => true | _ => false end
  | Some CNone | None =>
      match axes_of (get "homogeneous_axis" kw), axes_of (get "heterogeneous_axis" kw) with
      | Some (Some _), Some None | Some None, Some (Some _) => true
      | _, _ => false
      end
  | _ => false
  end.

Inductive width_class := KIF | KBI.
Record fixed := mk_fixed {
  x_class : width_class; x_conf : qconf;
  x_k0 : bool; x_i0 : Q; x_w0 : Q;          (* initial _k, _i, and _f (KIF) or _b (KBI) *)
  x_wc : option constr;                     (* constraint on _f or _b *)
  x_params : kwargs }.                      (* with the axes, for the mapper *)
Inductive internal := IDummy | IFloat (kw : kwargs) | IFixed (x : fixed).

(** the constructors; [None]: an exception *)
Definition make_fixed (I : string -> option obj) (cl : width_class) (kw : kwargs) : option internal :=
  let wn := match cl with KIF => "f0" | KBI => "b0" end in
  let cn := match cl with KIF => "fc" | KBI => "bc" end in
  let rn := match cl with KIF => "fr" | KBI => "br" end in
  match sign_of (get "k0" kw), num_of (get "i0" kw), num_of (get wn kw), str_of (get "round_mode" kw), str_of (get "overflow_mode" kw) with
  | Some k, Some i, Some w, Some rs, Some os =>
      match rmode_of rs, omode_of os, constr_of I (get "ic" kw), constr_of I (get cn kw), decay_of I (get "i_decay_speed" kw) with
      | Some rm, Some om, Some ic, Some wc, Some d =>
          if accepted (match cl with KIF => kif_keywords | KBI => kbi_keywords end) kw && reg_ok I (get "ir" kw) && reg_ok I (get rn kw) && mapper_ok I kw &&
             (match cl with KIF => Qle_bool 0 (i + w) | KBI => Qle_bool 0 w end)
          then Some (IFixed (mk_fixed cl (mk_qconf rm om (flag_of true (get "trainable" kw)) (flag_of false (get "is_weight" kw)) ic d) k i w wc kw))
          else None
      | _, _, _, _, _ => None
      end
  | _, _, _, _, _ => None
  end.
(** QuantizerConfig.get_quantizer, config.py 536-547 *)
Definition make (I : string -> option obj) (c : conf) : option internal :=
  if String.eqb (q_type c) "dummy" then Some IDummy
  else if String.eqb (q_type c) "kif" then make_fixed I KIF (params c)
  else if String.eqb (q_type c) "kbi" then make_fixed I KBI (params c)
  else if String.eqb (q_type c) "float" then (if accepted float_keywords (params c) && mapper_ok I (params c) then Some (IFloat (params c)) else None)
  else None.

(** ** The life of a quantizer *)
Inductive qstate := SKif (s : kif_state) | SKbi (s : kbi_state).
(** build: fixed_point_quantizer.py 213-242, 372-399 *)
Definition start (x : fixed) : qstate :=
  match x_class x with
  | KIF => SKif (mk_kif (x_k0 x) (x_i0 x) (x_w0 x))
  | KBI => SKbi (mk_kbi (x_k0 x) (x_w0 x) (x_i0 x))
  end.
Definition q_call (c : qconf) (m : mode) (s : qstate) (xs : list Q) : option (qstate * list Q) :=
  match s with
  | SKif s => match kif_call c m s xs with Some (s', ys) => Some (SKif s', ys) | None => None end
  | SKbi s => match kbi_call c m s xs with Some (s', ys) => Some (SKbi s', ys) | None => None end
  end.
(** an optimizer step: any new values, then the constraints (keras Variable.assign + constraint, external); _k is not
    trainable, _i only when the mode is not WRAP (fixed_point_quantizer.py 225-241, 382-397) *)
Definition q_update (x : fixed) (i' w' : Q) (s : qstate) : qstate :=
  let ni old := if is_wrap (c_om (x_conf x)) then old else apply_c (c_ic (x_conf x)) i' in
  match s with
  | SKif s => SKif (mk_kif (kif_k s) (ni (kif_i s)) (apply_c (x_wc x) w'))
  | SKbi s => SKbi (mk_kbi (kbi_k s) (apply_c (x_wc x) w') (ni (kbi_i s)))
  end.
Definition q_reset (c : qconf) (s : qstate) : qstate := match s with SKif s => SKif (kif_reset c s) | SKbi s => SKbi (kbi_reset c s) end.
Inductive event := ECall (m : mode) (xs : list Q) | EUpdate (i' w' : Q) | EReset.
Fixpoint life (x : fixed) (s : qstate) (h : list event) : option qstate :=
  match h with
  | [] => Some s
  | ECall m xs :: h' => match q_call (x_conf x) m s xs with Some (s', _) => life x s' h' | None => None end
  | EUpdate i' w' :: h' => life x (q_update x i' w' s) h'
  | EReset :: h' => life x (q_reset (x_conf x) s) h'
  end.
(** the fraction width in a state *)
Definition frac (s : qstate) : Z := match s with SKif s => kif_fz s | SKbi s => kbi_fz s end.

(** Quantizer.call (quantizer.py 49-60) in inference on one element: the wrapper settings come from the configuration
    (quantizer.py 23-25) *)
Definition wrapper_of (c : conf) : wrapper := mk_wrapper (scaler c) (affine c) (qnoise c).
Definition infer (c : conf) (x : fixed) (s : qstate) (v : Q) : option Q :=
  let u := match scaler c with Some sc => (v / sc)%Q | None => v end in
  match q_call (x_conf x) Infer s [u] with
  | Some (_, [y]) => Some (wrapper_call (wrapper_of c) (fun _ => y) false v)
  | _ => None
  end.
